(** * C77: sketches as JSON text *)
From Coq Require Import String.
From Coq Require Import NArith ZArith List Bool Permutation.
From Verif Require Import ModelRust ModelF64 ModelEnv ModelRegisters ModelEncoding ModelCommon ModelPF ModelPlus ModelSerde ModelFiles ModelJson
  ModelHistory ModelTests Spec SpecBuild SpecFiles SpecJson Witness JsonGrammar JsonRead JsonFacts JsonClaim.
Import ListNotations.
Local Open Scope N_scope.

(** The reader accepts the texts of RFC 8259 and no others, and sees the one value that a text denotes. *)
Theorem C77_grammar : (forall s v, parse s = Some v <-> document v s) /\ (forall s v w, document v s -> document w s -> v = w) /\
  (forall v s, document v s -> proper v).
Proof. split; [exact parse_spec|]. split; [exact document_unique|exact document_proper]. Qed.
Print Assumptions C77_grammar.

(** However much fuel it is given. *)
Theorem C77_fuel : forall s v f, (length s < f)%nat ->
  (parse s = Some v <-> exists r, parse_value f (skip s) = Some (v, r) /\ skip r = []).
Proof. exact parse_more. Qed.
Print Assumptions C77_fuel.

(** What is written can be read, and is what was written. *)
Theorem C77_write : forall v, proper v -> document v (write v) /\ parse (write v) = Some v.
Proof. intros v H. split; [exact (write_document v H)|exact (parse_write v H)]. Qed.
Print Assumptions C77_write.

Theorem C77_escape : forall s, chars (escape s) /\ spells (escape s) s.
Proof. intros s. split; [exact (escape_chars s)|exact (escape_spells s)]. Qed.
Print Assumptions C77_escape.

(** Exactly which texts are read as which sketches. *)
Theorem C77_read_pf : forall (V : Type) e de_b t (s : pf V),
  pf_of_text e de_b t = Some s <-> exists v, document v t /\ is_pf e de_b v s.
Proof. exact pf_text_spec. Qed.
Print Assumptions C77_read_pf.

Theorem C77_read_plus : forall (V : Type) e de_b t (s : plus V),
  plus_of_text e de_b t = Some s <-> exists v, document v t /\ is_plus e de_b v s.
Proof. exact plus_text_spec. Qed.
Print Assumptions C77_read_plus.

(** The text that is written. *)
Theorem C77_text_pf : forall (V : Type) other ser_b (s : pf V),
  pf_text (write (json_of other (ser_b (pf_builder s)))) s (to_text other (ser_pf ser_b s)).
Proof. exact write_pf. Qed.
Print Assumptions C77_text_pf.

Theorem C77_text_plus : forall (V : Type) other ord ser_b (s : plus V),
  plus_text (write (json_of other (ser_b (hp_builder s)))) (ord (hp_tmpset s)) s (to_text other (ser_plus ord ser_b s)).
Proof. exact write_plus. Qed.
Print Assumptions C77_text_plus.

(** A sketch that is written as JSON and read back anywhere in a program leaves every later count as it was. *)
Theorem C77_plus : forall (V : Type) e ord ord' o other ser_b (de_b : json -> option (V -> N)) (c : ctx V) h,
  let back := HSerde o ser_b (fun v => de_b (json_of other v)) h in
  build_std e -> is_order ord -> is_order ord' -> proper (json_of other (ser_b (hist_builder h))) ->
  valid MAX_PLUS (plug c back) -> valid MAX_PLUS (plug c h) -> narrow (usize_bits e) (plug c h) ->
  (exists s s', run_plus e h = Ret s /\ plus_of_text e de_b (to_text other (ser_plus o ser_b s)) = Some s' /\ run_plus e back = Ret s') /\
  exists x, count_plus e ord (plug c back) = Ret x /\ count_plus e ord' (plug c h) = Ret x.
Proof. exact plus_json_round. Qed.
Print Assumptions C77_plus.

Theorem C77_pf : forall (V : Type) e o other ser_b (de_b : json -> option (V -> N)) (c : ctx V) h,
  let back := HSerde o ser_b (fun v => de_b (json_of other v)) h in
  build e -> proper (json_of other (ser_b (hist_builder h))) ->
  valid MAX_PF (plug c back) -> valid MAX_PF (plug c h) -> narrow (usize_bits e) (plug c h) ->
  (exists s s', run_pf e h = Ret s /\ pf_of_text e de_b (to_text other (ser_pf ser_b s)) = Some s' /\ run_pf e back = Ret s') /\
  exists x, count_pf e (plug c back) = Ret x /\ count_pf e (plug c h) = Ret x.
Proof. exact pf_json_round. Qed.
Print Assumptions C77_pf.

(** Read back with another hash builder, a sketch is the same otherwise (the test at hyperloglog.rs:391-410 writes it
    with one builder and reads it with another). *)
Theorem C77_builder_plus : forall (V : Type) e o other ser_b (de_b : json -> option (V -> N)) (h : hist V) b,
  build_std e -> is_order o -> valid MAX_PLUS h -> narrow (usize_bits e) h ->
  proper (json_of other (ser_b (hist_builder h))) -> de_b (json_of other (ser_b (hist_builder h))) = Some b ->
  exists s s' : plus V, run_plus e h = Ret s /\ plus_of_text e de_b (to_text other (ser_plus o ser_b s)) = Some s' /\
    hp_builder s' = b /\ hp_precision s' = hp_precision s /\ hp_counts0 s' = hp_counts0 s /\ hp_counts1 s' = hp_counts1 s /\
    hp_counts2 s' = hp_counts2 s /\ hp_sparse s' = hp_sparse s /\ hp_registers s' = hp_registers s /\
    NoDup (hp_tmpset s') /\ (forall x, In x (hp_tmpset s') <-> In x (hp_tmpset s)).
Proof. exact plus_json_builder. Qed.
Print Assumptions C77_builder_plus.

Theorem C77_builder_pf : forall (V : Type) e other ser_b (de_b : json -> option (V -> N)) (h : hist V) b,
  build e -> valid MAX_PF h -> narrow (usize_bits e) h ->
  proper (json_of other (ser_b (hist_builder h))) -> de_b (json_of other (ser_b (hist_builder h))) = Some b ->
  exists s : pf V, run_pf e h = Ret s /\
    pf_of_text e de_b (to_text other (ser_pf ser_b s)) =
    Some {| pf_builder := b; pf_count := pf_count s; pf_precision := pf_precision s; pf_registers := pf_registers s |}.
Proof. exact pf_json_builder. Qed.
Print Assumptions C77_builder_pf.

(** White space between tokens and the order of the fields do not matter. *)
Theorem C77_blank : forall (V : Type) e (de_b : json -> option (V -> N)) s t, same_tokens s t ->
  pf_of_text e de_b s = pf_of_text e de_b t /\ plus_of_text e de_b s = plus_of_text e de_b t.
Proof. exact blank_irrelevant. Qed.
Print Assumptions C77_blank.

Theorem C77_order : forall (V : Type) e (de_b : json -> option (V -> N)) l l' s t, document (JObj l) s -> document (JObj l') t ->
  Permutation l l' -> pf_of_text e de_b s = pf_of_text e de_b t /\ plus_of_text e de_b s = plus_of_text e de_b t.
Proof. exact order_irrelevant. Qed.
Print Assumptions C77_order.

(** Fields of other names are ignored, fields that occur twice and missing fields are refused, but a missing field "registers" of
    a HyperLogLog++ makes a sparse sketch. *)
Theorem C77_unknown : forall (V : Type) e (de_b : json -> option (V -> N)) k k' v l l' s t,
  document (JObj l) s -> document (JObj l') t -> Permutation l ((k, v) :: l') -> spells k k' ->
  (~ In k' (map ascii pf_fields) -> pf_of_text e de_b s = pf_of_text e de_b t) /\
  (~ In k' (map ascii plus_fields) -> plus_of_text e de_b s = plus_of_text e de_b t).
Proof. exact unknown_ignored. Qed.
Print Assumptions C77_unknown.

Theorem C77_twice : forall (V : Type) e (de_b : json -> option (V -> N)) l s name i j k k', document (JObj l) s -> i <> j ->
  nth_error (map fst l) i = Some k -> nth_error (map fst l) j = Some k' -> spells k (ascii name) -> spells k' (ascii name) ->
  (In name pf_fields -> pf_of_text e de_b s = None) /\ (In name plus_fields -> plus_of_text e de_b s = None).
Proof. exact twice_refused. Qed.
Print Assumptions C77_twice.

Theorem C77_missing : forall (V : Type) e (de_b : json -> option (V -> N)) l s name, document (JObj l) s ->
  (forall f, In f l -> ~ spells (fst f) (ascii name)) ->
  (In name pf_fields -> pf_of_text e de_b s = None) /\
  (In name plus_fields -> name <> "registers"%string -> plus_of_text e de_b s = None).
Proof. exact missing_refused. Qed.
Print Assumptions C77_missing.

Theorem C77_registers : forall (V : Type) e (de_b : json -> option (V -> N)) l s x, document (JObj l) s ->
  (forall f, In f l -> ~ spells (fst f) (ascii "registers")) -> plus_of_text e de_b s = Some x -> hp_registers x = None.
Proof. exact missing_registers. Qed.
Print Assumptions C77_registers.

(** The values alone are read by position. *)
Theorem C77_array : forall (V : Type) e (de_b : json -> option (V -> N)) l s t, document (JArr l) s ->
  (document (JObj (combine (map ascii pf_fields) l)) t -> length l = 5%nat -> pf_of_text e de_b s = pf_of_text e de_b t) /\
  (document (JObj (combine (map ascii plus_fields) l)) t -> length l = 7%nat -> plus_of_text e de_b s = plus_of_text e de_b t) /\
  (length l <> 5%nat -> pf_of_text e de_b s = None) /\ (length l <> 7%nat -> plus_of_text e de_b s = None).
Proof. exact array_accepted. Qed.
Print Assumptions C77_array.

(** What a text from elsewhere is read as could have come through any other format: all that is proved of sketches
    that were read from outside holds of it. *)
Theorem C77_outside_pf : forall (V : Type) e (de_b : json -> option (V -> N)) t s, pf_of_text e de_b t = Some s ->
  exists v, de_pf e (fun _ => Some (pf_builder s)) v = Some s.
Proof. exact pf_from_elsewhere. Qed.
Print Assumptions C77_outside_pf.

Theorem C77_outside_plus : forall (V : Type) e (de_b : json -> option (V -> N)) t s, plus_of_text e de_b t = Some s ->
  exists v, de_plus e (fun _ => Some (hp_builder s)) v = Some s.
Proof. exact plus_from_elsewhere. Qed.
Print Assumptions C77_outside_plus.

(** Three texts of at most two hundred characters that from_str reads without an error and whose sketches panic when counted: a
    precision of 200, a truncated number in the sparse list, a register count of 2^40. *)
Theorem C77_hostile_witness :
  (exists s, plus_of_text test_env (fun _ => Some mix) (ascii precision_200) = Some s /\ hp_count test_env keep s = Panic) /\
  (exists s, plus_of_text test_env (fun _ => Some mix) (ascii truncated_varint) = Some s /\ hp_count test_env keep s = Panic) /\
  (exists s, pf_of_text test_env (fun _ => Some mix) (ascii count_2_40) = Some s /\ pf_count_est test_env s = Panic).
Proof. exact texts_panic. Qed.
Print Assumptions C77_hostile_witness.

(** The text of a sparse sketch of precision 16 with five elements; the same sketch with white space, its fields in another order, an
    escape in a name and a field that does not exist; texts that are refused. *)
Definition sparse_text : string :=
  "{""builder"":null,""precision"":16,""counts"":[65536,16777216,52428],""tmpset"":[5182,4158,3134,2110,1086],""sparse"":{""count"":0,""last"":0,""buf"":[]},""registers"":null,""phantom"":null}"%string.
Definition other_text : string :=
  " { ""tmpset"" : [5182,4158, 3134,2110,1086] , ""builder"":null,""phantom"":null,""x"":[-1.5e+3,true,""\n""],
  ""\u0063ounts"":[65536,16777216,52428],""precision"":16,""sparse"":[0,0,[]] }"%string.
Definition plus_text_of (s : string) : option (plus N) := plus_of_text test_env (fun v => match v with JNull => Some pass | _ => None end) (ascii s).
Definition refused : list string :=
  ["{""builder"":null,""precision"":016,""counts"":[65536,16777216,52428],""tmpset"":[],""sparse"":{""count"":0,""last"":0,""buf"":[]},""registers"":null,""phantom"":null}";
   "{""builder"":null,""precision"":16.0,""counts"":[65536,16777216,52428],""tmpset"":[],""sparse"":{""count"":0,""last"":0,""buf"":[]},""registers"":null,""phantom"":null}";
   "{""builder"":null,""precision"":272,""counts"":[65536,16777216,52428],""tmpset"":[],""sparse"":{""count"":0,""last"":0,""buf"":[]},""registers"":null,""phantom"":null}";
   "{""builder"":null,""precision"":16,""counts"":[65536,16777216],""tmpset"":[],""sparse"":{""count"":0,""last"":0,""buf"":[]},""registers"":null,""phantom"":null}";
   "{""builder"":null,""precision"":16,""counts"":[65536,16777216,52428],""tmpset"":[],""sparse"":{""count"":0,""last"":0,""buf"":[]},""registers"":null,""phantom"":null,""phantom"":null}";
   "{""builder"":null,""precision"":16,""counts"":[65536,16777216,52428],""tmpset"":[],""sparse"":{""count"":0,""last"":0,""buf"":[]},""registers"":null,""phantom"":null,}";
   "{""builder"":null,""precision"":16,""counts"":[65536,16777216,52428],""tmpset"":[],""sparse"":{""count"":0,""last"":0,""buf"":[]},""registers"":null,""phantom"":null} x"]%string.
Example C77_example :
  (let* s := new_plus 16 in let* s := inserts test_env s five in
   Ret (to_text (fun _ _ => JNull) (ser_plus (fun l => l) (fun _ => SUnit) s))) = Ret (ascii sparse_text) /\
  match plus_text_of sparse_text, plus_text_of other_text with
  | Some a, Some b => hp_tmpset a = rev [5182; 4158; 3134; 2110; 1086] /\ hp_tmpset b = hp_tmpset a /\ hp_precision b = 16 /\ hp_registers b = None
  | _, _ => False
  end /\
  forallb (fun s => match plus_text_of s with None => true | Some _ => false end) refused = true /\
  match plus_text_of "[null,4,[16,16777216,12],[],[0,0,[]],[[12,0,0,0],16,15],null]" with
  | Some s => hp_registers s = Some {| r_buf := [12; 0; 0; 0]; r_count := 16; r_zeros := 15 |}
  | None => False
  end.
Proof.
  split; [vm_compute; reflexivity|]. split; [lazy; repeat split; reflexivity|]. split; [lazy; reflexivity|lazy; reflexivity].
Qed.

(** A context in which C77_plus applies. *)
Example C77_round_example :
  let c := CInsert Add keep (CCount keep CHole) 123 in
  let h := inserted 10 mix Insert keep (range 12) in
  let back := HSerde (@rev N) ser_unit (fun v => match json_of (fun _ _ => JNull) v with JNull => Some mix | _ => None end) h in
  valid MAX_PLUS (plug c back) /\ valid MAX_PLUS (plug c h) /\ proper (json_of (fun _ _ => JNull) (ser_unit (hist_builder h))).
Proof.
  cbv zeta. pose proof (inserted_spec N 10 mix Insert keep (range 12)) as (_ & B & _ & D & _).
  assert (valid MAX_PLUS (inserted 10 mix Insert keep (range 12)))
    by (apply D; [apply keep_order|split; discriminate]).
  cbn [plug valid]. split; [|split; [|constructor]].
  - split; [apply keep_order|]. split; [apply keep_order|]. split; [apply rev_order|].
    split; [assumption|]. exists mix. split; [reflexivity|]. rewrite B. reflexivity.
  - split; [apply keep_order|]. split; [apply keep_order|]. assumption.
Qed.
Example C77_example_escape : escape [97; 34; 92; 10; 31; 127] = ascii "a\""\\\n\u001f" ++ [127].
Proof. reflexivity. Qed.
