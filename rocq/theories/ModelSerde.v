(** * Serialization: the code generated by serde's derive macros

    The crate derives [Serialize] and [Deserialize] for HyperLogLogPF (hyperloglog.rs:44),
    HyperLogLogPlus (hyperloglogplus.rs:56), Registers and RegistersPlus (common.rs:10),
    VarIntVec (encoding.rs:4) and DifIntVec (encoding.rs:12).  The derived code maps a value to
    the serde data model and back.  The data formats are not modelled: a format is taken to
    hand back the tree of data-model values it was given. *)
From Coq Require Import NArith ZArith List Bool String.
From Verif Require Import ModelRust ModelF64 ModelEnv ModelRegisters ModelEncoding ModelCommon
  ModelPF ModelPlus.
Import ListNotations.
Local Open Scope N_scope.

(** The part of the serde data model that occurs. *)
Inductive sval :=
| SInt (n : N)                            (* unsigned integers *)
| SSeq (l : list sval)                    (* Vec, HashSet *)
| STuple (l : list sval)                  (* (usize, usize, usize) *)
| SNewtype (v : sval)                     (* VarIntVec(..) *)
| SStruct (fields : list (string * sval)) (* named fields *)
| SNone
| SSome (v : sval)
| SUnit                                   (* PhantomData *)
| SOther (tag : N) (l : list sval).       (* whatever else a hash builder may write *)

(** ** Serialization *)

Definition ser_registers (r : registers) : sval :=
  SStruct [("buf"%string, SSeq (map SInt (r_buf r)));
           ("count"%string, SInt (r_count r));
           ("zeros"%string, SInt (r_zeros r))].

Definition ser_dif (d : difintvec) : sval :=
  SStruct [("count"%string, SInt (d_count d));
           ("last"%string, SInt (d_last d));
           ("buf"%string, SNewtype (SSeq (map SInt (d_buf d))))].

(** hyperloglog.rs:44-55. *)
Definition ser_pf {V : Type} (ser_b : (V -> N) -> sval) (s : pf V) : sval :=
  SStruct [("builder"%string, ser_b (pf_builder s));
           ("count"%string, SInt (pf_count s));
           ("precision"%string, SInt (pf_precision s));
           ("registers"%string, ser_registers (pf_registers s));
           ("phantom"%string, SUnit)].

(** hyperloglogplus.rs:56-69; [ord] is the iteration order of the HashSet. *)
Definition ser_plus {V : Type} (ord : list N -> list N) (ser_b : (V -> N) -> sval) (s : plus V)
  : sval :=
  SStruct [("builder"%string, ser_b (hp_builder s));
           ("precision"%string, SInt (hp_precision s));
           ("counts"%string,
             STuple [SInt (hp_counts0 s); SInt (hp_counts1 s); SInt (hp_counts2 s)]);
           ("tmpset"%string, SSeq (map SInt (ord (hp_tmpset s))));
           ("sparse"%string, ser_dif (hp_sparse s));
           ("registers"%string,
             match hp_registers s with Some r => SSome (ser_registers r) | None => SNone end);
           ("phantom"%string, SUnit)].

(** ** Deserialization; [None] is an error *)

Definition obind {A B : Type} (o : option A) (k : A -> option B) : option B :=
  match o with Some a => k a | None => None end.
Local Notation "'let?' x := m 'in' k" := (obind m (fun x => k))
  (at level 200, x pattern, m at level 200, k at level 200, right associativity).

(** Deserialize for uW: other numbers are rejected. *)
Definition de_uint (w : N) (v : sval) : option N :=
  match v with
  | SInt n => if n <? 2 ^ w then Some n else None
  | _ => None
  end.

Fixpoint de_list {A : Type} (f : sval -> option A) (l : list sval) : option (list A) :=
  match l with
  | [] => Some []
  | v :: l' => let? a := f v in let? r := de_list f l' in Some (a :: r)
  end.

Definition de_seq {A : Type} (f : sval -> option A) (v : sval) : option (list A) :=
  match v with
  | SSeq l => de_list f l
  | STuple l => de_list f l
  | _ => None
  end.

(** The derived [visit_map] collects the fields by name, rejects duplicates, ignores unknown
    names; the derived [visit_seq] takes them by position.  [field i name v] is the value of
    the field declared at position [i] with name [name]. *)
Definition field (i : nat) (name : string) (v : sval) : option sval :=
  match v with
  | SStruct fs =>
      match filter (fun f => String.eqb (fst f) name) fs with
      | [f] => Some (snd f)
      | _ => None
      end
  | SSeq l => nth_error l i
  | STuple l => nth_error l i
  | _ => None
  end.

(** A missing [Option] field is read as [None]. *)
Definition field_opt (i : nat) (name : string) (v : sval) : option sval :=
  match v with
  | SStruct fs =>
      match filter (fun f => String.eqb (fst f) name) fs with
      | [] => Some SNone
      | [f] => Some (snd f)
      | _ => None
      end
  | _ => field i name v
  end.

Definition de_unit (v : sval) : option unit :=
  match v with SUnit => Some tt | _ => None end.

Definition de_registers (e : env) (v : sval) : option registers :=
  let? b := field 0 "buf" v in let? b := de_seq (de_uint 32) b in
  let? c := field 1 "count" v in let? c := de_uint (usize_bits e) c in
  let? z := field 2 "zeros" v in let? z := de_uint (usize_bits e) z in
  Some {| r_buf := b; r_count := c; r_zeros := z |}.

Definition de_varint (v : sval) : option varintvec :=
  match v with
  | SNewtype w => de_seq (de_uint 8) w
  | _ => None
  end.

Definition de_dif (e : env) (v : sval) : option difintvec :=
  let? c := field 0 "count" v in let? c := de_uint (usize_bits e) c in
  let? l := field 1 "last" v in let? l := de_uint 32 l in
  let? b := field 2 "buf" v in let? b := de_varint b in
  Some {| d_count := c; d_last := l; d_buf := b |}.

Definition de_triple (e : env) (v : sval) : option (N * N * N) :=
  match v with
  | STuple [a; b; c] | SSeq [a; b; c] =>
      let? a := de_uint (usize_bits e) a in
      let? b := de_uint (usize_bits e) b in
      let? c := de_uint (usize_bits e) c in
      Some (a, b, c)
  | _ => None
  end.

Definition de_option {A : Type} (f : sval -> option A) (v : sval) : option (option A) :=
  match v with
  | SNone => Some None
  | SUnit => Some None
  | SSome w => let? a := f w in Some (Some a)
  | _ => None
  end.

(** hyperloglog.rs:44-55. *)
Definition de_pf {V : Type} (e : env) (de_b : sval -> option (V -> N)) (v : sval)
  : option (pf V) :=
  let? b := field 0 "builder" v in let? b := de_b b in
  let? c := field 1 "count" v in let? c := de_uint (usize_bits e) c in
  let? p := field 2 "precision" v in let? p := de_uint 8 p in
  let? r := field 3 "registers" v in let? r := de_registers e r in
  let? u := field 4 "phantom" v in let? _ := de_unit u in
  Some {| pf_builder := b; pf_count := c; pf_precision := p; pf_registers := r |}.

(** hyperloglogplus.rs:56-69. *)
Definition de_plus {V : Type} (e : env) (de_b : sval -> option (V -> N)) (v : sval)
  : option (plus V) :=
  let? b := field 0 "builder" v in let? b := de_b b in
  let? p := field 1 "precision" v in let? p := de_uint 8 p in
  let? c := field 2 "counts" v in let? (c0, c1, c2) := de_triple e c in
  let? t := field 3 "tmpset" v in let? t := de_seq (de_uint 32) t in
  let? d := field 4 "sparse" v in let? d := de_dif e d in
  let? r := field_opt 5 "registers" v in let? r := de_option (de_registers e) r in
  let? u := field 6 "phantom" v in let? _ := de_unit u in
  Some {| hp_builder := b; hp_precision := p;
          hp_counts0 := c0; hp_counts1 := c1; hp_counts2 := c2;
          hp_tmpset := fold_left hset_insert t []; hp_sparse := d; hp_registers := r |}.
