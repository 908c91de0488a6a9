(** * C78: what the sketches look like when they are shown for debugging *)
From Coq Require Import String.
From Coq Require Import NArith List Bool.
From Verif Require Import ModelRust ModelF64 ModelEnv ModelRegisters ModelEncoding ModelPF ModelPlus ModelFormat ModelFiles ModelTests ModelDebug
  SpecFiles SpecFormat SpecDebug DebugFacts DebugLines DebugClaim.
Import ListNotations.
Local Open Scope N_scope.

(** Every integer, whatever is requested. *)
Theorem C78_integer : forall o n out, shown o n out <-> out = debug_uint o n.
Proof. exact shown_spec. Qed.
Print Assumptions C78_integer.

(** Hexadecimal numerals denote one number. *)
Theorem C78_hexadecimal : forall c n m s, hexadecimal_numeral c n s -> hexadecimal_numeral c m s -> n = m.
Proof. exact hex_inj. Qed.
Print Assumptions C78_hexadecimal.

(** Without "#": one line, and exactly this one. *)
Theorem C78_short_pf : forall (V : Type) o builder phantom (s : pf V) t, o_alternate o = false ->
  (short_pf o builder phantom s t <-> t = pf_debug o builder phantom s).
Proof. exact short_pf_iff. Qed.
Print Assumptions C78_short_pf.

Theorem C78_short_plus : forall (V : Type) o ord builder phantom (s : plus V) t, o_alternate o = false ->
  (short_plus o builder phantom (ord (hp_tmpset s)) s t <-> t = plus_debug o ord builder phantom s).
Proof. exact short_plus_iff. Qed.
Print Assumptions C78_short_plus.

(** With "#": one field on each line, with what the hash builder writes indented; numbers must not be padded with newlines. *)
Theorem C78_long_pf : forall (V : Type) o builder phantom (s : pf V) t, o_alternate o = true ->
  f_width (o_format o) = None \/ f_fill (o_format o) <> 10 ->
  builder <> [] -> phantom <> [] -> Forall (fun l => ~ In 10 l) builder -> Forall (fun l => ~ In 10 l) phantom ->
  (long_pf o builder phantom s t <-> t = pf_debug o (lined builder) (lined phantom) s).
Proof. exact long_pf_iff. Qed.
Print Assumptions C78_long_pf.

Theorem C78_long_plus : forall (V : Type) o ord builder phantom (s : plus V) t, o_alternate o = true ->
  f_width (o_format o) = None \/ f_fill (o_format o) <> 10 ->
  builder <> [] -> phantom <> [] -> Forall (fun l => ~ In 10 l) builder -> Forall (fun l => ~ In 10 l) phantom ->
  (long_plus o builder phantom (ord (hp_tmpset s)) s t <-> t = plus_debug o ord (lined builder) (lined phantom) s).
Proof. exact long_plus_iff. Qed.
Print Assumptions C78_long_plus.

(** Every text consists of lines. *)
Theorem C78_lines : forall s, exists ls, ls <> [] /\ Forall (fun l => ~ In 10 l) ls /\ s = lined ls.
Proof. exact text_lines. Qed.
Print Assumptions C78_lines.

(** Unless a width is requested, equal texts come from equal sketches. *)
Theorem C78_same_pf : forall (V W : Type) o builder phantom (s : pf V) (s' : pf W), f_width (o_format o) = None ->
  pf_debug o builder phantom s = pf_debug o builder phantom s' ->
  pf_count s = pf_count s' /\ pf_precision s = pf_precision s' /\ pf_registers s = pf_registers s'.
Proof. exact debug_pf_same. Qed.
Print Assumptions C78_same_pf.

Theorem C78_same_plus : forall (V W : Type) o ord ord' builder phantom (s : plus V) (s' : plus W), f_width (o_format o) = None ->
  plus_debug o ord builder phantom s = plus_debug o ord' builder phantom s' ->
  hp_precision s = hp_precision s' /\ hp_counts0 s = hp_counts0 s' /\ hp_counts1 s = hp_counts1 s' /\ hp_counts2 s = hp_counts2 s' /\
  ord (hp_tmpset s) = ord' (hp_tmpset s') /\ hp_sparse s = hp_sparse s' /\ hp_registers s = hp_registers s'.
Proof. exact debug_plus_same. Qed.
Print Assumptions C78_same_plus.

(** They estimate the same, or panic together. *)
Theorem C78_count_pf : forall (V : Type) e o builder phantom (s s' : pf V), f_width (o_format o) = None ->
  pf_debug o builder phantom s = pf_debug o builder phantom s' -> pf_count_est e s = pf_count_est e s'.
Proof. exact debug_pf_count. Qed.
Print Assumptions C78_count_pf.

Theorem C78_count_plus : forall (V : Type) e o ord ord' builder phantom (s s' : plus V), f_width (o_format o) = None ->
  plus_debug o ord builder phantom s = plus_debug o ord' builder phantom s' -> hp_builder s = hp_builder s' ->
  (let* x := hp_count e ord s in Ret (snd x)) = (let* x := hp_count e ord' s' in Ret (snd x)).
Proof. exact debug_plus_count. Qed.
Print Assumptions C78_count_plus.

(** If a width is requested, they need not be equal: "{:1>10?}" pads 2 and 12 to the same text. *)
Theorem C78_width_witness : exists s s', with_values [2 ^ 39] = Ret s /\ with_values [6 * 2 ^ 39] = Ret s' /\ hp_tmpset s <> hp_tmpset s' /\
  plus_debug ones keep (ascii "B") (ascii "P") s = plus_debug ones keep (ascii "B") (ascii "P") s'.
Proof. exact ones_same. Qed.
Print Assumptions C78_width_witness.

(** Equal estimates do not make equal texts: the order of insertion can be seen. *)
Theorem C78_order_witness : exists a b, four [2 ^ 39; 2 ^ 40; 6 * 2 ^ 39; 2 ^ 42] = Ret a /\ four [2 ^ 42; 2 ^ 40; 6 * 2 ^ 39; 2 ^ 39] = Ret b /\
  plus_debug plain keep (ascii "B") (ascii "P") a <> plus_debug plain keep (ascii "B") (ascii "P") b /\
  hp_count test_env keep a = hp_count test_env keep b.
Proof. exact order_seen. Qed.
Print Assumptions C78_order_witness.

(** A sketch of precision 4 with one value: "{:?}" and "{:#06X?}"; a sparse sketch of precision 16: "{:#?}" with a hash builder that writes two
    lines, and "{:x?}". *)
Definition hexadecimal (c : hex_case) : options := {| o_format := o_format plain; o_plus := false; o_alternate := false; o_zero := false; o_hex := Some c |}.
Definition wide : options := {| o_format := {| f_fill := 32; f_align := None; f_width := Some 6; f_precision := None |};
  o_plus := false; o_alternate := true; o_zero := true; o_hex := Some Upper |}.
Example C78_example_pf :
  (let* s := new_pf 4 in let* s := pf_insert test_env s 5 in Ret (pf_debug plain (ascii "RandomState { .. }") (ascii "PhantomData<u64>") s)) =
  Ret (ascii "HyperLogLogPF { builder: RandomState { .. }, count: 16, precision: 4, registers: Registers { buf: [26, 0, 0], count: 16, zeros: 15 }, phantom: PhantomData<u64> }") /\
  (let* s := new_pf 4 in let* s := pf_insert test_env s 5 in Ret (pf_debug wide (ascii "B") (ascii "P") s)) =
  Ret (lined (map ascii ["HyperLogLogPF {"; "    builder: B,"; "    count: 0x0010,"; "    precision: 0x0004,"; "    registers: Registers {"; "        buf: [";
    "            0x001A,"; "            0x0000,"; "            0x0000,"; "        ],"; "        count: 0x0010,"; "        zeros: 0x000F,";
    "    },"; "    phantom: P,"; "}"]%string)).
Proof. split; vm_compute; reflexivity. Qed.
Example C78_example_plus :
  (let* s := with_values [2 ^ 39; 6 * 2 ^ 39] in Ret (plus_debug pretty keep (lined (map ascii ["B {"; "}"]%string)) (ascii "PhantomData<u64>") s)) =
  Ret (lined (map ascii ["HyperLogLogPlus {"; "    builder: B {"; "    },"; "    precision: 16,"; "    counts: ("; "        65536,"; "        16777216,"; "        52428,"; "    ),";
    "    tmpset: {"; "        12,"; "        2,"; "    },"; "    sparse: DifIntVec {"; "        count: 0,"; "        last: 0,"; "        buf: VarIntVec("; "            [],"; "        ),"; "    },";
    "    registers: None,"; "    phantom: PhantomData<u64>,"; "}"]%string)) /\
  (let* s := with_values [2 ^ 39; 6 * 2 ^ 39] in Ret (plus_debug (hexadecimal Lower) keep (ascii "B") (ascii "P") s)) =
  Ret (ascii "HyperLogLogPlus { builder: B, precision: 10, counts: (10000, 1000000, cccc), tmpset: {c, 2}, sparse: DifIntVec { count: 0, last: 0, buf: VarIntVec([]) }, registers: None, phantom: P }") /\
  (let* s := new_normal 4 in Ret (plus_debug plain keep (ascii "B") (ascii "P") s)) =
  Ret (ascii "HyperLogLogPlus { builder: B, precision: 4, counts: (16, 16777216, 12), tmpset: {}, sparse: DifIntVec { count: 0, last: 0, buf: VarIntVec([]) }, registers: Some(RegistersPlus { buf: [0, 0, 0, 0], count: 16, zeros: 16 }), phantom: P }").
Proof. split; [|split]; vm_compute; reflexivity. Qed.
