(** * Specification of C84: which data is read as a sketch, and as which

    Of the model only the data ([sval]) and the types of the sketches are used. *)
From Coq Require Import NArith List String.
From Verif Require Import ModelEncoding ModelRegisters ModelPF ModelPlus ModelSerde.
Import ListNotations.
Local Open Scope N_scope.

(** An unsigned integer of [w] bits. *)
Inductive reads_uint (w : N) : sval -> N -> Prop :=
| ReadInt n : n < 2 ^ w -> reads_uint w (SInt n) n.

(** Sequences and tuples are read alike. *)
Inductive elements : sval -> list sval -> Prop :=
| OfSeq l : elements (SSeq l) l
| OfTuple l : elements (STuple l) l.

Definition reads_list (w : N) (v : sval) (l : list N) : Prop :=
  exists vs, elements v vs /\ Forall2 (reads_uint w) vs l.

(** [w] is the field of [v] named [name], which must be the only one of that name, or, if the
    fields of [v] have no names, the one at position [i]. *)
Inductive has_field (i : nat) (name : string) : sval -> sval -> Prop :=
| ByName l w r : (forall x, ~ In (name, x) (l ++ r)) -> has_field i name (SStruct (l ++ (name, w) :: r)) w
| ByPosition v vs w : elements v vs -> nth_error vs i = Some w -> has_field i name v w.

(** No field of that name. *)
Definition lacks (name : string) (v : sval) : Prop :=
  exists fs, v = SStruct fs /\ forall x, ~ In (name, x) fs.

(** [w] is the width of usize in bits. *)
Definition reads_registers (w : N) (v : sval) (r : registers) : Prop :=
  exists b c z, has_field 0 "buf" v b /\ has_field 1 "count" v c /\ has_field 2 "zeros" v z /\
    reads_list 32 b (r_buf r) /\ reads_uint w c (r_count r) /\ reads_uint w z (r_zeros r).

Definition reads_dif (w : N) (v : sval) (d : difintvec) : Prop :=
  exists c l b, has_field 0 "count" v c /\ has_field 1 "last" v l /\ has_field 2 "buf" v (SNewtype b) /\
    reads_uint w c (d_count d) /\ reads_uint 32 l (d_last d) /\ reads_list 8 b (d_buf d).

Definition reads_pf {V : Type} (w : N) (de_b : sval -> option (V -> N)) (v : sval) (s : pf V) : Prop :=
  exists b c p r, has_field 0 "builder" v b /\ has_field 1 "count" v c /\ has_field 2 "precision" v p /\
    has_field 3 "registers" v r /\ has_field 4 "phantom" v SUnit /\
    de_b b = Some (pf_builder s) /\ reads_uint w c (pf_count s) /\ reads_uint 8 p (pf_precision s) /\
    reads_registers w r (pf_registers s).

(** Registers may be absent in three ways: no field, none, unit. *)
Inductive reads_option (w : N) (v : sval) : option registers -> Prop :=
| Missing : lacks "registers" v -> reads_option w v None
| IsNone : has_field 5 "registers" v SNone -> reads_option w v None
| IsUnit : has_field 5 "registers" v SUnit -> reads_option w v None
| IsSome x r : has_field 5 "registers" v (SSome x) -> reads_registers w x r -> reads_option w v (Some r).

(** The recent codes are read as a set: in any order, any number of times. *)
Definition reads_plus {V : Type} (w : N) (de_b : sval -> option (V -> N)) (v : sval) (s : plus V) : Prop :=
  exists b p c t d l, has_field 0 "builder" v b /\ has_field 1 "precision" v p /\ has_field 2 "counts" v c /\
    has_field 3 "tmpset" v t /\ has_field 4 "sparse" v d /\ has_field 6 "phantom" v SUnit /\
    de_b b = Some (hp_builder s) /\ reads_uint 8 p (hp_precision s) /\
    reads_list w c [hp_counts0 s; hp_counts1 s; hp_counts2 s] /\
    reads_list 32 t l /\ NoDup (hp_tmpset s) /\ (forall x, In x (hp_tmpset s) <-> In x l) /\
    reads_dif w d (hp_sparse s) /\ reads_option w v (hp_registers s).
