(** * How often each value occurs among the registers *)
From Coq Require Import NArith List.
From Verif Require Import Spec.
Import ListNotations.
Local Open Scope N_scope.

(** Every value is held by equally many registers after absorbing [H] and after absorbing [H'],
    wherever they are. *)
Definition same_tally (W p : N) (H H' : list N) : Prop :=
  forall l l', is_register_file W p H l -> is_register_file W p H' l' ->
    forall v, count_occ N.eq_dec l v = count_occ N.eq_dec l' v.

(** No rank among [H] is over [b]. *)
Definition ranks_up_to (b W p : N) (H : list N) : Prop := forall h, In h H -> rank W p h <= b.

(** The buckets that have absorbed nothing are equally many. *)
Definition same_empty (W p : N) (H H' : list N) : Prop :=
  forall l l', is_register_file W p H l -> is_register_file W p H' l' -> zero_count l = zero_count l'.

(** There are equally many codes. *)
Definition same_codes (p p' : N) (H H' : list N) : Prop :=
  forall L L', is_code_list p H L -> is_code_list p' H' L' -> length L = length L'.

(** [f] moves each hash of [H] to another bucket with the same rank: [move] tells the bucket, and no
    two buckets are moved to one. *)
Definition relabels (W p : N) (f move : N -> N) (H : list N) : Prop :=
  (forall i, i < 2 ^ p -> move i < 2 ^ p) /\
  (forall i j, i < 2 ^ p -> j < 2 ^ p -> move i = move j -> i = j) /\
  forall h, In h H -> bucket W p (f h) = move (bucket W p h) /\ rank W p (f h) = rank W p h.
