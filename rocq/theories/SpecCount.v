(** * The estimates as real-number formulas of the absorbed hashes

    [H] is the list of absorbed 64-bit hashes, [c] the estimate. *)
From Coq Require Import NArith ZArith Reals List.
From Verif Require Import Spec SpecReal.
Import ListNotations.
Local Open Scope R_scope.

(** HyperLogLog++ with bias points [(xs, ys)].  While the codes fit the byte budget: linear
    counting over 2^24 buckets.  Otherwise linear counting over the registers if one is empty
    and the result does not exceed the threshold; else the corrected raw estimate. *)
Definition plus_R (xs ys : list R) (p : N) (H : list N) (c : R) : Prop :=
  exists L, is_code_list p H L /\
   ((gap_len 0 L <= sparse_limit p)%N /\
      approx (/ IZR (2 ^ 28)) c (linear_R (2 ^ 24) (2 ^ 24 - N.of_nat (length L))) \/
    (sparse_limit p < gap_len 0 L)%N /\ exists l, is_register_file 64 p H l /\
      ((zero_count l <> 0)%N /\ linear_R (2 ^ p) (zero_count l) <= threshold_R p /\
         approx (/ IZR (2 ^ 28)) c (linear_R (2 ^ p) (zero_count l)) \/
       ((zero_count l = 0)%N \/ threshold_R p < linear_R (2 ^ p) (zero_count l)) /\
         corrected_R xs ys p l c)).

(** HyperLogLog with a 32-bit hash: linear counting if the raw estimate is at most 2.5m and a
    register is empty; else the raw estimate, with the large-range correction above 2^32/30. *)
Definition pf_R (p : N) (H : list N) (c : R) : Prop :=
  exists l, is_register_file 32 p (map (fun h => h mod 2 ^ 32)%N H) l /\
    ((zero_count l <> 0)%N /\ raw_R p l <= 2.5 * m_R p /\
       approx (/ IZR (2 ^ 28)) c (linear_R (2 ^ p) (zero_count l)) \/
     ((zero_count l = 0)%N \/ 2.5 * m_R p < raw_R p l) /\
       (raw_R p l <= IZR (2 ^ 32) / 30 /\ approx (/ IZR (2 ^ 49)) c (raw_R p l) \/
        IZR (2 ^ 32) / 30 < raw_R p l /\ approx (/ IZR (2 ^ 28)) c (large_R (raw_R p l)))).

(** The raw estimate of the 32-bit hashes is below 2^32. *)
Definition below_2_32 (p : N) (H : list N) : Prop :=
  forall l, is_register_file 32 p (map (fun h => h mod 2 ^ 32)%N H) l ->
    raw_R p l < IZR (2 ^ 32).

(** The small-range branch of HyperLogLog: a register is empty and the raw estimate is at most
    2.5m. *)
Definition small_range (p : N) (H : list N) : Prop :=
  forall l, is_register_file 32 p (map (fun h => h mod 2 ^ 32)%N H) l ->
    zero_count l <> 0%N /\ raw_R p l <= 2.5 * m_R p.

(** In normal representation, with no register empty or the linear count beyond the threshold. *)
Definition past_linear (p : N) (H : list N) : Prop :=
  ~ fits p H /\ forall l, is_register_file 64 p H l ->
    zero_count l = 0%N \/ threshold_R p < linear_R (2 ^ p) (zero_count l).

(** In normal representation, a register empty and the linear count within the threshold. *)
Definition in_linear (p : N) (H : list N) : Prop :=
  ~ fits p H /\ forall l, is_register_file 64 p H l ->
    zero_count l <> 0%N /\ linear_R (2 ^ p) (zero_count l) <= threshold_R p.

(** The raw estimate is at most, at least 5m, with a margin for rounding. *)
Definition raw_under (p : N) (H : list N) : Prop :=
  forall l, is_register_file 64 p H l -> raw_R p l <= 5 * m_R p * (1 - / IZR (2 ^ 32)).
Definition raw_over (p : N) (H : list N) : Prop :=
  forall l, is_register_file 64 p H l -> 5 * m_R p * (1 + / IZR (2 ^ 32)) <= raw_R p l.
