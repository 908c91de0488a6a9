(** * The bias corrections are hardly ever negative *)
From Coq Require Import NArith ZArith Reals List Bool Lia Lra.
From Flocq Require Import Core BinarySingleNaN.
From Verif Require Import ModelRust ModelF64 ModelEnv ModelConstants SpecReal BiasTables BiasFacts BiasCheck BiasSound F64Facts.
Import ListNotations.

Definition low_check (p : N) : bool :=
  forallb (fun b => match floor_ p b with Some w => (- U <=? 50 * w)%Z | None => false end) (bias_table p).

Lemma low_checked : forallb low_check [10; 11; 12; 13; 14; 15; 16; 17; 18]%N = true.
Proof. vm_cast_no_check (eq_refl true). Qed.

Local Open Scope R_scope.

Lemma bias_low : forall p b, (10 <= p <= 18)%N -> In b (bias_table p) -> - (m_R p / 50) <= val b.
Proof.
  intros p b Hp Hb. assert (C : low_check p = true).
  { pose proof low_checked as R. rewrite forallb_forall in R. apply R.
    assert (C : (p = 10 \/ p = 11 \/ p = 12 \/ p = 13 \/ p = 14 \/ p = 15 \/ p = 16 \/ p = 17 \/ p = 18)%N) by lia.
    clear R. cbn [In]. intuition. }
  unfold low_check in C. rewrite forallb_forall in C. specialize (C b Hb). destruct (floor_ p b) as [w|] eqn:E; [|discriminate].
  apply Z.leb_le, IZR_le in C. rewrite opp_IZR, mult_IZR in C. destruct (floor_ok p b w E) as [F _].
  pose proof (scale_pos p) as S. rewrite <- (scale_m p) in C. apply Rmult_le_reg_r with (1 := S). lra.
Qed.

Lemma interpolated_low : forall p r y, (10 <= p <= 18)%N ->
  interpolated (reals (est_table p)) (reals (bias_table p)) r y -> - (m_R p / 50) <= y.
Proof.
  intros p r y Hp I.
  assert (A : forall i y0, nth_error (reals (bias_table p)) i = Some y0 -> - (m_R p / 50) <= y0).
  { intros i y0 H. apply nth_error_In in H. unfold reals in H. apply in_map_iff in H. destruct H as (b & <- & H). now apply bias_low. }
  destruct I as [(x0 & y0 & _ & H & _ & ->)|[(x0 & y0 & _ & H & _ & ->)|(i & x0 & y0 & x1 & y1 & _ & H0 & _ & H1 & S)]].
  - exact (A _ _ H).
  - exact (A _ _ H).
  - pose proof (A _ _ H0) as A0. pose proof (A _ _ H1) as A1.
    apply (segment_between x0 y0 x1 y1 r y _ (Rmax y0 y1) S); split; auto; [apply Rmax_l|apply Rmax_r].
Qed.
