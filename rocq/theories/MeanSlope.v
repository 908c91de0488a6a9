(** * How the mean moves with the cardinality *)
From Coq Require Import NArith ZArith Reals List Bool Lia Lra.
From Verif Require Import ModelRust Spec SpecDist SpecProb SpecReal CountFacts DistFacts ProbFacts MomentFacts
  HarmonicNum HarmonicMean MeanTable MeanRows.
Import ListNotations.
Local Open Scope R_scope.

(** The mean of [2^-register] for Poisson many values, [x] per register. *)
Definition curve (K : nat) (x : R) : R := blend (/ 2) (expo x) K.

Lemma exp_tangent : forall z y k, expo z k - (/ 2) ^ k * expo z k * (y - z) <= expo y k.
Proof.
  intros z y k. unfold expo. set (h := (/ 2) ^ k).
  replace (- (y * h)) with (- (z * h) + h * (z - y)) by ring. rewrite exp_plus.
  pose proof (exp_pos (- (z * h))) as P. pose proof (exp_ineq1_le (h * (z - y))) as E.
  set (a := exp (- (z * h))) in *. set (b := exp (h * (z - y))) in *. clearbody a b.
  apply (Rmult_le_compat_l a) in E; lra.
Qed.

Lemma curve_tangent : forall K z, exists d, forall y, curve K z + d * (y - z) <= curve K y.
Proof.
  intros K z. unfold curve, blend.
  assert (A : exists d, forall y, psum (fun k => (1 - / 2) * (/ 2) ^ k * expo z k) K + d * (y - z) <=
    psum (fun k => (1 - / 2) * (/ 2) ^ k * expo y k) K).
  { induction K as [|K [d IH]]; [exists 0; intros; cbn; lra|].
    exists (d - (1 - / 2) * (/ 2) ^ K * ((/ 2) ^ K * expo z K)). intros y. cbn [psum]. specialize (IH y).
    pose proof (exp_tangent z y K) as E. assert (P : 0 <= (1 - / 2) * (/ 2) ^ K) by (apply Rmult_le_pos; [lra|apply pow_le; lra]).
    apply (Rmult_le_compat_l _ _ _ P) in E. lra. }
  destruct A as [d A]. exists d. intros y. specialize (A y). lra.
Qed.

Lemma curve_decr : forall K x y, x <= y -> curve K y <= curve K x.
Proof. intros K x y H. apply blend_le; [lra|]. intros k _. now apply expo_mono. Qed.

Lemma curve_pos : forall K x, 0 < curve K x.
Proof.
  intros K x. unfold curve, blend. assert (P : 0 < (/ 2) ^ K) by (apply pow_lt; lra).
  assert (0 <= psum (fun k => (1 - / 2) * (/ 2) ^ k * expo x k) K); [|lra].
  induction K as [|K IH]; [cbn; lra|]. cbn [psum].
  assert (0 < (/ 2) ^ K) by (apply pow_lt; lra). specialize (IH H).
  assert (0 < expo x K) by apply exp_pos. assert (0 < (1 - / 2) * (/ 2) ^ K * expo x K) by (repeat apply Rmult_lt_0_compat; lra). lra.
Qed.

(** A fall by [q/10] over 17.25% bounds the curve on both sides: it is convex. *)
Section Turn.
Variables (K : nat) (z q : R).
Hypothesis HT : curve K (z * 1.1725) <= curve K z * (1 - q / 10).

Lemma turn_up : forall t, 0 <= t <= / 10 -> curve K (z * (1 + 1.725 * t)) <= curve K z * (1 - q * t).
Proof.
  intros t Ht. destruct (curve_tangent K (z * (1 + 1.725 * t))) as [d T].
  pose proof (T z) as A. pose proof (T (z * 1.1725)) as B.
  set (c := curve K (z * (1 + 1.725 * t))) in *. set (a := curve K z) in *. set (b := curve K (z * 1.1725)) in *. clearbody a b c.
  apply (Rmult_le_compat_l (1 - 10 * t)) in A; [|lra]. apply (Rmult_le_compat_l (10 * t)) in B; [|lra].
  apply (Rmult_le_compat_l (10 * t)) in HT; [|lra].
  replace (z * 1.1725 - z * (1 + 1.725 * t)) with (1.725 * z * (/ 10 - t)) in B by lra.
  replace (z - z * (1 + 1.725 * t)) with (- (1.725 * z * t)) in A by lra.
  assert (E : (1 - 10 * t) * (c + d * - (1.725 * z * t)) + 10 * t * (c + d * (1.725 * z * (/ 10 - t))) = c) by field.
  lra.
Qed.

Lemma turn_down : forall t, 0 <= t <= / 10 -> curve K z * (1 + q * t) <= curve K (z * (1 - 1.725 * t)).
Proof.
  intros t Ht. destruct (curve_tangent K z) as [d T].
  pose proof (T (z * (1 - 1.725 * t))) as A. pose proof (T (z * 1.1725)) as B.
  set (c := curve K (z * (1 - 1.725 * t))) in *. set (a := curve K z) in *. set (b := curve K (z * 1.1725)) in *. clearbody a b c.
  replace (z * 1.1725 - z) with (z * 0.1725) in B by lra.
  replace (z * (1 - 1.725 * t) - z) with (- (z * 0.1725 * (10 * t))) in A by lra.
  assert (C : d * (z * 0.1725) * (10 * t) <= - (a * (q / 10)) * (10 * t)) by (apply Rmult_le_compat_r; lra). lra.
Qed.
End Turn.

(** ** The grids *)
Lemma pairs_cover : forall (A : Type) (key : A -> Z) (f : A -> A -> bool) l a b x, all_pairs f (a :: l) = true ->
  IZR (key a) <= x -> last (a :: l) a = b -> x <= IZR (key b) -> l <> [] ->
  exists c d, f c d = true /\ In c (a :: l) /\ In d (a :: l) /\ IZR (key c) <= x <= IZR (key d).
Proof.
  intros A key f l. induction l as [|c l IH]; intros a b x H Ha Hb Hx Hl; [contradiction|]. clear Hl.
  cbn [all_pairs] in H. destruct (f a c) eqn:F; [|discriminate].
  destruct (Rle_or_lt x (IZR (key c))) as [L|L].
  - exists a, c. split; [exact F|]. split; [now left|]. split; [right; now left|]. lra.
  - destruct l as [|e l].
    + cbn in Hb. subst b. lra.
    + destruct (IH c b x) as (u & v & U1 & U2 & U3 & U4); [exact H|lra| |exact Hx|discriminate|].
      * rewrite <- Hb. clear. revert e. induction l as [|w l IH]; intros e; [reflexivity|]. exact (IH w).
      * exists u, v. split; [exact U1|]. split; [now right|]. split; [now right|]. exact U4.
Qed.

Lemma turns_cover : forall x, 0.5389 <= x <= 6.12 ->
  exists i j, turn_ok i j = true /\ (100000 <= i)%Z /\ (100000 <= j <= 2000000)%Z /\ IZR i / 262144 <= x <= IZR j / 262144.
Proof.
  intros x Hx. pose proof turns_run as R.
  assert (B : forallb (fun i => (100000 <=? i) && (i <=? 2000000))%Z turns = true) by (vm_compute; reflexivity).
  rewrite forallb_forall in B.
  destruct (pairs_cover Z (fun i => i) turn_ok (tl turns) (hd 0%Z turns) (last turns 0%Z) (x * 262144)) as (i & j & T & I & J & C).
  - exact R.
  - cbn [turns hd]. lra.
  - reflexivity.
  - cbn [turns last]. lra.
  - discriminate.
  - exists i, j. apply B in I, J. apply andb_true_iff in I, J. destruct I as [I1 _], J as [J1 J2].
    apply Z.leb_le in I1, J1, J2. split; [exact T|]. split; [exact I1|]. split; [lia|]. lra.
Qed.
