(** * Negative dependence of registers, over all hash assignments

    Products of monotone functions of different registers have an expectation at most the product
    of the expectations; with exponentials this gives Chernoff bounds. *)
From Coq Require Import NArith ZArith Reals List Bool Lia Lra Permutation.
From Verif Require Import ModelRust Spec SpecReal SpecDist SpecProb BitFacts CountFacts DistFacts ProbFacts MomentFacts.
Import ListNotations.
Local Open Scope R_scope.

Definition rprod {A : Type} (f : A -> R) (l : list A) : R := fold_right (fun x s => f x * s) 1 l.

Lemma rprod_cons : forall (A : Type) (f : A -> R) x l, rprod f (x :: l) = f x * rprod f l.
Proof. reflexivity. Qed.

Lemma rprod_ext : forall (A : Type) (f g : A -> R) l, (forall x, In x l -> f x = g x) -> rprod f l = rprod g l.
Proof.
  induction l; intros H; [reflexivity|]. rewrite !rprod_cons. rewrite H by now left.
  rewrite IHl; [reflexivity|]. intros x Hx. apply H. now right.
Qed.

Lemma rprod_nonneg : forall (A : Type) (f : A -> R) l, (forall x, In x l -> 0 <= f x) -> 0 <= rprod f l.
Proof.
  induction l; intros H; [cbn; lra|]. rewrite rprod_cons. apply Rmult_le_pos; [apply H; now left|].
  apply IHl. intros x Hx. apply H. now right.
Qed.

Lemma rprod_le : forall (A : Type) (f g : A -> R) l, (forall x, In x l -> 0 <= f x <= g x) -> rprod f l <= rprod g l.
Proof.
  induction l; intros H; [apply Rle_refl|]. rewrite !rprod_cons. apply Rmult_le_compat.
  - apply H. now left.
  - apply rprod_nonneg. intros x Hx. apply H. now right.
  - apply H. now left.
  - apply IHl. intros x Hx. apply H. now right.
Qed.

Lemma rprod_const : forall (A : Type) c (l : list A), rprod (fun _ => c) l = c ^ length l.
Proof. induction l; [reflexivity|]. rewrite rprod_cons, IHl. reflexivity. Qed.

Lemma rprod_exp : forall (A : Type) (f : A -> R) l, rprod (fun x => exp (f x)) l = exp (rsum f l).
Proof.
  induction l; [cbn; now rewrite exp_0|]. now rewrite rprod_cons, rsum_cons, IHl, exp_plus.
Qed.

Section Negative.
Variables (U : list N) (B K : N -> N).
Hypothesis HU : U <> [].

Notation c := (INR (length U)).
Definition avg (f : N -> R) : R := rsum f U / c.

Lemma c_pos : 0 < c.
Proof. destruct U; [congruence|]. cbn [length]. apply lt_0_INR. lia. Qed.

Lemma avg_le : forall f g, (forall h, In h U -> f h <= g h) -> avg f <= avg g.
Proof.
  intros f g H. unfold avg, Rdiv. apply Rmult_le_compat_r; [left; apply Rinv_0_lt_compat, c_pos|].
  now apply rsum_le.
Qed.
Lemma avg_ext : forall f g, (forall h, In h U -> f h = g h) -> avg f = avg g.
Proof. intros f g H. unfold avg. now rewrite (rsum_ext f g). Qed.
Lemma avg_const : forall a, avg (fun _ => a) = a.
Proof. intros a. unfold avg. rewrite rsum_const. pose proof c_pos. field. lra. Qed.
Lemma avg_plus : forall f g, avg (fun h => f h + g h) = avg f + avg g.
Proof. intros f g. unfold avg. rewrite rsum_plus. pose proof c_pos. field. lra. Qed.
Lemma avg_scal : forall f a, avg (fun h => a * f h) = a * avg f.
Proof. intros f a. unfold avg. rewrite rsum_scal. pose proof c_pos. field. lra. Qed.

(** One hash. *)
Lemma prod_avg : forall (y : N -> N -> R) v I, NoDup I ->
  (forall i h, In i I -> In h U -> 0 <= y i h) -> (forall i, In i I -> 0 <= v i) ->
  (forall i h, In i I -> In h U -> B h <> i -> y i h = v i) ->
  (forall i h, In i I -> In h U -> v i <= y i h) \/ (forall i h, In i I -> In h U -> y i h <= v i) ->
  avg (fun h => rprod (fun i => y i h) I) <= rprod (fun i => avg (y i)) I.
Proof.
  intros y v I. induction I as [|i I IH]; intros ND Hy Hv Hb Hd.
  - cbn. rewrite avg_const. apply Rle_refl.
  - inversion ND as [|? ? Ni ND']; subst. rewrite rprod_cons.
    set (P := fun h => rprod (fun i => y i h) I) in *. set (V := rprod v I).
    assert (IH' : avg P <= rprod (fun i => avg (y i)) I).
    { apply IH; auto.
      - intros j h Hj. apply Hy. now right.
      - intros j Hj. apply Hv. now right.
      - intros j h Hj. apply Hb. now right.
      - destruct Hd as [Hd|Hd]; [left|right]; intros j h Hj; apply Hd; now right. }
    assert (Hai : 0 <= avg (y i)).
    { rewrite <- (avg_const 0). apply avg_le. intros h Hh. apply Hy; [now left|exact Hh]. }
    apply Rle_trans with (avg (y i) * avg P); [|now apply Rmult_le_compat_l].
    assert (E : avg (fun h => rprod (fun i => y i h) (i :: I)) = avg (fun h => v i * P h + (V * y i h + - (V * v i)))).
    { apply avg_ext. intros h Hh. rewrite rprod_cons. fold (P h).
      destruct (N.eq_dec (B h) i) as [Eb|Nb].
      - assert (P h = V) as ->; [|ring]. unfold P, V. apply rprod_ext. intros j Hj. apply Hb; [now right|exact Hh|].
        rewrite Eb. intros <-. contradiction.
      - rewrite (Hb i h (or_introl eq_refl) Hh Nb). ring. }
    rewrite E, !avg_plus, !avg_scal, avg_const.
    assert (Q : 0 <= (avg (y i) - v i) * (avg P - V)).
    { destruct Hd as [Hd|Hd].
      - apply Rmult_le_pos.
        + assert (v i <= avg (y i)); [|lra]. rewrite <- (avg_const (v i)). apply avg_le. intros h Hh.
          apply Hd; [now left|exact Hh].
        + assert (V <= avg P); [|lra]. rewrite <- (avg_const V). apply avg_le. intros h Hh.
          apply rprod_le. intros j Hj. split; [apply Hv; now right|]. apply Hd; [now right|exact Hh].
      - replace ((avg (y i) - v i) * (avg P - V)) with ((v i - avg (y i)) * (V - avg P)) by ring.
        apply Rmult_le_pos.
        + assert (avg (y i) <= v i); [|lra]. rewrite <- (avg_const (v i)). apply avg_le. intros h Hh.
          apply Hd; [now left|exact Hh].
        + assert (avg P <= V); [|lra]. rewrite <- (avg_const V). apply avg_le. intros h Hh.
          apply rprod_le. intros j Hj. split; [apply Hy; [now right|exact Hh]|]. apply Hd; [now right|exact Hh]. }
    nra.
Qed.

(** Lists of hashes. *)
Fixpoint expect (n : nat) (F : list N -> R) : R :=
  match n with
  | O => F []
  | S n => avg (fun h => expect n (fun hs => F (h :: hs)))
  end.

Fixpoint top (i : N) (hs : list N) : N :=
  match hs with
  | [] => 0%N
  | h :: hs => if (B h =? i)%N then N.max (K h) (top i hs) else top i hs
  end.

Lemma expect_le : forall n F G, (forall hs, F hs <= G hs) -> expect n F <= expect n G.
Proof.
  induction n; intros F G H; cbn [expect]; [apply H|]. apply avg_le. intros h _. apply IHn. intros hs. apply H.
Qed.
Lemma expect_ext : forall n F G, (forall hs, F hs = G hs) -> expect n F = expect n G.
Proof.
  induction n; intros F G H; cbn [expect]; [apply H|]. apply avg_ext. intros h _. apply IHn. intros hs. apply H.
Qed.
Lemma expect_const : forall n a, expect n (fun _ => a) = a.
Proof. induction n; intros a; cbn [expect]; [reflexivity|]. rewrite (avg_ext _ (fun _ => a)); [apply avg_const|]. intros h _. apply IHn. Qed.

Lemma negative : forall n I (g : N -> N -> R), NoDup I -> (forall i v, 0 <= g i v) ->
  (forall i v w, (v <= w)%N -> g i v <= g i w) \/ (forall i v w, (v <= w)%N -> g i w <= g i v) ->
  expect n (fun hs => rprod (fun i => g i (top i hs)) I) <= rprod (fun i => expect n (fun hs => g i (top i hs))) I.
Proof.
  induction n as [|n IH]; intros I g ND H0 Hm; cbn [expect]; [apply Rle_refl|].
  set (g' := fun h i v => if (B h =? i)%N then g i (N.max (K h) v) else g i v).
  assert (Eg : forall i h hs, g i (top i (h :: hs)) = g' h i (top i hs)).
  { intros i h hs. unfold g'. cbn [top]. now destruct (B h =? i)%N. }
  assert (Hg' : forall h i v, 0 <= g' h i v) by (intros h i v; unfold g'; destruct (B h =? i)%N; apply H0).
  apply Rle_trans with (avg (fun h => rprod (fun i => expect n (fun hs => g' h i (top i hs))) I)).
  - apply avg_le. intros h _. rewrite (expect_ext n _ (fun hs => rprod (fun i => g' h i (top i hs)) I)).
    2:{ intros hs. apply rprod_ext. intros i _. apply Eg. }
    apply IH; auto. unfold g'. destruct Hm as [Hm|Hm]; [left|right]; intros i v w L;
      destruct (B h =? i)%N; apply Hm; lia.
  - rewrite (rprod_ext _ (fun i => avg (fun h => expect n (fun hs => g i (top i (h :: hs)))))
                         (fun i => avg (fun h => expect n (fun hs => g' h i (top i hs))))).
    2:{ intros i _. apply avg_ext. intros h _. apply expect_ext. intros hs. apply Eg. }
    apply (prod_avg (fun i h => expect n (fun hs => g' h i (top i hs))) (fun i => expect n (fun hs => g i (top i hs)))).
    + exact ND.
    + intros i h _ _. rewrite <- (expect_const n 0). apply expect_le. intros hs. apply Hg'.
    + intros i _. rewrite <- (expect_const n 0). apply expect_le. intros hs. apply H0.
    + intros i h _ _ Nb. apply expect_ext. intros hs. unfold g'. destruct (N.eqb_spec (B h) i); congruence.
    + unfold g'. destruct Hm as [Hm|Hm]; [left|right]; intros i h _ _; apply expect_le; intros hs;
        destruct (B h =? i)%N; try apply Rle_refl; apply Hm; lia.
Qed.

Lemma expect_sum : forall n F, rsum F (lists_of U n) = c ^ n * expect n F.
Proof.
  induction n; intros F; cbn [lists_of expect pow].
  - cbn. lra.
  - assert (G : forall l, rsum F (flat_map (fun x => map (cons x) (lists_of U n)) l)
                = rsum (fun h => c ^ n * expect n (fun hs => F (h :: hs))) l).
    { induction l; [reflexivity|]. cbn [flat_map]. rewrite rsum_app, rsum_cons, IHl, rsum_map. f_equal. apply IHn. }
    rewrite G, rsum_scal. unfold avg. pose proof c_pos. field. lra.
Qed.
End Negative.
