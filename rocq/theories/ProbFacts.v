(** * Moments of sums over registers, over all hash assignments *)
From Coq Require Import NArith ZArith Reals List Bool Lia Lra Permutation.
From Verif Require Import ModelRust Spec SpecDist SpecProb BitFacts CountFacts DistFacts.
Import ListNotations.
Local Open Scope R_scope.

(** ** Sums *)
Section Sums.
Context {A : Type}.

Lemma rsum_cons : forall (f : A -> R) x l, rsum f (x :: l) = f x + rsum f l.
Proof. reflexivity. Qed.

Lemma rsum_ext : forall (f g : A -> R) l, (forall x, In x l -> f x = g x) -> rsum f l = rsum g l.
Proof.
  induction l; intros H; [reflexivity|]. rewrite !rsum_cons. rewrite H by now left.
  rewrite IHl; [reflexivity|]. intros x Hx. apply H. now right.
Qed.

Lemma rsum_le : forall (f g : A -> R) l, (forall x, In x l -> f x <= g x) -> rsum f l <= rsum g l.
Proof.
  induction l; intros H; [apply Rle_refl|]. rewrite !rsum_cons. apply Rplus_le_compat.
  - apply H. now left.
  - apply IHl. intros x Hx. apply H. now right.
Qed.

Lemma rsum_plus : forall (f g : A -> R) l, rsum (fun x => f x + g x) l = rsum f l + rsum g l.
Proof. induction l; [cbn; lra|]. rewrite !rsum_cons, IHl. lra. Qed.

Lemma rsum_scal : forall (f : A -> R) c l, rsum (fun x => c * f x) l = c * rsum f l.
Proof. induction l; [cbn; lra|]. rewrite !rsum_cons, IHl. lra. Qed.

Lemma rsum_const : forall c (l : list A), rsum (fun _ => c) l = INR (length l) * c.
Proof. induction l; [cbn; lra|]. rewrite rsum_cons, IHl. cbn [length]. rewrite S_INR. lra. Qed.

Lemma rsum_nonneg : forall (f : A -> R) l, (forall x, In x l -> 0 <= f x) -> 0 <= rsum f l.
Proof.
  intros f l H. rewrite <- (Rmult_0_r (INR (length l))), <- (rsum_const 0 l). now apply rsum_le.
Qed.

Lemma rsum_perm : forall (f : A -> R) l l', Permutation l l' -> rsum f l = rsum f l'.
Proof.
  intros f l l' P. induction P; rewrite ?rsum_cons; try lra.
Qed.

Lemma rsum_app : forall (f : A -> R) l l', rsum f (l ++ l') = rsum f l + rsum f l'.
Proof. induction l; intros l'; [cbn [app]; change (rsum f []) with 0; lra|]. cbn [app]. rewrite !rsum_cons, IHl. lra. Qed.

(** A duplicate-free part of a list has the smaller sum. *)
Lemma rsum_incl : forall (f : A -> R) l l', NoDup l -> incl l l' -> (forall x, In x l' -> 0 <= f x) ->
  rsum f l <= rsum f l'.
Proof.
  intros f l. induction l as [|x l IH]; intros l' D I P.
  - now apply rsum_nonneg.
  - inversion D; subst. destruct (in_split x l' (I x (or_introl eq_refl))) as (a & b & ->).
    rewrite rsum_cons, rsum_app, rsum_cons.
    enough (rsum f l <= rsum f (a ++ b)) by (rewrite rsum_app in H; lra).
    apply IH; [assumption| |].
    + intros y Hy. specialize (I y (or_intror Hy)). rewrite in_app_iff in *. destruct I as [?|[->|?]]; tauto.
    + intros y Hy. apply P. rewrite in_app_iff in *. cbn [In]. tauto.
Qed.
End Sums.

Lemma rsum_swap : forall (A B : Type) (f : A -> B -> R) la lb,
  rsum (fun a => rsum (f a) lb) la = rsum (fun b => rsum (fun a => f a b) la) lb.
Proof.
  induction la; intros lb.
  - cbn. rewrite rsum_const. lra.
  - rewrite rsum_cons, IHla, <- rsum_plus. reflexivity.
Qed.

Lemma rsum_map : forall (A B : Type) (f : B -> R) (g : A -> B) l, rsum f (map g l) = rsum (fun x => f (g x)) l.
Proof. induction l; [reflexivity|]. cbn [map]. now rewrite !rsum_cons, IHl. Qed.

(** ** Chebyshev *)
Lemma total_R : forall W n all, enumerates (hash_list W n) all ->
  INR (length all) = IZR (2 ^ (Z.of_N W * Z.of_nat n)).
Proof.
  intros W n all E. assert (T : N.of_nat (length all) = (2 ^ (W * N.of_nat n))%N).
  { rewrite N.pow_mul_r. apply (size_of_unique _ (hash_list W n)); [now exists all|].
    eapply size_of_ext; [|apply (lists_size (fun h => h < 2 ^ W)%N (2 ^ W) n)]; [reflexivity|].
    apply size_of_has. eapply has_size_ext; [|apply (seq_size 0 (2 ^ W))]. intros x. cbv beta. lia. }
  rewrite INR_IZR_INZ. f_equal. rewrite <- nat_N_Z, T, N2Z.inj_pow, N2Z.inj_mul, nat_N_Z. reflexivity.
Qed.

Lemma hash_lists_exist : forall W n, exists all, enumerates (hash_list W n) all.
Proof.
  intros W n. assert (S : size_of (fun h => h < 2 ^ W)%N (2 ^ W)).
  { apply size_of_has. eapply has_size_ext; [|apply (seq_size 0 (2 ^ W))]. intros x. cbv beta. lia. }
  destruct (lists_size _ _ n S) as (l & H & _). now exists l.
Qed.

Theorem chebyshev : forall W n all (G : list N -> R) mu v t, enumerates (hash_list W n) all ->
  0 < t -> rsum (fun hs => (G hs - mu) ^ 2) all <= v * INR (length all) ->
  rare W n (v / t ^ 2) (fun hs => t <= Rabs (G hs - mu)).
Proof.
  intros W n all G mu v t E Ht V l D B.
  assert (T2 : 0 < t ^ 2) by (apply pow_lt; lra).
  rewrite <- (total_R W n all E).
  apply Rmult_le_reg_r with (1 := T2). unfold Rdiv.
  replace (v * / t ^ 2 * INR (length all) * t ^ 2) with (v * INR (length all)) by (field; lra).
  eapply Rle_trans; [|exact V].
  apply Rle_trans with (rsum (fun hs => (G hs - mu) ^ 2) l).
  - rewrite <- (rsum_const (t ^ 2) l). apply rsum_le. intros hs Hh. destruct (B hs Hh) as [_ H].
    rewrite <- (pow2_abs (G hs - mu)). apply pow_incr. lra.
  - apply rsum_incl; [exact D| |].
    + intros hs Hh. apply E, B, Hh.
    + intros hs _. apply pow2_ge_0.
Qed.

Lemma rare_weaken : forall W n d d' (P Q : list N -> Prop), rare W n d P -> d <= d' ->
  (forall hs, hash_list W n hs -> Q hs -> P hs) -> rare W n d' Q.
Proof.
  intros W n d d' P Q H Hd I l D B. apply Rle_trans with (d * IZR (2 ^ (Z.of_N W * Z.of_nat n))).
  - apply H; [exact D|]. intros hs Hh. destruct (B hs Hh). auto.
  - apply Rmult_le_compat_r; [|exact Hd]. apply IZR_le. apply Z.pow_nonneg. lia.
Qed.

Lemma rare_or : forall W n d d' (P Q : list N -> Prop), rare W n d P -> rare W n d' Q ->
  (forall hs, P hs \/ ~ P hs) -> rare W n (d + d') (fun hs => P hs \/ Q hs).
Proof.
  intros W n d d' P Q HP HQ Dec l D B.
  assert (S : exists a b, NoDup a /\ NoDup b /\ length l = (length a + length b)%nat /\ incl a l /\ incl b l /\
            (forall x, In x a -> P x) /\ (forall x, In x b -> Q x)).
  { clear HP HQ. induction l as [|x l IH].
    - exists [], []. repeat split; try constructor; intros ? [].
    - inversion D; subst. destruct IH as (a & b & Ha & Hb & L & Ia & Ib & Pa & Qb);
        [assumption| |]. { intros hs Hh. apply B. now right. }
      destruct (Dec x) as [Px|Nx].
      + exists (x :: a), b. split; [constructor; auto|]. split; [exact Hb|].
        split; [cbn [length]; lia|]. split; [intros y [->|Hy]; [now left|right; auto]|].
        split; [intros y Hy; right; auto|]. split; [intros y [<-|Hy]; auto|auto].
      + destruct (B x (or_introl eq_refl)) as [_ [Px|Qx]]; [tauto|].
        exists a, (x :: b). split; [exact Ha|]. split; [constructor; auto|].
        split; [cbn [length]; lia|]. split; [intros y Hy; right; auto|].
        split; [intros y [->|Hy]; [now left|right; auto]|]. split; [auto|intros y [<-|Hy]; auto]. }
  destruct S as (a & b & Ha & Hb & L & Ia & Ib & Pa & Qb). rewrite L, plus_INR, Rmult_plus_distr_r.
  apply Rplus_le_compat.
  - apply HP; [exact Ha|]. intros hs Hh. split; [apply B, Ia, Hh|auto].
  - apply HQ; [exact Hb|]. intros hs Hh. split; [apply B, Ib, Hh|auto].
Qed.
