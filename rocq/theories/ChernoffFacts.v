(** * Exponential bounds for sums over the registers *)
From Coq Require Import NArith ZArith Reals List Bool Lia Lra Permutation.
From Verif Require Import ModelRust Spec SpecReal SpecDist SpecProb BitFacts CountFacts DistFacts ProbFacts MomentFacts NegFacts.
Import ListNotations.
Local Open Scope R_scope.

Lemma lists_of_enum : forall W n, enumerates (hash_list W n) (lists_of (range (2 ^ W)) n).
Proof.
  intros W n. split.
  - induction n; cbn [lists_of]; [repeat constructor; intros []|]. apply nodup_flat; [apply range_NoDup|exact IHn].
  - intros t. rewrite lists_of_in. unfold hash_list.
    split; intros [? F]; (split; [assumption|]); (eapply Forall_impl; [|exact F]); intros x; apply range_in.
Qed.

Lemma top_register : forall W p i hs, is_register W p hs i (top (bucket W p) (rank W p) i hs).
Proof.
  intros W p i hs. induction hs as [|h hs [IH1 IH2]]; cbn [top].
  - split; [intros h []|now left].
  - destruct (N.eqb_spec (bucket W p h) i) as [E|NE].
    + split.
      * intros h' [<-|H'] E'; [lia|]. specialize (IH1 h' H' E'). lia.
      * right. destruct (N.max_spec (rank W p h) (top (bucket W p) (rank W p) i hs)) as [[L ->]|[L ->]].
        -- destruct IH2 as [Z|(h' & H' & E' & R')]; [lia|]. exists h'. split; [now right|now split].
        -- exists h. split; [now left|now split].
    + split.
      * intros h' [<-|H'] E'; [contradiction|]. now apply IH1.
      * destruct IH2 as [Z|(h' & H' & E' & R')]; [now left|right]. exists h'. split; [now right|now split].
Qed.

Lemma register_unique : forall W p hs i v w, is_register W p hs i v -> is_register W p hs i w -> v = w.
Proof.
  assert (Le : forall W p hs i v w, is_register W p hs i v -> is_register W p hs i w -> (v <= w)%N).
  { intros W p hs i v w [_ A] [U _]. destruct A as [->|(h & H & E & <-)]; [lia|]. now apply U. }
  intros. apply N.le_antisymm; eauto.
Qed.

Lemma count_pos : forall W n all, enumerates (hash_list W n) all -> 0 < INR (length all).
Proof. intros W n all E. rewrite (total_R W n all E). apply pow2_pos. nia. Qed.

Lemma U_nonempty : forall W, range (2 ^ W) <> [].
Proof.
  intros W E. assert (I : In 0%N (range (2 ^ W))). { apply range_in. pose proof (N.pow_nonzero 2 W ltac:(discriminate)). lia. }
  rewrite E in I. destruct I.
Qed.


Section Files.
Variables (W p : N) (n : nat) (file : list N -> list N) (all : list (list N)).
Hypothesis Hp : (p < W)%N.
Hypothesis HF : register_files W p n file.
Hypothesis HE : enumerates (hash_list W n) all.

Notation T := (INR (length all)).
Notation U := (range (2 ^ W)).
Notation reg i hs := (nth (N.to_nat i) (file hs) 0%N).
Notation tp := (top (bucket W p) (rank W p)).

Lemma all_expect : forall F, rsum F all = T * expect U n F.
Proof.
  intros F. pose proof (enum_perm _ _ _ _ HE (lists_of_enum W n)) as P. rewrite (rsum_perm F _ _ P).
  rewrite (expect_sum U (U_nonempty W) n F). f_equal.
  rewrite (Permutation_length P), lists_of_length. generalize (length U). intros c.
  clear. induction n; [cbn; lra|]. cbn [Nat.pow pow]. rewrite mult_INR. now rewrite IHn0.
Qed.

Lemma reg_top : forall i hs, In hs all -> (i < 2 ^ p)%N -> reg i hs = tp i hs.
Proof.
  intros i hs Hh Hi. apply (register_unique W p hs i); [|apply top_register].
  apply file_nth; [|exact Hi]. apply HF. now apply HE.
Qed.

Lemma expect_mean : forall g i, (i < 2 ^ p)%N -> expect U n (fun hs => g (tp i hs)) = mean W p n g.
Proof.
  intros g i Hi. pose proof (count_pos W n all HE) as TP.
  apply Rmult_eq_reg_l with T; [|lra]. rewrite <- all_expect, <- (mean_one W p n file all Hp HF HE g i Hi).
  apply rsum_ext. intros hs Hh. now rewrite reg_top.
Qed.

Theorem product_mean : forall g, (forall v, 0 <= g v) ->
  (forall v w, (v <= w)%N -> g v <= g w) \/ (forall v w, (v <= w)%N -> g w <= g v) ->
  rsum (fun hs => rprod g (file hs)) all <= T * mean W p n g ^ N.to_nat (2 ^ p).
Proof.
  intros g H0 Hm. pose proof (count_pos W n all HE) as TP.
  rewrite (rsum_ext _ (fun hs => rprod (fun i => g (tp i hs)) (range (2 ^ p)))).
  2:{ intros hs Hh. destruct (HF hs (proj1 (proj2 HE hs) Hh)) as [L _]. rewrite (nth_range (file hs) (2 ^ p) L) at 1.
      assert (E : forall r, (forall i, In i r -> i < 2 ^ p)%N ->
        rprod g (map (fun i => reg i hs) r) = rprod (fun i => g (tp i hs)) r).
      { induction r as [|i r IH]; intros Hr; [reflexivity|]. cbn [map]. rewrite !rprod_cons, IH.
        - rewrite reg_top; auto. apply Hr. now left.
        - intros j Hj. apply Hr. now right. }
      apply E. intros i Hi. now apply range_in. }
  rewrite all_expect. apply Rmult_le_compat_l; [lra|].
  eapply Rle_trans; [apply (negative U _ _ (U_nonempty W) n (range (2 ^ p)) (fun _ => g)); auto using range_NoDup|].
  - destruct Hm as [Hm|Hm]; [left|right]; intros _; exact Hm.
  - apply Req_le. rewrite (rprod_ext _ _ (fun _ => mean W p n g)).
    + rewrite rprod_const, range_length. reflexivity.
    + intros i Hi. apply expect_mean. now apply range_in.
Qed.

(** The mean is monotone and linear. *)
Lemma mean_le : forall f g, (forall v, (v <= W - p + 1)%N -> f v <= g v) -> mean W p n f <= mean W p n g.
Proof.
  intros f g H. pose proof (count_pos W n all HE) as TP. apply Rmult_le_reg_l with (1 := TP).
  assert (Z : (0 < 2 ^ p)%N) by (pose proof (N.pow_nonzero 2 p ltac:(discriminate)); lia).
  rewrite <- !(mean_one W p n file all Hp HF HE _ 0%N Z). apply rsum_le. intros hs Hh. apply H.
  now apply (reg_le W p n file all Hp HF HE).
Qed.
End Files.

Lemma mean_lin : forall W p n f g a b, mean W p n (fun v => a * f v + b * g v) = a * mean W p n f + b * mean W p n g.
Proof.
  intros W p n f g a b. unfold mean. rewrite !Rmult_plus_distr_l, <- !rsum_scal.
  rewrite (rsum_ext _ (fun k => a * ((f k - f (k + 1)%N) * below p n k) + b * ((g k - g (k + 1)%N) * below p n k)))
    by (intros; ring). rewrite rsum_plus. ring.
Qed.

Lemma mean_const : forall W p n c, mean W p n (fun _ => c) = c.
Proof.
  intros W p n c. unfold mean. rewrite (rsum_ext _ (fun _ => 0)) by (intros; ring). rewrite rsum_const. ring.
Qed.

(** ** Chernoff's bound *)
Theorem chernoff : forall W p n file g l w s, (p < W)%N -> register_files W p n file ->
  (forall u v, (u <= v)%N -> g u <= g v) \/ (forall u v, (u <= v)%N -> g v <= g u) ->
  mean W p n (fun v => exp (l * g v)) <= exp w ->
  rare W n (exp (IZR (2 ^ Z.of_N p) * w - s)) (fun hs => s <= l * rsum g (file hs)).
Proof.
  intros W p n file g l w s HW F Hm Hw. destruct (hash_lists_exist W n) as (all & E).
  pose proof (count_pos W n all E) as TP.
  assert (M : rsum (fun hs => exp (l * rsum g (file hs))) all <= INR (length all) * exp (IZR (2 ^ Z.of_N p) * w)).
  { rewrite (rsum_ext _ (fun hs => rprod (fun v => exp (l * g v)) (file hs))).
    2:{ intros hs _. now rewrite rprod_exp, rsum_scal. }
    eapply Rle_trans; [apply (product_mean W p n file all HW F E (fun v => exp (l * g v)))|].
    - intros v. left. apply exp_pos.
    - assert (EI : forall x y, x <= y -> exp x <= exp y) by (intros x y [H| ->]; [left; now apply exp_increasing|apply Rle_refl]).
      destruct (Rle_or_lt 0 l) as [L|L]; destruct Hm as [Hm|Hm];
        [left|right|right|left]; intros u v Huv; apply EI; specialize (Hm u v Huv); nra.
    - apply Rmult_le_compat_l; [lra|].
      apply Rle_trans with (exp w ^ N.to_nat (2 ^ p)).
      + apply pow_incr. split; [|exact Hw].
        rewrite <- (mean_const W p n 0). apply (mean_le W p n file all HW F E). intros v _. left. apply exp_pos.
      + right. rewrite <- Rpower_pow by apply exp_pos. unfold Rpower. rewrite ln_exp. f_equal. f_equal.
        rewrite INR_IZR_INZ, N_nat_Z, N2Z.inj_pow. reflexivity. }
  intros ls D B. rewrite <- (total_R W n all E).
  apply Rmult_le_reg_r with (exp s); [apply exp_pos|].
  replace (exp (IZR (2 ^ Z.of_N p) * w - s) * INR (length all) * exp s) with (INR (length all) * exp (IZR (2 ^ Z.of_N p) * w)).
  2:{ unfold Rminus. rewrite exp_plus, exp_Ropp. field. pose proof (exp_pos s). lra. }
  eapply Rle_trans; [|exact M]. rewrite <- (rsum_const (exp s) ls).
  apply Rle_trans with (rsum (fun hs => exp (l * rsum g (file hs))) ls).
  - apply rsum_le. intros hs Hh. destruct (B hs Hh) as [_ [H|H]]; [left; now apply exp_increasing|rewrite H; apply Rle_refl].
  - apply rsum_incl; [exact D| |].
    + intros hs Hh. apply E, B, Hh.
    + intros hs _. left. apply exp_pos.
Qed.
