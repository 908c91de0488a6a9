(** * Binary search *)
From Coq Require Import NArith ZArith List Bool Lia.
From Verif Require Import ModelRust ModelEnv SpecBuild BitFacts.
Local Open Scope N_scope.

Lemma half_facts : forall d, 1 <= d -> d / 2 < d /\ 2 * (d / 2) <= d /\ d < 2 * (d / 2) + 2.
Proof.
  intros d Hd. pose proof (N.div_mod d 2 ltac:(discriminate)).
  pose proof (N.mod_lt d 2 ltac:(discriminate)). nlia.
Qed.

Lemma bsearch_early_ok : bsearch_spec bsearch_early.
Proof.
  intros n f Hf. unfold bsearch_early.
  assert (G : forall fuel l r, (N.to_nat (r - l) < fuel)%nat -> l <= r -> r <= n ->
    (0 < l -> f (l - 1) = Ret Lt) -> (r < n -> f r = Ret Gt) ->
    exists res, bsearch_early_loop fuel f l r = Ret res /\
      match res with
      | BsOk i => i < n /\ f i = Ret Eq
      | BsErr i => i <= n /\ (0 < i -> f (i - 1) = Ret Lt) /\ (i < n -> f i = Ret Gt)
      end).
  { induction fuel as [|fuel IH]; intros l r Hfu Hlr Hrn Hl Hr; [lia|].
    cbn [bsearch_early_loop]. destruct (N.ltb_spec l r) as [Hlt|Hge].
    - destruct (half_facts (r - l) ltac:(lia)) as (D1 & D2 & D3).
      set (q := (r - l) / 2) in *. clearbody q.
      destruct (Hf (l + q) ltac:(lia)) as (c & Ec). rewrite Ec, bind_ret. destruct c.
      + exists (BsOk (l + q)). split; auto. split; [lia|auto].
      + apply IH; try lia; auto. intros _. replace (l + q + 1 - 1) with (l + q) by lia. auto.
      + apply IH; try lia; auto.
    - exists (BsErr l). split; auto. assert (l = r) by lia. subst r. auto. }
  apply G; try lia.
Qed.

Lemma bsearch_halving_ok : bsearch_spec bsearch_halving.
Proof.
  intros n f Hf. unfold bsearch_halving. destruct (N.eqb_spec n 0) as [->|Hn].
  { exists (BsErr 0). split; auto. split; [lia|]. split; lia. }
  assert (G : forall fuel b s, (N.to_nat s < fuel)%nat -> 1 <= s -> b + s <= n ->
    (0 < b -> f b = Ret Lt \/ f b = Ret Eq) ->
    (b + s = n \/ f (b + s) = Ret Gt \/ f (b + s - 1) = Ret Gt) ->
    exists b', bsearch_halving_loop fuel f b s = Ret b' /\ b' < n /\
      (0 < b' -> f b' = Ret Lt \/ f b' = Ret Eq) /\
      (b' + 1 = n \/ f (b' + 1) = Ret Gt \/ f b' = Ret Gt)).
  { induction fuel as [|fuel IH]; intros b s Hfu Hs Hbs Hb He; [lia|].
    cbn [bsearch_halving_loop]. destruct (N.ltb_spec 1 s) as [Hlt|Hge].
    - destruct (half_facts s ltac:(lia)) as (D1 & D2 & D3).
      set (q := s / 2) in *. clearbody q.
      destruct (Hf (b + q) ltac:(lia)) as (c & Ec). rewrite Ec, bind_ret.
      destruct c; apply IH; try lia; auto.
      + replace (b + q + (s - q)) with (b + s) by lia. auto.
      + replace (b + q + (s - q)) with (b + s) by lia. auto.
      + right. destruct (N.eq_dec (s - q) q) as [E|E].
        * left. rewrite E. auto.
        * right. replace (b + (s - q) - 1) with (b + q) by lia. auto.
    - exists b. split; auto. assert (s = 1) by lia. subst s. split; [lia|].
      replace (b + 1 - 1) with b in He by lia. auto. }
  destruct (G (S (N.to_nat n)) 0 n) as (b & E & Hbn & Hb & He); try lia; auto.
  rewrite E, bind_ret. destruct (Hf b Hbn) as (c & Ec). rewrite Ec, bind_ret.
  eexists. split; [reflexivity|]. destruct c.
  - auto.
  - split; [lia|]. split.
    + intros _. replace (b + 1 - 1) with b by lia. auto.
    + intros Hlt. destruct He as [He|[He|He]]; auto; [lia|]. congruence.
  - split; [lia|]. split; auto. intros H0. destruct (Hb H0); congruence.
Qed.
