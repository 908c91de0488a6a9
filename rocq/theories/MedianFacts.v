(** * The median of exp.py, its statistics of rows, and examples *)
From Coq Require Import NArith ZArith Reals List Permutation Bool Lia Lra Psatz.
From Flocq Require Import Core BinarySingleNaN.
From Verif Require Import ModelRust ModelF64 ModelFiles ModelExp ModelStats SpecRust SpecFiles SpecExp SpecStats F64Facts StatsFacts ExpStats ExpMain.
Import ListNotations.
Local Open Scope R_scope.

(** ** Halves and doubles *)
Lemma double_generic : forall x : f64, rnd (2 * val x) = 2 * val x.
Proof.
  intros x. apply rnd_generic. pose proof (generic_format_B2R 53 1024 x) as G.
  change (SpecFloat.fexp 53 1024) with (FLT_exp (-1074) 53) in G.
  apply FLT_format_generic in G; [|reflexivity]. destruct G as [f E1 E2 E3].
  apply generic_format_FLT. exists (Defs.Float radix2 (Fnum f) (Fexp f + 1)); cbn [Fnum Fexp]; [|exact E2|lia].
  unfold val. rewrite E1. unfold F2R. cbn [Fnum Fexp]. rewrite bpow_plus. change (bpow radix2 1) with 2. ring.
Qed.

Lemma between : forall x y : f64, val x <= val y -> val x <= rnd (rnd (val x + val y) / 2) <= val y.
Proof.
  intros x y H. split.
  - rewrite <- (rnd_id x) at 1. apply rnd_le. assert (rnd (2 * val x) <= rnd (val x + val y)) by (apply rnd_le; lra).
    rewrite double_generic in H0. lra.
  - rewrite <- (rnd_id y) at 2. apply rnd_le. assert (rnd (val x + val y) <= rnd (2 * val y)) by (apply rnd_le; lra).
    rewrite double_generic in H0. lra.
Qed.

(** ** The middle is unique *)
Definition count (p : R -> bool) (l : list R) : nat := length (filter p l).

Lemma count_perm : forall p a b, Permutation a b -> count p a = count p b.
Proof.
  intros p a b H. unfold count. induction H; cbn; auto.
  - destruct (p x); cbn; lia.
  - destruct (p x), (p y); reflexivity.
  - lia.
Qed.

Lemma count_app : forall p a b, count p (a ++ b) = (count p a + count p b)%nat.
Proof. intros. unfold count. rewrite filter_app, app_length. reflexivity. Qed.

Lemma count_all : forall p a, List.Forall (fun x => p x = true) a -> count p a = length a.
Proof. intros p a H. unfold count. induction H; cbn; auto. rewrite H. cbn. lia. Qed.

Lemma count_none : forall p a, List.Forall (fun x => p x = false) a -> count p a = 0%nat.
Proof. intros p a H. unfold count. induction H; cbn; auto. now rewrite H. Qed.

Lemma count_le : forall p a, (count p a <= length a)%nat.
Proof. intros p a. unfold count. induction a as [|x a IH]; cbn; auto. destruct (p x); cbn; lia. Qed.

Lemma count_cons : forall p x a, count p (x :: a) = ((if p x then 1 else 0) + count p a)%nat.
Proof. intros. unfold count. cbn. now destruct (p x). Qed.

(** How many elements are at most [c], or at least [c]. *)
Lemma middle_low : forall l a b c, middle l a b -> exists h, (length l = 2 * h + 1 \/ length l = 2 * h + 2)%nat /\
  (a <= c -> (h + 1 <= count (fun x => Rle_bool x c) l)%nat) /\ (c < a -> (count (fun x => Rle_bool x c) l <= h)%nat) /\
  (c <= b -> (h + 1 <= count (fun x => Rle_bool c x) l)%nat) /\ (b < c -> (count (fun x => Rle_bool c x) l <= h)%nat).
Proof.
  intros l a b c (low & high & A & B & AB & L & P). exists (length low).
  assert (LL : a <= c -> count (fun x => Rle_bool x c) low = length low).
  { intros H. apply count_all. eapply Forall_impl; [|exact A]. cbn. intros x Hx. apply Rle_bool_true. lra. }
  assert (LH : c < a -> count (fun x => Rle_bool x c) high = 0%nat).
  { intros H. apply count_none. eapply Forall_impl; [|exact B]. cbn. intros x Hx. apply Rle_bool_false. lra. }
  assert (HH : c <= b -> count (fun x => Rle_bool c x) high = length high).
  { intros H. apply count_all. eapply Forall_impl; [|exact B]. cbn. intros x Hx. apply Rle_bool_true. lra. }
  assert (HL : b < c -> count (fun x => Rle_bool c x) low = 0%nat).
  { intros H. apply count_none. eapply Forall_impl; [|exact A]. cbn. intros x Hx. apply Rle_bool_false. lra. }
  pose proof (count_le (fun x => Rle_bool x c) low). pose proof (count_le (fun x => Rle_bool c x) high).
  assert (T : forall x y, x <= y -> Rle_bool x y = true) by (intros; now apply Rle_bool_true).
  assert (F : forall x y, y < x -> Rle_bool x y = false) by (intros; now apply Rle_bool_false).
  destruct P as [[E P]|P].
  - subst b. rewrite (Permutation_length P), !(count_perm _ _ _ P), !count_app, !count_cons, app_length. cbn [length].
    split; [lia|]. split; [|split; [|split]]; intros K.
    + rewrite LL, T by lra. lia.
    + rewrite LH, F by lra. lia.
    + rewrite HH, T by lra. lia.
    + rewrite HL, F by lra. lia.
  - rewrite (Permutation_length P), !(count_perm _ _ _ P), !count_app, !count_cons, app_length. cbn [length].
    split; [lia|]. split; [|split; [|split]]; intros K.
    + rewrite LL, T by lra. lia.
    + rewrite LH, !F by lra. lia.
    + rewrite HH, (T c b) by lra. lia.
    + rewrite HL, !F by lra. lia.
Qed.

Lemma middle_unique : forall l a b a' b', middle l a b -> middle l a' b' -> a = a' /\ b = b'.
Proof.
  intros l a b a' b' H H'. split.
  - destruct (Rtotal_order a a') as [C|[C|C]]; [|exact C|]; exfalso.
    + destruct (middle_low l a b a H) as (h & L & I & _). destruct (middle_low l a' b' a H') as (h' & L' & _ & J & _).
      specialize (I (Rle_refl _)). specialize (J C). lia.
    + destruct (middle_low l a b a' H) as (h & L & _ & J & _). destruct (middle_low l a' b' a' H') as (h' & L' & I & _).
      specialize (I (Rle_refl _)). specialize (J C). lia.
  - destruct (Rtotal_order b b') as [C|[C|C]]; [|exact C|]; exfalso.
    + destruct (middle_low l a b b' H) as (h & L & _ & _ & _ & J). destruct (middle_low l a' b' b' H') as (h' & L' & _ & _ & I & _).
      specialize (I (Rle_refl _)). specialize (J C). lia.
    + destruct (middle_low l a b b H) as (h & L & _ & _ & I & _). destruct (middle_low l a' b' b H') as (h' & L' & _ & _ & _ & J).
      specialize (I (Rle_refl _)). specialize (J C). lia.
Qed.

(** ** The median *)
Lemma split_at : forall (A : Type) (l : list A) k, (k < length l)%nat -> exists y,
  nth_error l k = Some y /\ l = firstn k l ++ y :: skipn (Datatypes.S k) l /\ skipn k l = y :: skipn (Datatypes.S k) l.
Proof.
  induction l as [|x l IH]; intros k H; [cbn in H; lia|]. destruct k as [|k]; [exists x; easy|].
  destruct (IH k ltac:(cbn in H; lia)) as (y & E & P & Q). exists y. cbn. split; [exact E|]. split; [now f_equal|exact Q].
Qed.

Lemma firstn_nth : forall (A : Type) (l : list A) k x, In x (firstn k l) -> exists i, (i < k)%nat /\ nth_error l i = Some x.
Proof.
  induction l as [|z l IH]; intros [|k] x H; cbn in H; try easy. destruct H as [->|H]; [exists 0%nat; split; [lia|reflexivity]|].
  destruct (IH k x H) as (i & L & E). exists (Datatypes.S i). split; [lia|exact E].
Qed.

Lemma skipn_nth : forall (A : Type) (l : list A) k x, In x (skipn k l) -> exists i, (k <= i)%nat /\ nth_error l i = Some x.
Proof.
  induction l as [|z l IH]; intros k x H.
  - destruct k; easy.
  - destruct k as [|k].
    + apply In_nth_error in H as [i E]. exists i. split; [lia|exact E].
    + destruct (IH k x H) as (i & L & E). exists (Datatypes.S i). split; [lia|exact E].
Qed.

Lemma in_place_low : forall part k y, List.Forall good part -> in_place part k -> nth_error part k = Some y ->
  List.Forall (fun x => x <= val y) (map val (firstn k part)) /\ List.Forall (fun x => val y <= x) (map val (skipn (Datatypes.S k) part)).
Proof.
  intros part k y G H E.
  assert (F : forall i x, nth_error part i = Some x -> fin x).
  { intros i x Hi. rewrite Forall_forall in G. apply G. now apply (nth_error_In _ i). }
  pose proof (F _ _ E) as Fy.
  split; apply Forall_forall; intros r Hr; apply in_map_iff in Hr as (x & <- & Hx).
  - apply firstn_nth in Hx as (i & L & Ei). pose proof (proj1 (H i x y Ei E) L) as K.
    rewrite fle_spec in K by eauto. revert K. case Rle_bool_spec; easy.
  - apply skipn_nth in Hx as (i & L & Ei). pose proof (proj2 (H i x y Ei E) ltac:(lia)) as K.
    rewrite fle_spec in K by eauto. revert K. case Rle_bool_spec; easy.
Qed.

Lemma median_middle : forall xs m, sample xs -> np_median xs m ->
  is_finite m = true /\ exists a b, middle (map B2R xs) a b /\ B2R m = rounded (rounded (a + b) / 2) /\ a <= B2R m <= b.
Proof.
  intros xs m S (part & P & H). destruct (sample_good xs S) as (G & T0 & _). pose proof (sample_total xs S) as T.
  destruct S as (Hn & Hl & _).
  assert (G' : List.Forall good part).
  { apply Forall_forall. intros x Hx. rewrite Forall_forall in G. apply G. now apply (Permutation_in _ (Permutation_sym P)). }
  assert (LP : length part = length xs) by (symmetry; now apply Permutation_length).
  assert (TP : total (map val part) = total (map val xs)) by (apply total_perm, Permutation_map; now apply Permutation_sym).
  assert (PV : Permutation (map val xs) (map val part)) by now apply Permutation_map.
  pose proof (Nat.div2_odd (length xs)) as O. set (k := Nat.div2 (length xs)) in *.
  assert (KB : bpow radix2 450 <= bpow radix2 1000) by (apply bpow_le; lia).
  assert (SUB : forall a b c : list f64, part = a ++ b ++ c -> List.Forall good b /\ total (map val b) <= bpow radix2 1000).
  { intros a b c E. rewrite E in G', TP. apply Forall_app in G' as [Ga Gbc]. apply Forall_app in Gbc as [Gb Gc]. split; [exact Gb|].
    rewrite !map_app, !total_app in TP. pose proof (good_total _ Ga). pose proof (good_total _ Gc). lra. }
  change B2R with val. cbv zeta in H.
  destruct (Nat.odd (length xs)) eqn:OD; cbn [Nat.b2n] in O.
  - destruct H as [I M]. destruct (split_at _ part k ltac:(lia)) as (y & Ey & E & Es). rewrite Es in M. cbn [firstn] in M.
    destruct (SUB (firstn k part) [y] (skipn (Datatypes.S k) part) E) as [Gy Ty].
    destruct (mean_range [y] m) as (Fm & _ & _ & V & _); auto; [discriminate|cbn; lra|].
    specialize (V eq_refl). cbn in V. rewrite Rplus_0_r in V. split; [exact Fm|]. exists (val y), (val y).
    split; [|split; [|lra]].
    + destruct (in_place_low part k y G' I Ey) as [A B].
      exists (map val (firstn k part)), (map val (skipn (Datatypes.S k) part)). split; [exact A|]. split; [exact B|]. split; [lra|].
      split; [rewrite !map_length, firstn_length, skipn_length; lia|]. left. split; [reflexivity|].
      eapply Permutation_trans; [exact PV|]. rewrite E at 1. rewrite map_app. apply Permutation_refl.
    + rewrite V. change rounded with rnd. replace (val y + val y) with (2 * val y) by ring. rewrite double_generic.
      replace (2 * val y / 2) with (val y) by field. symmetry. apply rnd_id.
  - destruct H as (I & J & M).
    assert (K1 : (1 <= k)%nat). { destruct xs; [easy|]. cbn [length] in O. lia. }
    destruct (split_at _ part (k - 1) ltac:(lia)) as (y & Ey & E & Es).
    destruct (split_at _ part k ltac:(lia)) as (z & Ez & E' & Es').
    replace (Datatypes.S (k - 1)) with k in * by lia. rewrite Es' in E, Es. rewrite Es in M. cbn [firstn] in M.
    destruct (SUB (firstn (k - 1) part) [y; z] (skipn (Datatypes.S k) part) E) as [Gy Ty].
    destruct (mean_range [y; z] m) as (Fm & _ & _ & _ & V); auto; [discriminate|cbn; lra|].
    specialize (V eq_refl). cbn in V. rewrite Rplus_0_r in V. split; [exact Fm|].
    destruct (in_place_low part _ y G' I Ey) as [A _]. destruct (in_place_low part k z G' J Ez) as [B' B].
    assert (YZ : val y <= val z).
    { rewrite Forall_forall in B'. apply B'. apply in_map. 
      rewrite E. replace k with (length (firstn (k - 1) part) + 1)%nat at 1 by (rewrite firstn_length; lia).
      rewrite firstn_app_2. cbn. apply in_or_app. right. now left. }
    exists (val y), (val z). split; [|split; [exact V|rewrite V; now apply between]].
    exists (map val (firstn (k - 1) part)), (map val (skipn (Datatypes.S k) part)). split; [exact A|]. split; [exact B|]. split; [exact YZ|].
    split; [rewrite !map_length, firstn_length, skipn_length; lia|]. right.
    eapply Permutation_trans; [exact PV|]. rewrite E at 1. rewrite map_app. cbn [map].
    apply Permutation_sym. cbn [app]. apply Permutation_middle.
Qed.

(** ** There are results *)
Lemma added_exists : forall l, exists s, added l s.
Proof.
  induction l as [|x l (s & H)]; [eexists; apply (Added_zero false)|]. exists (fadd x s).
  apply (Added_two [x] l); [constructor|exact H|apply Permutation_refl].
Qed.

Lemma mean_exists : forall l, exists m, np_mean l m.
Proof. intros l. destruct (added_exists l) as (s & H). exists (fdiv s (of_N (N.of_nat (length l)))), s. now split. Qed.

Inductive rising : list f64 -> Prop :=
| Rise_nil : rising []
| Rise_cons : forall x l, List.Forall (fun y => fle x y = true) l -> rising l -> rising (x :: l).

Lemma fle_total : forall x y, fin x -> fin y -> fle x y = true \/ fle y x = true.
Proof.
  intros x y Fx Fy. rewrite !fle_spec by auto. destruct (Rle_lt_dec (val x) (val y)); [left|right]; apply Rle_bool_true; lra.
Qed.

Lemma fle_trans : forall x y z, fin x -> fin y -> fin z -> fle x y = true -> fle y z = true -> fle x z = true.
Proof.
  intros x y z Fx Fy Fz. rewrite !fle_spec by auto. case Rle_bool_spec; [|easy]. case Rle_bool_spec; [|easy].
  intros. apply Rle_bool_true. lra.
Qed.

Lemma rising_insert : forall x l, fin x -> List.Forall fin l -> rising l -> exists l', Permutation (x :: l) l' /\ rising l'.
Proof.
  intros x l Fx F R. revert F. induction R as [|y l H R IH]; intros F; [exists [x]; split; [apply Permutation_refl|repeat constructor]|].
  pose proof (Forall_inv F) as Fy. apply Forall_inv_tail in F.
  destruct (fle_total x y Fx Fy) as [C|C].
  - exists (x :: y :: l). split; [apply Permutation_refl|]. constructor; [|now constructor]. constructor; [exact C|].
    apply Forall_forall. intros z Hz. rewrite Forall_forall in H, F. apply (fle_trans x y z); auto.
  - destruct (IH F) as (l' & P & R'). exists (y :: l'). split.
    + eapply Permutation_trans; [apply perm_swap|]. now apply perm_skip.
    + constructor; [|exact R']. apply Forall_forall. intros z Hz. apply (Permutation_in _ (Permutation_sym P)) in Hz.
      destruct Hz as [<-|Hz]; [exact C|]. rewrite Forall_forall in H. now apply H.
Qed.

Lemma rising_exists : forall l, List.Forall fin l -> exists l', Permutation l l' /\ rising l'.
Proof.
  induction 1 as [|x l Fx F (l' & P & R)]; [exists []; split; [apply perm_nil|constructor]|].
  destruct (rising_insert x l' Fx) as (l'' & P' & R'); [|exact R|].
  { apply Forall_forall. intros z Hz. rewrite Forall_forall in F. apply F. now apply (Permutation_in _ (Permutation_sym P)). }
  exists l''. split; [|exact R']. eapply Permutation_trans; [apply perm_skip; exact P|exact P'].
Qed.

Lemma rising_nth : forall l, rising l -> forall i k x y, (i < k)%nat -> nth_error l i = Some x -> nth_error l k = Some y -> fle x y = true.
Proof.
  induction 1 as [|z l H R IH]; intros i k x y L Hx Hy; [destruct i; discriminate|].
  destruct k as [|k]; [lia|]. cbn in Hy. destruct i as [|i].
  - injection Hx as <-. rewrite Forall_forall in H. apply H. now apply (nth_error_In _ k).
  - apply (IH i k); auto. lia.
Qed.

Lemma rising_place : forall l k, rising l -> in_place l k.
Proof. intros l k R i x y Hx Hy. split; intros L; [now apply (rising_nth l R i k)|now apply (rising_nth l R k i)]. Qed.

Lemma stats_exist : forall xs, sample xs -> exists m md s, np_mean xs m /\ np_median xs md /\ np_std xs s.
Proof.
  intros xs S. destruct (sample_good xs S) as (G & _). destruct (mean_exists xs) as (m & Hm). exists m.
  destruct (rising_exists xs) as (l & P & R). { eapply Forall_impl; [|exact G]. intros x Hx. apply Hx. }
  assert (Hd : exists md, np_median xs md).
  { unfold np_median. destruct (Nat.odd (length xs)).
    - destruct (mean_exists (firstn 1 (skipn (Nat.div2 (length xs)) l))) as (md & K). exists md, l.
      split; [exact P|]. split; [now apply rising_place|exact K].
    - destruct (mean_exists (firstn 2 (skipn (Nat.div2 (length xs) - 1) l))) as (md & K). exists md, l.
      split; [exact P|]. split; [now apply rising_place|]. split; [now apply rising_place|exact K]. }
  destruct Hd as (md & Hd). exists md.
  destruct (mean_exists (map (fun x => fmul (fsub x m) (fsub x m)) xs)) as (v & Hv).
  exists (Bsqrt mode_NE v). split; [exact Hm|]. split; [exact Hd|]. exists m, v. now split.
Qed.

(** ** The rows of exp.py *)
Lemma error_range : forall c k x, (1 <= c <= 2 ^ 53)%N -> (k < 2 ^ 64)%N -> relative_error_of c k x ->
  is_finite x = true /\ 0 <= B2R x <= 2 ^ 400.
Proof.
  intros c k x [C1 C2] K [F V]. split; [exact F|]. rewrite V. change rounded with rnd.
  assert (C : 1 <= IZR (Z.of_N c) <= bpow radix2 53).
  { split; [apply IZR_le; lia|]. change (bpow radix2 53) with (IZR (2 ^ 53)). apply IZR_le. change (2 ^ 53)%Z with (Z.of_N (2 ^ 53)). lia. }
  assert (B : 0 <= IZR (Z.of_N k) <= bpow radix2 64).
  { split; [apply IZR_le; lia|]. change (bpow radix2 64) with (IZR (2 ^ 64)). apply IZR_le. change (2 ^ 64)%Z with (Z.of_N (2 ^ 64)). lia. }
  assert (B53 : bpow radix2 53 <= bpow radix2 64) by (apply bpow_le; lia).
  set (a := IZR (Z.of_N c)) in *. set (b := IZR (Z.of_N k)) in *.
  assert (R1 : 0 <= rnd b <= bpow radix2 64) by (split; [now apply rnd_pos|now apply rnd_le_bpow]).
  assert (R2 : Rabs (rnd (rnd b - a)) <= bpow radix2 64) by (apply rnd_abs_le; [lia|]; apply Rabs_le; lra).
  pose proof (Rabs_pos (rnd (rnd b - a))) as R0. set (d := Rabs (rnd (rnd b - a))) in *.
  assert (I : 0 < / a <= 1) by (split; [apply Rinv_0_lt_compat; lra|rewrite <- Rinv_1; apply Rinv_le; lra]).
  assert (R3 : 0 <= d / a <= bpow radix2 64) by (unfold Rdiv; split; nra).
  split; [now apply rnd_pos|]. apply Rle_trans with (bpow radix2 64); [apply rnd_le_bpow; [lia|apply R3]|].
  rewrite pow_bpow. apply bpow_le. lia.
Qed.

Lemma row_length : forall (A : Type) (files : list (list A)) j, (length (row files j) <= length files)%nat.
Proof.
  intros A files j. unfold row. induction files as [|f files IH]; cbn; [lia|]. rewrite app_length.
  destruct (nth_error f j); cbn; lia.
Qed.

Lemma rows_sample : forall files contents rows j r, Forall2 estimate_file files contents ->
  List.Forall (List.Forall (fun est => (1 <= fst est <= 2 ^ 53)%N /\ (snd est < 2 ^ 64)%N)) files -> INR (length files) <= 2 ^ 50 ->
  calculate_statistics contents = Ret rows -> nth_error rows j = Some r -> sample (snd r).
Proof.
  intros files contents rows j r E B L C N. destruct (row_statistics files contents E B) as (rows' & C' & _ & H).
  rewrite C in C'. injection C' as <-. destruct (H j r N) as (c & k & rest & R & _ & F).
  pose proof (row_length _ files j) as RL. assert (FL : length (row files j) = length (snd r)) by (clear - F; induction F; cbn; congruence).
  split; [intros Z; rewrite Z in FL; rewrite R in FL; discriminate|]. split.
  - eapply Rle_trans; [|exact L]. apply le_INR. lia.
  - assert (In_row : forall est, In est (row files j) -> (1 <= fst est <= 2 ^ 53)%N /\ (snd est < 2 ^ 64)%N).
    { intros est Hin. unfold row in Hin. apply in_flat_map in Hin as (f & Hf & Hin). destruct (nth_error f j) as [e|] eqn:Ef; [|easy].
      destruct Hin as [<-|[]]. rewrite Forall_forall in B. specialize (B f Hf). rewrite Forall_forall in B. apply B.
      now apply (nth_error_In _ j). }
    clear - F In_row. induction F as [|est x l l' H F IH]; constructor.
    + destruct (In_row est (or_introl eq_refl)) as [A B]. now apply (error_range (fst est) (snd est)).
    + apply IH. intros e He. apply In_row. now right.
Qed.

(** ** Computed: eight numbers *)
Definition eight : list f64 := map of_N [9; 2; 5; 4; 5; 4; 7; 4]%N.

Lemma fold_added : forall l, added l (fold_right fadd pzero l).
Proof. induction l as [|x l IH]; [constructor|]. apply (Added_two [x] l); [constructor|exact IH|apply Permutation_refl]. Qed.

Lemma stats_example : sample eight /\ np_mean eight (of_N 5) /\ np_median eight (lit 45 1) /\ np_std eight (of_N 2) /\
  exists x, added [of_Z (2 ^ 53); of_N 1; of_N 1] x /\ exists y, added [of_Z (2 ^ 53); of_N 1; of_N 1] y /\ x <> y.
Proof.
  split; [|split; [|split; [|split]]].
  - split; [discriminate|]. split; [cbn; lra|]. unfold eight. apply Forall_forall. intros x Hx. apply in_map_iff in Hx as (n & <- & Hn).
    assert (K : (n <= 16)%N) by (cbn in Hn; lia). destruct (of_N_exact n ltac:(lia)) as [F V]. split; [exact F|].
    fold (val (of_N n)). rewrite V. split; [apply IZR_le; lia|]. rewrite pow_bpow. apply Rle_trans with (bpow radix2 4); [|apply bpow_le; lia].
    change (bpow radix2 4) with (IZR 16). apply IZR_le. lia.
  - exists (fold_right fadd pzero eight). split; [apply fold_added|]. apply B2SF_inj. vm_compute. reflexivity.
  - exists (map of_N [2; 4; 4; 4; 5; 5; 7; 9]%N). split.
    { unfold eight. apply Permutation_map.
      apply (Permutation_cons_app [2; 4; 4; 4; 5; 5; 7]%N []). cbn.
      apply perm_skip. apply (Permutation_cons_app [4; 4; 4]%N [5; 7]%N). cbn. apply perm_skip.
      apply (Permutation_cons_app [4; 4]%N [7]%N). cbn. apply perm_skip. apply perm_swap. }
    cbn [length eight map Nat.odd Nat.even negb Nat.div2].
    assert (R : forall k, in_place (map of_N [2; 4; 4; 4; 5; 5; 7; 9]%N) k).
    { intros k. apply rising_place. cbn [map]. repeat constructor. }
    split; [apply R|]. split; [apply R|]. exists (fold_right fadd pzero (map of_N [4; 5]%N)). split; [apply fold_added|].
    apply B2SF_inj. vm_compute. reflexivity.
  - exists (of_N 5), (of_N 4). split.
    { exists (fold_right fadd pzero eight). split; [apply fold_added|]. apply B2SF_inj. vm_compute. reflexivity. }
    split.
    { exists (fold_right fadd pzero (map (fun x => fmul (fsub x (of_N 5)) (fsub x (of_N 5))) eight)). split; [apply fold_added|].
      apply B2SF_inj. vm_compute. reflexivity. }
    apply B2SF_inj. vm_compute. reflexivity.
  - exists (fadd (fadd (of_Z (2 ^ 53)) (of_N 1)) (of_N 1)). split.
    { apply (Added_two [of_Z (2 ^ 53); of_N 1] [of_N 1]); [|constructor|apply Permutation_refl].
      apply (Added_two [of_Z (2 ^ 53)] [of_N 1]); [constructor|constructor|apply Permutation_refl]. }
    exists (fadd (of_Z (2 ^ 53)) (fadd (of_N 1) (of_N 1))). split.
    { apply (Added_two [of_Z (2 ^ 53)] [of_N 1; of_N 1]); [constructor| |apply Permutation_refl].
      apply (Added_two [of_N 1] [of_N 1]); [constructor|constructor|apply Permutation_refl]. }
    intros E. apply (f_equal B2SF) in E. vm_compute in E. discriminate.
Qed.
