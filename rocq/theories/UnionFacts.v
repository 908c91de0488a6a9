(** * Inclusion and exclusion *)
From Coq Require Import NArith ZArith Reals Lra Lia List Bool Sorted Permutation.
From Coquelicot Require Import Coquelicot.
From Flocq Require Import Core BinarySingleNaN.
From Verif Require Import ModelRust ModelF64 ModelEnv ModelConstants ModelHistory Spec SpecReal SpecCount SpecBuild SpecUnion
  EncFacts PlusInv SparseFacts ClaimFacts CountFacts RawFacts FloatFacts ClaimFloat BiasFacts ExtremeFacts.
Import ListNotations.
Local Open Scope R_scope.
Local Notation ln := Rpower.ln.

(** Linear counting with M buckets, [n] of them hit. *)
Definition lin (M n : R) : R := M * ln (M / (M - n)).

Lemma ln_below : forall s, 0 <= s <= / 2 -> s <= - ln (1 - s) <= s + s * s / 2 * (1 + 2 * s).
Proof.
  intros s Hs. split.
  - pose proof (exp_ineq1_le (- s)). assert (ln (1 - s) <= - s); [|lra].
    rewrite <- (ln_exp (- s)). destruct (Req_dec (1 - s) (exp (- s))) as [->|D]; [lra|].
    apply Rlt_le, ln_increasing; lra.
  - set (g := fun t => t + t * t / 2 * (1 + 2 * t) + ln (1 - t)).
    assert (D : forall t, 0 <= t <= s -> derivable_pt_lim g t ((2 * t ^ 2 - 3 * t ^ 3) / (1 - t))).
    { intros t Ht. apply is_derive_Reals. unfold g. auto_derive; [lra|]. field. lra. }
    destruct (Req_dec s 0) as [->|NZ].
    + rewrite Rminus_0_r, ln_1. lra.
    + destruct (MVT_cor2 g (fun t => (2 * t ^ 2 - 3 * t ^ 3) / (1 - t)) 0 s ltac:(lra) D) as (t & E & Ht).
      assert (G0 : g 0 = 0) by (unfold g; rewrite Rminus_0_r, ln_1; lra).
      assert (P : 0 <= (2 * t ^ 2 - 3 * t ^ 3) / (1 - t)).
      { apply Rmult_le_pos; [|apply Rlt_le, Rinv_0_lt_compat; lra].
        replace (2 * t ^ 2 - 3 * t ^ 3) with (t * t * (2 - 3 * t)) by ring.
        apply Rmult_le_pos; [apply Rle_0_sqr|lra]. }
      rewrite G0 in E. assert (0 <= g s) by nra. unfold g in H. lra.
Qed.

Lemma lin_bounds : forall M n, 0 < M -> 0 <= n <= M / 2 -> n <= lin M n <= n + n * n / (2 * M) * (1 + 2 * (n / M)).
Proof.
  intros M n HM Hn. unfold lin. set (s := n / M).
  assert (Es : n = s * M) by (unfold s; field; lra).
  assert (Hs : 0 <= s <= / 2).
  { split; apply Rmult_le_reg_r with M; lra. }
  replace (M / (M - n)) with (/ (1 - s)) by (rewrite Es; field; lra). rewrite ln_Rinv by lra.
  pose proof (ln_below s Hs) as [A B].
  replace (n * n / (2 * M)) with (M * (s * s / 2)) by (rewrite Es; field; lra). rewrite Es. nra.
Qed.

(** Two disjoint sets of buckets count for less than their union. *)
Lemma lin_superadditive : forall M x y, 0 < M -> 0 <= x -> 0 <= y -> x + y <= M / 2 ->
  lin M x + lin M y + x * y / M <= lin M (x + y).
Proof.
  intros M x y HM Hx Hy Hxy. unfold lin.
  assert (Q : forall z, z <= M / 2 -> ln (M / (M - z)) = ln M - ln (M - z)).
  { intros z Hz. unfold Rdiv. rewrite ln_mult, ln_Rinv; try lra. apply Rinv_0_lt_compat. lra. }
  rewrite !Q by lra.
  set (u := x * y / (M * (M - (x + y)))).
  assert (Hd : 0 < M * (M - (x + y))) by (apply Rmult_lt_0_compat; lra).
  assert (Hu : 0 <= u).
  { unfold u. apply Rmult_le_pos; [now apply Rmult_le_pos|]. now apply Rlt_le, Rinv_0_lt_compat. }
  assert (E : ln (M - x) + ln (M - y) = ln M + ln (M - (x + y)) + ln (1 + u)).
  { rewrite <- !ln_mult; try lra. f_equal. unfold u. field. lra. }
  pose proof (ln_lower u Hu) as L.
  assert (U : x * y / (M * M) <= u / (1 + u)).
  { replace (u / (1 + u)) with (x * y / ((M - x) * (M - y))).
    2:{ unfold u. field. repeat split; try lra. nra. }
    unfold Rdiv. apply Rmult_le_compat_l; [now apply Rmult_le_pos|].
    apply Rinv_le; [apply Rmult_lt_0_compat; lra|]. nra. }
  replace (x * y / M) with (M * (x * y / (M * M))) by (field; lra). nra.
Qed.

Lemma linear_24 : forall n, (n <= 209715)%N ->
  linear_R (2 ^ 24) (2 ^ 24 - n) = lin 16777216 (IZR (Z.of_N n)).
Proof.
  intros n Hn. unfold linear_R, lin. rewrite N2Z.inj_sub, minus_IZR by (change (2 ^ 24)%N with 16777216%N; lia).
  reflexivity.
Qed.

Lemma sparse_count : forall (V : Type) e ord (h : hist V) L,
  build_std e -> accurate e -> valid MAX_PLUS h -> narrow (usize_bits e) h -> is_order ord ->
  is_code_list (hist_precision h) (hist_hashes h) L ->
  (gap_len 0 L <= sparse_limit (hist_precision h))%N ->
  exists c, count_plus e ord h = Ret c /\ is_finite c = true /\ INR (length L) <= 209715 /\
    approx (/ IZR (2 ^ 28)) (B2R c) (lin 16777216 (INR (length L))).
Proof.
  intros V e ord h L Hb Ha Hv Hn Ho HL HG.
  destruct (sparse_is_24 V e ord h L Hb Ha Hv Hn Ho HL HG) as (c & E & F & A & _).
  exists c. split; [exact E|]. split; [exact F|].
  assert (P : (4 <= hist_precision h <= 18)%N).
  { clear - Hv. induction h; cbn [hist_precision valid] in *; unfold MAX_PLUS in *; tauto. }
  pose proof (sparse_limit_bounds _ P) as SL. pose proof (gap_len_length L 0) as GL.
  rewrite linear_24 in A by lia. rewrite INR_IZR_INZ, <- nat_N_Z. split; [apply IZR_le; lia|exact A].
Qed.

(** The length of a union. *)
Lemma union_length : forall A B U I : list N, NoDup A -> NoDup B -> NoDup U -> NoDup I ->
  (forall x, In x U <-> In x A \/ In x B) -> (forall x, In x I <-> In x A /\ In x B) ->
  (length A + length B = length U + length I)%nat.
Proof.
  intros A B U I NA NB NU NI HU HI.
  assert (C : forall l x, NoDup l -> count_occ N.eq_dec l x = if in_dec N.eq_dec x l then 1%nat else 0%nat).
  { intros l x D. destruct (in_dec N.eq_dec x l) as [K|K].
    - now apply NoDup_count_occ'.
    - now apply count_occ_not_In. }
  assert (P : Permutation (A ++ B) (U ++ I)).
  { apply (Permutation_count_occ N.eq_dec). intros x. rewrite !count_occ_app, !C by assumption.
    destruct (in_dec N.eq_dec x A), (in_dec N.eq_dec x B), (in_dec N.eq_dec x U) as [K1|K1], (in_dec N.eq_dec x I) as [K2|K2];
      rewrite HU in K1; rewrite HI in K2; tauto. }
  apply Permutation_length in P. now rewrite !app_length in P.
Qed.

Lemma sorted_nodup : forall L, StronglySorted N.lt L -> NoDup L.
Proof.
  intros L H. induction H as [|x L H IH F]; constructor; auto.
  intros K. rewrite Forall_forall in F. specialize (F x K). lia.
Qed.

(** The codes of two programs and of one that absorbed the hashes of both. *)
Lemma union_codes : forall p A B U La Lb Lu, is_code_list p A La -> is_code_list p B Lb -> is_code_list p U Lu ->
  same_set U (A ++ B) -> forall x, In x Lu <-> In x La \/ In x Lb.
Proof.
  intros p A B U La Lb Lu [_ HA] [_ HB] [_ HU] S x. rewrite (HU x), (HA x), (HB x), !in_map_iff.
  split.
  - intros (h & E & H). apply S, in_app_or in H. destruct H; [left|right]; exists h; auto.
  - intros [(h & E & H)|(h & E & H)]; exists h; split; auto; apply S, in_or_app; auto.
Qed.

Lemma union_sparse : forall (V : Type) e ord (a b u : hist V) La Lb Lu I,
  build_std e -> accurate e -> is_order ord ->
  valid MAX_PLUS a -> narrow (usize_bits e) a -> valid MAX_PLUS b -> narrow (usize_bits e) b ->
  valid MAX_PLUS u -> narrow (usize_bits e) u ->
  hist_precision b = hist_precision a -> hist_precision u = hist_precision a ->
  same_set (hist_hashes u) (hist_hashes a ++ hist_hashes b) ->
  is_code_list (hist_precision a) (hist_hashes a) La -> is_code_list (hist_precision a) (hist_hashes b) Lb ->
  is_code_list (hist_precision a) (hist_hashes u) Lu ->
  (gap_len 0 Lu <= sparse_limit (hist_precision a))%N ->
  common La Lb I ->
  exists ca cb cu, count_plus e ord a = Ret ca /\ count_plus e ord b = Ret cb /\ count_plus e ord u = Ret cu /\
    is_finite ca = true /\ is_finite cb = true /\ is_finite cu = true /\
    (let n := INR (length Lu) in
     Rabs (B2R ca + B2R cb - B2R cu - INR (length I)) <= n * n / IZR (2 ^ 25) * (1 + n / IZR (2 ^ 23)) + n / IZR (2 ^ 26)) /\
    (I = [] -> hist_hashes a <> [] -> hist_hashes b <> [] ->
     B2R ca + B2R cb + INR (length La) * INR (length Lb) / IZR (2 ^ 25) <= B2R cu).
Proof.
  intros V e ord a b u La Lb Lu I Hbd Hac Ho Va Na Vb Nb Vu Nu Pb Pu S HA HB HU G [NI HI].
  assert (GA : (gap_len 0 La <= gap_len 0 Lu)%N).
  { eapply gap_len_incl; eauto. intros x Hx. apply S, in_or_app. auto. }
  assert (GB : (gap_len 0 Lb <= gap_len 0 Lu)%N).
  { eapply gap_len_incl; eauto. intros x Hx. apply S, in_or_app. auto. }
  destruct (sparse_count V e ord a La Hbd Hac Va Na Ho HA ltac:(lia)) as (ca & Ea & Fa & Ma & Aa).
  rewrite <- Pb in HB. destruct (sparse_count V e ord b Lb Hbd Hac Vb Nb Ho HB ltac:(rewrite Pb; lia)) as (cb & Eb & Fb & Mb & Ab).
  rewrite <- Pu in HU. destruct (sparse_count V e ord u Lu Hbd Hac Vu Nu Ho HU ltac:(rewrite Pu; lia)) as (cu & Eu & Fu & Mu & Au).
  rewrite Pb in HB. rewrite Pu in HU.
  exists ca, cb, cu. repeat (split; [assumption|]).
  pose proof (union_codes _ _ _ _ _ _ _ HA HB HU S) as C.
  pose proof (union_length La Lb Lu I (sorted_nodup _ (proj1 HA)) (sorted_nodup _ (proj1 HB)) (sorted_nodup _ (proj1 HU)) NI C HI) as LE.
  assert (LA : (length La <= length Lu)%nat).
  { apply NoDup_incl_length; [exact (sorted_nodup _ (proj1 HA))|]. intros x Hx. apply C. auto. }
  assert (LB : (length Lb <= length Lu)%nat).
  { apply NoDup_incl_length; [exact (sorted_nodup _ (proj1 HB))|]. intros x Hx. apply C. auto. }
  apply le_INR in LA, LB. pose proof (pos_INR (length La)) as PA. pose proof (pos_INR (length Lb)) as PB.
  apply (f_equal INR) in LE. rewrite !plus_INR in LE.
  pose proof (lin_bounds 16777216 (INR (length La)) ltac:(lra) ltac:(lra)) as BA.
  pose proof (lin_bounds 16777216 (INR (length Lb)) ltac:(lra) ltac:(lra)) as BB.
  pose proof (lin_bounds 16777216 (INR (length Lu)) ltac:(lra) ltac:(lra)) as BU.
  assert (MA : INR (length La) - lin 16777216 (INR (length La)) >= INR (length Lu) - lin 16777216 (INR (length Lu))).
  { pose proof (lin_superadditive 16777216 (INR (length La)) (INR (length Lu) - INR (length La)) ltac:(lra) ltac:(lra) ltac:(lra) ltac:(lra)) as Q.
    replace (INR (length La) + (INR (length Lu) - INR (length La))) with (INR (length Lu)) in Q by ring.
    pose proof (lin_bounds 16777216 (INR (length Lu) - INR (length La)) ltac:(lra) ltac:(lra)).
    assert (0 <= INR (length La) * (INR (length Lu) - INR (length La))) by (apply Rmult_le_pos; lra). lra. }
  assert (MB : INR (length Lb) - lin 16777216 (INR (length Lb)) >= INR (length Lu) - lin 16777216 (INR (length Lu))).
  { pose proof (lin_superadditive 16777216 (INR (length Lb)) (INR (length Lu) - INR (length Lb)) ltac:(lra) ltac:(lra) ltac:(lra) ltac:(lra)) as Q.
    replace (INR (length Lb) + (INR (length Lu) - INR (length Lb))) with (INR (length Lu)) in Q by ring.
    pose proof (lin_bounds 16777216 (INR (length Lu) - INR (length Lb)) ltac:(lra) ltac:(lra)).
    assert (0 <= INR (length Lb) * (INR (length Lu) - INR (length Lb))) by (apply Rmult_le_pos; lra). lra. }
  assert (UP : forall z, 0 <= z <= 209715 -> lin 16777216 z <= 1.02 * z).
  { intros z Hz. pose proof (lin_bounds 16777216 z ltac:(lra) ltac:(lra)) as [_ B].
    set (t := z / 16777216) in *. assert (0 <= t <= 0.0126) by (unfold t; lra).
    replace (z * z / (2 * 16777216)) with (z * (t / 2)) in B by (unfold t; field).
    assert (t / 2 * (1 + 2 * t) <= 0.02) by nra.
    assert (z * (t / 2 * (1 + 2 * t)) <= z * 0.02) by (apply Rmult_le_compat_l; lra). lra. }
  pose proof (UP _ (conj PA Ma)) as UA. pose proof (UP _ (conj PB Mb)) as UB.
  pose proof (UP (INR (length Lu)) ltac:(lra)) as UU.
  unfold approx in Aa, Ab, Au. rewrite (Rabs_pos_eq (lin _ _)) in Aa by lra.
  rewrite (Rabs_pos_eq (lin _ _)) in Ab by lra. rewrite (Rabs_pos_eq (lin _ _)) in Au by lra.
  change (IZR (2 ^ 28)) with 268435456 in *. change (IZR (2 ^ 25)) with 33554432. change (IZR (2 ^ 23)) with 8388608.
  change (IZR (2 ^ 26)) with 67108864.
  apply Rabs_le_inv in Aa, Ab, Au. split.
  - cbv zeta. set (n := INR (length Lu)) in *.
    replace (n * n / 33554432 * (1 + n / 8388608)) with (n * n / (2 * 16777216) * (1 + 2 * (n / 16777216))) by field.
    apply Rabs_le. lra.
  - intros -> NA NB. cbn [length INR] in LE. rewrite Rplus_0_r in LE.
    pose proof (lin_superadditive 16777216 _ _ ltac:(lra) PA PB ltac:(lra)) as Q. rewrite LE in Q.
    assert (NE : forall H L, is_code_list (hist_precision a) H L -> H <> [] -> 1 <= INR (length L)).
    { intros H L [_ HL] K. destruct L as [|z L].
      - destruct H as [|h H]; [congruence|]. destruct (proj2 (HL (sparse_code (hist_precision a) h)) (or_introl eq_refl)).
      - cbn [length]. rewrite S_INR. pose proof (pos_INR (length L)). lra. }
    pose proof (NE _ _ HA NA) as XA. pose proof (NE _ _ HB NB) as XB.
    set (x := INR (length La)) in *. set (y := INR (length Lb)) in *.
    assert (x + y <= 2 * (x * y)) by nra. lra.
Qed.

(** ** Half of the registers *)
Lemma inv_sum_zeros : forall l, IZR (Z.of_N (zero_count l)) <= inv_sum l.
Proof.
  intros l. unfold zero_count. rewrite nat_N_Z, <- INR_IZR_INZ. induction l as [|v l IH]; [cbn; lra|].
  unfold inv_sum in *. cbn [filter fold_right]. destruct (N.eqb_spec 0 v) as [<-|D].
  - cbn [length]. rewrite S_INR. change (IZR (2 ^ Z.of_N 0)) with 1. lra.
  - assert (0 < / IZR (2 ^ Z.of_N v)); [|lra]. apply Rinv_0_lt_compat, IZR_lt. apply Z.pow_pos_nonneg; lia.
Qed.

Lemma zeros_app : forall l1 l2, zero_count (l1 ++ l2) = (zero_count l1 + zero_count l2)%N.
Proof. intros l1 l2. unfold zero_count. rewrite filter_app, app_length. lia. Qed.

Lemma zeros_all : forall l, List.Forall (fun v => v = 0%N) l -> zero_count l = N.of_nat (length l).
Proof.
  intros l H. unfold zero_count. induction H as [|v l -> H IH]; [reflexivity|]. cbn [filter N.eqb length]. lia.
Qed.

Lemma nth_skip : forall (A : Type) k (l : list A) i, nth_error (skipn k l) i = nth_error l (k + i).
Proof. intros A k. induction k as [|k IH]; intros [|x l] i; cbn; auto. now destruct i. Qed.

Lemma nth_first : forall (A : Type) k (l : list A) i, (i < k)%nat -> nth_error (firstn k l) i = nth_error l i.
Proof. intros A k. induction k as [|k IH]; intros [|x l] [|i] H; cbn; auto; try lia. apply IH. lia. Qed.

Lemma half_zeros : forall W p H l, (1 <= p)%N -> one_half W p H -> is_register_file W p H l ->
  (2 ^ p <= 2 * zero_count l)%N.
Proof.
  intros W p H l Hp HH [HL HR]. set (k := N.to_nat (2 ^ (p - 1))).
  assert (E : (2 ^ p = 2 * 2 ^ (p - 1))%N).
  { rewrite <- N.pow_succ_r'. f_equal. lia. }
  assert (Lk : length l = (k + k)%nat) by (unfold k; lia).
  rewrite <- (firstn_skipn k l), zeros_app.
  assert (L1 : length (firstn k l) = k) by (rewrite firstn_length; lia).
  assert (L2 : length (skipn k l) = k) by (rewrite skipn_length; lia).
  assert (Z : forall i v, nth_error l (N.to_nat i) = Some v -> (forall h, In h H -> bucket W p h <> i) -> v = 0%N).
  { intros i v Hv NO. destruct (HR i v Hv) as [_ [K|(h & Hh & B & _)]]; [exact K|]. now destruct (NO h Hh). }
  destruct HH as [HH|HH].
  - assert (F : List.Forall (fun v => v = 0%N) (skipn k l)).
    { apply Forall_forall. intros v Hv. apply In_nth_error in Hv. destruct Hv as (i & Hi).
      rewrite nth_skip in Hi. apply (Z (N.of_nat (k + i)) v); [now rewrite Nat2N.id|].
      intros h Hh E1. specialize (HH h Hh). unfold k in *. lia. }
    apply zeros_all in F. unfold k in *. lia.
  - assert (F : List.Forall (fun v => v = 0%N) (firstn k l)).
    { apply Forall_forall. intros v Hv. apply In_nth_error in Hv. destruct Hv as (i & Hi).
      assert (Li : (i < k)%nat) by (rewrite <- L1; apply nth_error_Some; congruence).
      rewrite nth_first in Hi by exact Li. apply (Z (N.of_nat i) v); [now rewrite Nat2N.id|].
      intros h Hh E1. specialize (HH h Hh). unfold k in *. lia. }
    apply zeros_all in F. unfold k in *. lia.
Qed.

Lemma half_raw : forall W p H l, (4 <= p <= 18)%N -> one_half W p H -> is_register_file W p H l ->
  (zero_count l <> 0)%N /\ raw_R p l <= 1.5 * m_R p /\ linear_R (2 ^ p) (zero_count l) <= 0.75 * m_R p.
Proof.
  intros W p H l Hp HH HF. pose proof (half_zeros W p H l ltac:(lia) HH HF) as Z.
  pose proof (inv_sum_zeros l) as S. pose proof (m_R_bounds p (proj1 Hp) (proj2 Hp)) as B.
  pose proof (alpha_upper p (proj1 Hp) (proj2 Hp)) as A. pose proof (alpha_lower p Hp) as A'.
  assert (P : (2 ^ p <> 0)%N) by (apply N.pow_nonzero; discriminate).
  assert (ZR : m_R p <= 2 * IZR (Z.of_N (zero_count l))).
  { unfold m_R. rewrite <- mult_IZR. apply IZR_le. apply N2Z.inj_le in Z. rewrite N2Z.inj_pow in Z. lia. }
  split; [lia|]. split.
  - unfold raw_R. set (s := inv_sum l) in *. apply Rmult_le_reg_r with s; [lra|].
    unfold Rdiv. rewrite Rmult_assoc, Rinv_l by lra. nra.
  - unfold linear_R. rewrite N2Z.inj_pow. change (Z.of_N 2) with 2%Z. fold (m_R p).
    set (z := IZR (Z.of_N (zero_count l))) in *.
    assert (ln (m_R p / z) <= 0.75); [|nra].
    assert (L2 : ln 2 <= 0.75).
    { pose proof (ln_below (/ 2) ltac:(lra)) as [_ L]. replace (1 - / 2) with (/ 2) in L by lra. rewrite ln_Rinv in L by lra. lra. }
    apply Rle_trans with (ln 2); [|exact L2]. apply ln_le.
    + apply Rdiv_lt_0_compat; lra.
    + apply Rmult_le_reg_r with z; [lra|]. unfold Rdiv. rewrite Rmult_assoc, Rinv_l by lra. lra.
Qed.

Lemma valid_range : forall (V : Type) maxp (h : hist V), valid maxp h -> (4 <= hist_precision h <= maxp)%N.
Proof. intros V maxp h Hv. induction h; cbn [hist_precision valid] in *; tauto. Qed.

(** A sketch half of whose registers are empty counts little, whatever the others hold. *)
Lemma half_pf : forall (V : Type) e (h : hist V),
  build e -> accurate e -> valid MAX_PF h -> narrow (usize_bits e) h ->
  one_half 32 (hist_precision h) (map (fun x => x mod 2 ^ 32)%N (hist_hashes h)) ->
  exists c, count_pf e h = Ret c /\ is_finite c = true /\ 0 <= B2R c <= 0.76 * m_R (hist_precision h).
Proof.
  intros V e h Hb Ha Hv Hn HH. pose proof (valid_range _ _ h Hv) as Hp. unfold MAX_PF in Hp.
  pose proof (m_R_bounds (hist_precision h) ltac:(lia) ltac:(lia)) as B.
  destruct (pf_value_R V e h Hb Ha Hv Hn) as (c & E & F & R & (C0 & _) & _).
  { intros l HF. destruct (half_raw 32 (hist_precision h) _ _ ltac:(lia) HH HF) as (_ & R & _).
    change (IZR (2 ^ 32)) with 4294967296. lra. }
  exists c. split; [exact E|]. split; [exact F|]. split; [exact C0|].
  destruct R as (l & HF & R). destruct (half_raw 32 (hist_precision h) _ _ ltac:(lia) HH HF) as (Z & RW & LN).
  destruct R as [(_ & _ & A)|([K|K] & _)]; [|contradiction|lra].
  unfold approx in A. change (IZR (2 ^ 28)) with 268435456 in A.
  assert (P : 0 <= linear_R (2 ^ hist_precision h) (zero_count l)).
  { unfold linear_R. rewrite N2Z.inj_pow. change (Z.of_N 2) with 2%Z. fold (m_R (hist_precision h)).
    apply Rmult_le_pos; [lra|]. rewrite <- ln_1. apply ln_le; [lra|].
    assert (0 < IZR (Z.of_N (zero_count l))) by (apply IZR_lt; lia).
    apply Rmult_le_reg_r with (IZR (Z.of_N (zero_count l))); [lra|].
    unfold Rdiv. rewrite Rmult_assoc, Rinv_l by lra. rewrite Rmult_1_l, Rmult_1_r.
    unfold m_R. apply IZR_le. destruct HF as [HL _]. pose proof (filter_length_le' l).
    unfold zero_count. apply (f_equal Z.of_N) in HL. rewrite N2Z.inj_pow in HL. change (Z.of_N 2) with 2%Z in HL. lia. }
  rewrite (Rabs_pos_eq (linear_R _ _)) in A by exact P. apply Rabs_le_inv in A. lra.
Qed.

Lemma linear_pos : forall W p H l, is_register_file W p H l -> (zero_count l <> 0)%N -> 0 <= linear_R (2 ^ p) (zero_count l).
Proof.
  intros W p H l [HL _] Z. unfold linear_R. rewrite N2Z.inj_pow. change (Z.of_N 2) with 2%Z.
  assert (M : IZR (Z.of_N (zero_count l)) <= IZR (2 ^ Z.of_N p)).
  { apply IZR_le. pose proof (filter_length_le' l). unfold zero_count. apply (f_equal Z.of_N) in HL.
    rewrite N2Z.inj_pow in HL. change (Z.of_N 2) with 2%Z in HL. lia. }
  assert (0 < IZR (Z.of_N (zero_count l))) by (apply IZR_lt; lia).
  apply Rmult_le_pos; [lra|]. rewrite <- ln_1. apply ln_le; [lra|].
  apply Rmult_le_reg_r with (IZR (Z.of_N (zero_count l))); [lra|].
  unfold Rdiv. rewrite Rmult_assoc, Rinv_l by lra. lra.
Qed.

Lemma bias_lower : forall p x y, (4 <= p <= 18)%N ->
  interpolated (map B2R (est_table p)) (map B2R (bias_table p)) x y -> - m_R p <= y.
Proof.
  intros p x y Hp I. destruct (tables_good p (proj1 Hp) (proj2 Hp)) as (HL & _ & HE & _).
  assert (W : forall i b, nth_error (map B2R (bias_table p)) i = Some b -> - m_R p <= b).
  { intros i b Hb. rewrite nth_error_map in Hb. match type of Hb with option_map _ ?t = _ => destruct t as [v|] eqn:Ev; [|discriminate] end.
    injection Hb as <-. destruct (nth_error (est_table p) i) as [u|] eqn:Eu.
    - destruct (HE i u v Eu Ev) as (_ & _ & _ & K & _). apply K.
    - apply nth_error_None in Eu. assert (i < length (bias_table p))%nat by (apply nth_error_Some; unfold f64 in *; congruence). lia. }
  destruct (interpolated_between _ _ _ _ I) as [(x0 & y0 & _ & K & _ & ->)|[(x0 & y0 & _ & K & _ & ->)|(i & x0 & y0 & x1 & y1 & _ & K & _ & K' & _ & [L _])]].
  - eapply W; eauto.
  - eapply W; eauto.
  - apply W in K, K'. unfold Rmin in L. destruct (Rle_dec y0 y1); lra.
Qed.

Lemma half_plus : forall (V : Type) e ord (h : hist V),
  build_std e -> accurate e -> valid MAX_PLUS h -> narrow (usize_bits e) h -> is_order ord ->
  one_half 64 (hist_precision h) (hist_hashes h) ->
  exists c, count_plus e ord h = Ret c /\ is_finite c = true /\ 0 <= B2R c <= 2.6 * m_R (hist_precision h).
Proof.
  intros V e ord h Hb Ha Hv Hn Ho HH. pose proof (valid_range _ _ h Hv) as Hp. unfold MAX_PLUS in Hp.
  pose proof (m_R_bounds (hist_precision h) ltac:(lia) ltac:(lia)) as B.
  destruct (plus_range V e ord h Hb Ha Hv Hn Ho) as (c & E & F & (C0 & _) & _).
  destruct (plus_value V e ord h Hb Ha Hv Hn Ho) as (c' & E' & _ & R). rewrite E in E'. injection E' as <-.
  exists c. split; [exact E|]. split; [exact F|]. split; [exact C0|].
  set (p := hist_precision h) in *.
  destruct R as (L & HL & [(G & A)|(_ & l & HF & R)]).
  - pose proof (sparse_limit_bounds _ Hp) as SL. pose proof (gap_len_length L 0) as GL.
    rewrite linear_24 in A by lia. set (n := N.of_nat (length L)) in *.
    assert (Hx : IZR (Z.of_N n) <= 0.8 * m_R p).
    { assert (5 * n <= 4 * 2 ^ p)%N.
      { unfold sparse_limit in G. pose proof (N.mul_div_le (4 * 2 ^ p) 5 ltac:(discriminate)). lia. }
      assert (K : (5 * Z.of_N n <= 4 * 2 ^ Z.of_N p)%Z).
      { apply N2Z.inj_le in H. rewrite !N2Z.inj_mul, N2Z.inj_pow in H. exact H. }
      apply IZR_le in K. rewrite !mult_IZR in K. fold (m_R p) in K. lra. }
    assert (H0 : 0 <= IZR (Z.of_N n)) by (apply IZR_le; lia).
    pose proof (lin_bounds 16777216 (IZR (Z.of_N n)) ltac:(lra) ltac:(lra)) as [L1 L2].
    unfold approx in A. rewrite (Rabs_pos_eq (lin _ _)) in A by lra. change (IZR (2 ^ 28)) with 268435456 in A.
    apply Rabs_le_inv in A. set (x := IZR (Z.of_N n)) in *.
    set (t := x / 16777216) in *. assert (0 <= t <= 0.0126) by (unfold t; lra).
    replace (x * x / (2 * 16777216)) with (x * (t / 2)) in L2 by (unfold t; field).
    assert (t / 2 * (1 + 2 * t) <= 0.02) by nra.
    assert (x * (t / 2 * (1 + 2 * t)) <= x * 0.02) by (apply Rmult_le_compat_l; lra). lra.
  - destruct (half_raw 64 p _ _ Hp HH HF) as (Z & RW & LN). destruct R as [(_ & _ & A)|(_ & raw & A & R)].
    + unfold approx in A. change (IZR (2 ^ 28)) with 268435456 in A.
      rewrite (Rabs_pos_eq (linear_R _ _)) in A by (eapply linear_pos; eauto). apply Rabs_le_inv in A. lra.
    + unfold approx in A. change (IZR (2 ^ 33)) with 8589934592 in A.
      assert (RP : 0 <= raw_R p l).
      { unfold raw_R. pose proof (alpha_lower p Hp). pose proof (inv_sum_zeros l).
        assert (0 < IZR (Z.of_N (zero_count l))) by (apply IZR_lt; lia).
        apply Rmult_le_pos; [nra|]. apply Rlt_le, Rinv_0_lt_compat. lra. }
      rewrite (Rabs_pos_eq (raw_R _ _)) in A by exact RP. apply Rabs_le_inv in A.
      destruct R as [(K & _)|(_ & y & I & Q)]; [lra|].
      change (nth (N.to_nat (p - 4)) RAW_ESTIMATE_DATA []) with (est_table p) in I.
      change (nth (N.to_nat (p - 4)) BIAS_DATA []) with (bias_table p) in I.
      pose proof (bias_lower p _ _ Hp I) as Y. change (IZR (2 ^ 28)) with 268435456 in Q.
      apply Rabs_le_inv in Q. lra.
Qed.

Lemma blowup_plus : forall (V : Type) e ord o (a b : hist V),
  build_std e -> accurate e -> is_order ord -> is_order o ->
  valid MAX_PLUS a -> narrow (usize_bits e) a -> valid MAX_PLUS b -> narrow (usize_bits e) b ->
  hist_precision b = hist_precision a ->
  one_half 64 (hist_precision a) (hist_hashes a) -> one_half 64 (hist_precision a) (hist_hashes b) ->
  (forall i, i < 2 ^ hist_precision a -> In (i * 2 ^ (64 - hist_precision a)) (hist_hashes a ++ hist_hashes b))%N ->
  exists ca cb cu, count_plus e ord a = Ret ca /\ count_plus e ord b = Ret cb /\
    count_plus e ord (HMerge o a b) = Ret cu /\
    is_finite ca = true /\ is_finite cb = true /\ is_finite cu = true /\
    0 <= B2R ca <= 2.6 * m_R (hist_precision a) /\ 0 <= B2R cb <= 2.6 * m_R (hist_precision a) /\
    IZR (2 ^ 64) <= B2R cu.
Proof.
  intros V e ord o a b Hb Ha Ho Ho' Va Na Vb Nb P HA HB HS.
  destruct (half_plus V e ord a Hb Ha Va Na Ho HA) as (ca & Ea & Fa & Ca).
  rewrite <- P in HB. destruct (half_plus V e ord b Hb Ha Vb Nb Ho HB) as (cb & Eb & Fb & Cb). rewrite P in Cb.
  destruct (saturated_count V e ord (HMerge o a b) Hb Ha) as (cu & Eu & Fu & _ & Cu & _); auto.
  - cbn [valid]. auto.
  - cbn [narrow]. auto.
  - cbn [hist_precision hist_hashes]. rewrite P, N.eqb_refl. intros i Hi.
    specialize (HS i Hi). apply in_or_app. apply in_app_or in HS. tauto.
  - exists ca, cb, cu. repeat (split; [assumption|]). exact Cu.
Qed.

Lemma blowup_pf : forall (V : Type) e o (a b : hist V),
  build e -> accurate e -> rejects e -> is_order o ->
  valid MAX_PF a -> narrow (usize_bits e) a -> valid MAX_PF b -> narrow (usize_bits e) b ->
  hist_precision b = hist_precision a ->
  one_half 32 (hist_precision a) (map (fun x => x mod 2 ^ 32)%N (hist_hashes a)) ->
  one_half 32 (hist_precision a) (map (fun x => x mod 2 ^ 32)%N (hist_hashes b)) ->
  (forall i, i < 2 ^ hist_precision a ->
     In (i * 2 ^ (32 - hist_precision a)) (map (fun x => x mod 2 ^ 32) (hist_hashes a ++ hist_hashes b)))%N ->
  exists ca cb cu, count_pf e a = Ret ca /\ count_pf e b = Ret cb /\ count_pf e (HMerge o a b) = Ret cu /\
    is_finite ca = true /\ is_finite cb = true /\
    0 <= B2R ca <= 0.76 * m_R (hist_precision a) /\ 0 <= B2R cb <= 0.76 * m_R (hist_precision a) /\
    is_nan cu = true.
Proof.
  intros V e o a b Hb Ha Hr Ho' Va Na Vb Nb P HA HB HS.
  destruct (half_pf V e a Hb Ha Va Na HA) as (ca & Ea & Fa & Ca).
  rewrite <- P in HB. destruct (half_pf V e b Hb Ha Vb Nb HB) as (cb & Eb & Fb & Cb). rewrite P in Cb.
  destruct (saturated_nan V e (HMerge o a b) Hb Ha Hr) as (cu & Eu & Nu).
  - cbn [valid]. auto.
  - cbn [narrow]. auto.
  - cbn [hist_precision hist_hashes]. rewrite P, N.eqb_refl. intros i Hi. specialize (HS i Hi).
    rewrite map_app in *. apply in_or_app. apply in_app_or in HS. tauto.
  - exists ca, cb, cu. repeat (split; [assumption|]). exact Nu.
Qed.
