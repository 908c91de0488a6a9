(** * The properties about estimates as numbers *)
From Coq Require Import NArith ZArith Reals Lra Lia List Bool Sorted Permutation.
From Flocq Require Import Core BinarySingleNaN.
From Verif Require Import ModelRust ModelF64 ModelEnv ModelLog ModelRegisters ModelCommon ModelPF ModelPlus ModelHistory
  ModelConstants Spec SpecReal SpecCount SpecBuild BitFacts RegFacts EncFacts CodeFacts AbsorbFacts F64Facts
  LogFacts LogAccuracy LinearFacts RawFacts BiasFacts PFInv PlusInv FloatFacts PFFloat PFExact ClaimFacts ObsFacts.
Import ListNotations.
Local Open Scope R_scope.
Local Notation ln := Rpower.ln.

Lemma hashes_lt : forall (V : Type) (h : hist V), Forall (fun x => (x < 2 ^ 64)%N) (hist_hashes h).
Proof.
  induction h as [p b|k ord h IH v|ord h1 IH1 h2 IH2|ord h IH|ord ser_b de_b h IH];
    cbn [hist_hashes]; auto.
  - constructor; auto. apply hash64_lt.
  - destruct (_ =? _)%N; auto. apply Forall_app. auto.
Qed.

(** ** Plus *)
Lemma plus_value : forall (V : Type) e ord (h : hist V),
  build_std e -> accurate e -> valid MAX_PLUS h -> narrow (usize_bits e) h -> is_order ord ->
  exists c, count_plus e ord h = Ret c /\ is_finite c = true /\
    plus_R (map B2R (nth (N.to_nat (hist_precision h - 4)) RAW_ESTIMATE_DATA []))
           (map B2R (nth (N.to_nat (hist_precision h - 4)) BIAS_DATA []))
           (hist_precision h) (hist_hashes h) (B2R c).
Proof.
  intros V e ord h Hb Ha Hv Hn Ho.
  destruct (count_plus_ok V e ord h Hb Hv Hn Ho) as (s & s' & c & _ & _ & E & _ & _ & HV).
  pose proof (hist_prec V _ h Hv) as Hp. unfold MAX_PLUS in Hp.
  destruct (plus_formula_ok e _ _ c Hb Ha Hp (narrow_prec V _ h Hn) (hashes_lt V h) HV)
    as (F & A & _).
  exists c. split; [auto|]. split; [exact F|exact A].
Qed.

Lemma plus_range : forall (V : Type) e ord (h : hist V),
  build_std e -> accurate e -> valid MAX_PLUS h -> narrow (usize_bits e) h -> is_order ord ->
  exists c, count_plus e ord h = Ret c /\ is_finite c = true /\
    0 <= B2R c <= IZR (2 ^ 65) /\
    (hist_hashes h = [] -> B2R c = 0) /\ (hist_hashes h <> [] -> 0.2 <= B2R c).
Proof.
  intros V e ord h Hb Ha Hv Hn Ho.
  destruct (count_plus_ok V e ord h Hb Hv Hn Ho) as (s & s' & c & _ & _ & E & _ & _ & HV).
  pose proof (hist_prec V _ h Hv) as Hp. unfold MAX_PLUS in Hp.
  destruct (plus_formula_ok e _ _ c Hb Ha Hp (narrow_prec V _ h Hn) (hashes_lt V h) HV)
    as (F & _ & Z & P & U).
  exists c. split; [auto|]. split; [exact F|]. rewrite (pow_bpow 65) by lia.
  fold (val c). split; [|auto]. split; [|auto].
  destruct (hist_hashes h) as [|x H]; [rewrite Z; [lra|auto]|].
  assert (0.2 <= val c) by (apply P; discriminate). lra.
Qed.

Lemma plus_finite : forall (V : Type) e ord (h : hist V),
  build_std e -> accurate e -> valid MAX_PLUS h -> narrow (usize_bits e) h -> is_order ord ->
  exists c, count_plus e ord h = Ret c /\ is_finite c = true /\ 0 <= B2R c.
Proof.
  intros V e ord h Hb Ha Hv Hn Ho.
  destruct (plus_range V e ord h Hb Ha Hv Hn Ho) as (c & E & F & B & _).
  exists c. split; [auto|]. split; [auto|]. apply B.
Qed.

Lemma plus_fresh : forall (V : Type) e ord p (b : V -> N),
  build_std e -> accurate e -> (4 <= p <= 18)%N -> is_order ord ->
  exists s s' c, hp_new e p b = Ret (ROk s) /\ hp_count e ord s = Ret (s', c) /\
    is_finite c = true /\ B2R c = 0.
Proof.
  intros V e ord p b Hb Ha Hp Ho.
  destruct (hp_new_ok V e p b (proj1 (proj1 Hb)) Hp) as (s & E & Hs & _).
  assert (NL : forall L, is_code_list p [] L -> L = []).
  { intros [|x L] [_ HS]; auto. destruct (proj1 (HS x)). now left. }
  destruct (hp_count_ok V e ord p b [] s Hb Hp) as (s' & c & E' & _ & _ & HV); auto.
  { right. intros L HL. rewrite (NL L HL). cbn. apply N.le_0_l. }
  exists s, s', c. split; [auto|]. split; [auto|].
  destruct HV as (L & HL & HV). pose proof (NL L HL). subst L.
  destruct HV as [[_ Ec]|[HV _]]; [|cbn in HV; lia].
  destruct (linear_ok e (2 ^ 24) (2 ^ 24 - 0) Ha) as (c' & Ec' & Fc & C0 & _);
    try (change (2 ^ 24)%N with 16777216%N; lia).
  change (N.of_nat (length [])) with 0%N in Ec. rewrite Ec in Ec'. injection Ec' as <-.
  split; [exact Fc|]. apply C0. reflexivity.
Qed.

(** A sparse sketch counts the same on every width of usize. *)
Lemma sparse_any_width : forall (V : Type) e e' ord (h : hist V),
  build_std e -> build_std e' -> same_platform e e' -> valid MAX_PLUS h -> is_order ord ->
  countable 0 (HCount ord h) ->
  exists c, count_plus e ord h = Ret c /\ count_plus e' ord h = Ret c.
Proof.
  intros V e e' ord h Hb Hb' He Hv Ho Hc.
  assert (W : forall w (g : hist V), countable 0 g -> countable w g).
  { intros w g. induction g; cbn [countable]; intuition lia. }
  destruct (count_plus_gen V e ord h Hb Hv (W _ _ Hc) Ho) as (_ & _ & c & _ & _ & E & _ & _ & HV).
  destruct (count_plus_gen V e' ord h Hb' Hv (W _ _ Hc) Ho) as (_ & _ & c' & _ & _ & E' & _ & _ & HV').
  exists c. split; [auto|]. rewrite E'. f_equal. symmetry.
  destruct Hc as [[Hc|Hc] _]; [lia|].
  destruct HV as (L & HL & HV). destruct HV' as (L' & HL' & HV').
  rewrite (code_list_unique _ _ _ _ HL' HL) in *. specialize (Hc L HL).
  destruct HV as [[_ HV]|[HV _]]; [|lia]. destruct HV' as [[_ HV']|[HV' _]]; [|lia].
  assert (LE : forall m v, linear_count e m v = linear_count e' m v).
  { intros m v. unfold linear_count, ModelCommon.ln. destruct He as (F & _ & LN & _).
    rewrite F. rewrite (proj2 Hb'). now rewrite LN. }
  rewrite LE in HV. congruence.
Qed.

Lemma small_exact : forall (V : Type) e ord (h : hist V) L,
  build_std e -> accurate e -> valid MAX_PLUS h -> narrow (usize_bits e) h -> is_order ord ->
  is_code_list (hist_precision h) (hist_hashes h) L ->
  (gap_len 0 L <= sparse_limit (hist_precision h))%N -> (N.of_nat (length L) <= 5791)%N ->
  exists c, count_plus e ord h = Ret c /\ is_finite c = true /\
    Ztrunc (B2R c) = Z.of_nat (length L).
Proof.
  intros V e ord h L Hb Ha Hv Hn Ho HL HG H5.
  destruct (count_plus_ok V e ord h Hb Hv Hn Ho) as (s & s' & c & _ & _ & E & _ & _ & L' & HL' & HV).
  rewrite (code_list_unique _ _ _ _ HL' HL) in *.
  destruct HV as [[_ HV]|[HV _]]; [|lia].
  destruct (sparse_trunc e (N.of_nat (length L)) c Ha H5 HV) as [F T].
  exists c. split; [auto|]. split; [exact F|]. fold (val c). rewrite T. lia.
Qed.

Lemma small_sharp : forall (V : Type) e ord (h : hist V) L,
  build_std e -> accurate e -> valid MAX_PLUS h -> narrow (usize_bits e) h -> is_order ord ->
  is_code_list (hist_precision h) (hist_hashes h) L ->
  (gap_len 0 L <= sparse_limit (hist_precision h))%N -> (N.of_nat (length L) = 5792)%N ->
  exists c, count_plus e ord h = Ret c /\ is_finite c = true /\ Ztrunc (B2R c) = 5793%Z.
Proof.
  intros V e ord h L Hb Ha Hv Hn Ho HL HG H5.
  destruct (count_plus_ok V e ord h Hb Hv Hn Ho) as (s & s' & c & _ & _ & E & _ & _ & L' & HL' & HV).
  rewrite (code_list_unique _ _ _ _ HL' HL) in *.
  destruct HV as [[_ HV]|[HV _]]; [|lia]. rewrite H5 in HV.
  destruct (sparse_trunc_5792 e c Ha HV) as [F T].
  exists c. split; [auto|]. split; [exact F|exact T].
Qed.

(** At most 16 gaps between 32-bit codes need five bytes. *)
Lemma varint_len_4 : forall n, (n < 2 ^ 32)%N -> (2 ^ 28 * varint_len n <= 2 ^ 28 * 4 + n)%N.
Proof.
  intros n Hn. unfold varint_len. destruct (N.eqb_spec n 0) as [->|Z]; [cbn; lia|].
  assert (B : forall k, (n < 2 ^ (7 * k))%N -> (N.log2 n / 7 + 1 <= k)%N).
  { intros k Hk. assert (L : (N.log2 n < 7 * k)%N) by (apply N.log2_lt_pow2; lia).
    generalize dependent (N.log2 n). intros j Hj.
    assert (j / 7 < k)%N by (apply N.div_lt_upper_bound; lia). lia. }
  destruct (N.lt_ge_cases n (2 ^ 28)) as [H|H].
  - pose proof (B 4%N H). lia.
  - pose proof (B 5%N ltac:(change (2 ^ (7 * 5))%N with 34359738368%N;
      change (2 ^ 32)%N with 4294967296%N in Hn; lia)). lia.
Qed.

Lemma gap_len_4 : forall L last, StronglySorted N.lt L -> Forall (fun x => (last <= x < 2 ^ 32)%N) L ->
  (2 ^ 28 * gap_len last L + last <= 2 ^ 28 * (4 * N.of_nat (length L)) + N.max last (2 ^ 32))%N.
Proof.
  induction L as [|x L IH]; intros last HS HF; cbn [gap_len length]; [lia|].
  apply StronglySorted_inv in HS. destruct HS as [HS Hx]. inversion HF as [|? ? Hl HF']; subst.
  assert (F : Forall (fun y => (x <= y < 2 ^ 32)%N) L).
  { rewrite Forall_forall in *. intros y Hy. specialize (HF' y Hy). specialize (Hx y Hy). lia. }
  specialize (IH x HS F). pose proof (varint_len_4 (x - last) ltac:(lia)).
  change (2 ^ 32)%N with 4294967296%N in *. change (2 ^ 28)%N with 268435456%N in *. lia.
Qed.

(** From precision 15 on, up to 5791 codes always fit. *)
Lemma small_fits : forall p H L, (15 <= p <= 18)%N ->
  Forall (fun h => (h < 2 ^ 64)%N) H -> is_code_list p H L ->
  (N.of_nat (length L) <= 5791)%N -> (gap_len 0 L <= sparse_limit p)%N.
Proof.
  intros p H L Hp HH [HS HL] HN.
  assert (F : Forall (fun x => (0 <= x < 2 ^ 32)%N) L).
  { apply Forall_forall. intros x Hx. apply HL in Hx. apply in_map_iff in Hx.
    destruct Hx as (h & <- & Hh). split; [lia|]. apply sparse_code_lt.
    rewrite Forall_forall in HH. auto. }
  pose proof (gap_len_4 L 0 HS F) as G. rewrite N.add_0_r, N.max_r in G by lia.
  assert (26214 <= sparse_limit p)%N.
  { unfold sparse_limit. apply N.div_le_lower_bound; [lia|].
    assert (2 ^ 15 <= 2 ^ p)%N by now apply pow2_le. change (2 ^ 15)%N with 32768%N in *. lia. }
  change (2 ^ 32)%N with 4294967296%N in *. change (2 ^ 28)%N with 268435456%N in *. lia.
Qed.

Lemma small_exact_15 : forall (V : Type) e ord (h : hist V) L,
  build_std e -> accurate e -> valid MAX_PLUS h -> narrow (usize_bits e) h -> is_order ord ->
  (15 <= hist_precision h)%N -> is_code_list (hist_precision h) (hist_hashes h) L ->
  (N.of_nat (length L) <= 5791)%N ->
  exists c, count_plus e ord h = Ret c /\ is_finite c = true /\
    Ztrunc (B2R c) = Z.of_nat (length L).
Proof.
  intros V e ord h L Hb Ha Hv Hn Ho Hp HL H5. eapply small_exact; eauto.
  pose proof (hist_prec V _ h Hv) as Hp'. unfold MAX_PLUS in Hp'.
  apply small_fits with (hist_hashes h); auto; [lia|apply hashes_lt].
Qed.

(** ** PF *)
Lemma pf_value_R : forall (V : Type) e (h : hist V),
  build e -> accurate e -> valid MAX_PF h -> narrow (usize_bits e) h ->
  below_2_32 (hist_precision h) (hist_hashes h) ->
  exists c, count_pf e h = Ret c /\ is_finite c = true /\
    pf_R (hist_precision h) (hist_hashes h) (B2R c) /\
    0 <= B2R c <= IZR (2 ^ 40) /\
    (hist_hashes h = [] -> B2R c = 0) /\ (hist_hashes h <> [] -> 0.9 <= B2R c).
Proof.
  intros V e h Hb Ha Hv Hn Hs.
  destruct (count_pf_ok V e h Hb Hv Hn) as (l & HR & Hl & E).
  pose proof (hist_prec V _ h Hv) as Hp. unfold MAX_PF in Hp.
  destruct (pf_value_total e (hist_precision h) l (zero_count l)) as [c Ec].
  destruct (pf_exact_ok e _ _ l c Hb Ha Hp HR Hl (Hs l HR) Ec) as (F & A & Z & P & U).
  exists c. split; [congruence|]. split; [exact F|]. split; [exact A|].
  rewrite (pow_bpow 40) by lia. fold (val c). split; [|auto]. split; [|auto].
  destruct (hist_hashes h) as [|x H]; [rewrite Z; [lra|auto]|].
  assert (0.9 <= val c) by (apply P; discriminate). lra.
Qed.

(** A fresh sketch is below 2^32. *)
Lemma below_nil : forall p, (4 <= p <= 16)%N -> below_2_32 p [].
Proof.
  intros p Hp l HR. change (map (fun h => (h mod 2 ^ 32)%N) []) with (@nil N) in HR.
  destruct HR as [HLn HR].
  pose proof (m_R_bounds p ltac:(lia) ltac:(lia)) as Hm.
  destruct (alpha_pow2 p ltac:(lia) ltac:(lia)) as (_ & _ & HA).
  assert (S : inv_sum l = m_R p).
  { rewrite <- (len_m p l HLn).
    assert (A : forall v, In v l -> v = 0%N).
    { intros v Hv. apply In_nth_error in Hv. destruct Hv as [i Hi].
      destruct (HR (N.of_nat i) v) as [_ [->|(h & [] & _)]]; auto. now rewrite Nnat.Nat2N.id. }
    clear - A. induction l as [|a l IH]; [reflexivity|].
    unfold inv_sum. cbn [fold_right length]. fold (inv_sum l).
    rewrite IH by (intros v Hv; apply A; now right). rewrite (A a) by now left.
    rewrite S_INR. cbn [Z.of_N Z.pow]. change (/ IZR 1) with (/ 1). lra. }
  unfold raw_R. rewrite S. change (IZR (2 ^ 32)) with 4294967296.
  apply Rmult_lt_reg_r with (m_R p); [lra|]. unfold Rdiv.
  rewrite !Rmult_assoc, Rinv_l by lra. nra.
Qed.

Lemma pf_fresh : forall (V : Type) e p (b : V -> N),
  build e -> accurate e -> (4 <= p <= 16)%N -> (2 * p < usize_bits e)%N ->
  exists s c, pf_new e p b = Ret (ROk s) /\ pf_count_est e s = Ret c /\
    is_finite c = true /\ B2R c = 0.
Proof.
  intros V e p b Hb Ha Hp Hn.
  destruct (pf_new_ok V e p b (proj1 Hb) Hp) as (s & E & Hs).
  pose proof (pf_count_value V e p b [] s Hn Hs) as Ec.
  destruct (pf_value_total e p (reg_iter 5 (pf_registers s)) (zero_count (reg_iter 5 (pf_registers s))))
    as [c Ev].
  pose proof Hs as (_ & _ & _ & _ & _ & _ & RF & _).
  assert (Fl : Forall (fun v => (v < 32)%N) (reg_iter 5 (pf_registers s))) by (apply (reg_iter_lt 5); now left).
  destruct (pf_exact_ok e p [] _ c Hb Ha Hp RF Fl (below_nil p Hp _ RF) Ev) as (F & _ & Z & _).
  exists s, c. split; [auto|]. split; [congruence|]. split; [exact F|now apply Z].
Qed.

(** Registers of at most [32 - p] keep the estimate below 2^32. *)
Lemma low_ranks_below : forall p H, (4 <= p <= 16)%N ->
  (forall h, In h H -> (rank 32 p (h mod 2 ^ 32) <= 32 - p)%N) -> below_2_32 p H.
Proof.
  intros p H Hp HH l HR.
  assert (F : Forall (fun v => (v <= 32 - p)%N) l).
  { destruct HR as [HLn HR]. apply Forall_forall. intros v Hv. apply In_nth_error in Hv.
    destruct Hv as [i Hi]. destruct (HR (N.of_nat i) v) as [_ [->|(h & Hh & _ & <-)]].
    - now rewrite Nnat.Nat2N.id.
    - lia.
    - apply in_map_iff in Hh. destruct Hh as (x & <- & Hx). auto. }
  pose proof (inv_sum_ge l (32 - p) F) as L. rewrite (len_m p l (proj1 HR)) in L.
  pose proof (m_R_bounds p ltac:(lia) ltac:(lia)) as Hm.
  destruct (alpha_pow2 p ltac:(lia) ltac:(lia)) as (_ & _ & HA).
  pose proof (alpha_upper p ltac:(lia) ltac:(lia)) as HU.
  assert (E : m_R p = bpow radix2 (Z.of_N p)) by apply RawFacts.two_pow.
  assert (E2 : m_R p * m_R p = 4294967296 * (m_R p * bpow radix2 (- Z.of_N (32 - p)))).
  { change 4294967296 with (bpow radix2 32). rewrite !E.
    rewrite <- !bpow_plus. f_equal. lia. }
  pose proof (bpow_gt_0 radix2 (- Z.of_N (32 - p))) as P1.
  assert (P2 : 0 < m_R p * bpow radix2 (- Z.of_N (32 - p))) by (apply Rmult_lt_0_compat; lra).
  unfold raw_R. rewrite E2. change (IZR (2 ^ 32)) with 4294967296.
  set (q := m_R p * bpow radix2 (- Z.of_N (32 - p))) in *.
  apply Rmult_lt_reg_r with (inv_sum l); [lra|]. unfold Rdiv.
  rewrite Rmult_assoc, Rinv_l, Rmult_1_r by lra.
  apply Rle_lt_trans with (0.75 * (4294967296 * q)); [apply Rmult_le_compat_r; lra|]. nra.
Qed.

(** ** The raw estimate *)
Lemma raw_plus_accurate : forall e p l, build e -> (4 <= p <= 18)%N -> (2 * p < usize_bits e)%N ->
  N.of_nat (length l) = (2 ^ p)%N -> Forall (fun v => (v < if feat_std e then 64 else 32)%N) l ->
  exists x, estimate_raw_plus e l (2 ^ p) = Ret x /\ is_finite x = true /\
    approx (/ IZR (2 ^ 33)) (B2R x) (raw_R p l).
Proof.
  intros e p l Hb Hp Hu HL Hl.
  assert (Hl64 : Forall (fun v => (v < 64)%N) l).
  { eapply Forall_impl; [|exact Hl]. intros a Hv. cbv beta in *. destruct (feat_std e); lia. }
  destruct (raw_f_rel e p l Hb (proj1 Hp) (proj2 Hp) HL Hl64) as (F & R & _).
  exists (raw_f e p l). split; [apply estimate_raw_plus_ok; auto|].
  - rewrite <- N.pow_add_r. apply pow2_lt. lia.
  - split; [exact F|]. unfold approx. rewrite (inv_pow2 33) by lia. now apply rel_abs.
Qed.

Lemma raw_pf_accurate : forall e p l, build e -> (4 <= p <= 16)%N -> (2 * p < usize_bits e)%N ->
  N.of_nat (length l) = (2 ^ p)%N -> Forall (fun v => (v < 32)%N) l ->
  exists x, estimate_raw_plus e l (2 ^ p) = Ret x /\ is_finite x = true /\
    approx (/ IZR (2 ^ 49)) (B2R x) (raw_R p l).
Proof.
  intros e p l Hb Hp Hu HL Hl.
  destruct (raw_f_rel_pf e p l Hb (proj1 Hp) (proj2 Hp) HL Hl) as (F & R & _).
  exists (raw_f e p l). split; [apply estimate_raw_plus_ok; auto|].
  - eapply Forall_impl; [|exact Hl]. intros a Hv. cbv beta in *. unfold lut_bound.
    destruct (feat_std e); lia.
  - rewrite <- N.pow_add_r. apply pow2_lt. lia.
  - split; [exact F|]. unfold approx. rewrite (inv_pow2 49) by lia. now apply rel_abs.
Qed.

Lemma inv_sum_perm : forall l l', Permutation l l' -> inv_sum l = inv_sum l'.
Proof.
  induction 1; unfold inv_sum in *; cbn [fold_right]; try congruence. ring.
Qed.

Lemma raw_pf_order : forall e p l l', build e -> (4 <= p <= 16)%N -> (2 * p < usize_bits e)%N ->
  N.of_nat (length l) = (2 ^ p)%N -> Forall (fun v => (v < 32)%N) l -> Permutation l l' ->
  estimate_raw_plus e l (2 ^ p) = estimate_raw_plus e l' (2 ^ p).
Proof.
  intros e p l l' Hb Hp Hu HL Hl HP.
  assert (HL' : N.of_nat (length l') = (2 ^ p)%N) by (now rewrite <- (Permutation_length HP)).
  assert (Hl' : Forall (fun v => (v < 32)%N) l') by (eapply Permutation_Forall; eauto).
  assert (W : forall l : list N, N.of_nat (length l) = (2 ^ p)%N -> Forall (fun v => (v < 32)%N) l ->
    estimate_raw_plus e l (2 ^ p) = Ret (raw_f e p l) /\
    is (fsum (sum_init e) l) (inv_sum l) /\ 0 < inv_sum l).
  { clear l l' HL Hl HP HL' Hl'. intros l HL Hl. split; [|split].
    - apply estimate_raw_plus_ok.
      + eapply Forall_impl; [|exact Hl]. intros a Hv. cbv beta in *. unfold lut_bound.
        destruct (feat_std e); lia.
      + rewrite <- N.pow_add_r. apply pow2_lt. lia.
    - apply fsum_exact_pf; auto.
      assert ((2 ^ p <= 2 ^ 16)%N) by (apply pow2_le; lia).
      change (2 ^ 16)%Z with (Z.of_N (2 ^ 16)). lia.
    - destruct (raw_R_bounds p l) as [B _]; auto; try lia.
      eapply Forall_impl; [|exact Hl]. intros a Hv. cbv beta in *. lia. }
  destruct (W l HL Hl) as (E & [F V] & P). destruct (W l' HL' Hl') as (E' & [F' V'] & P').
  rewrite E, E'. f_equal. unfold raw_f. f_equal.
  rewrite <- (inv_sum_perm l l' HP) in *.
  apply B2R_inj; [| |fold (val (fsum (sum_init e) l)) (val (fsum (sum_init e) l')); congruence];
    [destruct (fsum (sum_init e) l)|destruct (fsum (sum_init e) l')]; try discriminate;
    try reflexivity; unfold val in *; cbn in *; lra.
Qed.

(** ** The bias *)
Lemma bias_defined : forall e p raw, build e -> (4 <= p <= 18)%N -> is_finite raw = true ->
  exists f y, estimate_bias e p raw = Ret f /\ is_finite f = true /\
    interpolated (map B2R (nth (N.to_nat (p - 4)) RAW_ESTIMATE_DATA []))
                 (map B2R (nth (N.to_nat (p - 4)) BIAS_DATA [])) (B2R raw) y /\
    Rabs (B2R f - y) <= / IZR (2 ^ 48) * m_R p.
Proof.
  intros e p raw Hb Hp Hr.
  destruct (estimate_bias_ok e p raw Hb (proj1 Hp) (proj2 Hp) Hr) as (f & y & E & F & I & B & _).
  exists f, y. split; [auto|]. split; [exact F|]. split; [exact I|].
  eapply Rle_trans; [exact B|]. change (/ IZR (2 ^ 48)) with (/ 281474976710656).
  rewrite u_val. lra.
Qed.

(** What interpolation means: the value lies between the biases of two adjacent points that
    bracket the estimate, or is the first or the last bias. *)
Lemma interpolated_between : forall xs ys x y, interpolated xs ys x y ->
  (exists x0 y0, nth_error xs 0 = Some x0 /\ nth_error ys 0 = Some y0 /\ x <= x0 /\ y = y0) \/
  (exists xl yl, nth_error xs (length xs - 1) = Some xl /\
     nth_error ys (length ys - 1) = Some yl /\ xl <= x /\ y = yl) \/
  (exists i x0 y0 x1 y1, nth_error xs i = Some x0 /\ nth_error ys i = Some y0 /\
     nth_error xs (S i) = Some x1 /\ nth_error ys (S i) = Some y1 /\
     Rmin x0 x1 <= x <= Rmax x0 x1 /\ Rmin y0 y1 <= y <= Rmax y0 y1).
Proof.
  intros xs ys x y [H|[H|H]]; auto. right. right.
  destruct H as (i & x0 & y0 & x1 & y1 & A & B & C & D & N & R & Y).
  exists i, x0, y0, x1, y1. do 4 (split; [auto|]). split; [auto|]. subst y.
  set (t := (x - x0) / (x1 - x0)).
  assert (T : 0 <= t <= 1).
  { unfold t. revert R. unfold Rmin, Rmax. destruct (Rle_dec x0 x1); intros R.
    - split; [apply Rmult_le_pos; [lra|apply Rlt_le, Rinv_0_lt_compat; lra]|].
      apply Rmult_le_reg_r with (x1 - x0); [lra|]. unfold Rdiv. rewrite Rmult_assoc, Rinv_l by lra. lra.
    - replace ((x - x0) / (x1 - x0)) with ((x0 - x) / (x0 - x1)) by (field; lra).
      split; [apply Rmult_le_pos; [lra|apply Rlt_le, Rinv_0_lt_compat; lra]|].
      apply Rmult_le_reg_r with (x0 - x1); [lra|]. unfold Rdiv. rewrite Rmult_assoc, Rinv_l by lra. lra. }
  unfold Rmin, Rmax. destruct (Rle_dec y0 y1); split; nra.
Qed.

(** ** The logarithm *)
Lemma log_special : forall ck b, (b < 2 ^ 64)%N ->
  exists y, log_bits ck b = Ret y /\
    match from_bits b with
    | B754_zero _ => y = B754_infinity true
    | B754_infinity false => y = B754_infinity false
    | B754_infinity true => y = B754_nan
    | B754_nan => y = B754_nan
    | B754_finite true _ _ _ => y = B754_nan
    | B754_finite false _ _ _ =>
        is_finite y = true /\ (b = 0x3ff0000000000000%N -> y = pzero)
    end.
Proof.
  intros ck b Hb. destruct (log_bits_cases ck b Hb) as (y & E & H). exists y. split; [auto|].
  destruct (from_bits b) as [s|s| |s m ex Hx] eqn:Ef; auto.
  destruct s; [exact H|].
  destruct H as [[Eb ->]|[Nb R]].
  - split; [reflexivity|auto].
  - split; [|intros; contradiction].
    assert (G : is_finite (from_bits b) = true) by (rewrite Ef; reflexivity).
    assert (P : 0 < val (from_bits b)).
    { rewrite Ef. unfold val, B2R. apply F2R_gt_0. reflexivity. }
    destruct (reduced_accurate _ _ R) as [F _]. exact F.
Qed.

Lemma model_ln_accurate : forall ck,
  ln_accurate (fun x => match log ck x with Ret y => y | _ => B754_nan end).
Proof.
  intros ck x Fx Hx.
  assert (0 < / IZR (2 ^ 100)) by (rewrite (pow_bpow 100) by lia; rewrite <- bpow_opp; apply bpow_gt_0).
  destruct (log_accurate ck x Fx) as (y & E & Fy & A); [unfold val; lra|].
  rewrite E. split; [exact Fy|]. eapply Rle_trans; [exact A|].
  apply Rmult_le_compat_r; [apply Rabs_pos|]. rewrite u_val. change (/ IZR (2 ^ 50)) with (/ 1125899906842624).
  lra.
Qed.

Lemma log_accurate_51 : forall ck x, is_finite x = true -> 0 < B2R x ->
  exists y, log ck x = Ret y /\ is_finite y = true /\
    Rabs (B2R y - ln (B2R x)) <= / IZR (2 ^ 51) * Rabs (ln (B2R x)).
Proof.
  intros ck x F P. destruct (log_accurate ck x F P) as (y & E & Fy & A). exists y.
  split; [auto|]. split; [exact Fy|]. eapply Rle_trans; [exact A|].
  apply Rmult_le_compat_r; [apply Rabs_pos|]. rewrite u_val. change (/ IZR (2 ^ 51)) with (/ 2251799813685248).
  lra.
Qed.
