(** * A usize too narrow for the square of the number of registers *)
From Coq Require Import NArith ZArith Reals Lra Lia List Bool Sorted.
From Flocq Require Import Core BinarySingleNaN.
From Verif Require Import ModelRust ModelF64 ModelEnv ModelRegisters ModelCommon ModelPF ModelPlus
  ModelHistory Spec SpecReal SpecCount SpecBuild BitFacts RegFacts EncFacts CodeFacts AbsorbFacts F64Facts
  LogAccuracy LinearFacts RawFacts BiasTables BiasFacts PFInv PlusInv FloatFacts ClaimFloat.
Import ListNotations.
Local Open Scope N_scope.

Lemma square_mod : forall e p, usize_bits e <= 2 * p -> (2 ^ p * 2 ^ p) mod 2 ^ usize_bits e = 0.
Proof.
  intros e p H. rewrite <- N.pow_add_r.
  replace (p + p) with ((p + p - usize_bits e) + usize_bits e) by lia.
  rewrite N.pow_add_r. apply N.mod_mul. now apply N.pow_nonzero.
Qed.

Lemma square_big : forall e p, usize_bits e <= 2 * p -> 2 ^ usize_bits e <= 2 ^ p * 2 ^ p.
Proof. intros e p H. rewrite <- N.pow_add_r. apply pow2_le. lia. Qed.

(** With overflow checks the raw estimate panics. *)
Lemma raw_panics : forall e p l, overflow_checks e = true -> usize_bits e <= 2 * p ->
  Forall (fun v => v < lut_bound e) l -> estimate_raw_plus e l (2 ^ p) = Panic.
Proof.
  intros e p l Hc Hw Hl. rewrite estimate_raw_plus_gen by auto. unfold umul.
  rewrite (proj2 (N.ltb_ge _ _) (square_big e p Hw)), Hc. reflexivity.
Qed.

(** Without, it is zero. *)
Lemma raw_zero : forall e p l, build e -> overflow_checks e = false -> usize_bits e <= 2 * p ->
  4 <= p <= 18 -> N.of_nat (length l) = 2 ^ p -> Forall (fun v => v < lut_bound e) l ->
  exists raw, estimate_raw_plus e l (2 ^ p) = Ret raw /\ is raw 0.
Proof.
  intros e p l Hb Hc Hw Hp HL Hl. rewrite estimate_raw_plus_gen by auto. unfold umul.
  rewrite (proj2 (N.ltb_ge _ _) (square_big e p Hw)), Hc, (square_mod e p Hw), bind_ret.
  eexists. split; [reflexivity|].
  assert (Hl' : Forall (fun v => v < 64) l).
  { eapply Forall_impl; [|exact Hl]. intros v Hv. cbv beta in Hv. unfold lut_bound in Hv.
    destruct (feat_std e); lia. }
  assert (L18 : (Z.of_nat (length l) <= 2 ^ 18)%Z).
  { pose proof (pow2_le p 18 (proj2 Hp)). change (2 ^ 18) with 262144 in *.
    change (2 ^ 18)%Z with 262144%Z. lia. }
  destruct (fsum_rel e l Hb Hl' L18) as [FS RS].
  destruct (raw_R_bounds p l (proj1 Hp) (proj2 Hp) HL Hl') as [PS _].
  destruct (alpha_pow2 p (proj1 Hp) (proj2 Hp)) as (FA & _ & _).
  destruct (of_Z_exact 0 ltac:(discriminate)) as [F0 V0].
  change (of_N 0) with (of_Z 0).
  assert (M : is (fmul (alpha (2 ^ p)) (of_Z 0)) 0%R).
  { pose proof (fmul_is (alpha (2 ^ p)) (of_Z 0) FA F0) as M.
    rewrite V0, Rmult_0_r, rnd_0 in M. apply M. rewrite Rabs_R0. apply bpow_ge_0. }
  destruct M as [FM VM].
  pose proof (rel_bounds _ _ _ RS (Rlt_le _ _ PS)) as BS.
  assert (B34 : (bpow radix2 (-34) <= / 2)%R) by (simpl; lra).
  pose proof (fdiv_is _ (fsum (sum_init e) l) FM FS) as D.
  rewrite VM in D. unfold Rdiv in D. rewrite Rmult_0_l, rnd_0 in D. apply D.
  - nra.
  - rewrite Rabs_R0. apply bpow_ge_0.
Qed.

(** ** HyperLogLogPF *)
Lemma pf_narrow_panics : forall (V : Type) e (h : hist V), build e -> valid MAX_PF h ->
  countable_pf (usize_bits e) h -> overflow_checks e = true ->
  usize_bits e <= 2 * hist_precision h -> count_pf e h = Panic.
Proof.
  intros V e h Hb Hv Hn Hc Hw. destruct (run_pf_gen V e h Hb Hv Hn) as (s & E & Hs).
  unfold count_pf. rewrite E, bind_ret. unfold pf_count_est.
  destruct Hs as (_ & _ & C & _). rewrite C. rewrite raw_panics; auto.
  eapply Forall_impl; [|apply (reg_iter_lt 5); now left]. intros v Hv'. cbv beta in Hv'.
  change (2 ^ 5) with 32 in Hv'. unfold lut_bound. destruct (feat_std e); lia.
Qed.

Lemma full_no_zero : forall W p H l, is_register_file W p H l -> p <= W ->
  (forall i, i < 2 ^ p -> exists h, In h H /\ bucket W p h = i) -> zero_count l = 0.
Proof.
  intros W p H l [HL HR] Hp HF. unfold zero_count.
  assert (A : forall v, In v l -> v <> 0).
  { intros v Hv. apply In_nth_error in Hv. destruct Hv as [i Hi].
    assert (Li : N.of_nat i < 2 ^ p).
    { rewrite <- HL. assert (i < length l)%nat by (apply nth_error_Some; congruence). lia. }
    destruct (HF _ Li) as (h & Hh & Bh).
    destruct (HR (N.of_nat i) v) as [Up _]; [now rewrite Nnat.Nat2N.id|].
    specialize (Up h Hh Bh). pose proof (rank_bounds W p h Hp). lia. }
  clear - A. induction l as [|x l IH]; [reflexivity|]. cbn [filter].
  destruct (N.eqb_spec 0 x) as [E|E]; [exfalso; apply (A x); [now left|auto]|].
  apply IH. intros v Hv. apply A. now right.
Qed.

Lemma pf_narrow_zero : forall (V : Type) e (h : hist V), build e -> valid MAX_PF h ->
  countable_pf (usize_bits e) h -> overflow_checks e = false ->
  usize_bits e <= 2 * hist_precision h ->
  (forall i, i < 2 ^ hist_precision h ->
     exists x, In x (hist_hashes h) /\ bucket 32 (hist_precision h) (x mod 2 ^ 32) = i) ->
  exists c, count_pf e h = Ret c /\ is_finite c = true /\ B2R c = 0%R.
Proof.
  intros V e h Hb Hv Hn Hc Hw HF. destruct (run_pf_gen V e h Hb Hv Hn) as (s & E & Hs).
  pose proof (hist_prec V _ h Hv) as Hp. unfold MAX_PF in Hp.
  unfold count_pf. rewrite E, bind_ret. unfold pf_count_est. destruct Hs as (_ & _ & C & D).
  pose proof D as (_ & _ & Z & RF & _).
  assert (Fl : Forall (fun v => v < lut_bound e) (reg_iter 5 (pf_registers s))).
  { eapply Forall_impl; [|apply (reg_iter_lt 5); now left]. intros v Hv'. cbv beta in Hv'.
    change (2 ^ 5) with 32 in Hv'. unfold lut_bound. destruct (feat_std e); lia. }
  destruct (raw_zero e (hist_precision h) _ Hb Hc Hw ltac:(lia) (proj1 RF) Fl) as (raw & Er & Fr & Vr).
  rewrite C. unfold SIZE_PF. rewrite Er, bind_ret. cbv zeta. unfold reg_zeros.
  unfold exact_zeros in Z. rewrite Z.
  rewrite (full_no_zero 32 (hist_precision h) (low32 (hist_hashes h)) _ RF); [|lia|].
  2:{ intros i Hi. destruct (HF i Hi) as (x & Hx & Bx). exists (x mod 2 ^ 32). split; auto.
      unfold low32. apply in_map_iff. eauto. }
  cbn [N.eqb negb]. rewrite andb_false_r.
  destruct PFFloat.cut_30 as (t & Et & Ft & Ct). rewrite Et.
  rewrite flt_spec, Ct, Vr by auto. case Rlt_bool_spec; intros K.
  { exfalso. change (IZR (2 ^ 32)) with 4294967296%R in K. lra. }
  exists raw. auto.
Qed.

(** ** HyperLogLogPlus *)
Lemma hp_count_normal : forall (V : Type) e ord p (b : V -> N) H s,
  build_std e -> 4 <= p <= 18 -> is_order ord -> plus_ok p b H s -> big_codes p H ->
  exists s' l, is_register_file 64 p H l /\ Forall (fun v => v < 64) l /\
    hp_count e ord s = (let* c := normal_value e p l in Ret (s', c)).
Proof.
  intros V e ord p b H s Hb Hp Ho (Hd & HF & HB) (L & HL & HG).
  pose proof (proj1 (proj1 Hb)) as He. unfold hp_count.
  assert (HS : exists s', (if is_sparse s then merge_sparse e ord s else Ret s) = Ret s' /\
    header p b s' /\ flushed p H s').
  { unfold is_sparse. unfold body_ok in HB. destruct (hp_registers s) as [r|] eqn:Er.
    - exists s. split; [auto|split; [auto|]]. unfold flushed. rewrite Er. tauto.
    - destruct HB as [Hs _].
      destruct (merge_sparse_ok V e ord p b H s He Hp Ho Hd HF Er Hs) as (s' & E & Hx).
      exists s'. auto. }
  destruct HS as (s' & E & Hd' & Hf). rewrite E, bind_ret.
  pose proof Hf as [T Hf']. pose proof Hd' as (A & B & C0 & C1 & C2).
  destruct (hp_registers s') as [r|] eqn:Er.
  - destruct Hf' as (S' & Hr & _). pose proof Hr as (_ & _ & Z & RF & _).
    exists s', (reg_iter 6 r). split; [auto|]. split; [apply (reg_iter_lt 6); now right|].
    unfold normal_value, reg_zeros. cbv zeta. unfold exact_zeros in Z. rewrite !Z, C0, B.
    unfold SIZE_PLUS. destruct (negb _); [|reflexivity].
    destruct (linear_total e (2 ^ p) (zero_count (reg_iter 6 r))) as [y ->]. rewrite !bind_ret.
    destruct (threshold_ok p Hp) as [t ->]. rewrite !bind_ret. now destruct (fle y t).
  - destruct Hf' as (L' & HL' & HD & HG'). rewrite (code_list_unique _ _ _ _ HL' HL) in *. lia.
Qed.

Lemma not_fits_big : forall p H, ~ fits p H -> big_codes p H.
Proof.
  intros p H N. destruct (code_list_exists p H) as [L HL]. exists L. split; [auto|].
  destruct (N.le_gt_cases (gap_len 0 L) (sparse_limit p)); auto. exfalso. apply N.
  intros L' HL'. now rewrite (code_list_unique _ _ _ _ HL' HL).
Qed.

Lemma past_linear_value : forall e p H l, accurate e -> 4 <= p <= 18 ->
  is_register_file 64 p H l -> past_linear p H ->
  normal_value e p l = estimate_corrected e p l (2 ^ p).
Proof.
  intros e p H l Ha Hp RF [_ HP]. unfold normal_value. specialize (HP l RF).
  destruct (N.eqb_spec (zero_count l) 0) as [Z|Z]; cbn [negb]; [reflexivity|].
  destruct HP as [HP|HP]; [contradiction|].
  assert (ZB : zero_count l <= 2 ^ p) by (rewrite <- (proj1 RF); apply zero_count_le).
  assert (P18 : 2 ^ p <= 262144) by (change 262144 with (2 ^ 18); apply pow2_le; lia).
  destruct (linear_ok e (2 ^ p) (zero_count l) Ha) as (c & Ec & Fc & _ & C1 & _ & C2);
    try (change (2 ^ 24) with 16777216; lia).
  rewrite Ec, bind_ret.
  destruct (threshold_is p Hp) as (t & Et & [Ft Vt] & Ht). rewrite Et, bind_ret.
  rewrite fle_spec, Vt by auto. case Rle_bool_spec; intros K; [exfalso|reflexivity].
  assert (B28 : bpow radix2 (-28) = (/ 268435456)%R) by reflexivity. rewrite B28 in C2.
  rewrite (Rabs_pos_eq (linear_R _ _)) in C2 by lra. apply Rabs_le_inv in C2.
  destruct (threshold_gap p (zero_count l) Hp ltac:(lia) ZB) as [G|G]; lra.
Qed.

Lemma plus_narrow_panics : forall (V : Type) e ord (h : hist V), build_std e -> accurate e ->
  valid MAX_PLUS h -> countable (usize_bits e) h -> is_order ord -> overflow_checks e = true ->
  usize_bits e <= 2 * hist_precision h -> past_linear (hist_precision h) (hist_hashes h) ->
  count_plus e ord h = Panic.
Proof.
  intros V e ord h Hb Ha Hv Hn Ho Hc Hw HP. destruct (run_plus_gen V e h Hb Hv Hn) as (s & E & Hs).
  pose proof (hist_prec V _ h Hv) as Hp. unfold MAX_PLUS in Hp.
  destruct (hp_count_normal V e ord _ _ _ s Hb Hp Ho Hs (not_fits_big _ _ (proj1 HP)))
    as (s' & l & RF & Fl & Ec).
  unfold count_plus. rewrite E, bind_ret, Ec, (past_linear_value e _ _ l Ha Hp RF HP).
  unfold estimate_corrected. rewrite raw_panics; auto. unfold lut_bound. now rewrite (proj2 Hb).
Qed.

(** The first entries of the tables at precisions 16 to 18. *)
Definition first_ok (p : N) : bool :=
  match est_table p, bias_table p with
  | e0 :: _, b0 :: _ => is_finite e0 && is_finite b0 && fle (of_Z 0) e0 && fle (of_Z 10000) b0
  | _, _ => false
  end.
Lemma first_16_18 : forallb first_ok [16; 17; 18] = true.
Proof. reflexivity. Qed.

Lemma bias_at_zero : forall e p raw, 16 <= p <= 18 -> is raw 0 ->
  exists b, estimate_bias e p raw = Ret b /\ fin b /\ (10000 <= val b)%R.
Proof.
  intros e p raw Hp [Fr Vr].
  assert (F : first_ok p = true).
  { pose proof first_16_18 as F. rewrite forallb_forall in F. apply F.
    assert (p = 16 \/ p = 17 \/ p = 18) as [->|[->| ->]] by lia; cbn; auto. }
  destruct (tables_index p) as [TE TB]; try lia. unfold estimate_bias, MIN_PRECISION.
  rewrite usub_ok, bind_ret by lia. rewrite TB, bind_ret, TE, bind_ret.
  unfold first_ok in F. destruct (est_table p) as [|e0 E]; [discriminate|].
  destruct (bias_table p) as [|b0 B]; [discriminate|].
  apply andb_true_iff in F. destruct F as [F F4]. apply andb_true_iff in F. destruct F as [F F3].
  apply andb_true_iff in F. destruct F as [F1 F2].
  change (index (e0 :: E) 0) with (Ret e0). rewrite bind_ret.
  change (index (b0 :: B) 0) with (Ret b0).
  destruct (of_Z_exact 0 ltac:(discriminate)) as [FZ VZ].
  destruct (of_Z_exact 10000 ltac:(discriminate)) as [FT VT].
  apply fle_true in F3; auto. apply fle_true in F4; auto.
  rewrite fle_spec by auto. case Rle_bool_spec; intros K; [|exfalso; lra].
  exists b0. split; [auto|]. split; [auto|]. rewrite VT in F4. exact F4.
Qed.

Lemma plus_narrow_negative : forall (V : Type) e ord (h : hist V), build_std e -> accurate e ->
  valid MAX_PLUS h -> countable (usize_bits e) h -> is_order ord -> overflow_checks e = false ->
  usize_bits e <= 2 * hist_precision h -> past_linear (hist_precision h) (hist_hashes h) ->
  exists c, count_plus e ord h = Ret c /\ is_finite c = true /\ (B2R c <= -10000)%R.
Proof.
  intros V e ord h Hb Ha Hv Hn Ho Hc Hw HP. destruct (run_plus_gen V e h Hb Hv Hn) as (s & E & Hs).
  pose proof (hist_prec V _ h Hv) as Hp. unfold MAX_PLUS in Hp.
  destruct (hp_count_normal V e ord _ _ _ s Hb Hp Ho Hs (not_fits_big _ _ (proj1 HP)))
    as (s' & l & RF & Fl & Ec).
  unfold count_plus. rewrite E, bind_ret, Ec, (past_linear_value e _ _ l Ha Hp RF HP).
  destruct (raw_zero e (hist_precision h) l (proj1 Hb) Hc Hw Hp (proj1 RF)) as (raw & Er & Fr & Vr).
  { unfold lut_bound. now rewrite (proj2 Hb). }
  unfold estimate_corrected. rewrite Er, bind_ret.
  pose proof (proj1 (proj1 Hb)) as He.
  destruct (of_N_m (hist_precision h) (proj1 Hp) (proj2 Hp)) as [Fm Vm].
  destruct (of_Z_exact 5 ltac:(discriminate)) as [F5 V5].
  pose proof (m_R_bounds _ (proj1 Hp) (proj2 Hp)) as Hm.
  destruct (fmul_is (of_Z 5) (of_N (2 ^ hist_precision h)) F5 Fm) as [FM VM].
  { rewrite V5, Vm. apply big. apply Rabs_le. lra. }
  rewrite fle_spec, Vr, VM, V5, Vm by auto.
  assert (Z : (0 <= rnd (5 * m_R (hist_precision h)))%R).
  { rewrite <- rnd_0. apply rnd_le. lra. }
  case Rle_bool_spec; intros K; [|exfalso; lra].
  destruct (bias_at_zero e (hist_precision h) raw ltac:(lia) (conj Fr Vr)) as (b & Eb & Fb & Vb).
  assert (UB : (val b <= m_R (hist_precision h) * 2)%R).
  { destruct (estimate_bias_ok e (hist_precision h) raw (proj1 Hb) (proj1 Hp) (proj2 Hp) Fr)
      as (f & y & Ef & _ & _ & Hf & By & _). rewrite Eb in Ef. injection Ef as <-.
    apply Rabs_le_inv in Hf. rewrite u_val in Hf. lra. }
  rewrite Eb, bind_ret, bind_ret. rewrite bind_ret.
  exists (fsub raw b). split; [reflexivity|].
  destruct (fsub_is raw b Fr Fb) as [FS VS].
  { rewrite Vr. apply big. apply Rabs_le. lra. }
  split; [exact FS|]. fold (val (fsub raw b)). rewrite VS, Vr.
  destruct (of_Z_exact (-10000) ltac:(discriminate)) as [FT VT].
  rewrite <- VT. rewrite <- (rnd_id (of_Z (-10000))). apply rnd_le. rewrite VT. lra.
Qed.
