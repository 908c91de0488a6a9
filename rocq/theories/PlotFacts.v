(** * What exp.py plots *)
From Coq Require Import NArith ZArith Reals List Permutation Bool Lia Lra Psatz.
From Flocq Require Import Core BinarySingleNaN.
From Verif Require Import ModelRust ModelF64 ModelFiles ModelExp ModelStats ModelPlot SpecRust SpecFiles SpecExp SpecStats SpecPlot F64Facts RawFacts
  LogAccuracy ExpMain StatsFacts MedianFacts.
Import ListNotations.
Local Open Scope R_scope.

Lemma py_max_spec : forall l, l <> [] -> List.Forall fin l -> exists m, py_max l = Ret m /\ In m l /\ List.Forall (fun x => val x <= val m) l.
Proof.
  intros [|x l] H F; [now elim H|]. apply Forall_cons_iff in F. destruct F as [Fx F]. eexists. split; [reflexivity|]. clear H.
  revert x Fx. induction F as [|y l Fy F IH]; intros x Fx; cbn [fold_left].
  - split; [now left|]. constructor; [apply Rle_refl|constructor].
  - rewrite flt_spec by assumption. destruct (Rlt_bool_spec (val x) (val y)) as [C|C].
    + destruct (IH y Fy) as (A & B). split; [right; exact A|]. constructor; [|exact B].
      apply Forall_inv in B. lra.
    + destruct (IH x Fx) as (A & B). apply Forall_cons_iff in B. destruct B as [B1 B2]. split; [destruct A as [<-|A]; [now left|right; now right]|].
      constructor; [exact B1|]. constructor; [lra|exact B2].
Qed.

Lemma ceiling_spec : forall x, ceiling x = Zceil (val x).
Proof.
  intros x. unfold ceiling. apply eq_IZR. rewrite Btrunc_correct by reflexivity.
  rewrite (proj1 (Bnearbyint_correct _ _ _ _ _)). rewrite !round_FIX_IZR. cbn [round_mode]. now rewrite Ztrunc_IZR.
Qed.

Lemma lit_small : forall n k, (Z.abs n <= 1000)%Z -> (k <= 5)%N -> is (lit n k) (rnd (IZR n / IZR (10 ^ Z.of_N k))).
Proof.
  intros n k Hn Hk. unfold lit.
  assert (K : (1 <= 10 ^ Z.of_N k <= 100000)%Z).
  { assert (E : (k = 0 \/ k = 1 \/ k = 2 \/ k = 3 \/ k = 4 \/ k = 5)%N) by lia. destruct E as [->|[->|[->|[->|[->| ->]]]]]; cbn; lia. }
  destruct (of_Z_exact n ltac:(lia)) as [F1 V1]. destruct (of_Z_exact (10 ^ Z.of_N k) ltac:(lia)) as [F2 V2].
  set (q := (10 ^ Z.of_N k)%Z) in *. assert (Q : 1 <= IZR q) by (apply IZR_le; lia).
  rewrite <- V1, <- V2. apply fdiv_is; auto; [rewrite V2; lra|]. rewrite V1, V2. unfold Rdiv. rewrite Rabs_mult.
  assert (A : Rabs (IZR n) <= 1000) by (rewrite <- abs_IZR; apply IZR_le; lia).
  assert (B : 0 < / IZR q <= 1) by (split; [apply Rinv_0_lt_compat; lra|rewrite <- Rinv_1; apply Rinv_le; lra]).
  rewrite (Rabs_pos_eq (/ IZR q)) by lra. apply Rle_trans with (bpow radix2 10); [|apply bpow_le; lia].
  change (bpow radix2 10) with 1024. pose proof (Rabs_pos (IZR n)). nra.
Qed.

Lemma limits_spec : forall hll hashes, exists low high step, limits hll hashes = (low, high, step) /\
  is low (rnd (axis_low hll hashes)) /\ is high (rnd (axis_high hll hashes)) /\ is step (rnd (axis_step hll hashes)).
Proof.
  assert (L : forall n k r, (Z.abs n <= 1000)%Z -> (k <= 5)%N -> IZR n / IZR (10 ^ Z.of_N k) = r -> is (lit n k) (rnd r)).
  { intros n k r A B <-. now apply lit_small. }
  assert (Z0 : is pzero (rnd 0)) by (split; [reflexivity|symmetry; apply rnd_0]).
  intros [|] [|]; do 3 eexists; (split; [reflexivity|]); cbn [axis_low axis_high axis_step]; (split; [|split]); try exact Z0;
    apply L; try lia; cbn; lra.
Qed.

Lemma step_range : forall hll hashes, bpow radix2 (-11) <= rnd (axis_step hll hashes) <= 1.
Proof.
  intros hll hashes. split.
  - apply rnd_ge_bpow; [lia|]. change (bpow radix2 (-11)) with (/ 2048). destruct hll, hashes; cbn; lra.
  - change 1 with (bpow radix2 0). apply rnd_le_bpow; [lia|]. change (bpow radix2 0) with 1. destruct hll, hashes; cbn; lra.
Qed.

Definition level (x : f64) : Prop := is_finite x = true /\ 0 <= B2R x <= 2 ^ 50.

Lemma pointwise_nth : forall f a b j x y, nth_error a j = Some x -> nth_error b j = Some y -> nth_error (pointwise f a b) j = Some (f x y).
Proof.
  intros f a. induction a as [|x0 a IH]; intros [|y0 b] [|j] x y A B; try discriminate; cbn in *.
  - now injection A as ->; injection B as ->.
  - now apply IH.
Qed.

Lemma draw_ok : forall hll hashes cards means medians stdevs, means <> [] -> length stdevs = length means ->
  List.Forall level means -> List.Forall level stdevs ->
  exists g, draw hll hashes cards means medians stdevs = Ret g /\ g_x g = cards /\ g_mean g = means /\ g_median g = medians /\
  length (g_low g) = length means /\ length (g_high g) = length means /\
  (forall j m s, nth_error means j = Some m -> nth_error stdevs j = Some s -> exists lo hi,
     nth_error (g_low g) j = Some lo /\ nth_error (g_high g) j = Some hi /\ is_finite lo = true /\ is_finite hi = true /\
     B2R lo = rounded (B2R m - B2R s) /\ B2R hi = rounded (B2R m + B2R s) /\ B2R lo <= B2R m <= B2R hi) /\
  (exists m s, In m means /\ In s stdevs /\ List.Forall (fun x => B2R x <= B2R m) means /\ List.Forall (fun x => B2R x <= B2R s) stdevs /\
     Z.of_nat (length (g_marks g)) = Zceil (rounded (rounded (B2R m + B2R s) / rounded (axis_step hll hashes)))) /\
  (forall i, (i < length (g_marks g))%nat -> exists x, nth_error (g_marks g) i = Some x /\ is_finite x = true /\
     B2R x = rounded (rounded (INR i) * rounded (axis_step hll hashes))) /\
  B2R (fst (g_limits g)) = rounded (axis_low hll hashes) /\ B2R (snd (g_limits g)) = rounded (axis_high hll hashes).
Proof.
  intros hll hashes cards means medians stdevs N0 L FM FS. change rounded with rnd. change (@B2R 53 1024) with val.
  assert (G : forall l, List.Forall level l -> List.Forall fin l) by (intros l; apply Forall_impl; intros x H; apply H).
  destruct (limits_spec hll hashes) as (low & high & step & E & [F1 V1] & [F2 V2] & [F3 V3]).
  destruct (py_max_spec means N0 (G _ FM)) as (m & M1 & M2 & M3).
  destruct (py_max_spec stdevs) as (s & S1 & S2 & S3); [intros ->; destruct means; [now elim N0|discriminate L]|now apply G|].
  assert (B : forall x l, List.Forall level l -> In x l -> fin x /\ 0 <= val x <= bpow radix2 50).
  { intros x l F I. rewrite Forall_forall in F. destruct (F x I) as (A1 & A2). split; [exact A1|].
    replace (bpow radix2 50) with (2 ^ 50)%R by (rewrite pow_bpow; reflexivity). exact A2. }
  destruct (B m _ FM M2) as (Fm & Bm). destruct (B s _ FS S2) as (Fs & Bs).
  assert (P51 : bpow radix2 50 + bpow radix2 50 = bpow radix2 51) by (rewrite (bpow_plus radix2 50 1 : bpow radix2 51 = _); change (bpow radix2 1) with 2; ring).
  assert (ADD : forall x y, fin x -> fin y -> 0 <= val x <= bpow radix2 50 -> 0 <= val y <= bpow radix2 50 ->
    is (fadd x y) (rnd (val x + val y)) /\ is (fsub x y) (rnd (val x - val y)) /\ rnd (val x - val y) <= val x <= rnd (val x + val y) /\ rnd (val x + val y) <= bpow radix2 51).
  { intros x y Fx Fy Hx Hy. assert (bpow radix2 51 <= bpow radix2 1023) by (apply bpow_le; lia).
    assert (R : rnd (val x) = val x) by apply rnd_id.
    split; [apply fadd_is; auto; apply Rabs_le; lra|]. split; [apply fsub_is; auto; apply Rabs_le; lra|].
    split; [split; (eapply Rle_trans; [|apply Req_le; exact R]) || (eapply Rle_trans; [apply Req_le; symmetry; exact R|]); apply rnd_le; lra|]. apply rnd_le_bpow; [lia|lra]. }
  destruct (ADD m s Fm Fs Bm Bs) as ([Ft Vt] & _ & (_ & T1) & T2).
  pose proof (step_range hll hashes) as [Q1 Q2]. rewrite <- V3 in Q1, Q2.
  assert (T0 : 0 <= val (fadd m s)) by (rewrite Vt; lra). rewrite <- Vt in T2.
  assert (DB : 0 <= val (fadd m s) / val step <= bpow radix2 62).
  { assert (I : 0 < / val step <= bpow radix2 11).
    { split; [apply Rinv_0_lt_compat; pose proof (bpow_gt_0 radix2 (-11)); lra|].
      replace (bpow radix2 11) with (/ bpow radix2 (-11)) by (rewrite <- bpow_opp; reflexivity). apply Rinv_le; [apply bpow_gt_0|exact Q1]. }
    unfold Rdiv. split; [apply Rmult_le_pos; lra|]. change 62%Z with (51 + 11)%Z. rewrite bpow_plus. apply Rmult_le_compat; lra. }
  assert (B62 : bpow radix2 62 <= bpow radix2 1023) by (apply bpow_le; lia).
  destruct (fdiv_is (fadd m s) step Ft F3) as [Fd Vd].
  { pose proof (bpow_gt_0 radix2 (-11)). lra. }
  { rewrite Rabs_pos_eq; lra. }
  assert (DR : 0 <= val (fdiv (fadd m s) step) <= bpow radix2 62) by (rewrite Vd; split; [now apply rnd_pos|now apply rnd_le_bpow; [|apply DB]]).
  set (n := ceiling (fdiv (fadd m s) step)).
  assert (N1 : (0 <= n <= 2 ^ 62)%Z).
  { unfold n. rewrite ceiling_spec. split.
    - apply le_IZR. eapply Rle_trans; [apply DR|]. apply Zceil_ub.
    - rewrite <- (Zceil_IZR (2 ^ 62)). apply Zceil_le. apply DR. }
  assert (NB : (2 ^ 63 <=? n)%Z = false) by (apply Z.leb_gt; lia).
  eexists. split.
  { unfold draw. rewrite E, M1. cbn [bind]. rewrite S1. cbn [bind]. unfold arange. fold n. rewrite NB. cbn [bind]. reflexivity. }
  cbn [g_x g_mean g_median g_low g_high g_marks g_limits fst snd]. unfold pointwise at 1 2. rewrite !map_length, !combine_length, L, Nat.min_id, seq_length.
  repeat (split; [reflexivity|]). split; [|split; [|split; [|split; assumption]]].
  - intros j x y Hx Hy. destruct (B x _ FM (nth_error_In _ _ Hx)) as (Fx & Bx). destruct (B y _ FS (nth_error_In _ _ Hy)) as (Fy & By).
    destruct (ADD x y Fx Fy Bx By) as ((A1 & A2) & (A3 & A4) & A5 & _). exists (fsub x y), (fadd x y).
    split; [now apply pointwise_nth|]. split; [now apply pointwise_nth|]. split; [exact A3|]. split; [exact A1|]. split; [exact A4|]. split; [exact A2|].
    rewrite A4, A2. exact A5.
  - exists m, s. repeat (split; [assumption|]). rewrite Z2Nat.id by lia. unfold n. now rewrite ceiling_spec, Vd, Vt, V3.
  - intros i Hi. exists (fmul (of_Z (Z.of_nat i)) step).
    assert (Hz : (0 <= Z.of_nat i <= 2 ^ 62)%Z) by lia.
    split; [erewrite map_nth_error; [reflexivity|]; rewrite nth_error_nth' with (d := O) by (now rewrite seq_length); rewrite seq_nth by exact Hi; reflexivity|].
    destruct (of_Z_is (Z.of_nat i)) as [Fi Vi]. { rewrite Z.abs_eq by lia. eapply Z.le_trans; [apply Hz|]. apply Z.pow_le_mono_r; lia. }
    rewrite <- INR_IZR_INZ in Vi.
    assert (Ri : 0 <= INR i <= bpow radix2 62) by (split; [apply pos_INR|rewrite INR_IZR_INZ; change (bpow radix2 62) with (IZR (2 ^ 62)); apply IZR_le, Hz]).
    assert (Rr : 0 <= rnd (INR i) <= bpow radix2 62) by (split; [now apply rnd_pos|now apply rnd_le_bpow; [|apply Ri]]).
    destruct (fmul_is (of_Z (Z.of_nat i)) step Fi F3) as [A C].
    { rewrite Vi. pose proof (bpow_gt_0 radix2 (-11)). rewrite Rabs_pos_eq by nra. apply Rle_trans with (bpow radix2 62 * 1); [apply Rmult_le_compat; lra|lra]. }
    split; [exact A|]. rewrite C, Vi, V3. reflexivity.
Qed.

(** ** The rows *)
Lemma mean_le : forall l b, l <> [] -> List.Forall (fun x => x <= b) l -> mean l <= b.
Proof.
  intros l b N0 F. unfold mean. assert (P : 0 < INR (length l)) by (apply lt_0_INR; destruct l; [now elim N0|cbn; lia]).
  apply Rmult_le_reg_r with (INR (length l)); [exact P|]. unfold Rdiv. rewrite Rmult_assoc, Rinv_l, Rmult_1_r by lra.
  clear N0 P. induction F as [|x l Hx F IH]; [cbn; lra|]. cbn [length total fold_right]. fold (total l). rewrite S_INR. lra.
Qed.

Lemma mean_ge : forall l, l <> [] -> List.Forall (fun x => 0 <= x) l -> 0 <= mean l.
Proof. intros l N0 F. apply mean_pos. now apply total_pos. Qed.

Lemma stats_level : forall xs m s, sample xs -> List.Forall (fun x => B2R x <= 2 ^ 44) xs -> np_mean xs m -> np_std xs s -> level m /\ level s.
Proof.
  intros xs m s H B Hm Hs. destruct (mean_close xs m H Hm) as (F1 & P1 & E1). destruct (std_close xs s H Hs) as (F2 & P2 & E2).
  destruct H as (N0 & L & R). set (mu := mean (map B2R xs)) in *. set (sd := deviation (map B2R xs)) in *.
  assert (N1 : map B2R xs <> []) by (intros Z; apply map_eq_nil in Z; contradiction).
  assert (M : 0 <= mu <= 2 ^ 44).
  { split; [apply mean_ge; [exact N1|]|apply mean_le; [exact N1|]]; apply Forall_map.
    - eapply Forall_impl; [|exact R]. cbv beta. tauto.
    - exact B. }
  assert (D : 0 <= sd <= 2 ^ 44).
  { split; [apply deviation_pos|]. unfold sd, deviation. rewrite <- (sqrt_pow2 (2 ^ 44)) by lra. apply sqrt_le_1_alt.
    apply mean_le; [intros Z; apply map_eq_nil in Z; contradiction|]. apply Forall_map, Forall_map. fold mu.
    rewrite Forall_forall in B, R |- *. intros x I. specialize (B x I). destruct (R x I) as (_ & R1 & _). rewrite <- (pow2_abs (B2R x - mu)).
    apply pow_incr. split; [apply Rabs_pos|]. apply Rabs_le. lra. }
  assert (I : 0 <= INR (length xs)) by apply pos_INR.
  assert (T1 : bpow radix2 (-1075) <= 1) by (change 1 with (bpow radix2 0); apply bpow_le; lia).
  assert (T2 : bpow radix2 (-534) <= 1) by (change 1 with (bpow radix2 0); apply bpow_le; lia).
  assert (C1 : 0 <= INR (length xs) * / 2 ^ 52 <= 1) by (split; [|apply Rmult_le_reg_r with (2 ^ 52)]; nra || lra).
  assert (C2 : 0 <= (INR (length xs) + 4) * / 2 ^ 52 <= 1) by (split; [|apply Rmult_le_reg_r with (2 ^ 52)]; nra || lra).
  apply Rabs_le_inv in E1. apply Rabs_le_inv in E2. split; (split; [assumption|split; [assumption|]]).
  - assert (INR (length xs) * / 2 ^ 52 * mu <= 1 * 2 ^ 44) by (apply Rmult_le_compat; lra). lra.
  - assert ((INR (length xs) + 4) * / 2 ^ 52 * (sd + 2 * mu) <= 1 * (3 * 2 ^ 44)) by (apply Rmult_le_compat; lra). lra.
Qed.

Lemma rnd_opp : forall x, rnd (- x) = - rnd x.
Proof. intros x. exact (round_NE_opp radix2 (FLT_exp (-1074) 53) x). Qed.

Lemma error_level : forall c k x, (1 <= c <= 2 ^ 53)%N -> (k < 2 ^ 64)%N -> (k <= 2 ^ 40 * c)%N -> relative_error_of c k x -> B2R x <= 2 ^ 44.
Proof.
  intros c k x [C1 C2] K Q [F V]. rewrite V. change rounded with rnd.
  set (a := IZR (Z.of_N c)). set (b := IZR (Z.of_N k)).
  assert (A : 1 <= a) by (apply IZR_le; lia). assert (B0 : 0 <= b) by (apply IZR_le; lia).
  assert (B : b <= 2 ^ 40 * a).
  { unfold a, b. replace (2 ^ 40) with (IZR (2 ^ 40)) by (rewrite pow_bpow; reflexivity). rewrite <- mult_IZR. apply IZR_le.
    change (2 ^ 40)%Z with (Z.of_N (2 ^ 40)). lia. }
  pose proof u_pos. assert (U : u <= / 2) by (rewrite u_val; lra).
  assert (T : 0 < tiny <= 1) by (split; [apply tiny_pos|change 1 with (bpow radix2 0); apply bpow_le; lia]).
  assert (R1 : 0 <= rnd b <= 2 ^ 42 * a).
  { split; [now apply rnd_pos|]. pose proof (rnd_both b B0) as [_ R]. nra. }
  assert (R2 : Rabs (rnd (rnd b - a)) <= 2 ^ 43 * a).
  { destruct (Rle_lt_dec 0 (rnd b - a)) as [S|S].
    - pose proof (rnd_both _ S) as [_ R]. rewrite Rabs_pos_eq by (now apply rnd_pos). nra.
    - rewrite <- Rabs_Ropp, <- rnd_opp. assert (S' : 0 <= - (rnd b - a)) by lra. pose proof (rnd_both _ S') as [_ R].
      rewrite Rabs_pos_eq by (now apply rnd_pos). nra. }
  replace (2 ^ 44) with (bpow radix2 44) by (now rewrite pow_bpow). apply rnd_le_bpow; [lia|].
  replace (bpow radix2 44) with (2 ^ 44) by (now rewrite pow_bpow).
  apply Rmult_le_reg_r with a; [lra|]. unfold Rdiv. rewrite Rmult_assoc, Rinv_l, Rmult_1_r by lra. lra.
Qed.

Lemma Forall2_nth : forall (A B : Type) (P : A -> B -> Prop) l k j x, Forall2 P l k -> nth_error l j = Some x -> exists y, nth_error k j = Some y /\ P x y.
Proof.
  intros A B P l k j x F. revert j. induction F as [|a b l k H F IH]; intros [|j] E; try discriminate; cbn in E |- *.
  - injection E as ->. eauto.
  - now apply IH.
Qed.
Lemma Forall2_len : forall (A B : Type) (P : A -> B -> Prop) l k, Forall2 P l k -> length l = length k.
Proof. intros A B P l k F. induction F; cbn; congruence. Qed.
Lemma Forall2_exists : forall (A B : Type) (P : A -> B -> Prop) l, (forall x, In x l -> exists y, P x y) -> exists k, Forall2 P l k.
Proof.
  intros A B P l. induction l as [|x l IH]; intros H; [exists []; constructor|].
  destruct (H x (or_introl eq_refl)) as (y & Y). destruct IH as (k & K); [intros; apply H; now right|]. exists (y :: k). now constructor.
Qed.

Lemma rows_level : forall files contents rows r, Forall2 estimate_file files contents ->
  List.Forall (List.Forall (fun est => (1 <= fst est <= 2 ^ 53)%N /\ (snd est < 2 ^ 64)%N)) files -> 
  List.Forall (List.Forall (fun est => (snd est <= 2 ^ 40 * fst est)%N)) files ->
  calculate_statistics contents = Ret rows -> In r rows -> List.Forall (fun x => B2R x <= 2 ^ 44) (snd r).
Proof.
  intros files contents rows r E B Q C I. destruct (row_statistics files contents E B) as (rows' & C' & _ & H).
  rewrite C in C'. injection C' as <-. apply In_nth_error in I. destruct I as (j & I). destruct (H j r I) as (_ & _ & _ & _ & _ & F).
  assert (In_row : forall est, In est (row files j) -> ((1 <= fst est <= 2 ^ 53)%N /\ (snd est < 2 ^ 64)%N) /\ (snd est <= 2 ^ 40 * fst est)%N).
  { intros est Hin. unfold row in Hin. apply in_flat_map in Hin as (f & Hf & Hin). destruct (nth_error f j) as [e|] eqn:Ef; [|easy].
    destruct Hin as [<-|[]]. rewrite Forall_forall in B, Q. specialize (B f Hf). specialize (Q f Hf). rewrite Forall_forall in B, Q.
    apply nth_error_In in Ef. split; [now apply B|now apply Q]. }
  clear - F In_row. induction F as [|est x l l' H F IH]; constructor.
  - destruct (In_row est (or_introl eq_refl)) as ((A1 & A2) & A3). now apply (error_level (fst est) (snd est)).
  - apply IH. intros e He. apply In_row. now right.
Qed.

Lemma plot_ok : forall hll hashes files contents, Forall2 estimate_file files contents ->
  List.Forall (List.Forall (fun est => (1 <= fst est <= 2 ^ 53)%N /\ (snd est < 2 ^ 64)%N)) files -> INR (length files) <= 2 ^ 50 ->
  (exists r, plot hll hashes contents r) /\ forall r, plot hll hashes contents r ->
  ((forall f, In f files -> f = []) -> r = Panic) /\
  ((exists f, In f files /\ f <> []) -> List.Forall (List.Forall (fun est => (snd est <= 2 ^ 40 * fst est)%N)) files ->
   exists g, r = Ret g /\
   (forall f, In f files -> (length f <= length (g_x g))%nat) /\ (exists f, In f files /\ length f = length (g_x g)) /\
   length (g_mean g) = length (g_x g) /\ length (g_median g) = length (g_x g) /\ length (g_low g) = length (g_x g) /\ length (g_high g) = length (g_x g) /\
   forall j z, nth_error (g_x g) j = Some z -> exists c k rest errs m md s lo hi,
     row files j = (c, k) :: rest /\ z = Z.of_N c /\ Forall2 (fun est x => relative_error_of (fst est) (snd est) x) (row files j) errs /\
     nth_error (g_mean g) j = Some m /\ np_mean errs m /\ nth_error (g_median g) j = Some md /\ np_median errs md /\ np_std errs s /\
     nth_error (g_low g) j = Some lo /\ nth_error (g_high g) j = Some hi /\
     B2R lo = rounded (B2R m - B2R s) /\ B2R hi = rounded (B2R m + B2R s) /\ B2R lo <= B2R m <= B2R hi).
Proof.
  intros hll hashes files contents E B LF. destruct (row_statistics files contents E B) as (rows & C & LR & H).
  assert (SA : forall r, In r rows -> sample (snd r)).
  { intros r I. apply In_nth_error in I. destruct I as (j & I). exact (rows_sample files contents rows j r E B LF C I). }
  unfold plot. rewrite C. split.
  - destruct (Forall2_exists _ _ (fun (row : Z * list f64) m => np_mean (snd row) m) rows) as (means & M1).
    { intros r I. destruct (stats_exist _ (SA r I)) as (m & _ & _ & M & _ & _). now exists m. }
    destruct (Forall2_exists _ _ (fun (row : Z * list f64) m => np_median (snd row) m) rows) as (medians & M2).
    { intros r I. destruct (stats_exist _ (SA r I)) as (_ & m & _ & _ & M & _). now exists m. }
    destruct (Forall2_exists _ _ (fun (row : Z * list f64) m => np_std (snd row) m) rows) as (stdevs & M3).
    { intros r I. destruct (stats_exist _ (SA r I)) as (_ & _ & m & _ & _ & M). now exists m. }
    eexists. exists means, medians, stdevs. repeat (split; [eassumption|]). reflexivity.
  - intros r (means & medians & stdevs & M1 & M2 & M3 & ->).
    assert (MAXL : forall f, In f files -> (length f <= length rows)%nat).
    { rewrite LR. clear. induction files as [|f0 files IH]; intros f I; [destruct I|]. cbn [map fold_right]. destruct I as [->|I]; [lia|]. specialize (IH f I). lia. }
    assert (MAXI : files <> [] -> exists f, In f files /\ length f = length rows).
    { rewrite LR. clear. intros N0. induction files as [|f0 files IH]; [now elim N0|]. cbn [map fold_right]. destruct files as [|f1 files].
      - exists f0. split; [now left|]. cbn. lia.
      - destruct IH as (f & I & Q); [discriminate|]. destruct (Nat.max_spec (length f0) (fold_right Nat.max 0%nat (map (@length _) (f1 :: files)))) as [(_ & ->)|(_ & ->)].
        + exists f. split; [now right|exact Q].
        + exists f0. split; [now left|reflexivity]. }
    split.
    + intros A. assert (rows = []) as ->.
      { destruct files as [|f files]; [destruct rows; [reflexivity|discriminate LR]|]. destruct MAXI as (f' & I & Q); [discriminate|].
        rewrite (A f' I) in Q. destruct rows; [reflexivity|discriminate Q]. }
      inversion M1; subst. unfold draw. destruct (limits hll hashes) as [[low high] step]. reflexivity.
    + intros (f & If & Nf) Q.
      assert (N0 : rows <> []) by (intros ->; specialize (MAXL f If); destruct f; [now elim Nf|cbn in MAXL; lia]).
      pose proof (Forall2_len _ _ _ _ _ M1) as L1. pose proof (Forall2_len _ _ _ _ _ M2) as L2. pose proof (Forall2_len _ _ _ _ _ M3) as L3.
      assert (LV : List.Forall level means /\ List.Forall level stdevs).
      { assert (RL := fun r => rows_level files contents rows r E B Q C). clear - M1 M3 SA RL. revert stdevs M3.
        induction M1 as [|r m rows means Hm M1 IH]; intros stdevs M3; inversion M3 as [|? s ? sds Hs M3']; subst; [split; constructor|].
        destruct (stats_level (snd r) m s (SA r (or_introl eq_refl)) (RL r (or_introl eq_refl)) Hm Hs) as (A1 & A2).
        destruct (IH (fun r I => SA r (or_intror I)) (fun r I => RL r (or_intror I)) sds M3') as (A3 & A4). split; constructor; assumption. }
      destruct LV as (LV1 & LV2).
      destruct (draw_ok hll hashes (map fst rows) means medians stdevs) as (g & G & G1 & G2 & G3 & G4 & G5 & G6 & _); [intros ->; destruct rows; [now elim N0|discriminate L1]|congruence|exact LV1|exact LV2|].
      exists g. split; [exact G|]. rewrite G1, map_length, G2, G3, G4, G5. split; [exact MAXL|]. split; [apply MAXI; intros ->; destruct If|].
      split; [congruence|]. split; [congruence|]. split; [congruence|]. split; [congruence|].
      intros j z Hz. rewrite nth_error_map in Hz. destruct (nth_error rows j) as [r|] eqn:Er; [|discriminate]. injection Hz as <-.
      destruct (H j r Er) as (c & k & rest & H1 & H2 & H3).
      destruct (Forall2_nth _ _ _ _ _ j r M1 Er) as (m & Em & Hm). destruct (Forall2_nth _ _ _ _ _ j r M2 Er) as (md & Ed & Hd). destruct (Forall2_nth _ _ _ _ _ j r M3 Er) as (s & Es & Hs).
      destruct (G6 j m s Em Es) as (lo & hi & K1 & K2 & _ & _ & K3 & K4 & K5).
      exists c, k, rest, (snd r), m, md, s, lo, hi. repeat (split; [assumption|]). assumption.
Qed.

(** ** Computed: two files, of two lines and of one; their drawing; no lines; too many marks *)
Definition shown_values (l : list f64) : list SpecFloat.spec_float := map B2SF l.

Lemma plot_example :
  let files := [[(1, 1); (2, 3)]; [(1, 2)]]%N in
  let contents := [[49; 32; 49; 10; 50; 32; 51; 10]; [49; 32; 50; 10]]%N in
  Forall2 estimate_file files contents /\
  List.Forall (List.Forall (fun est => (1 <= fst est <= 2 ^ 53)%N /\ (snd est < 2 ^ 64)%N)) files /\
  List.Forall (List.Forall (fun est => (snd est <= 2 ^ 40 * fst est)%N)) files /\
  match draw true true [1; 2]%Z [lit 5 1; lit 5 1] [lit 5 1; lit 5 1] [lit 5 1; pzero] with
  | Ret g => g_x g = [1; 2]%Z /\ shown_values (g_low g) = shown_values [pzero; lit 5 1] /\ shown_values (g_high g) = shown_values [of_N 1; lit 5 1] /\
      length (g_marks g) = 400%nat
  | _ => False
  end /\
  draw true true [] [] [] [] = Panic /\ draw false true [1%Z] [of_Z (2 ^ 60)] [pzero] [pzero] = Panic.
Proof.
  assert (NN : forall k, numeral k (display_uint k)) by apply TextFacts.display_numeral.
  cbv zeta. split; [|split; [|split; [|split; [|split]]]].
  - apply Forall2_cons; [|apply Forall2_cons; [|apply Forall2_nil]].
    + exists [[49; 32; 49]; [50; 32; 51]]%N. split; [|reflexivity]. apply Forall2_cons; [|apply Forall2_cons; [|apply Forall2_nil]].
      * exists [49]%N, [49]%N. split; [exact (NN 1%N)|]. split; [exact (NN 1%N)|reflexivity].
      * exists [50]%N, [51]%N. split; [exact (NN 2%N)|]. split; [exact (NN 3%N)|reflexivity].
    + exists [[49; 32; 50]]%N. split; [|reflexivity]. apply Forall2_cons; [|apply Forall2_nil].
      exists [49]%N, [50]%N. split; [exact (NN 1%N)|]. split; [exact (NN 2%N)|reflexivity].
  - apply Forall_cons; [|apply Forall_cons; [|apply Forall_nil]]; repeat (apply Forall_cons || apply Forall_nil); cbn [fst snd]; split; lia.
  - apply Forall_cons; [|apply Forall_cons; [|apply Forall_nil]]; repeat (apply Forall_cons || apply Forall_nil); cbn [fst snd]; lia.
  - vm_compute. repeat split.
  - reflexivity.
  - vm_compute. reflexivity.
Qed.
