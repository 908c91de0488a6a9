(** * The value of HyperLogLogPF's count() against the real formulas *)
From Coq Require Import NArith ZArith Reals Lra Lia List Bool.
From Flocq Require Import Core BinarySingleNaN.
From Verif Require Import IntervalZ.
From Verif Require Import ModelRust ModelF64 ModelEnv ModelCommon ModelPF ModelHistory
  Spec SpecReal SpecCount SpecBuild BitFacts RegFacts F64Facts LinearFacts RawFacts PFInv FloatFacts.
Import ListNotations.
Local Open Scope R_scope.
Local Notation ln := Rpower.ln.

(** Scaling by a power of two is exact away from the subnormals. *)
Lemma scale_generic : forall x e, generic_format radix2 (FLT_exp (-1074) 53) x ->
  (0 <= e)%Z \/ bpow radix2 (-1021 - e) <= Rabs x ->
  generic_format radix2 (FLT_exp (-1074) 53) (x * bpow radix2 e).
Proof.
  intros x e G H. destruct (FLT_format_generic radix2 (-1074) 53 x G) as [[n k] E A B].
  cbn [Fnum Fexp] in *. apply generic_format_FLT. exists (Float radix2 n (k + e)); auto.
  - rewrite E. unfold F2R. cbn [Fnum Fexp]. rewrite bpow_plus. ring.
  - cbn [Fexp]. destruct H as [H|H]; [lia|].
    destruct (Z.le_gt_cases (-1074) (k + e)) as [C|C]; auto. exfalso.
    apply (Rlt_not_le _ _) with (2 := H). rewrite E. unfold F2R. cbn [Fnum Fexp].
    rewrite Rabs_mult, (Rabs_pos_eq (bpow radix2 k)), <- abs_IZR by apply bpow_ge_0.
    apply Rlt_le_trans with (bpow radix2 53 * bpow radix2 k).
    + apply Rmult_lt_compat_r; [apply bpow_gt_0|].
      rewrite <- (IZR_Zpower radix2 53) by lia. now apply IZR_lt.
    + rewrite <- bpow_plus. apply bpow_le. lia.
Qed.

(** 2^32/30 rounds down, so comparing a float with it or with its rounding is the same. *)
Lemma cut_30 : exists t, fdiv (of_N (N.shiftl 1 32)) (of_Z 30) = t /\ fin t /\
  forall x : f64, fin x -> Rlt_bool (val t) (val x) = Rlt_bool (IZR (2 ^ 32) / 30) (val x).
Proof.
  eexists. split; [reflexivity|].
  destruct (of_N_exact (N.shiftl 1 32)) as [F1 V1]; [vm_compute; discriminate|].
  destruct (of_Z_exact 30) as [F2 V2]; [vm_compute; discriminate|].
  change (IZR (Z.of_N (N.shiftl 1 32))) with 4294967296 in V1.
  destruct (fdiv_is _ _ F1 F2) as [Ft Vt].
  { rewrite V2. lra. }
  { rewrite V1, V2, Rabs_pos_eq by lra. apply Rle_trans with (bpow radix2 30).
    - change (bpow radix2 30) with 1073741824. lra.
    - apply bpow_le. lia. }
  split; [auto|]. rewrite V1, V2 in Vt. change (IZR (2 ^ 32)) with 4294967296.
  assert (D : val (fdiv (of_N (N.shiftl 1 32)) (of_Z 30)) <= 4294967296 / 30).
  { assert (E : B2SF (fdiv (of_N (N.shiftl 1 32)) (of_Z 30)) =
       SpecFloat.S754_finite false 4803839602528529 (-25)) by (vm_compute; reflexivity).
    unfold val. rewrite <- SF2R_B2SF, E. unfold SF2R, F2R. cbn [Fnum Fexp cond_Zopp].
    change (bpow radix2 (-25)) with (/ 33554432). lra. }
  intros x Fx. case Rlt_bool_spec; intros A; case Rlt_bool_spec; intros B; auto; exfalso.
  - assert (rnd (val x) <= rnd (4294967296 / 30)).
    { apply round_le; [apply valid_flt|apply valid_rnd_N|lra]. }
    rewrite rnd_id, <- Vt in H. lra.
  - lra.
Qed.

Lemma large_ok : forall e x, accurate e -> fin x -> IZR (2 ^ 32) / 30 < val x < IZR (2 ^ 32) ->
  exists y, ModelCommon.ln e (fsub (of_Z 1) (fdiv x (of_N (N.shiftl 1 32)))) = Ret y /\
    let c := fmul (fmul (of_Z (-1)) (of_N (N.shiftl 1 32))) y in
    fin c /\ approx (/ IZR (2 ^ 46)) (val c) (large_R (val x)) /\ 100000000 <= val c <= bpow radix2 40.
Proof.
  intros e x Ha Fx Hx. change (IZR (2 ^ 32)) with 4294967296 in *.
  destruct (of_N_exact (N.shiftl 1 32)) as [F1 V1]; [vm_compute; discriminate|].
  change (IZR (Z.of_N (N.shiftl 1 32))) with 4294967296 in V1.
  set (two32 := of_N (N.shiftl 1 32)) in *.
  assert (E32 : bpow radix2 (-32) = / 4294967296) by reflexivity.
  (* the quotient *)
  destruct (fdiv_is x two32 Fx F1) as [Fq Vq].
  { lra. }
  { rewrite V1, Rabs_pos_eq by lra. apply Rle_trans with (bpow radix2 0); [simpl; lra|].
    apply bpow_le. lia. }
  assert (Gx : generic_format radix2 (FLT_exp (-1074) 53) (val x)) by apply (generic_format_B2R 53 1024).
  assert (Gq : generic_format radix2 (FLT_exp (-1074) 53) (val x / 4294967296)).
  { unfold Rdiv. rewrite <- E32. apply scale_generic; [auto|right].
    apply Rle_trans with (bpow radix2 0); [apply bpow_le; lia|].
    rewrite Rabs_pos_eq by lra. simpl. lra. }
  rewrite V1, (rnd_generic _ Gq) in Vq. set (q := val x / 4294967296) in *.
  assert (Bq : / 30 < q < 1) by (unfold q; lra).
  assert (Pq : q <= 1 - bpow radix2 (-53)).
  { assert (P : q <= pred radix2 (FLT_exp (-1074) 53) (bpow radix2 0)).
    { apply pred_ge_gt; [apply valid_flt|exact Gq|apply bpow_generic; lia|simpl; lra]. }
    rewrite pred_bpow in P. exact P. }
  (* the difference *)
  destruct (of_Z_exact 1) as [F2 V2]; [vm_compute; discriminate|].
  pose proof (bpow_gt_0 radix2 (-53)) as P53.
  destruct (fsub_is (of_Z 1) (fdiv x two32) F2 Fq) as [Fd Vd].
  { rewrite V2, Vq, Rabs_pos_eq by lra. apply Rle_trans with (bpow radix2 0); [simpl; lra|].
    apply bpow_le. lia. }
  rewrite V2, Vq in Vd.
  assert (Nd : bpow radix2 (-1022) <= Rabs (1 - q)).
  { rewrite Rabs_pos_eq by lra. apply Rle_trans with (bpow radix2 (-53)); [apply bpow_le; lia|lra]. }
  destruct (rnd_rel (1 - q) Nd) as (d & Hd & Ed).
  assert (Bd : bpow radix2 (-53) <= val (fsub (of_Z 1) (fdiv x two32)) <= 1).
  { rewrite Vd. split.
    - apply rnd_ge_bpow; [lia|]. lra.
    - apply (rnd_le_bpow _ 0); [lia|]. simpl. lra. }
  destruct (ln_ok e (fsub (of_Z 1) (fdiv x two32)) Ha Fd) as (y & Ey & Fy & Ay).
  { split; [apply Rle_trans with (bpow radix2 (-53)); [apply bpow_le; lia|lra]|].
    apply Rle_trans with (bpow radix2 0); [change (bpow radix2 0) with 1; lra|apply bpow_le; lia]. }
  exists y. split; [auto|]. cbv zeta.
  assert (LX : ln (val (fsub (of_Z 1) (fdiv x two32))) = ln (1 - q) + ln (1 + d)).
  { rewrite Vd, Ed. apply ln_mult; [lra|]. rewrite u_val in Hd. apply Rabs_le_inv in Hd. lra. }
  pose proof (ln_1d d Hd) as LD. rewrite LX in Ay.
  (* size of the logarithm *)
  assert (LQ : -37 <= ln (1 - q) <= - / 30).
  { split.
    - apply Rle_trans with (ln (bpow radix2 (-53))); [|apply LinearFacts.ln_le; lra].
      change (bpow radix2 (-53)) with (/ 9007199254740992). bound_const 60%Z.
    - assert (I := exp_ineq1_le (ln (1 - q))). rewrite exp_ln in I by lra. lra. }
  assert (LR : large_R (val x) = - 4294967296 * ln (1 - q)) by reflexivity.
  rewrite LR. set (L := ln (1 - q)) in *. set (dl := ln (1 + d)) in *.
  clearbody L dl. clear LX Ed Vd Vq Pq Bd Nd Gq Gx LR.
  rewrite u_val in *. apply Rabs_le_inv in LD.
  change (bpow radix2 (-50)) with (/ 1125899906842624) in Ay.
  rewrite (Rabs_left1 (L + dl)) in Ay by lra. apply Rabs_le_inv in Ay.
  destruct (of_Z_exact (-1)) as [F3 V3]; [vm_compute; discriminate|].
  assert (Em : is (fmul (of_Z (-1)) two32) (-4294967296)).
  { destruct (of_Z_exact (-4294967296)) as [_ V4]; [vm_compute; discriminate|].
    change (IZR (-4294967296)) with (-4294967296) in V4.
    destruct (fmul_is (of_Z (-1)) two32 F3 F1) as [F V].
    { rewrite V3, V1. rewrite Rabs_left by lra. apply Rle_trans with (bpow radix2 33).
      - change (bpow radix2 33) with 8589934592. lra.
      - apply bpow_le. lia. }
    split; [exact F|]. rewrite V, V3, V1. replace (-1 * 4294967296) with (-4294967296) by ring.
    rewrite <- V4. apply rnd_id. }
  destruct Em as [F4 V4].
  destruct (fmul_is (fmul (of_Z (-1)) two32) y F4 Fy) as [Fc Vc].
  { rewrite V4, Rabs_pos_eq by lra. apply Rle_trans with (bpow radix2 38).
    - change (bpow radix2 38) with 274877906944. lra.
    - apply bpow_le. lia. }
  rewrite V4 in Vc.
  destruct (rnd_rel (-4294967296 * val y)) as (d2 & Hd2 & Ec).
  { rewrite Rabs_pos_eq by lra. apply Rle_trans with (bpow radix2 0); [apply bpow_le; lia|simpl; lra]. }
  rewrite u_val in Hd2. apply Rabs_le_inv in Hd2.
  rewrite Vc, Ec in *. split; [auto|].
  assert (Q : Rabs (-4294967296 * val y * (1 + d2) - -4294967296 * L) <=
     / 70368744177664 * (-4294967296 * L)).
  { assert (M : -4294967296 * val y * (1 + d2) - -4294967296 * L =
      -4294967296 * (val y - L) + d2 * (-4294967296 * val y)) by ring.
    rewrite M. apply Rabs_le.
    assert (N1 : - / 9000000000000000 * (-4294967296 * val y) <= d2 * (-4294967296 * val y) <=
       / 9000000000000000 * (-4294967296 * val y)).
    { split; apply Rmult_le_compat_r; lra. }
    lra. }
  split.
  - unfold approx. change (/ IZR (2 ^ 46)) with (/ 70368744177664).
    rewrite (Rabs_pos_eq (-4294967296 * L)) by lra. exact Q.
  - apply Rabs_le_inv in Q. change (bpow radix2 40) with 1099511627776. lra.
Qed.

(** [pf_R] with the computed raw estimate in the comparisons; [PFExact] removes it. *)
Definition pf_near (p : N) (H : list N) (c : R) : Prop :=
  exists l raw, is_register_file 32 p (map (fun h => h mod 2 ^ 32)%N H) l /\
    approx (/ IZR (2 ^ 49)) raw (raw_R p l) /\
    ((zero_count l <> 0)%N /\ raw <= 2.5 * m_R p /\
       approx (/ IZR (2 ^ 28)) c (linear_R (2 ^ p) (zero_count l)) \/
     ((zero_count l = 0)%N \/ 2.5 * m_R p < raw) /\
       (raw <= IZR (2 ^ 32) / 30 /\ c = raw \/
        IZR (2 ^ 32) / 30 < raw /\ approx (/ IZR (2 ^ 46)) c (large_R raw))).

Lemma linear_cut : forall p, (4 <= p <= 16)%N ->
  is (fmul (lit 25 1) (of_N (2 ^ p))) (2.5 * m_R p).
Proof.
  intros p [H4 H16]. pose proof (m_R_bounds p H4 ltac:(lia)) as Hm.
  assert (Hm16 : m_R p <= 65536).
  { unfold m_R. change 65536%R with (IZR (2 ^ 16)). apply IZR_le. apply Z.pow_le_mono_r; lia. }
  destruct (of_N_exact (2 ^ p)) as [F1 V1].
    { change (2 ^ 53)%N with (2 ^ 53)%N. apply pow2_le. lia. }
    rewrite m_R_N in V1.
    assert (E : is (lit 25 1) 2.5).
    { assert (E : B2SF (lit 25 1) = SpecFloat.S754_finite false 5629499534213120 (-51))
        by (vm_compute; reflexivity).
      split; [vm_compute; reflexivity|]. unfold val. rewrite <- SF2R_B2SF, E. unfold SF2R, F2R. cbn [Fnum Fexp cond_Zopp].
      change (bpow radix2 (-51)) with (/ 2251799813685248). lra. }
    destruct E as [F2 V2]. destruct (fmul_is _ _ F2 F1) as [F3 V3].
    { rewrite V1, V2, Rabs_pos_eq by lra. apply Rle_trans with (bpow radix2 20).
      - change (bpow radix2 20) with 1048576. lra. - apply bpow_le. lia. }
    split; [auto|]. rewrite V3, V1, V2. apply rnd_generic.
    assert (E : m_R p = bpow radix2 (Z.of_N p)) by apply RawFacts.two_pow. rewrite E.
    apply scale_generic; [|left; lia].
    rewrite <- V2. apply (generic_format_B2R 53 1024).
Qed.

Theorem pf_formula_ok : forall e p H l c, build e -> accurate e -> (4 <= p <= 16)%N ->
  is_register_file 32 p (low32 H) l -> Forall (fun v => (v < 32)%N) l ->
  raw_R p l <= IZR (2 ^ 32) * (1 - / IZR (2 ^ 48)) ->
  pf_value e p l (zero_count l) = Ret c ->
  fin c /\ pf_near p H (val c) /\
  (H = [] -> val c = 0) /\ (H <> [] -> 0.9 <= val c) /\ val c <= bpow radix2 40.
Proof.
  intros e p H l c Hb Ha [H4 H16] HR Hl Hsm Ec.
  destruct (raw_f_rel_pf e p l Hb H4 H16 (proj1 HR) Hl) as (Fr & Rr & Br).
  pose proof (m_R_bounds p H4 ltac:(lia)) as Hm.
  assert (Hm16 : m_R p <= 65536).
  { unfold m_R. change 65536%R with (IZR (2 ^ 16)). apply IZR_le. apply Z.pow_le_mono_r; lia. }
  destruct (alpha_pow2 p H4 ltac:(lia)) as (_ & _ & HA).
  assert (Hl64 : Forall (fun v => (v < 64)%N) l).
  { eapply Forall_impl; [|exact Hl]. intros a Hv. cbv beta in *. lia. }
  destruct (raw_R_bounds p l H4 ltac:(lia) (proj1 HR) Hl64) as (IS & RB).
  assert (RP : 8 <= raw_R p l) by nra.
  assert (B49 : bpow radix2 (-49) = / 562949953421312) by reflexivity.
  assert (AP : approx (/ IZR (2 ^ 49)) (val (raw_f e p l)) (raw_R p l)).
  { unfold approx. rewrite (inv_pow2 49) by lia. now apply rel_abs. }
  pose proof (rel_bounds _ _ _ Rr ltac:(lra)) as RBd. rewrite B49 in RBd.
  change (IZR (2 ^ 32)) with 4294967296 in Hsm.
  change (/ IZR (2 ^ 48)) with (/ 281474976710656) in Hsm.
  assert (RU : val (raw_f e p l) < 4294967296) by lra.
  unfold pf_value in Ec. set (raw := raw_f e p l) in *.
  pose proof (linear_cut p (conj H4 H16)) as T.
  destruct T as [Ft Vt]. rewrite fle_spec, Vt in Ec by auto.
  destruct cut_30 as (t & Et & Ft2 & Ct). rewrite Et in Ec.
  rewrite flt_spec, Ct in Ec by auto.
  assert (ZE : H = [] -> zero_count l = (2 ^ p)%N).
  { intros ->. destruct HR as [HLn HR]. rewrite <- HLn. unfold zero_count.
    f_equal. f_equal. clear - HR. assert (A : forall v, In v l -> v = 0%N).
    { intros v Hv. apply In_nth_error in Hv. destruct Hv as [i Hi].
      destruct (HR (N.of_nat i) v) as [_ [->|(h & [] & _)]]; auto. now rewrite Nnat.Nat2N.id. }
    clear HR. induction l as [|a l IH]; auto. cbn. rewrite (A a) by now left. cbn. f_equal.
    apply IH. intros v Hv. apply A. now right. }
  assert (ZN : H <> [] -> (zero_count l < 2 ^ p)%N).
  { intros HN. destruct H as [|h H]; [contradiction|].
    apply (rf_zero_lt 32 p (low32 (h :: H)) l (h mod 2 ^ 32)); auto; [lia|now left|].
    apply N.mod_lt. discriminate. }
  assert (RZ : H = [] -> val raw <= 2.5 * m_R p).
  { intros E. specialize (ZE E). subst H.
    assert (S : inv_sum l = m_R p).
    { destruct HR as [HLn HR]. rewrite <- (len_m p l HLn).
      assert (A : forall v, In v l -> v = 0%N).
      { intros v Hv. apply In_nth_error in Hv. destruct Hv as [i Hi].
        destruct (HR (N.of_nat i) v) as [_ [->|(h & [] & _)]]; auto. now rewrite Nnat.Nat2N.id. }
      clear - A. induction l as [|a l IH]; [reflexivity|].
      unfold inv_sum. cbn [fold_right length]. fold (inv_sum l).
      rewrite IH by (intros v Hv; apply A; now right). rewrite (A a) by now left.
      rewrite S_INR. cbn [Z.of_N Z.pow]. change (/ IZR 1) with (/ 1). lra. }
    assert (raw_R p l <= m_R p).
    { unfold raw_R. rewrite S. apply Rmult_le_reg_r with (m_R p); [lra|]. unfold Rdiv.
      rewrite Rmult_assoc, Rinv_l by lra. nra. }
    lra. }
  assert (LIN : (zero_count l <> 0)%N -> forall c, linear_count e (2 ^ p) (zero_count l) = Ret c ->
    fin c /\ approx (/ IZR (2 ^ 28)) (val c) (linear_R (2 ^ p) (zero_count l)) /\
    (H = [] -> val c = 0) /\ (H <> [] -> 0.9 <= val c) /\ val c <= bpow radix2 40).
  { clear c Ec. intros Z c Ec.
    assert (ZL : (zero_count l <= 2 ^ p)%N).
    { destruct H as [|h H]; [rewrite ZE; auto; lia|]. apply N.lt_le_incl, ZN. discriminate. }
    assert (H24 : (2 ^ p <= 2 ^ 24)%N) by (apply pow2_le; lia).
    destruct (linear_ok e (2 ^ p) (zero_count l) Ha) as
      (c' & Ec' & Fc & C0 & C1 & _ & C2); try lia.
    rewrite Ec in Ec'. injection Ec' as <-.
    split; [auto|]. split; [unfold approx; rewrite (inv_pow2 28) by lia; exact C2|].
    assert (B28 : bpow radix2 (-28) = / 268435456) by reflexivity. rewrite B28 in C2.
    split; [intros E; apply C0; auto|]. split.
    - intros E. specialize (C1 (ZN E)). rewrite (Rabs_pos_eq (linear_R _ _)) in C2 by lra.
      apply Rabs_le_inv in C2. lra.
    - assert (LU : linear_R (2 ^ p) (zero_count l) <= 12 * 65536).
      { unfold linear_R. rewrite m_R_N.
        assert (1 <= IZR (Z.of_N (zero_count l))) by (apply N_R; lia).
        assert (ln (m_R p / IZR (Z.of_N (zero_count l))) <= 12).
        { apply Rle_trans with (ln (65536)).
          - apply LinearFacts.ln_le; [apply Rdiv_lt_0_compat; lra|].
            apply Rmult_le_reg_r with (IZR (Z.of_N (zero_count l))); [lra|]. unfold Rdiv.
            rewrite Rmult_assoc, Rinv_l by lra. nra.
          - bound_const 60%Z. }
        rewrite Rmult_comm. apply Rmult_le_compat; try lra.
        rewrite <- ln_1. apply LinearFacts.ln_le; [lra|].
        assert (IZR (Z.of_N (zero_count l)) <= m_R p).
        { rewrite <- m_R_N. apply IZR_le. lia. }
        apply Rmult_le_reg_r with (IZR (Z.of_N (zero_count l))); [lra|]. unfold Rdiv.
        rewrite Rmult_assoc, Rinv_l by lra. lra. }
      change (bpow radix2 40) with 1099511627776.
      destruct (N.eq_dec (zero_count l) (2 ^ p)) as [E|E].
      + rewrite C0 by auto. lra.
      + specialize (C1 ltac:(lia)). rewrite (Rabs_pos_eq (linear_R _ _)) in C2 by lra.
        apply Rabs_le_inv in C2. lra. }
  change (bpow radix2 40) with 1099511627776 in *.
  assert (REST : (zero_count l = 0)%N \/ 2.5 * m_R p < val raw ->
    (if Rlt_bool (IZR (2 ^ 32) / 30) (val raw) then
        let* l0 := ModelCommon.ln e (fsub (of_Z 1) (fdiv raw (of_N (N.shiftl 1 32)))) in
        Ret (fmul (fmul (of_Z (-1)) (of_N (N.shiftl 1 32))) l0)
     else Ret raw) = Ret c ->
    fin c /\ pf_near p H (val c) /\
    (H = [] -> val c = 0) /\ (H <> [] -> 0.9 <= val c) /\ val c <= 1099511627776).
  { intros HZ E.
    assert (HNE : H = [] -> False).
    { intros EH. specialize (RZ EH). destruct HZ as [HZ|HZ]; [|lra].
      rewrite (ZE EH) in HZ. pose proof (pow2_pos p). lia. }
    revert E. case Rlt_bool_spec; intros C E.
    - destruct (large_ok e raw Ha Fr) as (y & Ey & Hc).
      { change (IZR (2 ^ 32)) with 4294967296 in *. lra. }
      rewrite Ey, bind_ret in E. cbv zeta in Hc.
      set (c0 := fmul (fmul (of_Z (-1)) (of_N (N.shiftl 1 32))) y) in *. clearbody c0.
      injection E as <-. destruct Hc as (Fc & Ac & Bc). split; [exact Fc|]. split.
      { exists l, (val raw). split; [auto|]. split; [auto|]. right. split; auto. }
      change (bpow radix2 40) with 1099511627776 in Bc.
      split; [intros; exfalso; auto|]. split; [intros _|]; lra.
    - injection E as <-. split; [exact Fr|]. split.
      { exists l, (val raw). split; [auto|]. split; [auto|]. right. split; auto. }
      split; [intros; exfalso; auto|]. split; [intros _|]; lra. }
  revert Ec. destruct (N.eqb_spec (zero_count l) 0) as [Z|Z]; cbn [negb].
  - rewrite andb_false_r. apply REST. now left.
  - rewrite andb_true_r. case Rle_bool_spec; intros C Ec.
    + destruct (LIN Z c Ec) as (A1 & A2 & A3). split; [auto|]. split; [|auto].
      exists l, (val raw). split; [auto|]. split; [auto|]. left. auto.
    + apply REST; auto.
Qed.
