(** * HyperLogLogPF: the comparisons of the estimate are decided as on real numbers *)
From Coq Require Import NArith ZArith Reals Lra Lia List Bool.
From Flocq Require Import Core BinarySingleNaN.
From Verif Require Import ModelRust ModelF64 ModelEnv ModelRegisters ModelCommon ModelPF
  ModelHistory Spec SpecReal SpecCount SpecBuild BitFacts RegFacts AbsorbFacts
  ModelLog F64Facts LogFacts LogAccuracy LinearFacts RawFacts PFInv FloatFacts PFFloat.
Import ListNotations.
Local Open Scope R_scope.
Local Notation ln := Rpower.ln.

(** ** The sum of the inverse powers is a multiple of a power of two *)
Lemma inv_sum_multiple : forall k l, Forall (fun v => (v <= k)%N) l ->
  exists z, (0 <= z)%Z /\ inv_sum l = IZR z / IZR (2 ^ Z.of_N k).
Proof.
  intros k l. induction l as [|v l IH]; intros Hl.
  - exists 0%Z. split; [lia|]. unfold inv_sum. cbn [fold_right]. unfold Rdiv. ring.
  - apply Forall_cons_iff in Hl. destruct Hl as [Hv Hl]. destruct (IH Hl) as (z & Hz & E).
    exists (2 ^ Z.of_N (k - v) + z)%Z. split; [pose proof (Z.pow_nonneg 2 (Z.of_N (k - v))); lia|].
    unfold inv_sum. cbn [fold_right]. fold (inv_sum l). rewrite E, plus_IZR. unfold Rdiv.
    rewrite Rmult_plus_distr_r. f_equal. rewrite !two_pow, <- !bpow_opp, <- bpow_plus. f_equal. lia.
Qed.

Lemma inv_sum_mono : forall k l l', Forall2 N.le l l' -> Forall (fun v => (v <= k)%N) l' ->
  l = l' \/ inv_sum l' + / IZR (2 ^ Z.of_N k) <= inv_sum l.
Proof.
  intros k l l' H. induction H as [|v w l l' Hv HH IH]; intros Hl; [now left|].
  apply Forall_cons_iff in Hl. destruct Hl as [Hw Hl]. specialize (IH Hl).
  assert (P : / IZR (2 ^ Z.of_N w) <= / IZR (2 ^ Z.of_N v)).
  { rewrite !two_pow, <- !bpow_opp. apply bpow_le. lia. }
  assert (Q : 0 < / IZR (2 ^ Z.of_N k)) by (rewrite two_pow, <- bpow_opp; apply bpow_gt_0).
  unfold inv_sum. cbn [fold_right]. fold (inv_sum l). fold (inv_sum l').
  destruct (N.eq_dec v w) as [->|Ne].
  - destruct IH as [->|IH]; [now left|right; lra].
  - right. assert (S : / IZR (2 ^ Z.of_N w) + / IZR (2 ^ Z.of_N k) <= / IZR (2 ^ Z.of_N v)).
    { rewrite !two_pow, <- !bpow_opp.
      assert (A : bpow radix2 (- Z.of_N w) <= bpow radix2 (- Z.of_N v - 1)) by (apply bpow_le; lia).
      assert (B : bpow radix2 (- Z.of_N k) <= bpow radix2 (- Z.of_N w)) by (apply bpow_le; lia).
      assert (C : bpow radix2 (- Z.of_N v) = 2 * bpow radix2 (- Z.of_N v - 1)).
      { replace (- Z.of_N v)%Z with (1 + (- Z.of_N v - 1))%Z at 1 by lia. rewrite bpow_plus. reflexivity. }
      lra. }
    destruct IH as [->|IH]; lra.
Qed.

(** ** The constants as fractions *)
Definition alpha_num (p : Z) : Z :=
  if (p =? 4)%Z then 673 else if (p =? 5)%Z then 697 else if (p =? 6)%Z then 709
  else 7213 * 2 ^ p.
Definition alpha_den (p : Z) : Z :=
  if (p =? 4)%Z then 1000 else if (p =? 5)%Z then 1000 else if (p =? 6)%Z then 1000
  else 10 * (1000 * 2 ^ p + 1079).

Lemma alpha_den_pos : forall p, (0 <= p)%Z -> (0 < alpha_den p)%Z.
Proof.
  intros p Hp. unfold alpha_den. pose proof (Z.pow_nonneg 2 p). repeat (destruct (_ =? _)%Z; try lia).
Qed.

Lemma alpha_frac : forall p, alpha_R p = IZR (alpha_num (Z.of_N p)) / IZR (alpha_den (Z.of_N p)).
Proof.
  intros p. unfold alpha_R, alpha_num, alpha_den.
  assert (Q : forall k : N, (Z.of_N p =? Z.of_N k)%Z = (p =? k)%N).
  { intros k. destruct (N.eqb_spec p k) as [->|Ne]; [apply Z.eqb_refl|]. apply Z.eqb_neq. lia. }
  change 4%Z with (Z.of_N 4). change 5%Z with (Z.of_N 5). change 6%Z with (Z.of_N 6). rewrite !Q.
  destruct (p =? 4)%N; [lra|]. destruct (p =? 5)%N; [lra|]. destruct (p =? 6)%N; [lra|].
  fold (m_R p). rewrite !mult_IZR, plus_IZR, mult_IZR. fold (m_R p).
  assert (0 < m_R p) by (unfold m_R; rewrite two_pow; apply bpow_gt_0).
  replace 0.7213 with (7213 / 10000) by lra. replace 1.079 with (1079 / 1000) by lra.
  field. split; lra.
Qed.

(** A raw estimate below the cut [tn / td] is below by a relative 2^-gb, one above is above by
    a relative 2^-ga. *)
Definition far (gb ga : Z) (t : Z -> Z * Z) (p : Z) : bool :=
  let '(tn, td) := t p in
  let n := (alpha_num p * (2 ^ p * 2 ^ p) * 2 ^ (33 - p) * td)%Z in
  let d := (alpha_den p * tn)%Z in
  let r := (n mod d)%Z in
  ((n <=? 2 ^ gb * (d - r)) && (n <=? 2 ^ ga * r))%Z.

Definition cut_lin (p : Z) : Z * Z := (5 * 2 ^ p, 2)%Z.
Definition cut_mid (p : Z) : Z * Z := (2 ^ 32, 30)%Z.
Definition cut_top (p : Z) : Z * Z := (2 ^ 32, 1)%Z.

Definition pf_precisions : list Z := [4; 5; 6; 7; 8; 9; 10; 11; 12; 13; 14; 15; 16]%Z.
Lemma far_lin : forallb (far 36 36 cut_lin) pf_precisions = true. Proof. reflexivity. Qed.
Lemma far_mid : forallb (far 26 26 cut_mid) pf_precisions = true. Proof. reflexivity. Qed.
Lemma far_top : forallb (far 19 24 cut_top) pf_precisions = true. Proof. reflexivity. Qed.

Lemma pf_prec_in : forall p, (4 <= p <= 16)%N -> In (Z.of_N p) pf_precisions.
Proof.
  intros p Hp. unfold pf_precisions.
  assert (Z.of_N p = 4 \/ Z.of_N p = 5 \/ Z.of_N p = 6 \/ Z.of_N p = 7 \/ Z.of_N p = 8 \/
    Z.of_N p = 9 \/ Z.of_N p = 10 \/ Z.of_N p = 11 \/ Z.of_N p = 12 \/ Z.of_N p = 13 \/
    Z.of_N p = 14 \/ Z.of_N p = 15 \/ Z.of_N p = 16)%Z as D by lia.
  repeat destruct D as [->|D]; try (rewrite D); cbn; tauto.
Qed.

Lemma far_spec : forall n d z gb ga, (0 < d)%Z -> (0 <= gb)%Z -> (0 <= ga)%Z ->
  (n <= 2 ^ gb * (d - n mod d))%Z -> (n <= 2 ^ ga * (n mod d))%Z ->
  (z * d * 2 ^ ga <= n * (2 ^ ga - 1) \/ n * (2 ^ gb + 1) <= z * d * 2 ^ gb)%Z.
Proof.
  intros n d z gb ga Hd Hb Ha HB HA. pose proof (Z.div_mod n d ltac:(lia)) as E.
  pose proof (Z.mod_pos_bound n d Hd) as B. set (q := (n / d)%Z) in *. set (r := (n mod d)%Z) in *.
  assert (P : (0 < 2 ^ ga)%Z) by now apply Z.pow_pos_nonneg.
  assert (Q : (0 < 2 ^ gb)%Z) by now apply Z.pow_pos_nonneg.
  destruct (Z.le_gt_cases z q) as [C|C].
  - left. assert (z * d <= n - r)%Z by nia. nia.
  - right. assert (n + (d - r) <= z * d)%Z by nia. nia.
Qed.

(** A register file of 32-bit hashes: its raw estimate is away from the cut. *)
Lemma raw_far : forall gb ga t p H l, (4 <= p <= 16)%N -> (0 <= gb)%Z -> (0 <= ga)%Z ->
  (0 < fst (t (Z.of_N p)))%Z ->
  (0 < snd (t (Z.of_N p)))%Z -> forallb (far gb ga t) pf_precisions = true ->
  is_register_file 32 p H l ->
  let T := IZR (fst (t (Z.of_N p))) / IZR (snd (t (Z.of_N p))) in
  raw_R p l * (1 + / IZR (2 ^ gb)) <= T \/ T <= raw_R p l * (1 - / IZR (2 ^ ga)).
Proof.
  intros gb ga t p H l Hp Hgb Hga T1 T2 HF HR. cbv zeta.
  rewrite forallb_forall in HF. specialize (HF _ (pf_prec_in p Hp)). unfold far in HF.
  destruct (t (Z.of_N p)) as [tn td]. cbn [fst snd] in *. apply andb_prop in HF.
  destruct HF as [HFb HFa]. apply Z.leb_le in HFb, HFa.
  pose proof (rf_le 32 p H l ltac:(lia) HR) as HL. change (32 - p + 1)%N with (32 - p + 1)%N in HL.
  replace (32 - p + 1)%N with (33 - p)%N in HL by lia.
  destruct (inv_sum_multiple (33 - p) l HL) as (z & Hz & E).
  replace (Z.of_N (33 - p)) with (33 - Z.of_N p)%Z in E by lia.
  assert (HL64 : Forall (fun v => (v < 64)%N) l).
  { eapply Forall_impl; [|exact HL]. intros v Hv. cbv beta in Hv. lia. }
  destruct (raw_R_bounds p l (proj1 Hp) ltac:(lia) (proj1 HR) HL64) as (IS & _).
  pose proof (alpha_den_pos (Z.of_N p) ltac:(lia)) as AD.
  assert (D : (0 < alpha_den (Z.of_N p) * tn)%Z) by nia.
  assert (P2 : (0 < 2 ^ (33 - Z.of_N p))%Z) by (apply Z.pow_pos_nonneg; lia).
  assert (PB : (0 < 2 ^ gb)%Z) by (apply Z.pow_pos_nonneg; lia).
  assert (PA : (0 < 2 ^ ga)%Z) by (apply Z.pow_pos_nonneg; lia).
  assert (PM : (0 < 2 ^ Z.of_N p)%Z) by (apply Z.pow_pos_nonneg; lia).
  apply IZR_lt in AD, P2, PB, PA, T1, T2, PM.
  assert (Zp : 0 < IZR z).
  { rewrite E in IS. apply Rmult_lt_reg_r with (/ IZR (2 ^ (33 - Z.of_N p))).
    - now apply Rinv_0_lt_compat.
    - unfold Rdiv in IS. lra. }
  set (n := (alpha_num (Z.of_N p) * (2 ^ Z.of_N p * 2 ^ Z.of_N p) * 2 ^ (33 - Z.of_N p) * td)%Z) in *.
  assert (R : raw_R p l = IZR n / IZR (z * (alpha_den (Z.of_N p) * tn)) * (IZR tn / IZR td)).
  { unfold raw_R. rewrite alpha_frac, E. unfold n, m_R. rewrite !mult_IZR. field. lra. }
  rewrite R. set (T := IZR tn / IZR td). assert (TP : 0 < T) by (now apply Rdiv_lt_0_compat).
  set (d := (alpha_den (Z.of_N p) * tn)%Z) in *.
  assert (ZD : 0 < IZR (z * d)).
  { rewrite mult_IZR. apply Rmult_lt_0_compat; [auto|]. now apply IZR_lt in D. }
  destruct (far_spec n d z gb ga D Hgb Hga HFb HFa) as [F|F]; apply IZR_le in F; rewrite (mult_IZR (z * d)) in F;
    rewrite (mult_IZR n) in F; rewrite ?plus_IZR, ?minus_IZR in F.
  - right. apply Rmult_le_reg_r with (/ T * IZR (z * d) * IZR (2 ^ ga)).
    { apply Rmult_lt_0_compat; [apply Rmult_lt_0_compat; [now apply Rinv_0_lt_compat|auto]|auto]. }
    replace (T * (/ T * IZR (z * d) * IZR (2 ^ ga))) with (IZR (z * d) * IZR (2 ^ ga)) by (field; lra).
    replace (IZR n / IZR (z * d) * T * (1 - / IZR (2 ^ ga)) * (/ T * IZR (z * d) * IZR (2 ^ ga)))
      with (IZR n * (IZR (2 ^ ga) - 1)) by (field; lra). exact F.
  - left. apply Rmult_le_reg_r with (/ T * IZR (z * d) * IZR (2 ^ gb)).
    { apply Rmult_lt_0_compat; [apply Rmult_lt_0_compat; [now apply Rinv_0_lt_compat|auto]|auto]. }
    replace (T * (/ T * IZR (z * d) * IZR (2 ^ gb))) with (IZR (z * d) * IZR (2 ^ gb)) by (field; lra).
    replace (IZR n / IZR (z * d) * T * (1 + / IZR (2 ^ gb)) * (/ T * IZR (z * d) * IZR (2 ^ gb)))
      with (IZR n * (IZR (2 ^ gb) + 1)) by (field; lra). exact F.
Qed.

Lemma far_25 : forall p H l, (4 <= p <= 16)%N -> is_register_file 32 p H l ->
  raw_R p l * (1 + / IZR (2 ^ 36)) <= 2.5 * m_R p \/ 2.5 * m_R p <= raw_R p l * (1 - / IZR (2 ^ 36)).
Proof.
  intros p H l Hp HR.
  assert (0 < 2 ^ Z.of_N p)%Z by (apply Z.pow_pos_nonneg; lia).
  pose proof (raw_far 36 36 cut_lin p H l Hp ltac:(lia) ltac:(lia) ltac:(cbn [fst cut_lin]; lia) ltac:(cbn; lia) far_lin HR) as F.
  cbv zeta in F. unfold cut_lin in F. cbn [fst snd] in F. rewrite mult_IZR in F. fold (m_R p) in F.
  replace (5 * m_R p / 2) with (2.5 * m_R p) in F by lra. exact F.
Qed.

Lemma far_30 : forall p H l, (4 <= p <= 16)%N -> is_register_file 32 p H l ->
  raw_R p l * (1 + / IZR (2 ^ 26)) <= IZR (2 ^ 32) / 30 \/
  IZR (2 ^ 32) / 30 <= raw_R p l * (1 - / IZR (2 ^ 26)).
Proof.
  intros p H l Hp HR.
  exact (raw_far 26 26 cut_mid p H l Hp ltac:(lia) ltac:(lia) ltac:(reflexivity) ltac:(reflexivity) far_mid HR).
Qed.

Lemma far_32 : forall p H l, (4 <= p <= 16)%N -> is_register_file 32 p H l ->
  raw_R p l * (1 + / IZR (2 ^ 19)) <= IZR (2 ^ 32) \/
  IZR (2 ^ 32) <= raw_R p l * (1 - / IZR (2 ^ 24)).
Proof.
  intros p H l Hp HR.
  pose proof (raw_far 19 24 cut_top p H l Hp ltac:(lia) ltac:(lia) ltac:(reflexivity) ltac:(reflexivity) far_top HR) as F.
  cbv zeta in F. unfold cut_top in F. cbn [fst snd] in F. unfold Rdiv in F. rewrite Rinv_1, Rmult_1_r in F. exact F.
Qed.

Lemma raw_pos : forall p H l, (4 <= p <= 16)%N -> is_register_file 32 p H l -> 0 <= raw_R p l.
Proof.
  intros p H l Hp HR. pose proof (rf_le 32 p H l ltac:(lia) HR) as HL.
  assert (HL64 : Forall (fun v => (v < 64)%N) l).
  { eapply Forall_impl; [|exact HL]. intros v Hv. cbv beta in Hv. lia. }
  destruct (raw_R_bounds p l (proj1 Hp) ltac:(lia) (proj1 HR) HL64) as (_ & B).
  destruct (alpha_pow2 p ltac:(lia) ltac:(lia)) as (_ & _ & HA).
  pose proof (m_R_bounds p ltac:(lia) ltac:(lia)). nra.
Qed.

(** ** The large-range correction is stable below 2^32 *)
Lemma ln_diff : forall a b, 0 < a -> 0 < b -> Rabs (ln a - ln b) <= Rabs (a - b) / Rmin a b.
Proof.
  assert (D : forall a b, 0 < a -> a <= b -> 0 <= ln b - ln a <= (b - a) / a).
  { intros a b Ha Hb. split.
    - pose proof (LinearFacts.ln_le a b Ha Hb). lra.
    - replace (ln b - ln a) with (ln (b / a)).
      + assert (P : 0 < b / a) by (apply Rdiv_lt_0_compat; lra).
        pose proof (exp_ineq1_le (ln (b / a))) as I. rewrite exp_ln in I by auto.
        replace ((b - a) / a) with (b / a - 1) by (field; lra). lra.
      + unfold Rdiv. rewrite ln_mult, ln_Rinv; try lra. now apply Rinv_0_lt_compat. }
  intros a b Ha Hb. destruct (Rle_dec a b) as [C|C].
  - destruct (D a b Ha C). rewrite Rmin_left by auto. rewrite !Rabs_left1 by lra.
    replace (- (a - b)) with (b - a) by ring. lra.
  - destruct (D b a Hb ltac:(lra)). rewrite Rmin_right by lra. rewrite !Rabs_pos_eq by lra. lra.
Qed.

Lemma large_stable : forall c x y, approx (/ IZR (2 ^ 49)) x y ->
  IZR (2 ^ 32) / 30 <= y -> y * (1 + / IZR (2 ^ 19)) <= IZR (2 ^ 32) ->
  approx (/ IZR (2 ^ 46)) c (large_R x) -> approx (/ IZR (2 ^ 28)) c (large_R y).
Proof.
  intros c x y Hx H30 H32 Hc. unfold approx, large_R in *.
  change (IZR (2 ^ 32)) with 4294967296 in *. change (/ IZR (2 ^ 49)) with (/ 562949953421312) in *.
  change (/ IZR (2 ^ 19)) with (/ 524288) in *. change (/ IZR (2 ^ 46)) with (/ 70368744177664) in *.
  change (/ IZR (2 ^ 28)) with (/ 268435456) in *.
  rewrite (Rabs_pos_eq y) in Hx by lra. apply Rabs_le_inv in Hx.
  set (q := x / 4294967296) in *. set (r := y / 4294967296) in *.
  assert (Br : / 30 <= r <= 1 - 0.99 * / 524288) by (unfold r; lra).
  assert (Bq : Rabs ((1 - q) - (1 - r)) <= / 562949953421312 * r).
  { unfold q, r. apply Rabs_le. lra. }
  assert (Bq' := Bq). apply Rabs_le_inv in Bq'.
  pose proof (ln_diff (1 - q) (1 - r) ltac:(lra) ltac:(lra)) as D.
  assert (Lr : ln (1 - r) <= - r).
  { pose proof (exp_ineq1_le (ln (1 - r))) as I. rewrite exp_ln in I by lra. lra. }
  assert (Lq : ln (1 - q) <= - q).
  { pose proof (exp_ineq1_le (ln (1 - q))) as I. rewrite exp_ln in I by lra. lra. }
  assert (DD : Rabs (ln (1 - q) - ln (1 - r)) <= / 300000000 * - ln (1 - r)).
  { eapply Rle_trans; [exact D|]. apply Rle_trans with (/ 300000000 * r); [|apply Rmult_le_compat_l; lra].
    assert (Mn : 0.98 * / 524288 <= Rmin (1 - q) (1 - r)) by (apply Rmin_glb; lra).
    apply Rmult_le_reg_r with (Rmin (1 - q) (1 - r)); [lra|]. unfold Rdiv.
    rewrite Rmult_assoc, Rinv_l by lra. rewrite Rmult_1_r. eapply Rle_trans; [exact Bq|].
    rewrite Rmult_assoc, (Rmult_comm r), <- Rmult_assoc. apply Rmult_le_compat_r; lra. }
  apply Rabs_le_inv in DD.
  rewrite (Rabs_pos_eq (- (4294967296) * ln (1 - r))) by lra.
  rewrite (Rabs_pos_eq (- (4294967296) * ln (1 - q))) in Hc by lra.
  apply Rabs_le_inv in Hc. apply Rabs_le. lra.
Qed.

(** ** The comparisons *)
Lemma near_25 : forall p H l raw, (4 <= p <= 16)%N -> is_register_file 32 p H l ->
  approx (/ IZR (2 ^ 49)) raw (raw_R p l) -> (raw <= 2.5 * m_R p <-> raw_R p l <= 2.5 * m_R p).
Proof.
  intros p H l raw Hp HR A.
  assert (P : 0 <= raw_R p l) by (eapply raw_pos; eauto).
  destruct (far_25 p H l Hp HR) as [F|F]; unfold approx in A; rewrite (Rabs_pos_eq (raw_R p l)) in A by auto;
    apply Rabs_le_inv in A; change (/ IZR (2 ^ 36)) with (/ 68719476736) in F;
    change (/ IZR (2 ^ 49)) with (/ 562949953421312) in A; pose proof (m_R_bounds p ltac:(lia) ltac:(lia)); lra.
Qed.

Lemma near_30 : forall p H l raw, (4 <= p <= 16)%N -> is_register_file 32 p H l ->
  approx (/ IZR (2 ^ 49)) raw (raw_R p l) ->
  (raw <= IZR (2 ^ 32) / 30 <-> raw_R p l <= IZR (2 ^ 32) / 30).
Proof.
  intros p H l raw Hp HR A.
  assert (P : 0 <= raw_R p l) by (eapply raw_pos; eauto).
  destruct (far_30 p H l Hp HR) as [F|F]; unfold approx in A; rewrite (Rabs_pos_eq (raw_R p l)) in A by auto;
    apply Rabs_le_inv in A; change (/ IZR (2 ^ 26)) with (/ 67108864) in F; change (IZR (2 ^ 32)) with 4294967296 in *;
    change (/ IZR (2 ^ 49)) with (/ 562949953421312) in A; lra.
Qed.

Theorem pf_exact_ok : forall e p H l c, build e -> accurate e -> (4 <= p <= 16)%N ->
  is_register_file 32 p (low32 H) l -> Forall (fun v => (v < 32)%N) l ->
  raw_R p l < IZR (2 ^ 32) -> pf_value e p l (zero_count l) = Ret c ->
  fin c /\ pf_R p H (val c) /\
  (H = [] -> val c = 0) /\ (H <> [] -> 0.9 <= val c) /\ val c <= bpow radix2 40.
Proof.
  intros e p H l c Hb Ha Hp HR Hl Hs Ec.
  pose proof (raw_pos p _ l Hp HR) as P.
  assert (S19 : raw_R p l * (1 + / IZR (2 ^ 19)) <= IZR (2 ^ 32)).
  { destruct (far_32 p _ l Hp HR) as [F|F]; [auto|].
    change (/ IZR (2 ^ 24)) with (/ 16777216) in F. change (IZR (2 ^ 32)) with 4294967296 in *. lra. }
  destruct (pf_formula_ok e p H l c Hb Ha Hp HR Hl) as (F & A & R); auto.
  { change (/ IZR (2 ^ 19)) with (/ 524288) in S19. change (IZR (2 ^ 32)) with 4294967296 in *.
    change (/ IZR (2 ^ 48)) with (/ 281474976710656). lra. }
  split; [auto|]. split; [|exact R]. clear R.
  destruct A as (l' & raw & HR' & A & C).
  exists l'. split; [auto|].
  assert (l' = l) by (apply (is_register_file_unique 32 p (low32 H)); auto; lia). subst l'.
  pose proof (near_25 p _ l raw Hp HR A) as N25. pose proof (near_30 p _ l raw Hp HR A) as N30.
  destruct C as [(Z & C1 & C2)|(Z & C)]; [left; tauto|right].
  split.
  { destruct Z as [Z|Z]; [now left|right]. apply Rnot_le_lt. intros E. apply N25 in E. lra. }
  destruct C as [[C ->]|[C1 C2]]; [left; tauto|right].
  assert (C3 : IZR (2 ^ 32) / 30 < raw_R p l).
  { apply Rnot_le_lt. intros E. apply N30 in E. lra. }
  split; [auto|]. apply (large_stable _ raw); auto. lra.
Qed.

(** ** At 2^32 and above *)
Lemma ln_neg : forall e x, rejects e -> fin x -> val x < 0 ->
  exists y, ModelCommon.ln e x = Ret y /\ is_nan y = true.
Proof.
  intros e x Hr Fx Nx. unfold ModelCommon.ln. destruct (feat_std e) eqn:Es.
  - exists (std_ln e x). split; [reflexivity|]. now apply Hr.
  - unfold log. destruct (log_bits_cases (overflow_checks e) (to_bits x)) as (y & E & H).
    { apply to_bits_lt. }
    exists y. split; [auto|].
    assert (Nn : is_nan x = false) by (clear - Fx; destruct x; auto; discriminate).
    pose proof (from_bits_to_bits x Nn) as FB. rewrite FB in H.
    destruct x as [s|s| |s m ex Hx]; try discriminate Fx.
    + exfalso. revert Nx. unfold val. cbn. lra.
    + destruct s; [now rewrite H|]. exfalso. revert Nx. unfold val, B2R.
      assert (0 < F2R (Float radix2 (cond_Zopp false (Z.pos m)) ex)) by (apply F2R_gt_0; reflexivity). lra.
Qed.

Theorem pf_nan : forall e p H l c, build e -> rejects e -> (4 <= p <= 16)%N ->
  is_register_file 32 p H l -> Forall (fun v => (v < 32)%N) l ->
  IZR (2 ^ 32) <= raw_R p l -> pf_value e p l (zero_count l) = Ret c -> is_nan c = true.
Proof.
  intros e p H l c Hb Hr Hp HR Hl Hs Ec.
  destruct (raw_f_rel_pf e p l Hb (proj1 Hp) (proj2 Hp) (proj1 HR) Hl) as (Fr & Rr & Br).
  pose proof (raw_pos p _ l Hp HR) as P.
  pose proof (rel_bounds _ _ _ Rr P) as B. change (bpow radix2 (-49)) with (/ 562949953421312) in B.
  assert (L : IZR (2 ^ 32) < val (raw_f e p l)).
  { destruct (far_32 p _ l Hp HR) as [F|F].
    - change (/ IZR (2 ^ 19)) with (/ 524288) in F. change (IZR (2 ^ 32)) with 4294967296 in *. lra.
    - change (/ IZR (2 ^ 24)) with (/ 16777216) in F. change (IZR (2 ^ 32)) with 4294967296 in *. lra. }
  change (IZR (2 ^ 32)) with 4294967296 in *.
  pose proof (m_R_bounds p ltac:(lia) ltac:(lia)) as Hm.
  unfold pf_value in Ec. set (raw := raw_f e p l) in *.
  destruct (linear_cut p Hp) as [Ft Vt]. rewrite fle_spec, Vt in Ec by auto.
  rewrite Rle_bool_false in Ec by lra. cbn [andb] in Ec.
  destruct cut_30 as (t & Et & Ft2 & Ct). rewrite Et in Ec.
  rewrite flt_spec, Ct, Rlt_bool_true in Ec by (auto; change (IZR (2 ^ 32)) with 4294967296; lra).
  destruct (of_N_exact (N.shiftl 1 32)) as [F1 V1]; [vm_compute; discriminate|].
  change (IZR (Z.of_N (N.shiftl 1 32))) with 4294967296 in V1.
  destruct (fdiv_is raw (of_N (N.shiftl 1 32)) Fr F1) as [Fq Vq].
  { lra. }
  { rewrite V1, Rabs_pos_eq by lra. apply Rle_trans with (bpow radix2 82); [lra|].
    apply bpow_le. lia. }
  rewrite V1 in Vq.
  assert (Q : 1 < val (fdiv raw (of_N (N.shiftl 1 32))) <= bpow radix2 82).
  { rewrite Vq. assert (G : generic_format radix2 (FLT_exp (-1074) 53) (val raw / 4294967296)).
    { unfold Rdiv. change (/ 4294967296) with (bpow radix2 (-32)).
      apply scale_generic; [apply (generic_format_B2R 53 1024)|right].
      apply Rle_trans with (bpow radix2 0); [apply bpow_le; lia|].
      change (bpow radix2 (-32)) with (/ 4294967296). rewrite Rabs_pos_eq by lra. simpl. lra. }
    rewrite rnd_generic by exact G. lra. }
  destruct (of_Z_exact 1) as [F2 V2]; [vm_compute; discriminate|].
  set (q := fdiv raw (of_N (N.shiftl 1 32))) in *.
  destruct (fsub_is (of_Z 1) q F2 Fq) as [Fd Vd].
  { rewrite V2, Rabs_left by lra. apply Rle_trans with (bpow radix2 82); [lra|]. apply bpow_le. lia. }
  assert (Nd : val (fsub (of_Z 1) q) < 0).
  { assert (Gq : generic_format radix2 (FLT_exp (-1074) 53) (val q)) by apply (generic_format_B2R 53 1024).
    assert (S : succ radix2 (FLT_exp (-1074) 53) (bpow radix2 0) <= val q).
    { apply succ_le_lt; [apply valid_flt|apply bpow_generic; lia|exact Gq|].
      change (bpow radix2 0) with 1. lra. }
    rewrite succ_eq_pos in S by (simpl; lra). rewrite ulp_bpow in S.
    change (bpow radix2 0) with 1 in S.
    rewrite Vd, V2. apply Rle_lt_trans with (- bpow radix2 (-60)).
    - rewrite <- (rnd_generic (- bpow radix2 (-60))).
      + apply rnd_le. change (FLT_exp (-1074) 53 (0 + 1)) with (-52)%Z in S.
        change (bpow radix2 (-52)) with (/ 4503599627370496) in S.
        change (bpow radix2 (-60)) with (/ 1152921504606846976). lra.
      + apply generic_format_opp. apply bpow_generic. lia.
    - pose proof (bpow_gt_0 radix2 (-60)). lra. }
  destruct (ln_neg e _ Hr Fd Nd) as (y & Ey & Ny). rewrite Ey, bind_ret in Ec.
  set (k := fmul (of_Z (-1)) (of_N (N.shiftl 1 32))) in *. clearbody k.
  injection Ec as <-. destruct y; try discriminate Ny. destruct k; reflexivity.
Qed.
