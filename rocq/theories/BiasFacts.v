(** * Bias interpolation *)
From Coq Require Import NArith ZArith Reals Lra Lia List Bool.
From Flocq Require Import Core BinarySingleNaN.
From Verif Require Import ModelRust ModelF64 ModelEnv ModelCommon ModelConstants ModelPlus
  SpecReal SpecBuild BitFacts F64Facts RawFacts BiasTables.
Import ListNotations.
Local Open Scope R_scope.

Definition good_tables (p : N) (E B : list f64) : Prop :=
  length E = length B /\ (2 <= length E)%nat /\
  (forall i x y, nth_error E i = Some x -> nth_error B i = Some y ->
     fin x /\ fin y /\ 0 <= val x <= 5 * m_R p /\ - m_R p <= val y <= m_R p /\
     val y + 0.98 <= val x) /\
  (forall i x y, nth_error E i = Some x -> nth_error E (S i) = Some y -> val x <> val y) /\
  (forall y, nth_error B 0 = Some y -> val y + 0.24 <= alpha_R p * m_R p).

Lemma of_N_m : forall p, (4 <= p)%N -> (p <= 18)%N -> is (of_N (2 ^ p)) (m_R p).
Proof.
  intros p H4 H18. unfold m_R. rewrite two_pow. apply of_N_pow2. lia.
Qed.

Lemma fle_true : forall x y, fin x -> fin y -> fle x y = true -> val x <= val y.
Proof.
  intros x y Fx Fy H. rewrite fle_spec in H by auto. revert H.
  case Rle_bool_spec; auto. discriminate.
Qed.

Lemma big : forall x, Rabs x <= 1000000000 -> Rabs x <= bpow radix2 1023.
Proof.
  intros x H. eapply Rle_trans; [exact H|].
  apply Rle_trans with (bpow radix2 30); [simpl; lra|]. apply bpow_le. lia.
Qed.

(** A number of magnitude at most 2^21 is rounded by at most 2^-32. *)
Lemma rnd_close : forall x, Rabs x <= 2097152 -> Rabs (rnd x - x) <= / 4294967296.
Proof.
  intros x H. pose proof (rnd_err x 21 ltac:(lia)) as R. simpl bpow in R. auto.
Qed.

Ltac split_andb := repeat match goal with
  | H : (_ && _)%bool = true |- _ => apply andb_true_iff in H; destruct H
  end.

Lemma entry_ok_spec : forall p x y, (4 <= p)%N -> (p <= 18)%N ->
  entry_ok (of_N (2 ^ p)) (x, y) = true ->
  fin x /\ fin y /\ 0 <= val x <= 5 * m_R p /\ - m_R p <= val y <= m_R p /\
  val y + 0.98 <= val x.
Proof.
  intros p x y H4 H18 H. unfold entry_ok in H. split_andb.
  pose proof (m_R_bounds p H4 H18) as Hm.
  destruct (of_N_m p H4 H18) as [Fm Vm].
  destruct (of_Z_exact 5 ltac:(discriminate)) as [F5 V5].
  assert (Fx : fin x) by assumption. assert (Fy : fin y) by assumption.
  assert (M5 : is (fmul (of_Z 5) (of_N (2 ^ p))) (5 * m_R p)).
  { assert (E : rnd (5 * m_R p) = 5 * m_R p).
    { unfold m_R. rewrite <- mult_IZR. apply rnd_generic, int_generic.
      rewrite Z.abs_eq by lia. apply Z.le_trans with (5 * 2 ^ 18)%Z; [|discriminate].
      apply Z.mul_le_mono_nonneg_l; [lia|]. apply Z.pow_le_mono_r; lia. }
    rewrite <- E. rewrite <- Vm, <- V5. apply fmul_is; auto. rewrite V5, Vm. apply big.
    apply Rabs_le. lra. }
  assert (MN : is (fsub pzero (of_N (2 ^ p))) (- m_R p)).
  { assert (E : rnd (0 - m_R p) = - m_R p).
    { replace (0 - m_R p) with (- m_R p) by ring. unfold m_R. rewrite <- opp_IZR.
      apply rnd_generic, int_generic. rewrite Z.abs_opp, Z.abs_eq by lia.
      apply Z.le_trans with (2 ^ 18)%Z; [|discriminate]. apply Z.pow_le_mono_r; lia. }
    rewrite <- E. rewrite <- Vm. change 0 with (val pzero). apply fsub_is; auto.
    rewrite Vm. change (val pzero) with 0. apply big. apply Rabs_le. lra. }
  destruct M5 as [FM5 VM5], MN as [FMN VMN].
  destruct (lit_correct 99 2 ltac:(discriminate) ltac:(lia)) as [F9 V9].
  assert (N9 : Rabs (val (lit 99 2) - 0.99) <= / 4294967296).
  { rewrite V9. replace 0.99 with (IZR 99 / 10 ^ N.to_nat 2) by (simpl; lra).
    apply rnd_close. simpl. rewrite Rabs_pos_eq; lra. }
  apply Rabs_le_inv in N9.
  match goal with h : fle pzero x = true |- _ => apply fle_true in h; auto end.
  match goal with h : fle x _ = true |- _ => apply fle_true in h; auto; rewrite VM5 in h end.
  match goal with h : fle _ y = true |- _ => apply fle_true in h; auto; rewrite VMN in h end.
  match goal with h : fle y (of_N _) = true |- _ => apply fle_true in h; auto; rewrite Vm in h end.
  change (val pzero) with 0 in *.
  destruct (fsub_is x (lit 99 2)) as [FD VD]; auto.
  { apply big. apply Rabs_le. lra. }
  match goal with h : fle y (fsub _ _) = true |- _ =>
    apply fle_true in h; auto; rewrite VD in h end.
  assert (ND : Rabs (rnd (val x - val (lit 99 2)) - (val x - val (lit 99 2))) <= / 4294967296).
  { apply rnd_close. apply Rabs_le. lra. }
  apply Rabs_le_inv in ND.
  repeat split; auto; lra.
Qed.

Lemma combine_nth_error : forall (A B : Type) (l : list A) (l' : list B) i x y,
  nth_error l i = Some x -> nth_error l' i = Some y -> In (x, y) (combine l l').
Proof.
  intros A B l. induction l as [|a l IH]; intros [|b l'] [|i] x y Hx Hy; try discriminate.
  - inv Hx. inv Hy. now left.
  - right. simpl in *. eauto.
Qed.

Lemma distinct_ok_spec : forall l i x y, distinct_ok l = true -> Forall fin l ->
  nth_error l i = Some x -> nth_error l (S i) = Some y -> val x <> val y.
Proof.
  induction l as [|a l IH]; intros i x y H F Hx Hy; [discriminate|].
  destruct l as [|b l]; [destruct i; discriminate|].
  cbn [distinct_ok] in H. apply andb_true_iff in H. destruct H as [H H'].
  apply Forall_cons_iff in F. destruct F as [Fa F].
  destruct i as [|i].
  - inv Hx. inv Hy. apply Forall_cons_iff in F. destruct F as [Fb F].
    rewrite !flt_spec in H by auto. apply orb_true_iff in H.
    destruct H as [H|H]; revert H; case Rlt_bool_spec; intros; (lra || discriminate).
  - simpl in Hx. apply (IH i x y); auto.
Qed.

Lemma table_ok_spec : forall p E B, (4 <= p)%N -> (p <= 18)%N ->
  table_ok p E B = true -> good_tables p E B.
Proof.
  intros p E B H4 H18 H. unfold table_ok in H. split_andb.
  match goal with h : Nat.eqb _ _ = true |- _ => apply Nat.eqb_eq in h; rename h into HL end.
  match goal with h : Nat.leb _ _ = true |- _ => apply Nat.leb_le in h; rename h into Hlen2 end.
  match goal with h : forallb _ _ = true |- _ => rewrite forallb_forall in h; rename h into HF end.
  match goal with h : distinct_ok _ = true |- _ => rename h into HD end.
  rename H0 into Hb.
  assert (HE : forall i x y, nth_error E i = Some x -> nth_error B i = Some y ->
     fin x /\ fin y /\ 0 <= val x <= 5 * m_R p /\ - m_R p <= val y <= m_R p /\
     val y + 0.98 <= val x).
  { intros i x y Hx Hy. apply entry_ok_spec; auto. apply HF. eapply combine_nth_error; eauto. }
  assert (FE : Forall fin E).
  { rewrite Forall_forall. intros x Hx. apply In_nth_error in Hx. destruct Hx as [i Hi].
    destruct (nth_error B i) as [y|] eqn:Ey.
    - now destruct (HE i x y Hi Ey).
    - exfalso. apply nth_error_None in Ey. assert (nth_error E i <> None) as C by congruence.
      apply nth_error_Some in C. lia. }
  split; [auto|split; [auto|split; [auto|split]]].
  - intros i x y. now apply distinct_ok_spec.
  - intros y Hy. destruct B as [|b B]; [discriminate|]. inv Hy.
    pose proof (m_R_bounds p H4 H18) as Hm.
    destruct (of_N_m p H4 H18) as [Fm Vm].
    destruct (alpha_pow2 p H4 H18) as (Fa & Ra & Ba).
    pose proof (rel_bounds _ _ _ Ra ltac:(lra)) as Va. rewrite u_val in Va.
    assert (U8 : Rabs (val (alpha (2 ^ p)) - alpha_R p) <= / 1000000000000000).
    { apply Rabs_le. split; nra. }
    apply Rabs_le_inv in U8.
    destruct E as [|x E]; [simpl in Hlen2; lia|].
    destruct (HE 0%nat x y eq_refl eq_refl) as (Fx & Fy & Bx & By & Bxy).
    assert (PB : 0 <= val (alpha (2 ^ p)) * m_R p <= 262145 /\
                 Rabs (val (alpha (2 ^ p)) * m_R p - alpha_R p * m_R p) <= / 1000000000).
    { split; [nra|]. rewrite <- Rmult_minus_distr_r, Rabs_mult, (Rabs_pos_eq (m_R p)) by lra.
      apply Rle_trans with (/ 1000000000000000 * 262144); [|lra].
      apply Rmult_le_compat; try lra; [apply Rabs_pos|]. apply Rabs_le. lra. }
    destruct PB as [PB PE]. apply Rabs_le_inv in PE.
    destruct (fmul_is (alpha (2 ^ p)) (of_N (2 ^ p))) as [FP VP]; auto.
    { rewrite Vm. apply big. rewrite Rabs_pos_eq; lra. }
    rewrite Vm in VP.
    pose proof (rnd_close (val (alpha (2 ^ p)) * m_R p)) as RP.
    rewrite Rabs_pos_eq in RP by lra. specialize (RP ltac:(lra)). apply Rabs_le_inv in RP.
    destruct (lit_correct 25 2 ltac:(discriminate) ltac:(lia)) as [F9 V9].
    assert (N9 : Rabs (val (lit 25 2) - 0.25) <= / 4294967296).
    { rewrite V9. replace 0.25 with (IZR 25 / 10 ^ N.to_nat 2) by (simpl; lra).
      apply rnd_close. simpl. rewrite Rabs_pos_eq; lra. }
    apply Rabs_le_inv in N9.
    destruct (fsub_is (fmul (alpha (2 ^ p)) (of_N (2 ^ p))) (lit 25 2)) as [FD VD]; auto.
    { apply big. apply Rabs_le. lra. }
    apply fle_true in Hb; auto. rewrite VD in Hb.
    pose proof (rnd_close (val (fmul (alpha (2 ^ p)) (of_N (2 ^ p))) - val (lit 25 2))) as RD.
    specialize (RD ltac:(apply Rabs_le; lra)). apply Rabs_le_inv in RD. lra.
Qed.

Definition est_table (p : N) : list f64 := nth (N.to_nat (p - 4)) RAW_ESTIMATE_DATA [].
Definition bias_table (p : N) : list f64 := nth (N.to_nat (p - 4)) BIAS_DATA [].

Lemma precisions_in : forall p, (4 <= p)%N -> (p <= 18)%N -> In p precisions.
Proof.
  intros p H4 H18. unfold precisions. apply in_map_iff. exists (N.to_nat p).
  split; [apply N2Nat.id|]. apply in_seq. lia.
Qed.

Lemma tables_good : forall p, (4 <= p)%N -> (p <= 18)%N ->
  good_tables p (est_table p) (bias_table p).
Proof.
  intros p H4 H18. apply table_ok_spec; auto.
  pose proof tables_ok as T. rewrite forallb_forall in T. apply T. now apply precisions_in.
Qed.

Lemma tables_index : forall p, (4 <= p)%N -> (p <= 18)%N ->
  index RAW_ESTIMATE_DATA (p - 4) = Ret (est_table p) /\
  index BIAS_DATA (p - 4) = Ret (bias_table p).
Proof.
  intros p H4 H18. split; apply index_ok; apply nth_error_nth'.
  - unfold RAW_ESTIMATE_DATA. rewrite map_length. change (length raw_dec) with 15%nat. lia.
  - unfold BIAS_DATA. rewrite map_length. change (length bias_dec) with 15%nat. lia.
Qed.

(** ** One interpolation *)

Lemma segment_between : forall x0 y0 x1 y1 x y lo hi, on_segment x0 y0 x1 y1 x y ->
  lo <= y0 <= hi -> lo <= y1 <= hi -> lo <= y <= hi.
Proof.
  intros x0 y0 x1 y1 x y lo hi (Hne & Hx & ->) H0 H1.
  set (q := (x - x0) / (x1 - x0)).
  assert (Hq : 0 <= q <= 1).
  { unfold q. destruct (Rtotal_order x0 x1) as [Hlt|[He|Hgt]]; [| contradiction |].
    - rewrite Rmin_left, Rmax_right in Hx by lra.
      split; [apply Rmult_le_pos; [lra|]; left; apply Rinv_0_lt_compat; lra|].
      apply Rmult_le_reg_r with (x1 - x0); [lra|]. unfold Rdiv.
      rewrite Rmult_assoc, Rinv_l by lra. lra.
    - rewrite Rmin_right, Rmax_left in Hx by lra.
      replace ((x - x0) / (x1 - x0)) with ((x0 - x) / (x0 - x1)) by (field; lra).
      split; [apply Rmult_le_pos; [lra|]; left; apply Rinv_0_lt_compat; lra|].
      apply Rmult_le_reg_r with (x0 - x1); [lra|]. unfold Rdiv.
      rewrite Rmult_assoc, Rinv_l by lra. lra. }
  split; nra.
Qed.

(** The float interpolation is within 32 half-ulps of [m] of the exact one. *)
Lemma interp_f_close : forall p x0 x1 y0 y1 x y, (4 <= p)%N -> (p <= 18)%N ->
  fin x0 -> fin x1 -> fin y0 -> fin y1 -> fin x ->
  0 <= val x0 <= 5 * m_R p -> 0 <= val x1 <= 5 * m_R p ->
  - m_R p <= val y0 <= m_R p -> - m_R p <= val y1 <= m_R p ->
  on_segment (val x0) (val y0) (val x1) (val y1) (val x) y ->
  let f := fadd y0 (fmul (fdiv (fsub x x0) (fsub x1 x0)) (fsub y1 y0)) in
  fin f /\ Rabs (val f - y) <= 32 * u * m_R p.
Proof.
  intros p x0 x1 y0 y1 x y H4 H18 Fx0 Fx1 Fy0 Fy1 Fx Bx0 Bx1 By0 By1 HS f.
  pose proof (m_R_bounds p H4 H18) as Hm. set (m := m_R p) in *.
  pose proof (segment_between _ _ _ _ _ _ _ _ HS By0 By1) as HI.
  destruct HS as (Hne & Hx & Hy).
  assert (Bx : 0 <= val x <= 5 * m).
  { pose proof (Rmin_glb (val x0) (val x1) 0 ltac:(lra) ltac:(lra)).
    pose proof (Rmax_lub (val x0) (val x1) (5 * m) ltac:(lra) ltac:(lra)). lra. }
  set (q := (val x - val x0) / (val x1 - val x0)) in *.
  assert (Hq : 0 <= q <= 1).
  { pose proof (segment_between (val x0) 0 (val x1) 1 (val x) q 0 1) as S.
    apply S; try lra. split; [auto|split; [auto|]]. unfold q. ring. }
  assert (U : 0 < u <= / 9007199254740992) by (rewrite u_val; lra).
  (* differences *)
  destruct (fsub_is x x0) as [FA VA]; auto. { apply big. apply Rabs_le. lra. }
  destruct (fsub_is x1 x0) as [FB VB]; auto. { apply big. apply Rabs_le. lra. }
  destruct (fsub_is y1 y0) as [FC VC]; auto. { apply big. apply Rabs_le. lra. }
  pose proof (rnd_sub_rel x x0) as RA. rewrite <- VA in RA.
  pose proof (rnd_sub_rel x1 x0) as RB. rewrite <- VB in RB.
  pose proof (rnd_sub_rel y1 y0) as RC. rewrite <- VC in RC.
  set (a := fsub x x0) in *. set (b := fsub x1 x0) in *. set (c := fsub y1 y0) in *.
  assert (Nb : val b <> 0).
  { destruct RB as (d & Hd & ->). apply Rmult_integral_contrapositive_currified; [lra|].
    apply Rabs_le_inv in Hd. lra. }
  (* quotient *)
  assert (Nd : val x1 - val x0 <> 0) by lra.
  pose proof (rel_div_s _ _ _ _ _ _ small_u small_u Nd RA RB) as RQ.
  fold q in RQ. apply rel_abs in RQ. rewrite (Rabs_pos_eq q) in RQ by lra.
  assert (EQ : Rabs (val a / val b - q) <= 2.01 * u).
  { eapply Rle_trans; [exact RQ|]. nra. }
  apply Rabs_le_inv in EQ.
  assert (BQ : Rabs (val a / val b) <= 2) by (apply Rabs_le; lra).
  destruct (fdiv_is a b) as [FR VR]; auto. { apply big. lra. }
  pose proof (rnd_err (val a / val b) 1 ltac:(lia) BQ) as ER. rewrite <- VR in ER.
  assert (E2 : bpow radix2 (1 - 53) = 2 * u) by (rewrite u_val; simpl; lra).
  rewrite E2 in ER. apply Rabs_le_inv in ER. set (r := fdiv a b) in *.
  assert (Hr : Rabs (val r - q) <= 4.1 * u) by (apply Rabs_le; lra).
  (* difference of biases *)
  apply rel_abs in RC.
  assert (Bd : Rabs (val y1 - val y0) <= 2 * m) by (apply Rabs_le; lra).
  assert (EC : Rabs (val c - (val y1 - val y0)) <= 2 * u * m).
  { eapply Rle_trans; [exact RC|]. nra. }
  assert (BC : Rabs (val c) <= 2.01 * m).
  { replace (val c) with (val c - (val y1 - val y0) + (val y1 - val y0)) by ring.
    eapply Rle_trans; [apply Rabs_triang|]. nra. }
  (* product *)
  assert (EP : Rabs (val r * val c - q * (val y1 - val y0)) <= 11 * u * m).
  { replace (val r * val c - q * (val y1 - val y0))
      with ((val r - q) * val c + q * (val c - (val y1 - val y0))) by ring.
    eapply Rle_trans; [apply Rabs_triang|]. rewrite !Rabs_mult, (Rabs_pos_eq q) by lra.
    assert (Rabs (val r - q) * Rabs (val c) <= 4.1 * u * (2.01 * m)).
    { apply Rmult_le_compat; auto; apply Rabs_pos. }
    assert (q * Rabs (val c - (val y1 - val y0)) <= 1 * (2 * u * m)).
    { apply Rmult_le_compat; try lra. apply Rabs_pos. }
    nra. }
  assert (BP : Rabs (val r * val c) <= 4 * m).
  { rewrite Rabs_mult. apply Rle_trans with (1.1 * (2.01 * m)); [|lra].
    apply Rmult_le_compat; auto; try apply Rabs_pos.
    apply Rabs_le_inv in Hr. apply Rabs_le. lra. }
  destruct (fmul_is r c) as [FP VP]; auto. { apply big. lra. }
  assert (M4 : 4 * m = bpow radix2 (Z.of_N p + 2)).
  { unfold m, m_R. rewrite two_pow, bpow_plus. simpl (bpow radix2 2). lra. }
  pose proof (rnd_err (val r * val c) (Z.of_N p + 2) ltac:(lia)) as EPR.
  rewrite <- M4 in EPR. specialize (EPR BP). rewrite <- VP in EPR.
  assert (M4u : bpow radix2 (Z.of_N p + 2 - 53) = 4 * u * m).
  { unfold Zminus. rewrite bpow_plus, <- M4. fold u. change (- (53))%Z with (-53)%Z. fold u. ring. }
  rewrite M4u in EPR. set (g := fmul r c) in *.
  assert (EG : Rabs (val g - q * (val y1 - val y0)) <= 15 * u * m).
  { replace (val g - q * (val y1 - val y0))
      with ((val g - val r * val c) + (val r * val c - q * (val y1 - val y0))) by ring.
    eapply Rle_trans; [apply Rabs_triang|]. lra. }
  (* sum *)
  apply Rabs_le_inv in EG.
  assert (ES : Rabs (val y0 + val g - y) <= 15 * u * m).
  { rewrite Hy. apply Rabs_le. lra. }
  apply Rabs_le_inv in ES.
  assert (um : 0 < u * m <= / 1000000) by nra.
  assert (BS : Rabs (val y0 + val g) <= 4 * m) by (apply Rabs_le; lra).
  destruct (fadd_is y0 g) as [FS VS]; auto. { apply big. lra. }
  pose proof (rnd_err (val y0 + val g) (Z.of_N p + 2) ltac:(lia)) as ESR.
  rewrite <- M4 in ESR. specialize (ESR BS). rewrite <- VS, M4u in ESR.
  apply Rabs_le_inv in ESR. fold f in FS, ESR.
  split; [exact FS|]. apply Rabs_le. lra.
Qed.

(** ** estimate_bias *)

Lemma nth_map : forall (A B : Type) (f : A -> B) l i x, nth_error l i = Some x ->
  nth_error (map f l) i = Some (f x).
Proof. intros. rewrite nth_error_map, H. reflexivity. Qed.

Lemma nth_some : forall (A : Type) (l : list A) i, (i < length l)%nat ->
  exists x, nth_error l i = Some x.
Proof.
  intros A l i H. apply nth_error_Some in H. destruct (nth_error l i); eauto. contradiction.
Qed.

(** Adjacent points around [i]. *)
Definition bracket (E B : list f64) (raw : f64) (j : nat) (x0 y0 x1 y1 : f64) (y : R) : Prop :=
  nth_error E j = Some x0 /\ nth_error B j = Some y0 /\
  nth_error E (S j) = Some x1 /\ nth_error B (S j) = Some y1 /\
  on_segment (val x0) (val y0) (val x1) (val y1) (val raw) y.

Lemma interpolate_ok : forall e p E B raw e0 el, build e -> (4 <= p)%N -> (p <= 18)%N ->
  good_tables p E B -> fin raw ->
  nth_error E 0 = Some e0 -> val e0 < val raw ->
  nth_error E (length E - 1) = Some el -> val raw < val el ->
  exists f j x0 y0 x1 y1 y, interpolate e E B raw = Ret f /\
    bracket E B raw j x0 y0 x1 y1 y /\ fin f /\ Rabs (val f - y) <= 32 * u * m_R p.
Proof.
  intros e p E B raw e0 el (_ & _ & Hbs) H4 H18 (HL & H2 & HE & HD & _) Fr He0 H0 Hel Hl.
  unfold interpolate.
  set (cmp := fun i => let* est := index E i in unwrap (fcmp est raw)).
  assert (Hfin : forall i x, nth_error E i = Some x -> fin x).
  { intros i x Hx. destruct (nth_some _ B i) as [y Hy].
    { rewrite <- HL. apply nth_error_Some. congruence. }
    now destruct (HE i x y Hx Hy). }
  assert (Hcmp : forall i x, nth_error E (N.to_nat i) = Some x ->
            cmp i = Ret (Rcompare (val x) (val raw))).
  { intros i x Hx. unfold cmp. rewrite (index_ok _ _ _ _ Hx), bind_ret.
    rewrite fcmp_spec; eauto. }
  destruct (Hbs (len E) cmp) as (res & Er & Hr).
  { intros i Hi. rewrite len_length in Hi. destruct (nth_some _ E (N.to_nat i)) as [x Hx]; [lia|].
    eauto. }
  rewrite Er, bind_ret.
  set (i := match res with BsOk i => i | BsErr i => i end).
  assert (HI : (0 < i)%N /\ (i < len E)%N /\
    exists x0 x1, nth_error E (N.to_nat (i - 1)) = Some x0 /\ nth_error E (N.to_nat i) = Some x1 /\
      Rmin (val x0) (val x1) <= val raw <= Rmax (val x0) (val x1)).
  { rewrite len_length in Hr. rewrite len_length. destruct res as [k|k]; unfold i; clear i.
    - destruct Hr as [Hk Ek].
      assert (k <> 0%N).
      { intros ->. rewrite (Hcmp 0%N _ He0) in Ek. inv Ek.
        rewrite Rcompare_Lt in H1 by lra. discriminate. }
      split; [lia|split; [lia|]].
      destruct (nth_some _ E (N.to_nat k)) as [x1 Hx1]; [lia|].
      destruct (nth_some _ E (N.to_nat (k - 1))) as [x0 Hx0]; [lia|].
      exists x0, x1. split; [auto|split; [auto|]].
      rewrite (Hcmp k _ Hx1) in Ek. inv Ek. apply Rcompare_Eq_inv in H3. rewrite H3.
      split; [apply Rmin_r|apply Rmax_r].
    - destruct Hr as (Hk & HLt & HGt).
      assert (k <> 0%N).
      { intros ->. specialize (HGt ltac:(lia)). rewrite (Hcmp 0%N _ He0) in HGt. inv HGt.
        rewrite Rcompare_Lt in H1 by lra. discriminate. }
      specialize (HLt ltac:(lia)).
      assert (k <> N.of_nat (length E)).
      { intros ->. replace (N.of_nat (length E) - 1)%N with (N.of_nat (length E - 1)) in HLt by lia.
        rewrite (Hcmp (N.of_nat (length E - 1)) el) in HLt.
        2:{ rewrite Nat2N.id. auto. }
        inv HLt. rewrite Rcompare_Gt in H3 by lra. discriminate. }
      specialize (HGt ltac:(lia)).
      split; [lia|split; [lia|]].
      destruct (nth_some _ E (N.to_nat k)) as [x1 Hx1]; [lia|].
      destruct (nth_some _ E (N.to_nat (k - 1))) as [x0 Hx0]; [lia|].
      exists x0, x1. split; [auto|split; [auto|]].
      rewrite (Hcmp _ _ Hx1) in HGt. rewrite (Hcmp _ _ Hx0) in HLt. inv HGt. inv HLt.
      apply Rcompare_Gt_inv in H5. apply Rcompare_Lt_inv in H6.
      rewrite Rmin_left, Rmax_right by lra. lra. }
  clearbody i. clear Hr Er. destruct HI as (Hi0 & HiL & x0 & x1 & Hx0 & Hx1 & Hx).
  rewrite len_length in HiL.
  destruct (nth_some _ B (N.to_nat i)) as [y1 Hy1]; [lia|].
  destruct (nth_some _ B (N.to_nat (i - 1))) as [y0 Hy0]; [lia|].
  rewrite usub_ok, bind_ret by lia.
  rewrite (index_ok _ _ _ _ Hx0), bind_ret, (index_ok _ _ _ _ Hx1), bind_ret.
  rewrite (index_ok _ _ _ _ Hy0), bind_ret, (index_ok _ _ _ _ Hy1), bind_ret.
  destruct (HE _ _ _ Hx0 Hy0) as (Fx0 & Fy0 & Bx0 & By0 & _).
  destruct (HE _ _ _ Hx1 Hy1) as (Fx1 & Fy1 & Bx1 & By1 & _).
  assert (ES : N.to_nat i = S (N.to_nat (i - 1))) by lia.
  assert (HS : on_segment (val x0) (val y0) (val x1) (val y1) (val raw)
     (val y0 + (val raw - val x0) / (val x1 - val x0) * (val y1 - val y0))).
  { split; [|split; [auto|reflexivity]]. apply (HD _ _ _ Hx0). now rewrite <- ES. }
  destruct (interp_f_close p x0 x1 y0 y1 raw _ H4 H18 Fx0 Fx1 Fy0 Fy1 Fr Bx0 Bx1 By0 By1 HS)
    as [Ff Hf].
  exists (fadd y0 (fmul (fdiv (fsub raw x0) (fsub x1 x0)) (fsub y1 y0))).
  exists (N.to_nat (i - 1)), x0, y0, x1, y1. eexists.
  split; [reflexivity|]. split; [|split; [exact Ff|exact Hf]].
  split; [auto|split; [auto|rewrite <- ES; split; [auto|split; [auto|exact HS]]]].
Qed.

Definition reals (l : list f64) : list R := map val l.

Lemma estimate_bias_ok : forall e p raw, build e -> (4 <= p)%N -> (p <= 18)%N -> fin raw ->
  exists f y, estimate_bias e p raw = Ret f /\ fin f /\
    interpolated (reals (est_table p)) (reals (bias_table p)) (val raw) y /\
    Rabs (val f - y) <= 32 * u * m_R p /\ - m_R p <= y <= m_R p /\
    (alpha_R p * m_R p * (1 - bpow radix2 (-33)) <= val raw -> 0.23 <= val raw - y).
Proof.
  intros e p raw Hb H4 H18 Fr.
  pose proof (tables_good p H4 H18) as HG.
  destruct (tables_index p H4 H18) as [IE IB].
  pose proof HG as (HL & H2 & HE & HD & Hb0).
  pose proof (m_R_bounds p H4 H18) as Hm.
  assert (Hu : 0 < u) by apply u_pos.
  assert (Hz : 0 <= 32 * u * m_R p) by nra.
  unfold estimate_bias. unfold MIN_PRECISION. rewrite usub_ok, bind_ret by lia.
  rewrite IB, bind_ret, IE, bind_ret. clear IE IB.
  revert HG HL H2 HE HD Hb0. generalize (est_table p) (bias_table p). intros E B HG HL H2 HE HD Hb0.
  destruct (nth_some _ E 0) as [e0 He0]; [lia|].
  destruct (nth_some _ B 0) as [b0 Hbb0]; [lia|].
  destruct (nth_some _ E (length E - 1)) as [el Hel]; [lia|].
  destruct (nth_some _ B (length B - 1)) as [bl Hbl]; [lia|].
  destruct (HE _ _ _ He0 Hbb0) as (Fe0 & Fb0 & Be0 & Bb0 & D0).
  rewrite <- HL in Hbl.
  destruct (HE _ _ _ Hel Hbl) as (Fel & Fbl & Bel & Bbl & Dl).
  rewrite (index_ok _ E 0 e0 He0), bind_ret. rewrite fle_spec by auto.
  case Rle_bool_spec; intros C0.
  { exists b0, (val b0). split; [apply index_ok; auto|split; [auto|split]].
    - left. exists (val e0), (val b0). unfold reals. rewrite !(nth_map _ _ val _ _ _ He0),
        !(nth_map _ _ val _ _ _ Hbb0). auto.
    - rewrite Rminus_diag_eq, Rabs_R0 by auto. split; [auto|split; [auto|]]. intros Hr.
      specialize (Hb0 b0 Hbb0). destruct (alpha_pow2 p H4 H18) as (_ & _ & Ba).
      assert (alpha_R p * m_R p <= 262144) by nra. simpl bpow in Hr. lra. }
  assert (TL : N.to_nat (len E - 1) = (length E - 1)%nat) by (rewrite len_length; lia).
  rewrite usub_ok, bind_ret by (rewrite len_length; lia).
  rewrite (index_ok _ E _ el), bind_ret by (now rewrite TL). rewrite fle_spec by auto.
  case Rle_bool_spec; intros Cl.
  { assert (TB : N.to_nat (len B - 1) = (length E - 1)%nat) by (rewrite len_length; lia).
    rewrite usub_ok, bind_ret by (rewrite len_length; lia).
    exists bl, (val bl). split; [apply index_ok; now rewrite TB|split; [auto|split]].
    - right. left. exists (val el), (val bl). unfold reals. rewrite !map_length, <- HL.
      rewrite !(nth_map _ _ val _ _ _ Hel), !(nth_map _ _ val _ _ _ Hbl). auto.
    - rewrite Rminus_diag_eq, Rabs_R0 by auto. split; [auto|split; [auto|]]. intros _. lra. }
  destruct (interpolate_ok e p E B raw e0 el Hb H4 H18 HG Fr He0 C0 Hel Cl)
    as (f & j & x0 & y0 & x1 & y1 & y & EI & (Hx0 & Hy0 & Hx1 & Hy1 & HS) & Ff & Hf).
  exists f, y. split; [auto|split; [auto|]].
  destruct (HE _ _ _ Hx0 Hy0) as (Fx0 & Fy0 & Bx0 & By0 & Dx0).
  destruct (HE _ _ _ Hx1 Hy1) as (Fx1 & Fy1 & Bx1 & By1 & Dx1).
  split; [|split; [auto|split]].
  - right. right. exists j, (val x0), (val y0), (val x1), (val y1). unfold reals.
    rewrite !(nth_map _ _ val _ _ _ Hx0), !(nth_map _ _ val _ _ _ Hy0),
      !(nth_map _ _ val _ _ _ Hx1), !(nth_map _ _ val _ _ _ Hy1). auto.
  - eapply segment_between; eauto.
  - intros _. destruct HS as (Hne & Hx & Hy).
    assert (S2 : on_segment (val x0) (val x0 - val y0) (val x1) (val x1 - val y1) (val raw)
                  (val raw - y)).
    { split; [auto|split; [auto|]]. rewrite Hy. field. lra. }
    destruct (segment_between _ _ _ _ _ _ 0.98 (Rmax (val x0 - val y0) (val x1 - val y1)) S2)
      as [L _].
    + split; [lra|apply Rmax_l]. + split; [lra|apply Rmax_r]. + lra.
Qed.

(** ** The corrected estimate *)
Lemma estimate_corrected_ok : forall e p l, build e -> feat_std e = true ->
  (4 <= p)%N -> (p <= 18)%N -> (2 * p < usize_bits e)%N ->
  N.of_nat (length l) = (2 ^ p)%N -> Forall (fun v => (v < 64)%N) l ->
  exists c, estimate_corrected e p l (2 ^ p) = Ret c /\ fin c /\
    let raw := val (raw_f e p l) in
    (5 * m_R p < raw /\ val c = raw \/
     raw <= 5 * m_R p /\ exists y,
       interpolated (reals (est_table p)) (reals (bias_table p)) raw y /\
       - m_R p <= y <= m_R p /\ 0.23 <= raw - y /\
       Rabs (val c - (raw - y)) <= 64 * u * m_R p).
Proof.
  intros e p l Hb Hstd H4 H18 Hu HL Hl.
  destruct (raw_f_rel e p l Hb H4 H18 HL Hl) as (Fr & Rr & Br).
  destruct (raw_R_bounds p l H4 H18 HL Hl) as (_ & BR).
  pose proof (m_R_bounds p H4 H18) as Hm.
  destruct (alpha_pow2 p H4 H18) as (_ & _ & Ba).
  unfold estimate_corrected. rewrite estimate_raw_plus_ok, bind_ret.
  2:{ unfold lut_bound. now rewrite Hstd. }
  2:{ rewrite <- N.pow_add_r. apply pow2_lt. lia. }
  fold (raw_f e p l). set (raw := raw_f e p l) in *.
  destruct (of_N_m p H4 H18) as [Fm Vm].
  destruct (of_Z_exact 5 ltac:(discriminate)) as [F5 V5].
  assert (M5 : is (fmul (of_Z 5) (of_N (2 ^ p))) (5 * m_R p)).
  { assert (E : rnd (5 * m_R p) = 5 * m_R p).
    { unfold m_R. rewrite <- mult_IZR. apply rnd_generic, int_generic.
      rewrite Z.abs_eq by lia. apply Z.le_trans with (5 * 2 ^ 18)%Z; [|discriminate].
      apply Z.mul_le_mono_nonneg_l; [lia|]. apply Z.pow_le_mono_r; lia. }
    rewrite <- E. rewrite <- Vm, <- V5. apply fmul_is; auto. rewrite V5, Vm. apply big.
    apply Rabs_le. lra. }
  destruct M5 as [FM VM]. rewrite fle_spec, VM by auto. case Rle_bool_spec; intros C.
  2:{ exists raw. split; [auto|split; [auto|]]. left. auto. }
  destruct (estimate_bias_ok e p raw Hb H4 H18 Fr) as (f & y & Ef & Ff & HI & Hf & By & Hpos).
  rewrite Ef, bind_ret. specialize (Hpos ltac:(
    pose proof (rel_bounds _ _ _ Rr ltac:(nra)); simpl bpow in *; nra)).
  assert (Uu : 0 < u <= / 9007199254740992) by (rewrite u_val; lra).
  assert (um : 0 < u * m_R p <= / 1000000) by nra.
  apply Rabs_le_inv in Hf.
  destruct (fsub_is raw f) as [FS VS]; auto. { apply big. apply Rabs_le. lra. }
  exists (fsub raw f). split; [auto|split; [auto|]]. cbv zeta. right. split; [auto|].
  exists y. split; [auto|split; [auto|split; [auto|]]].
  assert (M8 : 8 * m_R p = bpow radix2 (Z.of_N p + 3)).
  { unfold m_R. rewrite two_pow, bpow_plus. simpl (bpow radix2 3). lra. }
  pose proof (rnd_err (val raw - val f) (Z.of_N p + 3) ltac:(lia)) as ES.
  rewrite <- M8 in ES. specialize (ES ltac:(apply Rabs_le; lra)). rewrite <- VS in ES.
  assert (M8u : bpow radix2 (Z.of_N p + 3 - 53) = 8 * u * m_R p).
  { unfold Zminus. rewrite bpow_plus, <- M8. change (- (53))%Z with (-53)%Z. fold u. ring. }
  rewrite M8u in ES. apply Rabs_le_inv in ES. apply Rabs_le. lra.
Qed.
