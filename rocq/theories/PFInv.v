(** * HyperLogLogPF: the invariant of every history *)
From Coq Require Import NArith ZArith Reals Lra List Bool Lia.
From Flocq Require Import Core BinarySingleNaN.
From Verif Require Import ModelRust ModelF64 ModelEnv ModelRegisters ModelCommon ModelPF
  ModelSerde ModelHistory Spec SpecReal SpecBuild BitFacts RegFacts AbsorbFacts F64Facts
  RawFacts LogFacts SerdeFacts.
Import ListNotations.
Local Open Scope N_scope.

(** The 32-bit hashes HyperLogLogPF uses. *)
Definition low32 (H : list N) : list N := map (fun h => h mod 2 ^ 32) H.

Definition pf_ok {V : Type} (p : N) (b : V -> N) (H : list N) (s : pf V) : Prop :=
  pf_builder s = b /\ pf_precision s = p /\ pf_count s = 2 ^ p /\
  holds 5 32 p (low32 H) (pf_registers s).

Lemma pf_ok_inj : forall (V : Type) p (b : V -> N) H s s', p <= 32 ->
  pf_ok p b H s -> pf_ok p b H s' -> s = s'.
Proof.
  intros V p b H s s' Hp (A & B & C & D) (A' & B' & C' & D').
  assert (pf_registers s = pf_registers s').
  { eapply (holds_unique 5 32 p); eauto. now left. }
  destruct s, s'. cbn in *. congruence.
Qed.

Lemma pf_ok_set : forall (V : Type) p (b : V -> N) H H' s,
  same_set (low32 H) (low32 H') -> pf_ok p b H s -> pf_ok p b H' s.
Proof.
  intros V p b H H' s E (A & B & C & D). repeat (split; [assumption|]).
  eapply holds_same_set; eauto.
Qed.

Lemma register_count_ok : forall e p, p < usize_bits e -> register_count e p = Ret (2 ^ p).
Proof.
  intros e p H. unfold register_count. rewrite ushl_ok by auto. f_equal. rewrite N.mul_1_l.
  apply N.mod_small. now apply pow2_lt.
Qed.

Lemma pow_room : forall e p, 32 <= usize_bits e -> p <= 18 -> 2 ^ p + 6 < 2 ^ usize_bits e.
Proof.
  intros e p He Hp. pose proof (pow2_le _ _ Hp). pose proof (pow2_le _ _ He).
  change (2 ^ 18) with 262144 in *. change (2 ^ 32) with 4294967296 in *. lia.
Qed.

Lemma pf_new_ok : forall (V : Type) e p (b : V -> N), 32 <= usize_bits e -> 4 <= p <= 16 ->
  exists s, pf_new e p b = Ret (ROk s) /\ pf_ok p b [] s.
Proof.
  intros V e p b He Hp. unfold pf_new, PF_MIN_PRECISION, PF_MAX_PRECISION.
  rewrite (proj2 (N.ltb_ge p 4)), (proj2 (N.ltb_ge 16 p)) by lia. cbn [orb].
  rewrite register_count_ok, bind_ret by lia.
  destruct (holds_new e 5 32 p) as (r & E & Hr); [now left|apply pow_room; lia|].
  unfold SIZE_PF. rewrite E, bind_ret. eexists. split; [reflexivity|].
  repeat (split; [reflexivity|]). exact Hr.
Qed.

Lemma pf_insert_hash_ok : forall (V : Type) e p (b : V -> N) H s h,
  32 <= usize_bits e -> 4 <= p <= 16 -> pf_ok p b H s ->
  exists s', pf_insert_hash e s (h mod 2 ^ 32) = Ret s' /\ pf_ok p b (h :: H) s'.
Proof.
  intros V e p b H s h He Hp (A & B & C & D). unfold pf_insert_hash. rewrite B.
  assert (Hh : h mod 2 ^ 32 < 2 ^ 32) by (apply N.mod_lt; discriminate).
  set (g := h mod 2 ^ 32) in *.
  rewrite usub_ok, bind_ret by lia. rewrite ushr_ok, bind_ret by lia.
  rewrite ushl_ok, bind_ret by lia. rewrite usub_ok, bind_ret by lia.
  rewrite ushl_ok, bind_ret by lia. rewrite N.mul_1_l.
  rewrite (N.mod_small (2 ^ (p - 1))) by (apply pow2_lt; lia).
  pose proof (leading_zeros_rank 32 p g ltac:(lia) ltac:(lia) Hh) as LZ.
  pose proof (rank_bounds 32 p g ltac:(lia)) as RB.
  rewrite uadd_ok, bind_ret.
  2:{ rewrite LZ. change (2 ^ 32) with 4294967296. lia. }
  rewrite LZ. change (g / 2 ^ (32 - p)) with (bucket 32 p g).
  pose proof (bucket_lt 32 p g ltac:(lia) Hh) as Bk.
  unfold cast. rewrite (N.mod_small (bucket 32 p g)).
  2:{ eapply N.lt_le_trans; [exact Bk|]. apply pow2_le. lia. }
  destruct (holds_insert e 5 32 p (low32 H) (pf_registers s) g) as (r & E & Hr);
    [now left|lia| |auto|auto|].
  { change (2 ^ 5) with 32. lia. }
  unfold SIZE_PF. rewrite E, bind_ret. eexists. split; [reflexivity|].
  split; [assumption|split; [assumption|split; [assumption|]]]. exact Hr.
Qed.

Lemma pf_merge_ok : forall (V W : Type) e p (b : V -> N) (b' : W -> N) H H' s s',
  4 <= p <= 16 -> pf_ok p b H s -> pf_ok p b' H' s' ->
  exists s'', pf_merge e s s' = Ret (s'', ROk tt) /\ pf_ok p b (H' ++ H) s''.
Proof.
  intros V W e p b b' H H' s s' Hp (A & B & C & D) (A' & B' & C' & D').
  unfold pf_merge. rewrite B, B', N.eqb_refl. cbn [negb].
  pose proof D' as (_ & _ & _ & D2 & _).
  destruct (holds_merge e 5 32 p (low32 H) (low32 H') (pf_registers s) _ ltac:(now left) D D2)
    as (r & E & Hr).
  { apply reg_iter_lt. now left. }
  unfold SIZE_PF. rewrite E, bind_ret. eexists. split; [reflexivity|].
  split; [assumption|split; [assumption|split; [assumption|]]].
  unfold low32. rewrite map_app. exact Hr.
Qed.

Lemma pf_merge_mismatch : forall (V W : Type) e (s : pf V) (s' : pf W),
  pf_precision s <> pf_precision s' -> pf_merge e s s' = Ret (s, RErr IncompatiblePrecision).
Proof.
  intros V W e s s' H. unfold pf_merge. apply N.eqb_neq in H. now rewrite H.
Qed.

Lemma ln_total : forall e x, exists y, ModelCommon.ln e x = Ret y.
Proof.
  intros e x. unfold ModelCommon.ln. destruct (feat_std e); [eauto|]. apply log_total.
Qed.

(** The value [count] returns, as a function of the precision and the registers. *)
Definition pf_value (e : env) (p : N) (l : list N) (zeros : N) : M f64 :=
  let raw := raw_f e p l in
  let two32 := of_N (N.shiftl 1 32) in
  if fle raw (fmul (lit 25 1) (of_N (2 ^ p))) && negb (zeros =? 0) then
    linear_count e (2 ^ p) zeros
  else if flt (fdiv two32 (of_Z 30)) raw then
    let* l := ModelCommon.ln e (fsub (of_Z 1) (fdiv raw two32)) in
    Ret (fmul (fmul (of_Z (-1)) two32) l)
  else Ret raw.

Lemma pf_value_total : forall e p l zeros, exists c, pf_value e p l zeros = Ret c.
Proof.
  intros e p l zeros. unfold pf_value.
  destruct (fle _ _ && negb _).
  - unfold linear_count. destruct (ln_total e (fdiv (of_N (2 ^ p)) (of_N zeros))) as [y ->].
    rewrite bind_ret. eauto.
  - destruct (flt _ _); eauto.
    destruct (ln_total e (fsub (of_Z 1) (fdiv (raw_f e p l) (of_N (N.shiftl 1 32))))) as [y ->].
    rewrite bind_ret. eauto.
Qed.

Lemma pf_count_value : forall (V : Type) e p (b : V -> N) H s,
  2 * p < usize_bits e -> pf_ok p b H s ->
  pf_count_est e s = pf_value e p (reg_iter 5 (pf_registers s))
                       (zero_count (reg_iter 5 (pf_registers s))).
Proof.
  intros V e p b H s Hu (A & B & C & D).
  unfold pf_count_est. rewrite C. unfold SIZE_PF.
  rewrite estimate_raw_plus_ok, bind_ret.
  - fold (raw_f e p (reg_iter 5 (pf_registers s))). unfold reg_zeros.
    destruct D as (_ & _ & Z & _). unfold exact_zeros in Z. rewrite !Z. reflexivity.
  - eapply Forall_impl; [|apply reg_iter_lt; now left]. intros v Hv. cbv beta in Hv.
    unfold lut_bound. change (2 ^ 5) with 32 in Hv. destruct (feat_std e); lia.
  - rewrite <- N.pow_add_r. apply pow2_lt. lia.
Qed.

Lemma zero_count_le : forall l, zero_count l <= N.of_nat (length l).
Proof.
  intros l. unfold zero_count. induction l as [|x l IH]; cbn [filter length]; [lia|].
  destruct (0 =? x); cbn [length]; lia.
Qed.

Lemma holds_fit : forall e sz W p H r, reg_size sz -> p < usize_bits e -> holds sz W p H r ->
  registers_fit e r.
Proof.
  intros e sz W p H r Hsz Hp (A & B & C & (DL & D) & _). pose proof (pow2_lt _ _ Hp).
  split; [apply A|]. split; [lia|]. rewrite C. eapply N.le_lt_trans; [apply zero_count_le|]. lia.
Qed.

Lemma pf_serde_ok : forall (V : Type) e p (b : V -> N) H s ser_b de_b (b' : V -> N),
  32 <= usize_bits e -> 4 <= p <= 16 -> pf_ok p b H s -> de_b (ser_b b) = Some b' ->
  exists s', de_pf e de_b (ser_pf ser_b s) = Some s' /\ pf_ok p b' H s'.
Proof.
  intros V e p b H s ser_b de_b b' He Hp (A & B & C & D) Hb.
  rewrite (de_ser_pf V e ser_b de_b s b').
  - eexists. split; [reflexivity|]. split; [reflexivity|split; [exact B|split; [exact C|exact D]]].
  - now rewrite A.
  - rewrite C. apply pow2_lt. lia.
  - rewrite B. change (2 ^ 8) with 256. lia.
  - eapply holds_fit; eauto; [now left|lia].
Qed.

(** The hypotheses a history of precisions in range gives. *)
Lemma hist_prec : forall (V : Type) m (h : hist V), valid m h -> 4 <= hist_precision h <= m.
Proof.
  intros V m h. induction h; cbn [valid hist_precision]; intros Hv; intuition.
Qed.

Lemma narrow_prec : forall (V : Type) w (h : hist V), narrow w h -> 2 * hist_precision h < w.
Proof.
  intros V w h. induction h; cbn [narrow hist_precision]; intros Hv; intuition.
Qed.

Lemma hash64_low : forall (V : Type) (b : V -> N) v,
  cast 32 (cast 64 (b v)) = hash64 b v mod 2 ^ 32.
Proof. reflexivity. Qed.

Theorem run_pf_gen : forall (V : Type) e (h : hist V), build e -> valid MAX_PF h ->
  countable_pf (usize_bits e) h ->
  exists s, run_pf e h = Ret s /\ pf_ok (hist_precision h) (hist_builder h) (hist_hashes h) s.
Proof.
  intros V e h Hb. pose proof (proj1 Hb) as He.
  induction h as [p b|k ord h IH v|ord h1 IH1 h2 IH2|ord h IH|ord ser_b de_b h IH];
    cbn [valid countable_pf hist_precision hist_builder hist_hashes run_pf]; intros Hv Hn.
  - destruct (pf_new_ok V e p b He Hv) as (s & E & Hs). rewrite E, bind_ret. exists s. auto.
  - destruct Hv as [_ Hv]. destruct (IH Hv Hn) as (s & E & Hs). rewrite E, bind_ret.
    pose proof (hist_prec V _ h Hv) as Hp. unfold MAX_PF in Hp.
    destruct (pf_insert_hash_ok V e _ _ _ s (hash64 (hist_builder h) v) He Hp Hs) as (s' & E' & Hs').
    exists s'. split; auto. pose proof Hs as (HB & _).
    destruct k; unfold pf_add, pf_insert, pf_insert_any, pf_insert_impl;
      rewrite HB, hash64_low; exact E'.
  - destruct Hv as (_ & Hv1 & Hv2). destruct Hn as [Hn1 Hn2].
    destruct (IH1 Hv1 Hn1) as (s1 & E1 & Hs1). destruct (IH2 Hv2 Hn2) as (s2 & E2 & Hs2).
    rewrite E1, bind_ret, E2, bind_ret.
    pose proof (hist_prec V _ h1 Hv1) as Hp. unfold MAX_PF in Hp.
    destruct (N.eqb_spec (hist_precision h1) (hist_precision h2)) as [E|E].
    + rewrite <- E in Hs2.
      destruct (pf_merge_ok V V e _ _ _ _ _ s1 s2 Hp Hs1 Hs2) as (s & E' & Hs).
      rewrite E', bind_ret. eauto.
    + rewrite pf_merge_mismatch, bind_ret by (destruct Hs1 as (_ & -> & _), Hs2 as (_ & -> & _); auto).
      eauto.
  - destruct Hv as [_ Hv]. destruct Hn as [Hc Hn].
    destruct (IH Hv Hn) as (s & E & Hs). rewrite E, bind_ret.
    rewrite (pf_count_value V e _ _ _ s Hc Hs).
    destruct (pf_value_total e (hist_precision h) (reg_iter 5 (pf_registers s))
      (zero_count (reg_iter 5 (pf_registers s)))) as [c ->]. rewrite bind_ret. eauto.
  - destruct Hv as (_ & Hv & b & Eb & Hbv). destruct (IH Hv Hn) as (s & E & Hs).
    rewrite E, bind_ret. rewrite Eb. pose proof (hist_prec V _ h Hv) as Hp. unfold MAX_PF in Hp.
    destruct (pf_serde_ok V e _ _ _ s ser_b de_b b He Hp Hs Eb) as (s' & E' & Hs').
    rewrite E'. cbn [ModelPlus.unwrap]. eauto.
Qed.

Lemma narrow_countable_pf : forall (V : Type) w (h : hist V), narrow w h -> countable_pf w h.
Proof.
  induction h; cbn [narrow countable_pf]; intuition auto. now apply narrow_prec.
Qed.

Theorem run_pf_ok : forall (V : Type) e (h : hist V), build e -> valid MAX_PF h ->
  narrow (usize_bits e) h ->
  exists s, run_pf e h = Ret s /\ pf_ok (hist_precision h) (hist_builder h) (hist_hashes h) s.
Proof. intros. apply run_pf_gen; auto. now apply narrow_countable_pf. Qed.

Theorem count_pf_ok : forall (V : Type) e (h : hist V), build e -> valid MAX_PF h ->
  narrow (usize_bits e) h ->
  exists l, is_register_file 32 (hist_precision h) (low32 (hist_hashes h)) l /\
    Forall (fun v => v < 32) l /\
    count_pf e h = pf_value e (hist_precision h) l (zero_count l).
Proof.
  intros V e h Hb Hv Hn. destruct (run_pf_ok V e h Hb Hv Hn) as (s & E & Hs).
  exists (reg_iter 5 (pf_registers s)). split; [apply Hs|]. split.
  - apply (reg_iter_lt 5). now left.
  - unfold count_pf. rewrite E, bind_ret.
    apply (pf_count_value V e _ _ _ s (narrow_prec V _ h Hn) Hs).
Qed.
