(** * Histories on targets of any width *)
From Coq Require Import NArith ZArith Reals Lra Lia List Bool Sorted.
From Flocq Require Import Core BinarySingleNaN.
From Verif Require Import ModelRust ModelF64 ModelEnv ModelRegisters ModelCommon ModelEncoding ModelPF ModelPlus
  ModelHistory ModelSerde Spec SpecReal SpecCount SpecBuild SpecWide BitFacts RegFacts EncFacts CodeFacts
  AbsorbFacts F64Facts
  LogAccuracy LinearFacts RawFacts BiasTables BiasFacts PFInv PlusInv FloatFacts ClaimFloat NarrowFacts
  MonoFacts PlusMono ObsFacts.
Import ListNotations.
Local Open Scope N_scope.

(** ** The value of a flushed sketch *)
Definition flushed_value {V : Type} (e : env) (p : N) (s : plus V) : M f64 :=
  match hp_registers s with
  | Some r => normal_value e p (reg_iter 6 r)
  | None => linear_count e (2 ^ 24) (2 ^ 24 - d_count (hp_sparse s))
  end.

Lemma hp_count_any : forall (V : Type) e ord p (b : V -> N) H s,
  build_std e -> 4 <= p <= 18 -> is_order ord -> plus_ok p b H s ->
  exists s', header p b s' /\ flushed p H s' /\
    hp_count e ord s = (let* c := flushed_value e p s' in Ret (s', c)).
Proof.
  intros V e ord p b H s Hb Hp Ho (Hd & HF & HB).
  pose proof (proj1 (proj1 Hb)) as He. unfold hp_count.
  assert (HS : exists s', (if is_sparse s then merge_sparse e ord s else Ret s) = Ret s' /\
    header p b s' /\ flushed p H s').
  { unfold is_sparse. unfold body_ok in HB. destruct (hp_registers s) as [r|] eqn:Er.
    - exists s. split; [auto|split; [auto|]]. unfold flushed. rewrite Er. tauto.
    - destruct HB as [Hs _].
      destruct (merge_sparse_ok V e ord p b H s He Hp Ho Hd HF Er Hs) as (s' & E & Hx).
      exists s'. auto. }
  destruct HS as (s' & E & Hd' & Hf). rewrite E, bind_ret. exists s'.
  split; [auto|split; [auto|]]. unfold flushed_value.
  pose proof Hf as [T Hf']. pose proof Hd' as (A & B & C0 & C1 & C2).
  destruct (hp_registers s') as [r|] eqn:Er.
  - destruct Hf' as (S' & Hr & _). pose proof Hr as (_ & _ & Z & RF & _).
    unfold normal_value, reg_zeros. cbv zeta. unfold exact_zeros in Z. rewrite !Z, C0, B.
    unfold SIZE_PLUS. destruct (negb _); [|reflexivity].
    destruct (linear_total e (2 ^ p) (zero_count (reg_iter 6 r))) as [y ->]. rewrite !bind_ret.
    destruct (threshold_ok p Hp) as [t ->]. rewrite !bind_ret. now destruct (fle y t).
  - destruct Hf' as (L & HL & HD & HG).
    unfold dif_count. destruct HD as (_ & _ & _ & HC & _). rewrite HC, C1.
    rewrite usub_ok, bind_ret; [reflexivity|].
    pose proof (gap_len_length L 0). pose proof (sparse_limit_bounds p Hp).
    change (2 ^ 24) with 16777216. lia.
Qed.

Lemma flushed_parts : forall (V V' : Type) p H (s : plus V) (s' : plus V'), p <= 18 ->
  flushed p H s -> flushed p H s' ->
  hp_sparse s = hp_sparse s' /\ hp_registers s = hp_registers s'.
Proof.
  intros V V' p H s s' Hp (F & G) (F' & G').
  destruct (hp_registers s) as [r|], (hp_registers s') as [r'|].
  - destruct G as (G1 & G2 & G3), G' as (G1' & G2' & G3').
    split; [congruence|]. f_equal. eapply (holds_unique 6 64 p); eauto; [now right|lia].
  - destruct G as (G1 & G2 & L & G3 & G4), G' as (L' & G1' & G2' & G3').
    rewrite (code_list_unique _ _ _ _ G3 G1') in G4. lia.
  - destruct G' as (G1 & G2 & L & G3 & G4), G as (L' & G1' & G2' & G3').
    rewrite (code_list_unique _ _ _ _ G3 G1') in G4. lia.
  - destruct G as (L & G1 & G2 & G3), G' as (L' & G1' & G2' & G3').
    rewrite (code_list_unique _ _ _ _ G1 G1') in G2.
    split; auto. eapply dif_repr_unique; eauto.
Qed.

(** ** Does the value overflow? *)
Lemma corrected_wide : forall e p l, build_std e -> 4 <= p <= 18 -> usize_bits e <= 2 * p ->
  N.of_nat (length l) = 2 ^ p -> Forall (fun v => v < 64) l ->
  (overflow_checks e = true /\ estimate_corrected e p l (2 ^ p) = Panic) \/
  (overflow_checks e = false /\ exists c, estimate_corrected e p l (2 ^ p) = Ret c).
Proof.
  intros e p l [Hb Hs] Hp Hw HL Hl.
  assert (Fl : Forall (fun v => v < lut_bound e) l) by (unfold lut_bound; now rewrite Hs).
  unfold estimate_corrected. destruct (overflow_checks e) eqn:Hc.
  - left. split; auto. now rewrite raw_panics.
  - right. split; auto. destruct (raw_zero e p l Hb Hc Hw Hp HL Fl) as (raw & -> & Ir).
    rewrite bind_ret. pose proof (proj1 Hb) as He.
    destruct (bias_at_zero e p raw ltac:(lia) Ir) as (b & Eb & _).
    destruct (fle _ _); [|eauto]. rewrite Eb, bind_ret. eauto.
Qed.

(** Linear counting or not, at the registers. *)
Definition past_file (p : N) (l : list N) : Prop :=
  zero_count l = 0 \/ (threshold_R p < linear_R (2 ^ p) (zero_count l))%R.

Lemma past_file_dec : forall p l, past_file p l \/ ~ past_file p l.
Proof.
  intros p l. unfold past_file. destruct (N.eq_dec (zero_count l) 0); [tauto|].
  destruct (Rlt_dec (threshold_R p) (linear_R (2 ^ p) (zero_count l))); tauto.
Qed.

Lemma normal_value_wide : forall e p l, build_std e -> 4 <= p <= 18 ->
  N.of_nat (length l) = 2 ^ p -> Forall (fun v => v < 64) l ->
  (overflow_checks e = true /\ normal_value e p l = Panic) \/ exists c, normal_value e p l = Ret c.
Proof.
  intros e p l Hb Hp HL Hl. destruct (N.lt_ge_cases (2 * p) (usize_bits e)) as [Hw|Hw].
  { right. now apply normal_value_total. }
  assert (D : (overflow_checks e = true /\ estimate_corrected e p l (2 ^ p) = Panic) \/
              exists c, estimate_corrected e p l (2 ^ p) = Ret c).
  { destruct (corrected_wide e p l Hb Hp Hw HL Hl) as [?|[_ ?]]; auto. }
  unfold normal_value. destruct (negb _); [|exact D].
  destruct (linear_total e (2 ^ p) (zero_count l)) as [y ->]. rewrite bind_ret.
  destruct (threshold_ok p Hp) as [t ->]. rewrite bind_ret. destruct (fle y t); eauto.
Qed.

Lemma past_file_linear : forall p H l, is_register_file 64 p H l -> 4 <= p <= 18 -> ~ fits p H ->
  (past_file p l <-> past_linear p H).
Proof.
  intros p H l R Hp NF. split.
  - intros P. split; [auto|]. intros l' R'.
    now rewrite (is_register_file_unique 64 p H l' l ltac:(lia) R' R).
  - intros [_ P]. now apply P.
Qed.

Lemma big_not_fits : forall p H, big_codes p H -> ~ fits p H.
Proof. intros p H (L & HL & G) F. specialize (F L HL). lia. Qed.

Lemma normal_value_exact : forall e p H l, build_std e -> accurate e -> 4 <= p <= 18 ->
  is_register_file 64 p H l -> Forall (fun v => v < 64) l -> ~ fits p H ->
  (overflow_checks e = true /\ overflows (usize_bits e) p H /\ normal_value e p l = Panic) \/
  ((overflow_checks e = false \/ ~ overflows (usize_bits e) p H) /\ exists c, normal_value e p l = Ret c).
Proof.
  intros e p H l Hb Ha Hp R Hl NF. unfold overflows.
  destruct (N.lt_ge_cases (2 * p) (usize_bits e)) as [Hw|Hw].
  { right. split; [right; lia|]. apply normal_value_total; auto. apply R. }
  pose proof (past_file_linear p H l R Hp NF) as PF.
  destruct (past_file_dec p l) as [P|P].
  - rewrite (past_linear_value e p H l Ha Hp R (proj1 PF P)).
    destruct (corrected_wide e p l Hb Hp Hw (proj1 R) Hl) as [[C E]|[C E]]; [left|right; auto].
    split; [auto|split; [|auto]]. split; [auto|]. now apply PF.
  - right. split; [right; tauto|]. unfold past_file in P.
    rewrite (in_linear_value e p H l Ha Hp R); [apply linear_total|tauto|].
    apply Rnot_lt_le. tauto.
Qed.

Lemma flushed_value_wide : forall (V : Type) e p H (s : plus V), build_std e -> 4 <= p <= 18 ->
  flushed p H s ->
  (overflow_checks e = true /\ flushed_value e p s = Panic) \/
  exists c, flushed_value e p s = Ret c.
Proof.
  intros V e p H s Hb Hp [_ Hf]. unfold flushed_value. destruct (hp_registers s) as [r|].
  - destruct Hf as (_ & (_ & _ & _ & RF & _) & _).
    apply normal_value_wide; auto; [apply RF|apply (reg_iter_lt 6); now right].
  - right. apply linear_total.
Qed.

Lemma flushed_value_exact : forall (V : Type) e p H (s : plus V), build_std e -> accurate e ->
  4 <= p <= 18 -> flushed p H s ->
  (overflow_checks e = true /\ overflows (usize_bits e) p H /\ flushed_value e p s = Panic) \/
  ((overflow_checks e = false \/ ~ overflows (usize_bits e) p H) /\
   exists c, flushed_value e p s = Ret c).
Proof.
  intros V e p H s Hb Ha Hp [_ Hf]. unfold flushed_value. destruct (hp_registers s) as [r|].
  - destruct Hf as (_ & (_ & _ & _ & RF & _) & B).
    apply normal_value_exact; auto; [apply (reg_iter_lt 6); now right|now apply big_not_fits].
  - right. split; [|apply linear_total]. right. intros [_ [NF _]]. apply NF.
    destruct Hf as (L & HL & _ & G). intros L' HL'. now rewrite (code_list_unique _ _ _ _ HL' HL).
Qed.

(** ** Histories of HyperLogLogPlus *)
Theorem run_plus_exact : forall (V : Type) e (h : hist V), build_std e -> accurate e ->
  valid MAX_PLUS h ->
  (overflow_checks e = true /\ ~ never_overflows (usize_bits e) h /\ run_plus e h = Panic) \/
  ((overflow_checks e = false \/ never_overflows (usize_bits e) h) /\
   exists s, run_plus e h = Ret s /\ plus_ok (hist_precision h) (hist_builder h) (hist_hashes h) s).
Proof.
  intros V e h Hb Ha. pose proof (proj1 (proj1 Hb)) as He.
  induction h as [p b|k ord h IH v|ord h1 IH1 h2 IH2|ord h IH|ord ser_b de_b h IH];
    cbn [valid never_overflows hist_precision hist_builder hist_hashes run_plus]; intros Hv.
  - right. split; [auto|].
    destruct (hp_new_ok V e p b He Hv) as (s & E & Hs & _). rewrite E, bind_ret. exists s. auto.
  - destruct Hv as [Ho Hv]. destruct (IH Hv) as [(C & N & E)|(C & s & E & Hs)].
    { left. rewrite E. auto. }
    right. split; [exact C|]. rewrite E, bind_ret.
    pose proof (hist_prec V _ h Hv) as Hp. unfold MAX_PLUS in Hp.
    destruct (hp_insert_hash_ok V e ord _ _ _ s (hash64 (hist_builder h) v) He Hp Ho
      (hash64_lt _ _ _) Hs) as (s' & E' & Hs').
    exists s'. split; auto. pose proof Hs as ((HB & _) & _).
    destruct k; unfold hp_add, hp_insert, hp_insert_any, hp_insert_impl; rewrite HB; exact E'.
  - destruct Hv as (Ho & Hv1 & Hv2).
    destruct (IH1 Hv1) as [(C1 & N1 & E1)|(C1 & s1 & E1 & Hs1)].
    { left. rewrite E1. tauto. }
    destruct (IH2 Hv2) as [(C2 & N2 & E2)|(C2 & s2 & E2 & Hs2)].
    { left. rewrite E1, bind_ret, E2. tauto. }
    right. split; [tauto|]. rewrite E1, bind_ret, E2, bind_ret.
    pose proof (hist_prec V _ h1 Hv1) as Hp. unfold MAX_PLUS in Hp.
    destruct (N.eqb_spec (hist_precision h1) (hist_precision h2)) as [E|E].
    + rewrite <- E in Hs2.
      destruct (hp_merge_ok V V e ord _ _ _ _ _ s1 s2 He Hp Ho Hs1 Hs2) as (s & E' & Hs).
      rewrite E', bind_ret. eauto.
    + rewrite hp_merge_mismatch, bind_ret
        by (destruct Hs1 as ((_ & -> & _) & _), Hs2 as ((_ & -> & _) & _); auto).
      eauto.
  - destruct Hv as [Ho Hv]. destruct (IH Hv) as [(C & N & E)|(C & s & E & Hs)].
    { left. rewrite E. tauto. }
    pose proof (hist_prec V _ h Hv) as Hp. unfold MAX_PLUS in Hp.
    destruct (hp_count_any V e ord _ _ _ s Hb Hp Ho Hs) as (s' & Hd & Hf & E').
    rewrite E, bind_ret, E'.
    destruct (flushed_value_exact V e _ _ s' Hb Ha Hp Hf) as [(C' & O & ->)|(C' & c & ->)].
    + left. tauto.
    + right. split; [tauto|]. exists s'. split; [reflexivity|]. split; [auto|].
      split; [apply Hs|]. apply flushed_body; auto. lia.
  - destruct Hv as (Ho & Hv & b & Eb & Hbv). destruct (IH Hv) as [(C & N & E)|(C & s & E & Hs)].
    { left. rewrite E. auto. }
    right. split; [exact C|].
    rewrite E, bind_ret. rewrite Eb. pose proof (hist_prec V _ h Hv) as Hp. unfold MAX_PLUS in Hp.
    destruct (plus_serde_ok V e ord _ _ _ s ser_b de_b b He Hp Ho Hs Eb) as (s' & E' & Hs' & _).
    rewrite E'. cbn [unwrap]. eauto.
Qed.

(** Without an accurate logarithm: the panic is an overflow check. *)
Theorem run_plus_any : forall (V : Type) e (h : hist V), build_std e -> valid MAX_PLUS h ->
  (overflow_checks e = true /\ run_plus e h = Panic) \/
  exists s, run_plus e h = Ret s /\ plus_ok (hist_precision h) (hist_builder h) (hist_hashes h) s.
Proof.
  intros V e h Hb. pose proof (proj1 (proj1 Hb)) as He.
  induction h as [p b|k ord h IH v|ord h1 IH1 h2 IH2|ord h IH|ord ser_b de_b h IH];
    cbn [valid hist_precision hist_builder hist_hashes run_plus]; intros Hv.
  - right. destruct (hp_new_ok V e p b He Hv) as (s & E & Hs & _). rewrite E, bind_ret. exists s. auto.
  - destruct Hv as [Ho Hv]. destruct (IH Hv) as [(C & E)|(s & E & Hs)].
    { left. rewrite E. auto. }
    right. rewrite E, bind_ret.
    pose proof (hist_prec V _ h Hv) as Hp. unfold MAX_PLUS in Hp.
    destruct (hp_insert_hash_ok V e ord _ _ _ s (hash64 (hist_builder h) v) He Hp Ho
      (hash64_lt _ _ _) Hs) as (s' & E' & Hs').
    exists s'. split; auto. pose proof Hs as ((HB & _) & _).
    destruct k; unfold hp_add, hp_insert, hp_insert_any, hp_insert_impl; rewrite HB; exact E'.
  - destruct Hv as (Ho & Hv1 & Hv2).
    destruct (IH1 Hv1) as [(C1 & E1)|(s1 & E1 & Hs1)].
    { left. rewrite E1. tauto. }
    destruct (IH2 Hv2) as [(C2 & E2)|(s2 & E2 & Hs2)].
    { left. rewrite E1, bind_ret, E2. tauto. }
    right. rewrite E1, bind_ret, E2, bind_ret.
    pose proof (hist_prec V _ h1 Hv1) as Hp. unfold MAX_PLUS in Hp.
    destruct (N.eqb_spec (hist_precision h1) (hist_precision h2)) as [E|E].
    + rewrite <- E in Hs2.
      destruct (hp_merge_ok V V e ord _ _ _ _ _ s1 s2 He Hp Ho Hs1 Hs2) as (s & E' & Hs).
      rewrite E', bind_ret. eauto.
    + rewrite hp_merge_mismatch, bind_ret
        by (destruct Hs1 as ((_ & -> & _) & _), Hs2 as ((_ & -> & _) & _); auto).
      eauto.
  - destruct Hv as [Ho Hv]. destruct (IH Hv) as [(C & E)|(s & E & Hs)].
    { left. rewrite E. tauto. }
    pose proof (hist_prec V _ h Hv) as Hp. unfold MAX_PLUS in Hp.
    destruct (hp_count_any V e ord _ _ _ s Hb Hp Ho Hs) as (s' & Hd & Hf & E').
    rewrite E, bind_ret, E'.
    destruct (flushed_value_wide V e _ _ s' Hb Hp Hf) as [(C' & ->)|(c & ->)].
    + left. tauto.
    + right. exists s'. split; [reflexivity|]. split; [auto|].
      split; [apply Hs|]. apply flushed_body; auto. lia.
  - destruct Hv as (Ho & Hv & b & Eb & Hbv). destruct (IH Hv) as [(C & E)|(s & E & Hs)].
    { left. rewrite E. auto. }
    right.
    rewrite E, bind_ret. rewrite Eb. pose proof (hist_prec V _ h Hv) as Hp. unfold MAX_PLUS in Hp.
    destruct (plus_serde_ok V e ord _ _ _ s ser_b de_b b He Hp Ho Hs Eb) as (s' & E' & Hs' & _).
    rewrite E'. cbn [unwrap]. eauto.
Qed.

Lemma run_plus_ret : forall (V : Type) e (h : hist V) s, build_std e -> valid MAX_PLUS h ->
  run_plus e h = Ret s -> plus_ok (hist_precision h) (hist_builder h) (hist_hashes h) s.
Proof.
  intros V e h s Hb Hv E. destruct (run_plus_any V e h Hb Hv) as [[_ E']|(s' & E' & Hs)]; congruence.
Qed.

(** ** Histories of HyperLogLogPF *)
Lemma pf_count_any : forall (V : Type) e p (b : V -> N) H s, build e -> 4 <= p <= 16 ->
  pf_ok p b H s ->
  (overflow_checks e = true /\ usize_bits e <= 2 * p /\ pf_count_est e s = Panic) \/
  ((overflow_checks e = false \/ 2 * p < usize_bits e) /\ exists c, pf_count_est e s = Ret c).
Proof.
  intros V e p b H s Hb Hp Hs. destruct (N.lt_ge_cases (2 * p) (usize_bits e)) as [Hw|Hw].
  { right. split; [auto|]. rewrite (pf_count_value V e _ _ _ s Hw Hs). apply pf_value_total. }
  assert (Fl : Forall (fun v => v < lut_bound e) (reg_iter 5 (pf_registers s))).
  { eapply Forall_impl; [|apply (reg_iter_lt 5); now left]. intros v Hv'. cbv beta in Hv'.
    change (2 ^ 5) with 32 in Hv'. unfold lut_bound. destruct (feat_std e); lia. }
  destruct Hs as (_ & _ & C & D). unfold pf_count_est, SIZE_PF. rewrite C.
  destruct (overflow_checks e) eqn:Hc.
  - left. rewrite raw_panics; auto.
  - right. split; [auto|]. pose proof D as (_ & _ & _ & RF & _).
    destruct (raw_zero e p _ Hb Hc Hw ltac:(lia) (proj1 RF) Fl) as (raw & -> & _). rewrite bind_ret.
    cbv zeta. destruct (_ && _); [apply linear_total|]. destruct (flt _ _); [|eauto].
    match goal with |- context [ModelCommon.ln e ?x] => destruct (ln_total e x) as [y ->] end.
    rewrite bind_ret. eauto.
Qed.

Theorem run_pf_exact : forall (V : Type) e (h : hist V), build e -> valid MAX_PF h ->
  (overflow_checks e = true /\ ~ countable_pf (usize_bits e) h /\ run_pf e h = Panic) \/
  ((overflow_checks e = false \/ countable_pf (usize_bits e) h) /\
   exists s, run_pf e h = Ret s /\ pf_ok (hist_precision h) (hist_builder h) (hist_hashes h) s).
Proof.
  intros V e h Hb. pose proof (proj1 Hb) as He.
  induction h as [p b|k ord h IH v|ord h1 IH1 h2 IH2|ord h IH|ord ser_b de_b h IH];
    cbn [valid countable_pf hist_precision hist_builder hist_hashes run_pf]; intros Hv.
  - right. split; [auto|].
    destruct (pf_new_ok V e p b He Hv) as (s & E & Hs). rewrite E, bind_ret. exists s. auto.
  - destruct Hv as [_ Hv]. destruct (IH Hv) as [(C & N & E)|(C & s & E & Hs)].
    { left. rewrite E. auto. }
    right. split; [exact C|]. rewrite E, bind_ret.
    pose proof (hist_prec V _ h Hv) as Hp. unfold MAX_PF in Hp.
    destruct (pf_insert_hash_ok V e _ _ _ s (hash64 (hist_builder h) v) He Hp Hs) as (s' & E' & Hs').
    exists s'. split; auto. pose proof Hs as (HB & _).
    destruct k; unfold pf_add, pf_insert, pf_insert_any, pf_insert_impl;
      rewrite HB, hash64_low; exact E'.
  - destruct Hv as (_ & Hv1 & Hv2).
    destruct (IH1 Hv1) as [(C1 & N1 & E1)|(C1 & s1 & E1 & Hs1)].
    { left. rewrite E1. tauto. }
    destruct (IH2 Hv2) as [(C2 & N2 & E2)|(C2 & s2 & E2 & Hs2)].
    { left. rewrite E1, bind_ret, E2. tauto. }
    right. split; [tauto|]. rewrite E1, bind_ret, E2, bind_ret.
    pose proof (hist_prec V _ h1 Hv1) as Hp. unfold MAX_PF in Hp.
    destruct (N.eqb_spec (hist_precision h1) (hist_precision h2)) as [E|E].
    + rewrite <- E in Hs2.
      destruct (pf_merge_ok V V e _ _ _ _ _ s1 s2 Hp Hs1 Hs2) as (s & E' & Hs).
      rewrite E', bind_ret. eauto.
    + rewrite pf_merge_mismatch, bind_ret by (destruct Hs1 as (_ & -> & _), Hs2 as (_ & -> & _); auto).
      eauto.
  - destruct Hv as [_ Hv]. destruct (IH Hv) as [(C & N & E)|(C & s & E & Hs)].
    { left. rewrite E. tauto. }
    pose proof (hist_prec V _ h Hv) as Hp. unfold MAX_PF in Hp. rewrite E, bind_ret.
    destruct (pf_count_any V e _ _ _ s Hb Hp Hs) as [(C' & O & ->)|(C' & c & ->)].
    + left. split; [auto|split; [lia|auto]].
    + right. split; [tauto|]. rewrite bind_ret. eauto.
  - destruct Hv as (_ & Hv & b & Eb & Hbv). destruct (IH Hv) as [(C & N & E)|(C & s & E & Hs)].
    { left. rewrite E. auto. }
    right. split; [exact C|].
    rewrite E, bind_ret. rewrite Eb. pose proof (hist_prec V _ h Hv) as Hp. unfold MAX_PF in Hp.
    destruct (pf_serde_ok V e _ _ _ s ser_b de_b b He Hp Hs Eb) as (s' & E' & Hs').
    rewrite E'. cbn [ModelPlus.unwrap]. eauto.
Qed.

Lemma run_pf_ret : forall (V : Type) e (h : hist V) s, build e -> valid MAX_PF h ->
  run_pf e h = Ret s -> pf_ok (hist_precision h) (hist_builder h) (hist_hashes h) s.
Proof.
  intros V e h s Hb Hv E. destruct (run_pf_exact V e h Hb Hv) as [(_ & _ & E')|(_ & s' & E' & Hs)]; congruence.
Qed.

(** ** What a run that ends leaves behind *)
Lemma plus_state_wide : forall (V : Type) e (h : hist V) s,
  build_std e -> valid MAX_PLUS h -> run_plus e h = Ret s ->
  hp_precision s = hist_precision h /\
  match hp_registers s with
  | None => N.of_nat (length (d_buf (hp_sparse s))) <= 4 * 2 ^ hist_precision h / 5 /\
            N.of_nat (length (hp_tmpset s)) <= 4 * 2 ^ hist_precision h / 500
  | Some r => N.of_nat (length (r_buf r)) = (2 ^ hist_precision h + 4) / 5 /\
              hp_tmpset s = [] /\ d_buf (hp_sparse s) = [] /\ ~ fits (hist_precision h) (hist_hashes h) /\
              is_register_file 64 (hist_precision h) (hist_hashes h) (reg_iter SIZE_PLUS r) /\
              reg_zeros r = zero_count (reg_iter SIZE_PLUS r)
  end.
Proof.
  intros V e h s Hb Hv E. destruct (run_plus_ret V e h s Hb Hv E) as ((_ & Hp & _) & _ & HB).
  split; [auto|]. unfold body_ok in HB. destruct (hp_registers s) as [r|].
  - destruct HB as (T & S & ((W & _) & C & Z & RF & _) & B). rewrite S.
    split; [|split; [auto|split; [auto|split; [now apply big_not_fits|split; [exact RF|exact Z]]]]].
    rewrite W, C. change (count_per_word 6) with 5. f_equal. lia.
  - destruct HB as ((L & _ & HD & _ & _ & HG) & HT). split.
    + rewrite <- (len_length _ (d_buf (hp_sparse s))).
      change (len (d_buf (hp_sparse s))) with (dif_len (hp_sparse s)).
      rewrite (dif_repr_len _ _ HD). exact HG.
    + rewrite <- len_length. change 500 with (5 * 100). rewrite <- N.div_div by discriminate.
      fold (sparse_limit (hist_precision h)). apply N.div_le_lower_bound; [discriminate|]. lia.
Qed.

Lemma pf_state_wide : forall (V : Type) e (h : hist V) s,
  build e -> valid MAX_PF h -> run_pf e h = Ret s ->
  pf_precision s = hist_precision h /\
  is_register_file 32 (hist_precision h) (map (fun x => x mod 2 ^ 32) (hist_hashes h))
    (reg_iter SIZE_PF (pf_registers s)) /\
  reg_zeros (pf_registers s) = zero_count (reg_iter SIZE_PF (pf_registers s)).
Proof.
  intros V e h s Hb Hv E. destruct (run_pf_ret V e h s Hb Hv E) as (_ & Hp & C & Hr).
  split; [auto|]. destruct Hr as (W & C' & Z & RF & _). split; [exact RF|exact Z].
Qed.

Lemma plus_sparse_wide : forall (V : Type) e ord (h : hist V) s,
  build_std e -> valid MAX_PLUS h -> is_order ord -> run_plus e (HCount ord h) = Ret s ->
  hp_tmpset s = [] /\ (is_sparse s = true <-> fits (hist_precision h) (hist_hashes h)).
Proof.
  intros V e ord h s Hb Hv Ho E. cbn [run_plus] in E. apply bind_inv in E.
  destruct E as (s0 & E0 & E). pose proof (run_plus_ret V e h s0 Hb Hv E0) as Hs.
  pose proof (hist_prec V _ h Hv) as Hp. unfold MAX_PLUS in Hp.
  destruct (hp_count_any V e ord _ _ _ s0 Hb Hp Ho Hs) as (s' & _ & [T Hf] & Ec). rewrite Ec in E.
  apply bind_inv in E. destruct E as ([s1 c] & E1 & E). apply bind_inv in E1.
  destruct E1 as (c' & _ & E1). injection E1 as <- <-. injection E as <-.
  split; [auto|]. unfold is_sparse. destruct (hp_registers s') as [r|].
  - destruct Hf as (_ & _ & B). split; [discriminate|]. intros F. now apply big_not_fits in B.
  - destruct Hf as (L' & HL' & _ & HG). split; [|auto]. intros _ L HL.
    now rewrite (code_list_unique _ _ _ _ HL HL').
Qed.

(** ** The count as a function of the set, on any width *)
Lemma corrected_same_width : forall e e' p l, build_std e -> build_std e' -> same_platform e e' ->
  usize_bits e = usize_bits e' -> overflow_checks e = overflow_checks e' ->
  4 <= p <= 18 -> N.of_nat (length l) = 2 ^ p -> Forall (fun v => v < 64) l ->
  estimate_corrected e p l (2 ^ p) = estimate_corrected e' p l (2 ^ p).
Proof.
  intros e e' p l Hb Hb' HP Ew Ec Hp HL Hl.
  destruct (N.lt_ge_cases (2 * p) (usize_bits e)) as [Hw|Hw].
  { apply corrected_same; auto. now rewrite <- Ew. }
  assert (Fl : Forall (fun v => v < lut_bound e) l) by (unfold lut_bound; now rewrite (proj2 Hb)).
  assert (Fl' : Forall (fun v => v < lut_bound e') l) by (unfold lut_bound; now rewrite (proj2 Hb')).
  assert (ER : estimate_raw_plus e l (2 ^ p) = estimate_raw_plus e' l (2 ^ p)).
  { rewrite !estimate_raw_plus_gen by auto. rewrite Ew, Ec. now rewrite (proj1 (proj2 HP)). }
  unfold estimate_corrected. rewrite <- ER.
  destruct (overflow_checks e) eqn:Hc; [now rewrite raw_panics|].
  destruct (raw_zero e p l (proj1 Hb) Hc Hw Hp HL Fl) as (raw & -> & Fr & _). rewrite !bind_ret.
  now rewrite (bias_same e e' p raw (proj1 Hb) HP Hp Fr).
Qed.

Lemma normal_same_width : forall e e' p l, build_std e -> build_std e' -> same_platform e e' ->
  usize_bits e = usize_bits e' -> overflow_checks e = overflow_checks e' ->
  4 <= p <= 18 -> N.of_nat (length l) = 2 ^ p -> Forall (fun v => v < 64) l ->
  normal_value e p l = normal_value e' p l.
Proof.
  intros. unfold normal_value. rewrite (linear_same e e') by auto.
  now rewrite (corrected_same_width e e') by auto.
Qed.

Definition count_of {S A : Type} (m : M (S * A)) : M A := let* (_, c) := m in Ret c.

Theorem count_plus_wide : forall (V V' : Type) e e' ord ord' (h : hist V) (h' : hist V') s s',
  build_std e -> build_std e' -> same_platform e e' ->
  usize_bits e = usize_bits e' -> overflow_checks e = overflow_checks e' ->
  valid MAX_PLUS h -> valid MAX_PLUS h' -> is_order ord -> is_order ord' ->
  run_plus e h = Ret s -> run_plus e' h' = Ret s' ->
  hist_precision h = hist_precision h' -> same_set (hist_hashes h) (hist_hashes h') ->
  count_plus e ord h = count_plus e' ord' h'.
Proof.
  intros V V' e e' ord ord' h h' s s' Hb Hb' HP Ew Ec Hv Hv' Ho Ho' E E' Ep Es.
  pose proof (run_plus_ret V e h s Hb Hv E) as Hs. pose proof (run_plus_ret V' e' h' s' Hb' Hv' E') as Hs'.
  pose proof (hist_prec V _ h Hv) as Hp. unfold MAX_PLUS in Hp. rewrite <- Ep in Hs'.
  destruct (hp_count_any V e ord _ _ _ s Hb Hp Ho Hs) as (t & _ & Ft & Et).
  destruct (hp_count_any V' e' ord' _ _ _ s' Hb' Hp Ho' Hs') as (t' & _ & Ft' & Et').
  pose proof (flushed_ext V _ _ _ t Es Ft) as Ft2.
  destruct (flushed_parts V V' _ _ t t' (proj2 Hp) Ft2 Ft') as [P1 P2].
  unfold count_plus. rewrite E, E', !bind_ret, Et, Et'.
  assert (EV : flushed_value e (hist_precision h) t = flushed_value e' (hist_precision h) t').
  { unfold flushed_value. rewrite <- P1, <- P2. destruct Ft as [_ Ft].
    destruct (hp_registers t) as [r|]; [|now apply linear_same].
    destruct Ft as (_ & (_ & _ & _ & RF & _) & _).
    apply normal_same_width; auto; [apply RF|apply (reg_iter_lt 6); now right]. }
  rewrite EV. now destruct (flushed_value e' (hist_precision h) t').
Qed.

(** A build whose counts do not overflow counts like any other one. *)
Theorem count_plus_as_any : forall (V V' : Type) e e' ord ord' (h : hist V) (h' : hist V'),
  build_std e -> build_std e' -> same_platform e e' -> accurate e -> accurate e' ->
  valid MAX_PLUS h -> valid MAX_PLUS h' -> is_order ord -> is_order ord' ->
  never_overflows (usize_bits e) (HCount ord h) -> never_overflows (usize_bits e') (HCount ord' h') ->
  hist_precision h = hist_precision h' -> same_set (hist_hashes h) (hist_hashes h') ->
  exists c, count_plus e ord h = Ret c /\ count_plus e' ord' h' = Ret c.
Proof.
  intros V V' e e' ord ord' h h' Hb Hb' HP Ha Ha' Hv Hv' Ho Ho' [No Nh] [No' Nh'] Ep Es.
  destruct (run_plus_exact V e h Hb Ha Hv) as [(_ & X & _)|(_ & s & E & Hs)]; [contradiction|].
  destruct (run_plus_exact V' e' h' Hb' Ha' Hv') as [(_ & X & _)|(_ & s' & E' & Hs')]; [contradiction|].
  pose proof (hist_prec V _ h Hv) as Hp. unfold MAX_PLUS in Hp. rewrite <- Ep in Hs', No'.
  destruct (hp_count_any V e ord _ _ _ s Hb Hp Ho Hs) as (t & _ & Ft & Et).
  destruct (hp_count_any V' e' ord' _ _ _ s' Hb' Hp Ho' Hs') as (t' & _ & Ft' & Et').
  destruct (flushed_value_exact V e _ _ t Hb Ha Hp Ft) as [(_ & X & _)|(_ & c & Ec)]; [contradiction|].
  pose proof (flushed_ext V _ _ _ t Es Ft) as Ft2.
  destruct (flushed_parts V V' _ _ t t' (proj2 Hp) Ft2 Ft') as [P1 P2].
  exists c. unfold count_plus. rewrite E, E', !bind_ret, Et, Et', Ec. split; [reflexivity|].
  assert (EV : flushed_value e' (hist_precision h) t' = Ret c); [|now rewrite EV].
  rewrite <- Ec. unfold flushed_value. rewrite <- P1, <- P2. destruct Ft2 as [_ Ft2]. destruct Ft as [_ Ft].
  destruct (hp_registers t) as [r|]; [|symmetry; now apply linear_same].
  destruct Ft as (_ & (_ & _ & _ & RF & _) & B). destruct Ft2 as (_ & (_ & _ & _ & RF' & _) & B').
  assert (Fl : Forall (fun v => v < 64) (reg_iter 6 r)) by (apply (reg_iter_lt 6); now right).
  set (l := reg_iter 6 r) in *. set (p := hist_precision h) in *.
  destruct (past_file_dec p l) as [P|P].
  - assert (W : 2 * p < usize_bits e).
    { destruct (N.lt_ge_cases (2 * p) (usize_bits e)); auto. exfalso. apply No. split; auto.
      apply (past_file_linear p _ l RF Hp); auto. now apply big_not_fits. }
    assert (W' : 2 * p < usize_bits e').
    { destruct (N.lt_ge_cases (2 * p) (usize_bits e')); auto. exfalso. apply No'. split; auto.
      apply (past_file_linear p _ l RF' Hp); auto. now apply big_not_fits. }
    unfold normal_value. rewrite (linear_same e e') by auto.
    now rewrite (corrected_same e e') by (auto; apply RF).
  - assert (Z : zero_count l <> 0 /\ (linear_R (2 ^ p) (zero_count l) <= threshold_R p)%R).
    { unfold past_file in P. split; [tauto|]. apply Rnot_lt_le. tauto. }
    rewrite (in_linear_value e p _ l Ha Hp RF), (in_linear_value e' p _ l Ha' Hp RF'); try apply Z.
    symmetry. now apply linear_same.
Qed.

Theorem count_pf_wide : forall (V V' : Type) e e' (h : hist V) (h' : hist V') s s',
  build e -> build e' -> same_platform e e' ->
  usize_bits e = usize_bits e' -> overflow_checks e = overflow_checks e' ->
  valid MAX_PF h -> valid MAX_PF h' ->
  run_pf e h = Ret s -> run_pf e' h' = Ret s' ->
  hist_precision h = hist_precision h' ->
  same_set (low32 (hist_hashes h)) (low32 (hist_hashes h')) ->
  count_pf e h = count_pf e' h'.
Proof.
  intros V V' e e' h h' s s' Hb Hb' HP Ew Ec Hv Hv' E E' Ep Es.
  pose proof (run_pf_ret V e h s Hb Hv E) as (_ & _ & C & D).
  pose proof (run_pf_ret V' e' h' s' Hb' Hv' E') as (_ & _ & C' & D').
  pose proof (hist_prec V _ h Hv) as Hp. unfold MAX_PF in Hp. rewrite <- Ep in C', D'.
  unfold count_pf. rewrite E, E', !bind_ret. unfold pf_count_est, SIZE_PF. rewrite C, C'.
  assert (R : pf_registers s = pf_registers s').
  { eapply (holds_unique 5 32 (hist_precision h)); [now left|lia| |exact D'].
    destruct D as (D1 & D2 & D3 & D4 & D5). split; [auto|split; [auto|split; [auto|split; [|auto]]]].
    eapply register_file_same; eauto. }
  rewrite <- R.
  assert (Fl : forall e, Forall (fun v => v < lut_bound e) (reg_iter 5 (pf_registers s))).
  { intros e0. eapply Forall_impl; [|apply (reg_iter_lt 5); now left]. intros v Hv0. cbv beta in Hv0.
    change (2 ^ 5) with 32 in Hv0. unfold lut_bound. destruct (feat_std e0); lia. }
  rewrite !estimate_raw_plus_gen by auto. rewrite Ew, Ec, (proj1 (proj2 HP)).
  destruct (umul _ _ _ _) as [c2| |]; [|reflexivity|reflexivity]. rewrite !bind_ret. cbv zeta.
  destruct (_ && _); [now apply linear_same|]. destruct (flt _ _); [|reflexivity].
  now rewrite (ln_same e e').
Qed.

(** ** Statements *)
Lemma plus_panics_iff : forall (V : Type) e (h : hist V), build_std e -> accurate e ->
  valid MAX_PLUS h ->
  (run_plus e h = Panic <-> overflow_checks e = true /\ ~ never_overflows (usize_bits e) h) /\
  ((exists s, run_plus e h = Ret s) <-> overflow_checks e = false \/ never_overflows (usize_bits e) h).
Proof.
  intros V e h Hb Ha Hv. destruct (run_plus_exact V e h Hb Ha Hv) as [(C & N & E)|(C & s & E & _)]; rewrite E.
  - split; [tauto|]. rewrite C. split; [intros [s X]; discriminate X|intros [X|X]; [discriminate X|contradiction]].
  - split; [split; [discriminate|]|split; eauto]. intros [C' N]. exfalso. destruct C; [congruence|contradiction].
Qed.

Lemma pf_panics_iff : forall (V : Type) e (h : hist V), build e -> valid MAX_PF h ->
  (run_pf e h = Panic <-> overflow_checks e = true /\ ~ countable_pf (usize_bits e) h) /\
  ((exists s, run_pf e h = Ret s) <-> overflow_checks e = false \/ countable_pf (usize_bits e) h).
Proof.
  intros V e h Hb Hv. destruct (run_pf_exact V e h Hb Hv) as [(C & N & E)|(C & s & E & _)]; rewrite E.
  - split; [tauto|]. rewrite C. split; [intros [s X]; discriminate X|intros [X|X]; [discriminate X|contradiction]].
  - split; [split; [discriminate|]|split; eauto]. intros [C' N]. exfalso. destruct C; [congruence|contradiction].
Qed.

Lemma plus_release_total : forall (V : Type) e ord (h : hist V), build_std e -> valid MAX_PLUS h ->
  is_order ord -> overflow_checks e = false -> exists c, count_plus e ord h = Ret c.
Proof.
  intros V e ord h Hb Hv Ho Hc.
  destruct (run_plus_any V e (HCount ord h) Hb (conj Ho Hv)) as [[X _]|(s & E & _)]; [congruence|].
  cbn [run_plus] in E. apply bind_inv in E. destruct E as (s0 & E0 & E). apply bind_inv in E.
  destruct E as ([s1 c] & E1 & _). exists c. unfold count_plus. now rewrite E0, bind_ret, E1.
Qed.

Lemma pf_release_total : forall (V : Type) e (h : hist V), build e -> valid MAX_PF h ->
  overflow_checks e = false -> exists c, count_pf e h = Ret c.
Proof.
  intros V e h Hb Hv Hc.
  destruct (run_pf_exact V e h Hb Hv) as [(X & _)|(_ & s & E & Hs)]; [congruence|].
  pose proof (hist_prec V _ h Hv) as Hp. unfold MAX_PF in Hp.
  destruct (pf_count_any V e _ _ _ s Hb Hp Hs) as [(X & _)|(_ & c & Ec)]; [congruence|].
  exists c. unfold count_pf. now rewrite E, bind_ret.
Qed.

Lemma never_overflows_narrow : forall (V : Type) w (h : hist V), narrow w h -> never_overflows w h.
Proof.
  induction h as [p b|k ord h IH v|ord h1 IH1 h2 IH2|ord h IH|ord ser_b de_b h IH];
    cbn [narrow never_overflows]; auto; [intros [A B]; auto|].
  intros H. split; auto. intros [X _]. pose proof (narrow_prec _ _ _ H). lia.
Qed.

Lemma never_overflows_countable : forall (V : Type) w (h : hist V), countable w h -> never_overflows w h.
Proof.
  induction h as [p b|k ord h IH v|ord h1 IH1 h2 IH2|ord h IH|ord ser_b de_b h IH];
    cbn [countable never_overflows]; auto; [intros [A B]; auto|].
  intros [H Hn]. split; auto. intros [X [Y _]]. destruct H; [lia|contradiction].
Qed.

Theorem count_pf_as_any : forall (V V' : Type) e e' (h : hist V) (h' : hist V'),
  build e -> build e' -> same_platform e e' -> valid MAX_PF h -> valid MAX_PF h' ->
  (overflow_checks e = false \/ countable_pf (usize_bits e) h) ->
  (overflow_checks e' = false \/ countable_pf (usize_bits e') h') ->
  2 * hist_precision h < usize_bits e -> 2 * hist_precision h < usize_bits e' ->
  hist_precision h = hist_precision h' ->
  same_set (low32 (hist_hashes h)) (low32 (hist_hashes h')) ->
  exists c, count_pf e h = Ret c /\ count_pf e' h' = Ret c.
Proof.
  intros V V' e e' h h' Hb Hb' HP Hv Hv' Hc Hc' Hw Hw' Ep Es.
  destruct (proj2 (proj2 (pf_panics_iff V e h Hb Hv)) Hc) as [s E].
  destruct (proj2 (proj2 (pf_panics_iff V' e' h' Hb' Hv')) Hc') as [s' E'].
  pose proof (run_pf_ret V e h s Hb Hv E) as Hs. pose proof (run_pf_ret V' e' h' s' Hb' Hv' E') as Hs'.
  rewrite <- Ep in Hs'. pose proof (hist_prec V _ h Hv) as Hp. unfold MAX_PF in Hp.
  unfold count_pf. rewrite E, E', !bind_ret.
  rewrite (pf_count_value V e _ _ _ s Hw Hs), (pf_count_value V' e' _ _ _ s' Hw' Hs').
  assert (R : reg_iter 5 (pf_registers s) = reg_iter 5 (pf_registers s')).
  { destruct Hs as (_ & _ & _ & _ & _ & _ & RF & _), Hs' as (_ & _ & _ & _ & _ & _ & RF' & _).
    apply (is_register_file_unique 32 (hist_precision h) (low32 (hist_hashes h'))); [lia| |auto].
    eapply register_file_same; eauto. }
  rewrite <- R, <- (pf_value_same e e') by auto.
  destruct (pf_value_total e (hist_precision h) (reg_iter 5 (pf_registers s))
    (zero_count (reg_iter 5 (pf_registers s)))) as [c ->]. eauto.
Qed.
