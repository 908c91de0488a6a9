(** * Monotonicity of [count] *)
From Coq Require Import NArith ZArith Reals Lra Lia List Bool Sorted.
From Flocq Require Import Core BinarySingleNaN.
From Verif Require Import ModelRust ModelF64 ModelEnv ModelRegisters ModelCommon ModelPF ModelPlus
  ModelHistory ModelConstants Spec SpecReal SpecCount SpecBuild BitFacts RegFacts EncFacts CodeFacts
  AbsorbFacts F64Facts LogAccuracy LinearFacts RawFacts BiasTables BiasFacts PFInv PlusInv FloatFacts
  PFFloat PFExact ClaimFloat NarrowFacts MonoFacts BiasMono.
Import ListNotations.
Local Open Scope R_scope.
Local Notation ln := Rpower.ln.

(** ** HyperLogLogPF *)
Lemma pf_mono : forall (V : Type) e (h h' : hist V), build e -> accurate e ->
  valid MAX_PF h -> valid MAX_PF h' -> narrow (usize_bits e) h -> narrow (usize_bits e) h' ->
  hist_precision h = hist_precision h' -> incl (hist_hashes h) (hist_hashes h') ->
  below_2_32 (hist_precision h') (hist_hashes h') ->
  small_range (hist_precision h') (hist_hashes h') \/
    ~ small_range (hist_precision h) (hist_hashes h) ->
  exists c c', count_pf e h = Ret c /\ count_pf e h' = Ret c' /\
    is_finite c = true /\ is_finite c' = true /\ B2R c <= B2R c'.
Proof.
  intros V e h h' Hb Ha Hv Hv' Hn Hn' Ep HI HS HB.
  destruct (count_pf_ok V e h Hb Hv Hn) as (l & HR & Hl & E).
  destruct (count_pf_ok V e h' Hb Hv' Hn') as (l' & HR' & Hl' & E').
  pose proof (hist_prec V _ h Hv) as Hp. unfold MAX_PF in Hp. rewrite <- Ep in *.
  set (p := hist_precision h) in *.
  destruct (pf_value_total e p l (zero_count l)) as [c Ec].
  destruct (pf_value_total e p l' (zero_count l')) as [c' Ec'].
  pose proof (HS l' HR') as H32.
  pose proof (low32_incl _ _ HI) as HI'.
  pose proof (rf_mono 32 p _ _ l l' ltac:(lia) HI' HR HR') as H2.
  assert (H32l : raw_R p l < IZR (2 ^ 32)).
  { destruct (raw_R_step p _ _ l l' Hp H2 HR HR') as [->|ST]; [auto|].
    pose proof (raw_pos p _ l Hp HR). change (/ IZR (2 ^ 34)) with (/ 17179869184) in ST. lra. }
  destruct (pf_exact_ok e p _ l c Hb Ha Hp HR Hl H32l Ec) as (F & _).
  destruct (pf_exact_ok e p _ l' c' Hb Ha Hp HR' Hl' H32 Ec') as (F' & _).
  exists c, c'. split; [congruence|]. split; [congruence|]. split; [exact F|]. split; [exact F'|].
  apply (pf_value_mono e p _ _ l l' c c' Hb Ha Hp HI' HR HR' Hl Hl' H32); auto.
  destruct HB as [HB|HB]; [left; exact (HB l' HR')|right].
  intros C. apply HB. intros k HK.
  now rewrite (is_register_file_unique 32 p _ k l ltac:(lia) HK HR).
Qed.

(** Whether [count] is finite. *)
Lemma pf_finite_iff : forall (V : Type) e (h : hist V), build e -> accurate e -> rejects e ->
  valid MAX_PF h -> narrow (usize_bits e) h ->
  exists c, count_pf e h = Ret c /\
    (is_finite c = true <-> below_2_32 (hist_precision h) (hist_hashes h)) /\
    (is_finite c = false -> is_nan c = true).
Proof.
  intros V e h Hb Ha Hr Hv Hn. destruct (count_pf_ok V e h Hb Hv Hn) as (l & HR & Hl & E).
  pose proof (hist_prec V _ h Hv) as Hp. unfold MAX_PF in Hp. set (p := hist_precision h) in *.
  destruct (pf_value_total e p l (zero_count l)) as [c Ec]. exists c. split; [congruence|].
  destruct (Rlt_dec (raw_R p l) (IZR (2 ^ 32))) as [L|L].
  - destruct (pf_exact_ok e p _ l c Hb Ha Hp HR Hl L Ec) as (F & _).
    unfold fin in F. split; [|congruence]. split; [|auto]. intros _ k HK.
    now rewrite (is_register_file_unique 32 p _ k l ltac:(lia) HK HR).
  - assert (N := pf_nan e p _ l c Hb Hr Hp HR Hl ltac:(lra) Ec). split; [|auto].
    split; [destruct c; discriminate|]. intros B. exfalso. apply L, B, HR.
Qed.

(** ** HyperLogLogPlus *)
Lemma code_length_incl : forall p H H' L L', is_code_list p H L -> is_code_list p H' L' ->
  incl H H' -> (length L <= length L')%nat.
Proof.
  intros p H H' L L' [S E] [_ E'] HI. apply NoDup_incl_length.
  - clear - S. induction S as [|a L S IH F]; constructor; auto.
    intros HA. rewrite Forall_forall in F. specialize (F a HA). lia.
  - intros x Hx. apply E'. apply E in Hx. apply in_map_iff in Hx. destruct Hx as (y & <- & Hy).
    apply in_map. auto.
Qed.

Lemma fits_incl : forall p H H', incl H H' -> fits p H' -> fits p H.
Proof.
  intros p H H' HI F L HL. destruct (code_list_exists p H') as [L' HL'].
  pose proof (gap_len_incl p H H' L L' HL HL' HI). pose proof (F L' HL'). lia.
Qed.

Lemma sparse_mono : forall e p H H' c c', accurate e -> (4 <= p <= 18)%N -> incl H H' ->
  fits p H' -> value_of e p H c -> value_of e p H' c' -> val c <= val c'.
Proof.
  intros e p H H' c c' Ha Hp HI HF (L & HL & HV) (L' & HL' & HV').
  pose proof (HF L' HL') as G'. pose proof (fits_incl p H H' HI HF L HL) as G.
  pose proof (code_length_incl p H H' L L' HL HL' HI) as LL.
  pose proof (sparse_length p H' L' Hp HL' G') as N'.
  destruct HV as [[_ E]|(X & _)]; [|lia]. destruct HV' as [[_ E']|(X & _)]; [|lia].
  apply (linear_count_mono e (2 ^ 24) (2 ^ 24 - N.of_nat (length L')) (2 ^ 24 - N.of_nat (length L)) c c' Ha); auto;
    change (2 ^ 24)%N with 16777216%N; lia.
Qed.

Lemma normal_of : forall e p H c, ~ fits p H -> value_of e p H c ->
  exists l, is_register_file 64 p H l /\ Forall (fun v => (v < 64)%N) l /\ normal_value e p l = Ret c.
Proof.
  intros e p H c NF (L & HL & [[G _]|(_ & l & A & B & C)]); [|eauto].
  exfalso. apply NF. intros L' HL'. now rewrite (code_list_unique _ _ _ _ HL' HL).
Qed.

Lemma in_linear_value : forall e p H l, accurate e -> (4 <= p <= 18)%N ->
  is_register_file 64 p H l -> zero_count l <> 0%N -> linear_R (2 ^ p) (zero_count l) <= threshold_R p ->
  normal_value e p l = linear_count e (2 ^ p) (zero_count l).
Proof.
  intros e p H l Ha Hp RF Z HT. unfold normal_value.
  rewrite (proj2 (N.eqb_neq _ _) Z). cbn [negb].
  assert (ZB : (zero_count l <= 2 ^ p)%N) by (rewrite <- (proj1 RF); apply MonoFacts.zero_count_le).
  assert (P18 : (2 ^ p <= 262144)%N) by (change 262144%N with (2 ^ 18)%N; apply pow2_le; lia).
  destruct (linear_ok e (2 ^ p) (zero_count l) Ha) as (c & Ec & Fc & C0 & C1 & _ & C2);
    try (change (2 ^ 24)%N with 16777216%N; lia).
  rewrite Ec, bind_ret.
  destruct (threshold_is p Hp) as (t & Et & [Ft Vt] & Ht). rewrite Et, bind_ret.
  rewrite fle_spec, Vt by auto. case Rle_bool_spec; intros K; [reflexivity|exfalso].
  destruct (N.eq_dec (zero_count l) (2 ^ p)) as [Q|Q]; [rewrite C0 in K by auto; lra|].
  specialize (C1 ltac:(lia)).
  assert (B28 : bpow radix2 (-28) = (/ 268435456)%R) by reflexivity. rewrite B28 in C2.
  rewrite (Rabs_pos_eq (linear_R _ _)) in C2 by lra. apply Rabs_le_inv in C2.
  assert (TU : threshold_R p <= 350000).
  { clear -Hp. revert p Hp. apply precision_cases; apply IZR_le; vm_compute; discriminate. }
  destruct (threshold_gap p (zero_count l) Hp ltac:(lia) ZB) as [G|G]; lra.
Qed.

Lemma linear_mono_normal : forall e p H H' c c', accurate e -> (4 <= p <= 18)%N -> incl H H' ->
  ~ fits p H -> in_linear p H' -> value_of e p H c -> value_of e p H' c' -> val c <= val c'.
Proof.
  intros e p H H' c c' Ha Hp HI NF [NF' HL] V V'.
  destruct (normal_of e p H c NF V) as (l & R & Fl & E).
  destruct (normal_of e p H' c' NF' V') as (l' & R' & Fl' & E').
  destruct (HL l' R') as [Z' T'].
  pose proof (zero_count_mono l l' (rf_mono 64 p H H' l l' ltac:(lia) HI R R')) as ZM.
  assert (ZB : (zero_count l <= 2 ^ p)%N) by (rewrite <- (proj1 R); apply MonoFacts.zero_count_le).
  assert (P18 : (2 ^ p <= 2 ^ 24)%N) by (apply pow2_le; lia).
  assert (T : linear_R (2 ^ p) (zero_count l) <= threshold_R p).
  { eapply Rle_trans; [|exact T']. apply linear_mono; lia. }
  rewrite (in_linear_value e p H l Ha Hp R) in E by (auto; lia).
  rewrite (in_linear_value e p H' l' Ha Hp R') in E' by auto.
  apply (linear_count_mono e (2 ^ p) (zero_count l') (zero_count l) c c' Ha); auto. lia.
Qed.

Lemma past_linear_incl : forall p H H' l, (4 <= p <= 18)%N -> incl H H' ->
  is_register_file 64 p H l -> past_linear p H -> past_linear p H'.
Proof.
  intros p H H' l Hp HI R [NF HL]. split.
  - intros F. apply NF. now apply (fits_incl p H H').
  - intros l' R'.
    pose proof (zero_count_mono l l' (rf_mono 64 p H H' l l' ltac:(lia) HI R R')) as ZM.
    assert (ZB : (zero_count l <= 2 ^ p)%N) by (rewrite <- (proj1 R); apply MonoFacts.zero_count_le).
    destruct (N.eq_dec (zero_count l') 0) as [Z|Z]; [now left|right].
    destruct (HL l R) as [Q|Q]; [lia|]. eapply Rlt_le_trans; [exact Q|]. apply linear_mono; lia.
Qed.

Lemma past_value : forall e p H c, build_std e -> accurate e -> (4 <= p <= 18)%N ->
  (2 * p < usize_bits e)%N -> past_linear p H -> value_of e p H c ->
  exists l, is_register_file 64 p H l /\ Forall (fun v => (v < 64)%N) l /\ fin c /\
    let raw := val (raw_f e p l) in
    approx (/ IZR (2 ^ 33)) raw (raw_R p l) /\
    (5 * m_R p < raw /\ val c = raw \/
     raw <= 5 * m_R p /\ exists y,
       interpolated (reals (est_table p)) (reals (bias_table p)) raw y /\
       Rabs (val c - (raw - y)) <= / IZR (2 ^ 29)).
Proof.
  intros e p H c [Hb Hs] Ha Hp Hw PL V. destruct (normal_of e p H c (proj1 PL) V) as (l & R & Fl & E).
  rewrite (past_linear_value e p H l Ha Hp R PL) in E.
  destruct (estimate_corrected_ok e p l Hb Hs (proj1 Hp) (proj2 Hp) Hw (proj1 R) Fl) as (c0 & E0 & Fc & C).
  rewrite E in E0. injection E0 as <-. cbv zeta in C.
  destruct (raw_f_rel e p l Hb (proj1 Hp) (proj2 Hp) (proj1 R) Fl) as (Fr & Rr & Br).
  exists l. split; [auto|]. split; [auto|]. split; [auto|]. cbv zeta. split.
  { unfold approx. rewrite (inv_pow2 33) by lia. now apply rel_abs. }
  destruct C as [C|(C & y & Hy & _ & _ & Hc)]; [now left|right]. split; [auto|]. exists y. split; [auto|].
  eapply Rle_trans; [exact Hc|]. pose proof (m_R_bounds p (proj1 Hp) (proj2 Hp)).
  change (/ IZR (2 ^ 29)) with (/ 536870912). rewrite u_val. lra.
Qed.

Lemma raw_R_pos64 : forall p H l, (4 <= p <= 18)%N -> is_register_file 64 p H l ->
  Forall (fun v => (v < 64)%N) l -> 0 <= raw_R p l.
Proof.
  intros p H l Hp HR Hl. destruct (raw_R_bounds p l (proj1 Hp) (proj2 Hp) (proj1 HR) Hl) as (_ & B).
  destruct (alpha_pow2 p (proj1 Hp) (proj2 Hp)) as (_ & _ & HA).
  pose proof (m_R_bounds p (proj1 Hp) (proj2 Hp)). nra.
Qed.

Lemma over_mono : forall e p H H' c c', build_std e -> accurate e -> (4 <= p <= 18)%N ->
  (2 * p < usize_bits e)%N -> incl H H' -> past_linear p H -> raw_over p H ->
  value_of e p H c -> value_of e p H' c' -> val c <= val c'.
Proof.
  intros e p H H' c c' Hb Ha Hp Hw HI PL RO V V'.
  destruct (past_value e p H c Hb Ha Hp Hw PL V) as (l & R & Fl & Fc & A & C).
  pose proof (past_linear_incl p H H' l Hp HI R PL) as PL'.
  destruct (past_value e p H' c' Hb Ha Hp Hw PL' V') as (l' & R' & Fl' & Fc' & A' & C').
  cbv zeta in *.
  pose proof (rf_mono 64 p H H' l l' ltac:(lia) HI R R') as H2.
  pose proof (raw_f_mono e p l l' (proj1 Hb) Hp (proj1 R) (proj1 R') H2 Fl') as RM.
  pose proof (raw_R_pos64 p H l Hp R Fl) as P. pose proof (m_R_bounds p (proj1 Hp) (proj2 Hp)) as Hm.
  unfold approx in A. rewrite (Rabs_pos_eq (raw_R p l)) in A by auto. apply Rabs_le_inv in A.
  pose proof (RO l R) as RO'. change (/ IZR (2 ^ 33)) with (/ 8589934592) in A.
  change (/ IZR (2 ^ 32)) with (/ 4294967296) in RO'.
  assert (K : 5 * m_R p < val (raw_f e p l)) by lra.
  destruct C as [[_ ->]|[C _]]; [|lra]. destruct C' as [[_ ->]|[C' _]]; [|lra]. exact RM.
Qed.

Lemma under_mono : forall e p H H' c c', build_std e -> accurate e -> (4 <= p <= 18)%N ->
  p <> 5%N -> p <> 6%N -> (2 * p < usize_bits e)%N -> incl H H' -> past_linear p H -> raw_under p H' ->
  value_of e p H c -> value_of e p H' c' -> val c <= val c' + / IZR (2 ^ 28).
Proof.
  intros e p H H' c c' Hb Ha Hp H5 H6 Hw HI PL RO V V'.
  destruct (past_value e p H c Hb Ha Hp Hw PL V) as (l & R & Fl & Fc & A & C).
  pose proof (past_linear_incl p H H' l Hp HI R PL) as PL'.
  destruct (past_value e p H' c' Hb Ha Hp Hw PL' V') as (l' & R' & Fl' & Fc' & A' & C').
  cbv zeta in *.
  pose proof (rf_mono 64 p H H' l l' ltac:(lia) HI R R') as H2.
  pose proof (raw_f_mono e p l l' (proj1 Hb) Hp (proj1 R) (proj1 R') H2 Fl') as RM.
  pose proof (raw_R_pos64 p H' l' Hp R' Fl') as P. pose proof (m_R_bounds p (proj1 Hp) (proj2 Hp)) as Hm.
  unfold approx in A'. rewrite (Rabs_pos_eq (raw_R p l')) in A' by auto. apply Rabs_le_inv in A'.
  pose proof (RO l' R') as RO'. change (/ IZR (2 ^ 33)) with (/ 8589934592) in A'.
  change (/ IZR (2 ^ 32)) with (/ 4294967296) in RO'.
  assert (K : val (raw_f e p l') <= 5 * m_R p) by lra.
  destruct C as [[C _]|(C & y & Hy & Bc)]; [lra|]. destruct C' as [[C' _]|(C' & y' & Hy' & Bc')]; [lra|].
  pose proof (corrected_mono p _ _ _ _ Hp H5 H6 Hy Hy' RM) as M.
  apply Rabs_le_inv in Bc, Bc'. change (/ IZR (2 ^ 29)) with (/ 536870912) in *.
  change (/ IZR (2 ^ 28)) with (/ 268435456). lra.
Qed.

(** One statement for histories. *)
Lemma plus_mono : forall (V : Type) e ord ord' (h h' : hist V), build_std e -> accurate e ->
  valid MAX_PLUS h -> valid MAX_PLUS h' -> narrow (usize_bits e) h -> narrow (usize_bits e) h' ->
  is_order ord -> is_order ord' ->
  hist_precision h = hist_precision h' -> incl (hist_hashes h) (hist_hashes h') ->
  let p := hist_precision h' in let H := hist_hashes h in let H' := hist_hashes h' in
  exists c c', count_plus e ord h = Ret c /\ count_plus e ord' h' = Ret c' /\
    is_finite c = true /\ is_finite c' = true /\
    (fits p H' -> B2R c <= B2R c') /\
    (~ fits p H -> in_linear p H' -> B2R c <= B2R c') /\
    (past_linear p H -> p <> 5%N -> p <> 6%N -> raw_under p H' -> B2R c <= B2R c' + / IZR (2 ^ 28)) /\
    (past_linear p H -> raw_over p H -> B2R c <= B2R c').
Proof.
  intros V e ord ord' h h' Hb Ha Hv Hv' Hn Hn' Ho Ho' Ep HI. cbv zeta.
  destruct (count_plus_ok V e ord h Hb Hv Hn Ho) as (s & s1 & c & _ & _ & E & _ & _ & HV).
  destruct (count_plus_ok V e ord' h' Hb Hv' Hn' Ho') as (s' & s1' & c' & _ & _ & E' & _ & _ & HV').
  pose proof (hist_prec V _ h Hv) as Hp. unfold MAX_PLUS in Hp.
  pose proof (narrow_prec V _ h Hn) as Hw. rewrite <- Ep in *. set (p := hist_precision h) in *.
  destruct (plus_formula_ok e p _ c Hb Ha Hp Hw (hashes_lt V h) HV) as (F & _).
  destruct (plus_formula_ok e p _ c' Hb Ha Hp Hw (hashes_lt V h') HV') as (F' & _).
  exists c, c'. split; [auto|]. split; [auto|]. split; [exact F|]. split; [exact F'|].
  split; [|split; [|split]].
  - intros HF. now apply (sparse_mono e p (hist_hashes h) (hist_hashes h')).
  - intros NF HL. now apply (linear_mono_normal e p (hist_hashes h) (hist_hashes h')).
  - intros PL H5 H6 HU. now apply (under_mono e p (hist_hashes h) (hist_hashes h')).
  - intros PL HO. now apply (over_mono e p (hist_hashes h) (hist_hashes h')).
Qed.
