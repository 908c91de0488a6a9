(** * The properties that fail, and what holds instead *)
From Coq Require Import NArith ZArith Reals Lra Lia List Bool Sorted String.
From Flocq Require Import Core BinarySingleNaN.
From Verif Require Import ModelRust ModelF64 ModelEnv ModelRegisters ModelEncoding ModelCommon
  ModelPF ModelPlus ModelConstants ModelSerde ModelHistory ModelTests Spec SpecReal SpecCount
  SpecBuild BitFacts F64Facts RawFacts BiasTables BiasFacts RegFacts EncFacts CodeFacts CountFacts
  AbsorbFacts PFInv PlusInv ObsFacts IntervalZ NarrowFacts ClaimFacts ClaimFloat SparseFacts PlusMono RefuteFacts Witness.
Import ListNotations.
Local Open Scope N_scope.

(** ** C05 *)
Lemma test_wide : forall (V : Type) m (h : hist V), m <= 18 -> valid m h -> narrow (usize_bits test_env) h.
Proof. intros V m h Hm Hv. apply (valid_narrow V m); auto. change (usize_bits test_env) with 64. lia. Qed.

Lemma plus_width : exists h : hist N, valid MAX_PLUS h /\
  (exists c, count_plus test_env keep h = Ret c /\ is_finite c = true /\ (0 <= B2R c)%R) /\
  count_plus small_debug keep h = Panic /\
  (exists c, count_plus small_env keep h = Ret c /\ is_finite c = true /\ (B2R c <= -10000)%R).
Proof.
  exists full16. split; [exact full16_valid|]. split; [|split; [exact plus_debug_panics|exact plus_release_negative]].
  exact (plus_finite N test_env keep full16 test_build test_accurate' full16_valid
    (test_wide N MAX_PLUS full16 ltac:(unfold MAX_PLUS; lia) full16_valid) keep_order).
Qed.

Lemma full16_pf_hashes : hist_hashes full16_pf <> [].
Proof.
  intros E. destruct (full16_pf_full 0 eq_refl) as (x & Hx & _). rewrite E in Hx. exact Hx.
Qed.

Lemma pf_width : exists h : hist N, valid MAX_PF h /\
  (exists c, count_pf test_env h = Ret c /\ is_finite c = true /\ (0.9 <= B2R c)%R) /\
  count_pf small_debug h = Panic /\
  (exists c, count_pf small_env h = Ret c /\ is_finite c = true /\ B2R c = 0%R).
Proof.
  exists full16_pf. split; [exact full16_pf_valid|]. split; [|split; [|exact pf_release_zero]].
  - assert (B := full16_pf_below). rewrite <- (proj2 full16_prec) in B.
    destruct (pf_value_R N test_env full16_pf (proj1 test_build) test_accurate' full16_pf_valid
      (test_wide N MAX_PF full16_pf ltac:(unfold MAX_PF; lia) full16_pf_valid) B) as (c & E & F & _ & _ & _ & P).
    exists c. split; [exact E|]. split; [exact F|]. apply P. exact full16_pf_hashes.
  - refine (pf_narrow_panics N small_debug full16_pf (proj1 small_debug_build) full16_pf_valid
      (proj2 (full16_countable _)) eq_refl _). rewrite (proj2 full16_prec). discriminate.
Qed.

(** ** C26 *)
Lemma pf_nan : exists c, count_pf core_env (raised_pf 28) = Ret c /\ is_nan c = true.
Proof.
  assert (H : match count_pf core_env (raised_pf 28) with Ret c => is_nan c | _ => false end = true)
    by reflexivity.
  destruct (count_pf core_env (raised_pf 28)) as [c| |]; try discriminate. eauto.
Qed.

(** ** C27 *)
Definition drops (m m' : M f64) : bool :=
  match m, m' with
  | Ret c, Ret c' => is_finite c && is_finite c' && flt c' c
  | _, _ => false
  end.
Lemma drops_spec : forall m m', drops m m' = true ->
  exists c c', m = Ret c /\ m' = Ret c' /\ is_finite c = true /\ is_finite c' = true /\
    (B2R c' < B2R c)%R.
Proof.
  intros [c| |] [c'| |] H; try discriminate. cbn [drops] in H.
  apply andb_true_iff in H. destruct H as [H L]. apply andb_true_iff in H. destruct H as [F F'].
  exists c, c'. repeat split; auto. rewrite flt_spec in L by auto. revert L.
  case Rlt_bool_spec; auto. discriminate.
Qed.

(** Hashes that raise register [i] to the [i]-th of [l]. *)
Definition reg_hashes (p : N) (l : list N) : list N :=
  map (fun i => i * 2 ^ (64 - p) + 2 ^ (64 - p - nth (N.to_nat i) l 0)) (range (N.of_nat (List.length l))).
Definition pass_hist (p : N) (l : list N) : hist N := inserted p pass Insert keep l.

(** The switch to the normal representation; linear counting to raw estimate; the cut at 5m. *)
Definition switch : hist N := pass_hist 4 (map (fun v => (v + 1) * 2 ^ 40) (range 12)).
Definition switch_next : N := 13 * 2 ^ 40.
Definition cut5m : hist N := pass_hist 4 (reg_hashes 4 (repeat 2 3 ++ repeat 3 11 ++ [6; 6])).
Definition cut5m_next : N := 15 * 2 ^ 60 + 2 ^ 53.
Definition small_raw : hist N := pass_hist 4 (map (fun v => v * 2 ^ 28 + 2 ^ 27) (range 15)).
Definition small_raw_next : N := 15 * 2 ^ 28 + 2 ^ 27.

Lemma pass_valid : forall m p l, 4 <= p <= m -> valid m (pass_hist p l).
Proof. intros. apply inserted_valid; [apply keep_order|auto]. Qed.

Lemma switch_drops : drops (count_plus test_env keep switch)
  (count_plus test_env keep (HInsert Insert keep switch switch_next)) = true.
Proof. reflexivity. Qed.
Lemma cut5m_drops : drops (count_plus test_env keep cut5m)
  (count_plus test_env keep (HInsert Insert keep cut5m cut5m_next)) = true.
Proof. reflexivity. Qed.
Lemma small_raw_drops : drops (count_pf test_env small_raw)
  (count_pf test_env (HInsert Insert keep small_raw small_raw_next)) = true.
Proof. reflexivity. Qed.

Lemma plus_drops : (exists (h : hist N) v c c', valid MAX_PLUS h /\
    fits (hist_precision h) (hist_hashes h) /\
    count_plus test_env keep h = Ret c /\
    count_plus test_env keep (HInsert Insert keep h v) = Ret c' /\
    is_finite c = true /\ is_finite c' = true /\ (B2R c' < B2R c)%R) /\
  (exists (h : hist N) v c c', valid MAX_PLUS h /\
    past_linear (hist_precision h) (hist_hashes h) /\
    count_plus test_env keep h = Ret c /\
    count_plus test_env keep (HInsert Insert keep h v) = Ret c' /\
    is_finite c = true /\ is_finite c' = true /\ (B2R c' < B2R c)%R).
Proof.
  split.
  - destruct (drops_spec _ _ switch_drops) as (c & c' & A). exists switch, switch_next, c, c'.
    split; [apply pass_valid; unfold MAX_PLUS; lia|]. split; [|exact A].
    intros L HL. rewrite (code_list_unique _ _ _ (codes 4 (hist_hashes switch)) HL).
    + vm_compute. discriminate.
    + apply code_list_b_ok. vm_compute. reflexivity.
  - destruct (drops_spec _ _ cut5m_drops) as (c & c' & A). exists cut5m, cut5m_next, c, c'.
    split; [apply pass_valid; unfold MAX_PLUS; lia|]. split; [|exact A]. split.
    + intros F. assert (CL : is_code_list 4 (hist_hashes cut5m) (codes 4 (hist_hashes cut5m)))
        by (apply code_list_b_ok; vm_compute; reflexivity).
      specialize (F _ CL). vm_compute in F. now apply F.
    + intros l RF. left. apply (full_no_zero 64 4 _ l RF); [lia|]. intros i Hi.
      exists (nth (N.to_nat i) (rev (hist_hashes cut5m)) 0). split.
      * apply in_rev. apply nth_In. rewrite rev_length.
        change (List.length (hist_hashes cut5m)) with 16%nat. change (2 ^ 4) with 16 in Hi. lia.
      * assert (Hl : Forall (fun i => bucket 64 4 (nth (N.to_nat i) (rev (hist_hashes cut5m)) 0) = i) (range 16))
          by (repeat constructor).
        rewrite Forall_forall in Hl. apply Hl, range_in, Hi.
Qed.

Lemma pf_drops : exists (h : hist N) v c c', valid MAX_PF h /\
  count_pf test_env h = Ret c /\ count_pf test_env (HInsert Insert keep h v) = Ret c' /\
  is_finite c = true /\ is_finite c' = true /\ (B2R c' < B2R c)%R.
Proof.
  destruct (drops_spec _ _ small_raw_drops) as (c & c' & A).
  exists small_raw, small_raw_next, c, c'. split; [apply pass_valid; unfold MAX_PF; lia|exact A].
Qed.

(** ** C31 *)
Lemma bias_total : forall e p raw, build e -> 4 <= p <= 18 -> is_nan raw = false ->
  exists b, estimate_bias e p raw = Ret b.
Proof.
  intros e p raw Hb Hp Hn. destruct (is_finite raw) eqn:Fr.
  { destruct (estimate_bias_ok e p raw Hb (proj1 Hp) (proj2 Hp) Fr) as (f & _ & E & _). eauto. }
  destruct raw as [| [|] | |]; try discriminate;
  destruct (tables_index p (proj1 Hp) (proj2 Hp)) as [IE IB];
  destruct (tables_good p (proj1 Hp) (proj2 Hp)) as (HL & H2 & HE & _);
  unfold estimate_bias, MIN_PRECISION; rewrite usub_ok, bind_ret by lia;
  rewrite IB, bind_ret, IE, bind_ret; clear IE IB; revert HL H2 HE;
  generalize (est_table p) (bias_table p); intros E B HL H2 HE;
  destruct (nth_some _ E 0) as [e0 He0]; try lia;
  destruct (nth_some _ B 0) as [b0 Hb0]; try lia;
  destruct (HE _ _ _ He0 Hb0) as (Fe0 & _);
  rewrite (index_ok _ E 0 e0 He0), bind_ret.
  - replace (fle (B754_infinity true) e0) with true by (destruct e0; try discriminate; reflexivity).
    exists b0. now apply index_ok.
  - replace (fle (B754_infinity false) e0) with false by (destruct e0; try discriminate; reflexivity).
    destruct (nth_some _ E (List.length E - 1)) as [el Hel]; [lia|].
    destruct (nth_some _ B (List.length B - 1)) as [bl Hbl]; [lia|]. rewrite <- HL in Hbl.
    destruct (HE _ _ _ Hel Hbl) as (Fel & _).
    rewrite usub_ok, bind_ret by (rewrite len_length; lia).
    rewrite (index_ok _ E _ el), bind_ret by (rewrite <- Hel; f_equal; rewrite len_length; lia).
    replace (fle el (B754_infinity false)) with true by (destruct el; try discriminate; reflexivity).
    rewrite usub_ok, bind_ret by (rewrite len_length; lia).
    exists bl. apply index_ok. rewrite <- Hbl. f_equal. rewrite len_length. lia.
Qed.

Lemma umul_total : forall ck w a b, ck = false \/ a * b < 2 ^ w -> exists c, umul ck w a b = Ret c.
Proof.
  intros ck w a b H. unfold umul. destruct (N.ltb_spec (a * b) (2 ^ w)); [eauto|].
  destruct H as [->|H]; [eauto|lia].
Qed.

Lemma raw_total : forall e l c, Forall (fun v => v < lut_bound e) l ->
  overflow_checks e = false \/ c * c < 2 ^ usize_bits e -> exists raw, estimate_raw_plus e l c = Ret raw.
Proof.
  intros e l c Hl H. rewrite estimate_raw_plus_gen by auto.
  destruct (umul_total (overflow_checks e) (usize_bits e) c c H) as [c2 ->]. rewrite bind_ret. eauto.
Qed.

Lemma corrected_total : forall e p l c, build e -> 4 <= p <= 18 -> Forall (fun v => v < lut_bound e) l ->
  overflow_checks e = false \/ c * c < 2 ^ usize_bits e -> exists x, estimate_corrected e p l c = Ret x.
Proof.
  intros e p l c Hb Hp Hl H. unfold estimate_corrected.
  destruct (raw_total e l c Hl H) as [raw ->]. rewrite bind_ret.
  destruct (fle raw _) eqn:E; [|eauto].
  destruct (bias_total e p raw Hb Hp) as [b ->]; [|rewrite bind_ret; eauto].
  destruct raw; try reflexivity. discriminate E.
Qed.

(** HyperLogLogPF: whatever the state, only the square of [count] can panic. *)
Lemma pf_safe : forall (V : Type) e (s : pf V), build e ->
  pf_count_est e s = Panic /\ overflow_checks e = true /\ 2 ^ usize_bits e <= pf_count s * pf_count s \/
  (exists c, pf_count_est e s = Ret c) /\
    (overflow_checks e = false \/ pf_count s * pf_count s < 2 ^ usize_bits e).
Proof.
  intros V e s Hb.
  assert (Hl : Forall (fun v => v < lut_bound e) (reg_iter 5 (pf_registers s))).
  { eapply Forall_impl; [|apply (reg_iter_lt 5); now left]. intros v Hv. cbv beta in Hv.
    change (2 ^ 5) with 32 in Hv. unfold lut_bound. destruct (feat_std e); lia. }
  destruct (overflow_checks e) eqn:Ck; destruct (N.lt_ge_cases (pf_count s * pf_count s) (2 ^ usize_bits e)) as [C|C].
  2:{ left. split; [|auto]. unfold pf_count_est. change SIZE_PF with 5.
      rewrite estimate_raw_plus_gen by auto. unfold umul.
      rewrite (proj2 (N.ltb_ge _ _) C), Ck. reflexivity. }
  all: right; split; [|auto]; unfold pf_count_est; change SIZE_PF with 5;
    (destruct (raw_total e _ (pf_count s) Hl) as [raw ->]; [rewrite Ck; auto|]); rewrite bind_ret; cbv zeta;
    (destruct (_ && _)%bool; [apply linear_total|]); (destruct (flt _ _); [|eauto]);
    destruct (ln_total e (fsub (of_Z 1) (fdiv raw (of_N (N.shiftl 1 32))))) as [y ->];
    rewrite bind_ret; eauto.
Qed.

(** HyperLogLogPlus with registers: whatever they contain. *)
Lemma plus_safe : forall (V : Type) e ord (s : plus V) r, build_std e -> 4 <= hp_precision s <= 18 ->
  hp_registers s = Some r ->
  overflow_checks e = false \/ hp_counts0 s * hp_counts0 s < 2 ^ usize_bits e ->
  exists c, hp_count e ord s = Ret (s, c).
Proof.
  intros V e ord s r Hb Hp Hr H. unfold hp_count, is_sparse. rewrite Hr, bind_ret, Hr. cbv zeta.
  assert (Hl : Forall (fun v => v < lut_bound e) (reg_iter 6 r)).
  { unfold lut_bound. rewrite (proj2 Hb). apply (reg_iter_lt 6). now right. }
  change SIZE_PLUS with 6.
  destruct (corrected_total e (hp_precision s) (reg_iter 6 r) (hp_counts0 s) (proj1 Hb) Hp Hl H) as [x ->].
  rewrite bind_ret. destruct (negb _); [|eauto].
  destruct (linear_total e (hp_counts0 s) (reg_zeros r)) as [y ->]. rewrite bind_ret.
  destruct (threshold_ok _ Hp) as [t ->]. rewrite bind_ret. destruct (fle y t); eauto.
Qed.

Lemma le_sorted : forall L, StronglySorted N.lt L -> StronglySorted N.le L.
Proof.
  intros L H. induction H as [|a L H IH F]; constructor; auto.
  eapply Forall_impl; [|exact F]. intros; cbv beta in *; lia.
Qed.

(** HyperLogLogPlus without registers, holding codes of this precision. *)
Lemma sparse_safe : forall (V : Type) e ord (s : plus V) p L, build_std e -> 4 <= p <= 18 ->
  2 * p < usize_bits e -> is_order ord ->
  hp_precision s = p -> hp_counts0 s = 2 ^ p -> hp_counts1 s = 2 ^ 24 -> hp_counts2 s = sparse_limit p ->
  hp_registers s = None -> NoDup (hp_tmpset s) -> N.of_nat (List.length (hp_tmpset s)) * 100 <= sparse_limit p ->
  StronglySorted N.lt L -> gap_len 0 L <= sparse_limit p ->
  for_each L (dif_push e) dif_new = Ret (hp_sparse s) ->
  (forall c, In c (hp_tmpset s ++ L) -> exists h, h < 2 ^ 64 /\ sparse_code p h = c) ->
  exists s' c, hp_count e ord s = Ret (s', c).
Proof.
  intros V e ord s p L Hb Hp Hw Ho Ep E0 E1 E2 Er ND Tl SL GL EL HC.
  assert (HH : exists H, Forall (fun h => h < 2 ^ 64) H /\ map (sparse_code p) H = hp_tmpset s ++ L).
  { revert HC. generalize (hp_tmpset s ++ L). clear. induction l as [|c l IH]; intros HC.
    - exists []. split; constructor.
    - destruct IH as (H & F & E); [intros c' Hc'; apply HC; now right|].
      destruct (HC c (or_introl eq_refl)) as (h & Hh & Ec). exists (h :: H).
      split; [now constructor|]. cbn [map]. congruence. }
  destruct HH as (H & FH & EH).
  destruct (dif_pushes e L [] dif_new dif_repr_new) as (d & Ed & Rd).
  - apply Forall_forall. intros c Hc. destruct (HC c) as (h & Hh & <-); [apply in_app_iff; auto|].
    now apply sparse_code_lt.
  - now apply le_sorted.
  - rewrite EL in Ed. injection Ed as <-.
    destruct (hp_count_ok V e ord p (hp_builder s) H s Hb Hp (or_introl Hw) Ho) as (s' & c & E & _).
    + split; [repeat split; auto|]. split; [exact FH|]. unfold body_ok. rewrite Er.
      split; [|exact Tl]. exists L. cbn [app] in Rd. repeat split; auto; apply Rd || idtac.
      * intros Hx. unfold PlusInv.codes. now rewrite EH.
      * intros Hx. unfold PlusInv.codes in Hx. now rewrite EH in Hx.
    + eauto.
Qed.

(** ** C39 *)
Lemma sparse_fits_b : forall p H, code_list_b p H (codes p H) = true ->
  gap_len 0 (codes p H) <= sparse_limit p -> fits p H.
Proof.
  intros p H E G L HL. rewrite (code_list_unique _ _ _ _ HL (code_list_b_ok p H _ E)). exact G.
Qed.

Lemma prefix_twice : exists h h' : hist N, valid MAX_PLUS h /\ valid MAX_PLUS h' /\
  hist_precision h = hist_precision h' /\
  fits (hist_precision h) (hist_hashes h) /\ fits (hist_precision h') (hist_hashes h') /\
  same_set (map prefix25 (hist_hashes h)) (map prefix25 (hist_hashes h')) /\
  exists c c', count_plus test_env keep h = Ret c /\ count_plus test_env keep h' = Ret c' /\
    is_finite c = true /\ is_finite c' = true /\ (B2R c' < B2R c)%R.
Proof.
  exists (pass_hist 10 [0; 2 ^ 38]), (pass_hist 10 [0]).
  split; [apply pass_valid; unfold MAX_PLUS; lia|]. split; [apply pass_valid; unfold MAX_PLUS; lia|].
  split; [reflexivity|].
  split; [apply sparse_fits_b; vm_compute; [reflexivity|discriminate]|].
  split; [apply sparse_fits_b; vm_compute; [reflexivity|discriminate]|].
  split; [|apply drops_spec; reflexivity].
  change (map prefix25 (hist_hashes (pass_hist 10 [0; 2 ^ 38]))) with [0; 0].
  change (map prefix25 (hist_hashes (pass_hist 10 [0]))) with [0].
  intros x. cbn. tauto.
Qed.

Lemma one_code_count : forall (V : Type) e ord ord' (h h' : hist V) n,
  build_std e -> valid MAX_PLUS h -> valid MAX_PLUS h' ->
  narrow (usize_bits e) h -> narrow (usize_bits e) h' -> is_order ord -> is_order ord' ->
  fits (hist_precision h) (hist_hashes h) -> fits (hist_precision h') (hist_hashes h') ->
  one_code (hist_precision h) (hist_hashes h) -> one_code (hist_precision h') (hist_hashes h') ->
  has_size (fun q => exists x, In x (hist_hashes h) /\ prefix25 x = q) n ->
  has_size (fun q => exists x, In x (hist_hashes h') /\ prefix25 x = q) n ->
  exists c, count_plus e ord h = Ret c /\ count_plus e ord' h' = Ret c.
Proof.
  intros V e ord ord' h h' n Hb Hv Hv' Hn Hn' Ho Ho' F F' O O' S S'.
  destruct (count_plus_ok V e ord h Hb Hv Hn Ho) as (_ & _ & c & _ & _ & E & _ & _ & L & HL & HV).
  destruct (count_plus_ok V e ord' h' Hb Hv' Hn' Ho') as (_ & _ & c' & _ & _ & E' & _ & _ & L' & HL' & HV').
  pose proof (hist_prec V _ h Hv) as P. pose proof (hist_prec V _ h' Hv') as P'. unfold MAX_PLUS in P, P'.
  pose proof (F L HL) as G. pose proof (F' L' HL') as G'.
  destruct HV as [[_ A]|[B _]]; [|lia]. destruct HV' as [[_ A']|[B' _]]; [|lia].
  destruct (codes_prefixes _ _ L n P HL S) as [_ [_ K]].
  destruct (codes_prefixes _ _ L' n P' HL' S') as [_ [_ K']].
  rewrite <- (K O) in A. rewrite <- (K' O') in A'. exists c. split; [exact E|]. congruence.
Qed.

(** ** C44 *)
Lemma published : forall p, 4 <= p <= 18 -> p <> 5 ->
  exists t, threshold p = Ret t /\ is_finite t = true /\ B2R t = published_threshold_R p.
Proof.
  intros p Hp N5. destruct (FloatFacts.threshold_is p Hp) as (t & E & [F Ev] & _).
  exists t. split; [exact E|]. split; [exact F|]. unfold val in Ev. rewrite Ev.
  unfold threshold_R, published_threshold_R. f_equal.
  assert (p = 4 \/ p = 6 \/ p = 7 \/ p = 8 \/ p = 9 \/ p = 10 \/ p = 11 \/ p = 12 \/
          p = 13 \/ p = 14 \/ p = 15 \/ p = 16 \/ p = 17 \/ p = 18) as D by lia.
  repeat (destruct D as [->|D]; [reflexivity|]). now subst p.
Qed.

Lemma five : exists t, threshold 5 = Ret t /\ is_finite t = true /\ B2R t = 10%R /\
  published_threshold_R 5 = 20%R.
Proof.
  destruct (FloatFacts.threshold_is 5 ltac:(lia)) as (t & E & [F Ev] & _).
  exists t. split; [exact E|]. split; [exact F|]. split; [exact Ev|reflexivity].
Qed.

Definition twelve : hist N := pass_hist 5 (reg_hashes 5 (repeat 1 12)).
Definition twelve_regs : list N := repeat 1 12 ++ repeat 0 20.

Definition below (x : Z) (m : M f64) : bool :=
  match m with Ret c => is_finite c && flt c (of_Z x) | _ => false end.
Lemma twelve_below : below 11 (count_plus test_env keep twelve) = true.
Proof. reflexivity. Qed.

(** Computing the register file. *)
Definition file (W p : N) (H : list N) : list N :=
  fold_right (fun h l => update l (bucket W p h)
    (N.max (nth (N.to_nat (bucket W p h)) l 0) (rank W p h))) (repeat 0 (N.to_nat (2 ^ p))) H.
Lemma file_ok : forall W p H, forallb (fun h => bucket W p h <? 2 ^ p) H = true ->
  is_register_file W p H (file W p H).
Proof.
  intros W p H. induction H as [|h H IH]; intros F; cbn [file fold_right].
  - apply is_register_file_nil.
  - cbn [forallb] in F. apply andb_true_iff in F. destruct F as [Fh F]. apply N.ltb_lt in Fh.
    specialize (IH F). apply is_register_file_insert; [exact IH|].
    apply nth_error_nth'. destruct IH as [L _]. unfold file in L. lia.
Qed.

Lemma twelve_observable : exists h : hist N, valid MAX_PLUS h /\ hist_precision h = 5 /\
  ~ fits 5 (hist_hashes h) /\
  (forall l, is_register_file 64 5 (hist_hashes h) l -> zero_count l = 20) /\
  (15 <= linear_R (2 ^ 5) 20 <= published_threshold_R 5)%R /\
  exists c, count_plus test_env keep h = Ret c /\ is_finite c = true /\ (B2R c < 11)%R.
Proof.
  exists twelve. split; [apply pass_valid; unfold MAX_PLUS; lia|]. split; [reflexivity|]. split.
  { intros F. assert (CL : is_code_list 5 (hist_hashes twelve) (codes 5 (hist_hashes twelve)))
      by (apply code_list_b_ok; vm_compute; reflexivity).
    specialize (F _ CL). vm_compute in F. now apply F. }
  split.
  { intros l RF. assert (FO : is_register_file 64 5 (hist_hashes twelve) (file 64 5 (hist_hashes twelve)))
      by (apply file_ok; vm_compute; reflexivity).
    rewrite (is_register_file_unique 64 5 _ _ _ ltac:(lia) RF FO). vm_compute. reflexivity. }
  split.
  { unfold linear_R, published_threshold_R. cbn - [Rmult Rdiv]. split; bound_const 60%Z. }
  pose proof twelve_below as B. destruct (count_plus test_env keep twelve) as [c| |]; try discriminate.
  exists c. split; [reflexivity|]. cbn [below] in B. apply andb_true_iff in B. destruct B as [F B].
  split; [exact F|]. destruct (of_Z_exact 11 ltac:(lia)) as [F11 V11].
  rewrite flt_spec in B by auto. revert B. case Rlt_bool_spec; [|discriminate].
  intros B _. rewrite V11 in B. exact B.
Qed.

(** ** The full statements *)
Lemma fresh_false : ~ (forall e p (b : N -> N), build e -> accurate e -> 4 <= p <= 16 ->
  exists s c, pf_new e p b = Ret (ROk s) /\ pf_count_est e s = Ret c /\ is_finite c = true /\ B2R c = 0%R).
Proof.
  intros F. destruct (F small_debug 16 pass (proj1 small_debug_build) small_debug_accurate ltac:(lia))
    as (s & c & E & Ec & _).
  pose proof pf_debug_panics as P. unfold count_pf in P. cbn [run_pf] in P.
  rewrite E in P. cbn [bind unwrap_res] in P. congruence.
Qed.

Lemma width_false : ~ (forall e e' ord (h : hist N), build_std e -> build_std e' ->
  accurate e -> accurate e' -> same_platform e e' -> valid MAX_PLUS h -> is_order ord ->
  exists c, count_plus e ord h = Ret c /\ count_plus e' ord h = Ret c).
Proof.
  intros F. destruct plus_width as (h & Hv & _ & P & _).
  destruct (F test_env small_debug keep h test_build small_debug_build test_accurate'
    small_debug_accurate debug_same Hv keep_order) as (c & _ & E). congruence.
Qed.

Lemma width_pf_false : ~ (forall e e' (h : hist N), build e -> build e' ->
  accurate e -> accurate e' -> same_platform e e' -> valid MAX_PF h ->
  exists c, count_pf e h = Ret c /\ count_pf e' h = Ret c).
Proof.
  intros F. destruct pf_width as (h & Hv & _ & P & _).
  destruct (F test_env small_debug h (proj1 test_build) (proj1 small_debug_build) test_accurate'
    small_debug_accurate debug_same Hv) as (c & _ & E). congruence.
Qed.

Lemma core_accurate' : accurate core_env.
Proof. intros H. discriminate H. Qed.

Lemma finite_false : ~ (forall e (h : hist N), build e -> accurate e -> valid MAX_PF h ->
  narrow (usize_bits e) h -> exists c, count_pf e h = Ret c /\ is_finite c = true).
Proof.
  intros F. destruct pf_nan as (c & E & Nc).
  destruct (F core_env (raised_pf 28) core_build core_accurate' (raised_pf_valid MAX_PF 28 ltac:(discriminate))
    (inserted_narrow _ 64 4 _ _ _ _ eq_refl)) as (c' & E' & F').
  rewrite E in E'. injection E' as <-. destruct c; discriminate.
Qed.

Lemma mono_false : ~ (forall e ord k ord' (h : hist N) v c c', build_std e -> accurate e ->
  valid MAX_PLUS h -> narrow (usize_bits e) h -> is_order ord -> is_order ord' ->
  count_plus e ord h = Ret c -> count_plus e ord (HInsert k ord' h v) = Ret c' -> (B2R c <= B2R c')%R).
Proof.
  intros F. destruct plus_drops as [(h & v & c & c' & Hv & _ & E & E' & _ & _ & L) _].
  apply (Rlt_not_le _ _ L). apply (F test_env keep Insert keep h v); auto using keep_order.
  - exact test_build.
  - exact test_accurate'.
  - exact (test_wide N MAX_PLUS h ltac:(unfold MAX_PLUS; lia) Hv).
Qed.

Lemma mono_pf_false : ~ (forall e k ord (h : hist N) v c c', build e -> accurate e ->
  valid MAX_PF h -> narrow (usize_bits e) h -> is_order ord ->
  count_pf e h = Ret c -> count_pf e (HInsert k ord h v) = Ret c' -> (B2R c <= B2R c')%R).
Proof.
  intros F. destruct pf_drops as (h & v & c & c' & Hv & E & E' & _ & _ & L).
  apply (Rlt_not_le _ _ L). apply (F test_env Insert keep h v); auto using keep_order.
  - exact (proj1 test_build).
  - exact test_accurate'.
  - exact (test_wide N MAX_PF h ltac:(unfold MAX_PF; lia) Hv).
Qed.

Lemma safe_false : ~ (forall e ord de_b v (s : plus N), build_std e -> is_order ord ->
  de_plus e de_b v = Some s -> exists s' c, hp_count e ord s = Ret (s', c)).
Proof.
  intros F. destruct (plus_panics_spec _ _ (proj1 bad_values)) as (s & E & P).
  destruct (F test_env keep de_mix bad_plus s test_build keep_order E) as (s' & c & E'). congruence.
Qed.

Lemma safe_sparse_false : exists v (s : plus N), de_plus test_env de_mix v = Some s /\
  is_sparse s = true /\ hp_count test_env keep s = Panic.
Proof.
  destruct (plus_panics_spec _ _ (proj1 (proj2 (proj2 bad_values)))) as (s & E & P).
  exists bad_sparse, s. split; [exact E|]. split; [|exact P].
  cbv in E. injection E as <-. reflexivity.
Qed.

Lemma safe_pf_false : ~ (forall e de_b v (s : pf N), build e ->
  de_pf e de_b v = Some s -> exists c, pf_count_est e s = Ret c).
Proof.
  intros F. destruct (pf_panics_spec _ _ (proj2 (proj2 (proj2 (proj2 bad_values))))) as (s & E & P).
  destruct (F test_env de_mix bad_pf s (proj1 test_build) E) as (c & E'). congruence.
Qed.

Lemma prefix_false : ~ (forall e ord (h h' : hist N) c c', build_std e -> accurate e ->
  valid MAX_PLUS h -> valid MAX_PLUS h' -> narrow (usize_bits e) h -> narrow (usize_bits e) h' ->
  is_order ord -> hist_precision h = hist_precision h' ->
  fits (hist_precision h) (hist_hashes h) -> fits (hist_precision h') (hist_hashes h') ->
  same_set (map prefix25 (hist_hashes h)) (map prefix25 (hist_hashes h')) ->
  count_plus e ord h = Ret c -> count_plus e ord h' = Ret c' -> c = c').
Proof.
  intros F. destruct prefix_twice as (h & h' & Hv & Hv' & Ep & Fi & Fi' & S & c & c' & E & E' & _ & _ & L).
  apply (Rlt_irrefl (B2R c')).
  rewrite <- (F test_env keep h h' c c') at 2; auto using keep_order.
  - exact test_build.
  - exact test_accurate'.
  - exact (test_wide N MAX_PLUS h ltac:(unfold MAX_PLUS; lia) Hv).
  - exact (test_wide N MAX_PLUS h' ltac:(unfold MAX_PLUS; lia) Hv').
Qed.
