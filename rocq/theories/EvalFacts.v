(** * The evaluation experiments *)
From Coq Require Import NArith ZArith Reals List Bool Permutation Lia Lra.
From Flocq Require Import Core BinarySingleNaN.
From Verif Require Import ModelRust ModelF64 ModelEnv ModelCommon ModelPF ModelPlus ModelHistory ModelEval
  Spec SpecBuild SpecEval SpecDist SpecProb PlusInv PFInv ObsFacts ClaimFacts ClaimFloat ClaimDist ProbFacts AccFacts AccSmall RiskFacts.
Import ListNotations.
Local Open Scope N_scope.

Lemma trunc_shown : forall c, shown c (trunc_u64 c).
Proof.
  assert (F : forall c, is_finite c = true -> trunc_u64 c = Z.to_N (Z.min (Btrunc c) (2 ^ 64 - 1))).
  { intros [s|s| |s m x H] E; try discriminate E; reflexivity. }
  intros c. split; [|split; [|split]].
  - destruct c as [s|s| |s m x H]; intros E; try discriminate E. reflexivity.
  - intros E. rewrite (F c E). assert (B : Btrunc c = Ztrunc (B2R c)).
    { apply eq_IZR. rewrite (Btrunc_correct 53 1024 _). unfold round, F2R, scaled_mantissa, cexp. cbn.
      unfold FIX_exp. cbn. rewrite !Rmult_1_r. reflexivity. }
    rewrite B. destruct (Z.le_gt_cases 0 (Z.min (Ztrunc (B2R c)) (2 ^ 64 - 1))) as [P|P].
    + rewrite Znat.Z2N.id by exact P. lia.
    + destruct (Z.min (Ztrunc (B2R c)) (2 ^ 64 - 1)) eqn:Q; lia.
  - intros H. subst c. reflexivity.
  - intros H. subst c. reflexivity.
Qed.

Section Loops.
Context {S : Type} (ins : N -> S -> N -> M S) (cnt : N -> S -> M (S * f64)).
Variable e : env.
(** The state [s] has absorbed the values of [l], the last first. *)
Variable good : S -> list N -> Prop.
(** What is counted then. *)
Variable counts : list N -> f64 -> Prop.
Variable legal : N -> Prop.
Hypothesis Hins : forall k s l v, good s l -> legal v -> exists s', ins k s v = Ret s' /\ good s' (v :: l).
Hypothesis Hcnt : forall k s l, good s l -> exists s' c, cnt k s = Ret (s', c) /\ good s' l /\ counts l c.

Lemma hashes_loop_ok : forall hs k s i l, good s l -> Forall legal hs -> i + N.of_nat (length hs) < 2 ^ usize_bits e ->
  exists out, hashes_loop ins cnt e k s i hs = Ret out /\ length out = length hs /\
  forall j, (j < length hs)%nat -> exists c, counts (rev (firstn (j + 1) hs) ++ l) c /\
    nth_error out j = Some (cast 64 (i + N.of_nat j + 1), trunc_u64 c).
Proof.
  induction hs as [|v hs IH]; intros k s i l G F B.
  - exists []. repeat split. intros j Hj. cbn in Hj. lia.
  - inversion F as [|? ? Lv F']; subst. destruct (Hins k s l v G Lv) as (s1 & E1 & G1).
    destruct (Hcnt (k + 1) s1 (v :: l) G1) as (s2 & c & E2 & G2 & C2).
    cbn [length] in B. rewrite Nat2N.inj_succ in B.
    destruct (IH (k + 2) s2 (i + 1) (v :: l) G2 F' ltac:(lia)) as (out & E3 & L3 & N3).
    exists ((cast 64 (i + 1), trunc_u64 c) :: out). split; [|split].
    + cbn [hashes_loop]. rewrite E1. cbn [bind]. unfold uadd.
      destruct (N.ltb_spec (i + 1) (2 ^ usize_bits e)) as [_|X]; [|lia]. cbn [bind]. rewrite E2. cbn [bind]. rewrite E3. reflexivity.
    + cbn [length]. now rewrite L3.
    + intros [|j] Hj.
      * exists c. split; [exact C2|]. cbn [nth_error N.of_nat]. now rewrite N.add_0_r.
      * destruct (N3 j) as (c' & C' & N'); [cbn in Hj; lia|]. exists c'. split.
        -- replace (rev (firstn (Datatypes.S j + 1) (v :: hs)) ++ l) with (rev (firstn (j + 1) hs) ++ v :: l); [exact C'|].
           cbn [Nat.add firstn rev]. now rewrite <- app_assoc.
        -- cbn [nth_error]. rewrite N'. do 3 f_equal. lia.
Qed.

Lemma fill_ok : forall draws m fuel k s c l card, m = N.to_nat (card - c) -> (m < fuel)%nat -> card < 2 ^ usize_bits e ->
  (forall i, legal (draws i)) -> good s (rev (first_draws draws c) ++ l) ->
  exists k' s', fill ins e fuel draws k s c card = Ret (k', s', N.max c card) /\
    good s' (rev (first_draws draws (N.max c card)) ++ l).
Proof.
  intros draws. induction m as [|m IH]; intros fuel k s c l card Em Hf Hc HD G.
  - destruct fuel as [|fuel]; [lia|]. cbn [fill]. destruct (N.ltb_spec c card) as [X|X]; [lia|].
    exists k, s. rewrite N.max_l by lia. auto.
  - destruct fuel as [|fuel]; [lia|]. cbn [fill]. destruct (N.ltb_spec c card) as [X|X]; [|lia].
    destruct (Hins k s _ (draws c) G (HD c)) as (s1 & E1 & G1). rewrite E1. cbn [bind]. unfold uadd.
    destruct (N.ltb_spec (c + 1) (2 ^ usize_bits e)) as [_|Y]; [|lia]. cbn [bind].
    destruct (IH fuel (k + 1) s1 (c + 1) l card ltac:(lia) ltac:(lia) Hc HD) as (k' & s' & E' & G').
    + replace (rev (first_draws draws (c + 1)) ++ l) with (draws c :: rev (first_draws draws c) ++ l); [exact G1|].
      unfold first_draws. rewrite N2Nat.inj_add. change (N.to_nat 1) with 1%nat. rewrite seq_app, map_app, rev_app_distr.
      cbn [seq map rev app Nat.add]. now rewrite N2Nat.id.
    + exists k', s'. replace (N.max c card) with (N.max (c + 1) card) by lia. auto.
Qed.

Lemma cards_loop_ok : forall draws cards k s c, (forall i, legal (draws i)) -> Forall (fun x => x < 2 ^ usize_bits e) cards ->
  good s (rev (first_draws draws c)) ->
  exists out, cardinalities_loop ins cnt e draws k s c cards = Ret out /\ length out = length cards /\
  forall j, (j < length cards)%nat ->
    let n := N.max c (largest (firstn (j + 1) cards)) in
    exists x, counts (rev (first_draws draws n)) x /\ nth_error out j = Some (cast 64 n, trunc_u64 x).
Proof.
  intros draws. induction cards as [|card cards IH]; intros k s c HD F G.
  - exists []. repeat split. intros j Hj. cbn in Hj. lia.
  - inversion F as [|? ? Lc F']; subst.
    destruct (fill_ok draws _ (N.to_nat (card - c) + 1) k s c [] card eq_refl ltac:(lia) Lc HD) as (k1 & s1 & E1 & G1); [now rewrite app_nil_r|].
    rewrite app_nil_r in G1. destruct (Hcnt k1 s1 _ G1) as (s2 & x & E2 & G2 & C2).
    destruct (IH (k1 + 1) s2 (N.max c card) HD F' G2) as (out & E3 & L3 & N3).
    exists ((cast 64 (N.max c card), trunc_u64 x) :: out). split; [|split].
    + cbn [cardinalities_loop]. rewrite E1. cbn [bind]. rewrite E2. cbn [bind]. rewrite E3. reflexivity.
    + cbn [length]. now rewrite L3.
    + intros [|j] Hj.
      * cbn [Nat.add firstn largest fold_right nth_error]. rewrite N.max_0_r. exists x. auto.
      * destruct (N3 j) as (x' & C' & N'); [cbn in Hj; lia|].
        cbn [Nat.add firstn nth_error]. unfold largest in *. cbn [fold_right].
        rewrite N.max_assoc. exists x'. auto.
Qed.
End Loops.

(** ** HyperLogLogPlus *)
Section Plus.
Variables (e : env) (ords : N -> list N -> list N) (p : N).
Hypothesis Hb : build_std e.
Hypothesis Ho : forall k, is_order (ords k).
Hypothesis Hp : 4 <= p <= 18.
Hypothesis Hw : 2 * p < usize_bits e.

Definition plus_good (s : plus N) (l : list N) : Prop :=
  exists h : hist N, run_plus e h = Ret s /\ valid MAX_PLUS h /\ narrow (usize_bits e) h /\
    hist_precision h = p /\ hist_builder h = hash_u64 /\ hist_hashes h = l.
Definition plus_shows (l : list N) (c : f64) : Prop :=
  exists h : hist N, valid MAX_PLUS h /\ narrow (usize_bits e) h /\ hist_precision h = p /\ hist_hashes h = l /\
    exists ord, is_order ord /\ count_plus e ord h = Ret c.

Lemma plus_ins : forall k s l v, plus_good s l -> v < 2 ^ 64 ->
  exists s', ins_plus e ords k s v = Ret s' /\ plus_good s' (v :: l).
Proof.
  intros k s l v (h & R & V & W & P & B & L) Hv.
  assert (V' : valid MAX_PLUS (HInsert Insert (ords k) h v)) by (split; [apply Ho|exact V]).
  destruct (plus_no_panic N e (ords k) _ Hb V' W (Ho k)) as (s' & _ & _ & R' & _).
  exists s'. split.
  - cbn [run_plus] in R'. rewrite R in R'. cbn [bind] in R'. exact R'.
  - exists (HInsert Insert (ords k) h v). split; [exact R'|]. split; [exact V'|]. split; [exact W|]. split; [exact P|].
    split; [exact B|]. cbn [hist_hashes]. rewrite B, L. unfold hash64, hash_u64, finish, write_u64. now rewrite N.mod_small.
Qed.

Lemma plus_cnt : forall k s l, plus_good s l ->
  exists s' c, cnt_plus e ords k s = Ret (s', c) /\ plus_good s' l /\ plus_shows l c.
Proof.
  intros k s l (h & R & V & W & P & B & L).
  destruct (plus_no_panic N e (ords k) h Hb V W (Ho k)) as (s0 & s' & c & R' & E).
  assert (s0 = s) by congruence. subst s0. exists s', c. split; [exact E|]. split.
  - exists (HCount (ords k) h). cbn [run_plus]. rewrite R. cbn [bind]. rewrite E. cbn [bind].
    repeat split; auto; apply Ho.
  - exists h. repeat (split; [assumption|]). exists (ords k). split; [apply Ho|]. unfold count_plus. rewrite R. cbn [bind]. now rewrite E.
Qed.

Lemma plus_start : exists s, (let* r := hp_new e p hash_u64 in unwrap_res r) = Ret s /\ plus_good s [].
Proof.
  destruct (plus_no_panic N e (ords 0) (HNew p hash_u64) Hb Hp Hw (Ho 0)) as (s & _ & _ & R & _).
  exists s. split; [exact R|]. exists (HNew p hash_u64). repeat split; auto; apply Hp.
Qed.

Lemma plus_line : forall l c, plus_shows l c ->
  forall (V : Type) ord (h : hist V), valid MAX_PLUS h -> narrow (usize_bits e) h -> is_order ord -> hist_precision h = p ->
  same_set (hist_hashes h) l -> count_plus e ord h = Ret c.
Proof.
  intros l c (h0 & V0 & W0 & P0 & L0 & ord0 & O0 & E0) V ord h HV HW HO HP SS.
  destruct (count_plus_same V N e e ord ord0 h h0 Hb Hb (same_platform_refl e) HV V0 HW W0 HO O0) as (c' & E & E'); [congruence|now rewrite L0|].
  congruence.
Qed.

Theorem hashes_plus : forall hs, Forall (fun x => x < 2 ^ 64) hs ->
  N.of_nat (length hs) < 2 ^ usize_bits e -> N.of_nat (length hs) < 2 ^ 64 ->
  exists out, eval_hashes_plus e ords p hs = Ret out /\ length out = length hs /\
  forall j (V : Type) ord (h : hist V), (j < length hs)%nat -> valid MAX_PLUS h -> narrow (usize_bits e) h -> is_order ord ->
    hist_precision h = p -> same_set (hist_hashes h) (firstn (j + 1) hs) ->
    exists c k, count_plus e ord h = Ret c /\ shown c k /\ nth_error out j = Some (N.of_nat (j + 1), k).
Proof.
  intros hs F B1 B2. destruct plus_start as (s & E & G).
  destruct (hashes_loop_ok (ins_plus e ords) (cnt_plus e ords) e plus_good plus_shows (fun x => x < 2 ^ 64) plus_ins plus_cnt hs 0 s 0 [] G F ltac:(lia))
    as (out & E1 & L1 & N1).
  exists out. split; [|split; [exact L1|]].
  - unfold eval_hashes_plus. destruct (hp_new e p hash_u64) as [r| |]; try discriminate E. cbn [bind] in E |- *. rewrite E. exact E1.
  - intros j V ord h Hj HV HW HO HP SS. destruct (N1 j Hj) as (c & C & Nth). rewrite app_nil_r in C.
    exists c, (trunc_u64 c). split; [|split; [apply trunc_shown|]].
    + apply (plus_line _ c C V ord h HV HW HO HP). intros x. rewrite <- in_rev. apply SS.
    + rewrite Nth. do 2 f_equal. unfold cast. rewrite N.mod_small; lia.
Qed.

Theorem cards_plus : forall draws cards, (forall i, draws i < 2 ^ 64) ->
  Forall (fun x => x < 2 ^ usize_bits e /\ x < 2 ^ 64) cards ->
  exists out, eval_cards_plus e ords p draws cards = Ret out /\ length out = length cards /\
  forall j (V : Type) ord (h : hist V), (j < length cards)%nat -> valid MAX_PLUS h -> narrow (usize_bits e) h -> is_order ord ->
    let n := largest (firstn (j + 1) cards) in
    hist_precision h = p -> same_set (hist_hashes h) (first_draws draws n) ->
    exists c k, count_plus e ord h = Ret c /\ shown c k /\ nth_error out j = Some (n, k).
Proof.
  intros draws cards D F. destruct plus_start as (s & E & G).
  destruct (cards_loop_ok (ins_plus e ords) (cnt_plus e ords) e plus_good plus_shows (fun x => x < 2 ^ 64) plus_ins plus_cnt draws cards 0 s 0 D
    ltac:(eapply Forall_impl; [|exact F]; cbv beta; tauto) G) as (out & E1 & L1 & N1).
  exists out. split; [|split; [exact L1|]].
  - unfold eval_cards_plus. destruct (hp_new e p hash_u64) as [r| |]; try discriminate E. cbn [bind] in E |- *. rewrite E. exact E1.
  - intros j V ord h Hj HV HW HO n HP SS. destruct (N1 j Hj) as (c & C & Nth). rewrite N.max_0_l in C, Nth. fold n in C, Nth.
    exists c, (trunc_u64 c). split; [|split; [apply trunc_shown|]].
    + apply (plus_line _ c C V ord h HV HW HO HP). intros x. rewrite <- in_rev. apply SS.
    + rewrite Nth. do 2 f_equal. unfold cast. apply N.mod_small. unfold n.
      assert (Q : forall l, Forall (fun x => x < 2 ^ usize_bits e /\ x < 2 ^ 64) l -> largest l < 2 ^ 64).
      { induction 1 as [|x l [_ X] _ IH]; [reflexivity|]. unfold largest in *. cbn [fold_right]. lia. }
      apply Q. rewrite <- (firstn_skipn (j + 1) cards) in F. now apply Forall_app in F.
Qed.
End Plus.

(** ** HyperLogLogPF *)
Section PF.
Variables (e : env) (p : N).
Hypothesis Hb : build e.
Hypothesis Hp : 4 <= p <= 16.
Hypothesis Hw : 2 * p < usize_bits e.

Definition pf_good (s : pf N) (l : list N) : Prop :=
  exists h : hist N, run_pf e h = Ret s /\ valid MAX_PF h /\ narrow (usize_bits e) h /\
    hist_precision h = p /\ hist_builder h = hash_u32 /\ hist_hashes h = l.
Definition pf_shows (l : list N) (c : f64) : Prop :=
  exists h : hist N, valid MAX_PF h /\ narrow (usize_bits e) h /\ hist_precision h = p /\ hist_hashes h = l /\
    count_pf e h = Ret c.

Lemma pf_ins : forall k s l v, pf_good s l -> v < 2 ^ 32 ->
  exists s', ins_pf e k s v = Ret s' /\ pf_good s' (v :: l).
Proof.
  intros k s l v (h & R & V & W & P & B & L) Hv.
  assert (V' : valid MAX_PF (HInsert Insert (fun l => l) h v)) by (split; [intros x; apply Permutation_refl|exact V]).
  destruct (pf_no_panic N e _ Hb V' W) as (s' & _ & R' & _).
  exists s'. split.
  - cbn [run_pf] in R'. rewrite R in R'. cbn [bind] in R'. exact R'.
  - exists (HInsert Insert (fun l => l) h v). split; [exact R'|]. split; [exact V'|]. split; [exact W|]. split; [exact P|].
    split; [exact B|]. cbn [hist_hashes]. rewrite B, L. unfold hash64, hash_u32, finish, write_u32. rewrite N.mod_small; [reflexivity|].
    eapply N.lt_trans; [exact Hv|reflexivity].
Qed.

Lemma pf_cnt : forall k s l, pf_good s l ->
  exists s' c, cnt_pf e k s = Ret (s', c) /\ pf_good s' l /\ pf_shows l c.
Proof.
  intros k s l (h & R & V & W & P & B & L).
  destruct (pf_no_panic N e h Hb V W) as (s0 & c & R' & E).
  assert (s0 = s) by congruence. subst s0. exists s, c. split; [unfold cnt_pf; now rewrite E|]. split.
  - exists h. repeat split; auto.
  - exists h. repeat (split; [assumption|]). unfold count_pf. rewrite R. exact E.
Qed.

Lemma pf_start : exists s, (let* r := pf_new e p hash_u32 in unwrap_res r) = Ret s /\ pf_good s [].
Proof.
  destruct (pf_no_panic N e (HNew p hash_u32) Hb Hp Hw) as (s & _ & R & _).
  exists s. split; [exact R|]. exists (HNew p hash_u32). repeat split; auto; apply Hp.
Qed.

Lemma low32_small : forall l, Forall (fun x => x < 2 ^ 32) l -> low32 l = l.
Proof.
  induction 1 as [|x l X _ IH]; [reflexivity|]. unfold low32 in *. cbn [map]. rewrite IH, N.mod_small; auto.
Qed.

Lemma pf_line : forall l c, Forall (fun x => x < 2 ^ 32) l -> pf_shows l c ->
  forall (V : Type) (h : hist V), valid MAX_PF h -> narrow (usize_bits e) h -> hist_precision h = p ->
  same_set (map (fun x => x mod 2 ^ 32) (hist_hashes h)) l -> count_pf e h = Ret c.
Proof.
  intros l c F (h0 & V0 & W0 & P0 & L0 & E0) V h HV HW HP SS.
  destruct (count_pf_same V N e e h h0 Hb Hb (same_platform_refl e) HV V0 HW W0) as (c' & E & E'); [congruence| |congruence].
  rewrite L0, (low32_small l F). exact SS.
Qed.

Theorem hashes_pf : forall hs, Forall (fun x => x < 2 ^ 32) hs ->
  N.of_nat (length hs) < 2 ^ usize_bits e -> N.of_nat (length hs) < 2 ^ 64 ->
  exists out, eval_hashes_pf e p hs = Ret out /\ length out = length hs /\
  forall j (V : Type) (h : hist V), (j < length hs)%nat -> valid MAX_PF h -> narrow (usize_bits e) h ->
    hist_precision h = p -> same_set (map (fun x => x mod 2 ^ 32) (hist_hashes h)) (firstn (j + 1) hs) ->
    exists c k, count_pf e h = Ret c /\ shown c k /\ nth_error out j = Some (N.of_nat (j + 1), k).
Proof.
  intros hs F B1 B2. destruct pf_start as (s & E & G).
  destruct (hashes_loop_ok (ins_pf e) (cnt_pf e) e pf_good pf_shows (fun x => x < 2 ^ 32) pf_ins pf_cnt hs 0 s 0 [] G F ltac:(lia))
    as (out & E1 & L1 & N1).
  exists out. split; [|split; [exact L1|]].
  - unfold eval_hashes_pf. destruct (pf_new e p hash_u32) as [r| |]; try discriminate E. cbn [bind] in E |- *. rewrite E. exact E1.
  - intros j V h Hj HV HW HP SS. destruct (N1 j Hj) as (c & C & Nth). rewrite app_nil_r in C.
    exists c, (trunc_u64 c). split; [|split; [apply trunc_shown|]].
    + apply (pf_line _ c) with (2 := C); auto.
      * apply Forall_rev. rewrite <- (firstn_skipn (j + 1) hs) in F. now apply Forall_app in F.
      * intros x. rewrite <- in_rev. apply SS.
    + rewrite Nth. do 2 f_equal. unfold cast. rewrite N.mod_small; lia.
Qed.

Theorem cards_pf : forall draws cards, (forall i, draws i < 2 ^ 32) ->
  Forall (fun x => x < 2 ^ usize_bits e /\ x < 2 ^ 64) cards ->
  exists out, eval_cards_pf e p draws cards = Ret out /\ length out = length cards /\
  forall j (V : Type) (h : hist V), (j < length cards)%nat -> valid MAX_PF h -> narrow (usize_bits e) h ->
    let n := largest (firstn (j + 1) cards) in
    hist_precision h = p -> same_set (map (fun x => x mod 2 ^ 32) (hist_hashes h)) (first_draws draws n) ->
    exists c k, count_pf e h = Ret c /\ shown c k /\ nth_error out j = Some (n, k).
Proof.
  intros draws cards D F. destruct pf_start as (s & E & G).
  destruct (cards_loop_ok (ins_pf e) (cnt_pf e) e pf_good pf_shows (fun x => x < 2 ^ 32) pf_ins pf_cnt draws cards 0 s 0 D
    ltac:(eapply Forall_impl; [|exact F]; cbv beta; tauto) G) as (out & E1 & L1 & N1).
  exists out. split; [|split; [exact L1|]].
  - unfold eval_cards_pf. destruct (pf_new e p hash_u32) as [r| |]; try discriminate E. cbn [bind] in E |- *. rewrite E. exact E1.
  - intros j V h Hj HV HW n HP SS. destruct (N1 j Hj) as (c & C & Nth). rewrite N.max_0_l in C, Nth. fold n in C, Nth.
    exists c, (trunc_u64 c). split; [|split; [apply trunc_shown|]].
    + apply (pf_line _ c) with (2 := C); auto.
      * apply Forall_rev. unfold first_draws. apply Forall_map, Forall_forall. intros i _. apply D.
      * intros x. rewrite <- in_rev. apply SS.
    + rewrite Nth. do 2 f_equal. unfold cast. apply N.mod_small. unfold n.
      assert (Q : forall l, Forall (fun x => x < 2 ^ usize_bits e /\ x < 2 ^ 64) l -> largest l < 2 ^ 64).
      { induction 1 as [|x l [_ X] _ IH]; [reflexivity|]. unfold largest in *. cbn [fold_right]. lia. }
      apply Q. rewrite <- (firstn_skipn (j + 1) cards) in F. now apply Forall_app in F.
Qed.
End PF.

(** ** Every line is exact *)
Lemma distinct_codes : forall p n hs, hash_list 64 n hs -> (lost n hs < 1)%R -> NoDup (map (sparse_code p) hs).
Proof.
  intros p n hs HH B. destruct (code_list_exists p hs) as (L & HL).
  destruct (lost_codes p n hs hs L 1 HH (fun x => iff_refl _) HL B) as [B1 B2].
  assert (EL : length L = n).
  { apply INR_le in B2. rewrite !INR_IZR_INZ, <- minus_IZR in B1. apply lt_IZR in B1. lia. }
  destruct HL as [S SS]. apply NoDup_incl_NoDup with L.
  - clear - S. induction S as [|x l S IH F]; constructor; auto. intros I. rewrite Forall_forall in F. apply F in I. lia.
  - rewrite map_length. destruct HH as [-> _]. lia.
  - intros x. apply SS.
Qed.

Theorem exact_lines : forall e ords p n, build_std e -> accurate e -> (forall k, is_order (ords k)) -> 4 <= p <= 18 ->
  2 * p < usize_bits e -> 4 * N.of_nat n + 16 <= sparse_limit p -> N.of_nat n <= 5791 ->
  rare 64 n (INR n ^ 2 / IZR (2 ^ 26))
    (fun hs => eval_hashes_plus e ords p hs <> Ret (map (fun i => (N.of_nat i, N.of_nat i)) (seq 1 n))).
Proof.
  intros e ords p n Hb Ha Ho Hp Hw Hl Hn. eapply rare_weaken; [apply (lost_rare n 1); lra|lra|].
  intros hs HH NE. apply Rnot_lt_le. intros B. apply NE. clear NE.
  pose proof (distinct_codes p n hs HH B) as ND. destruct HH as [Len F].
  assert (P32 : 2 ^ 32 <= 2 ^ usize_bits e) by (apply N.pow_le_mono_r; [discriminate|apply Hb]).
  change (2 ^ 32) with 4294967296 in P32.
  destruct (hashes_plus e ords p Hb Ho Hp Hw hs F) as (out & E & L & Nth); [lia|rewrite Len; eapply N.le_lt_trans; [exact Hn|reflexivity]|].
  rewrite E. f_equal. apply nth_ext with (d := (0, 0)) (d' := (0, 0)); [now rewrite map_length, seq_length, L|].
  intros j Hj. rewrite L in Hj.
  assert (F' : Forall (fun x => x < 2 ^ 64) (firstn (j + 1) hs)) by (rewrite <- (firstn_skipn (j + 1) hs) in F; now apply Forall_app in F).
  destruct (inserts_ok p _ _ Hp Hw F') as (V & W & P & Hh). set (h := inserts p (firstn (j + 1) hs)) in *.
  destruct (Nth j N (fun l => l) h Hj V W (fun l => Permutation_refl l) P) as (c & k & Ec & Sh & No); [rewrite Hh; intros x; apply iff_refl|].
  destruct (code_list_exists p (firstn (j + 1) hs)) as (L' & HL').
  assert (EL : length L' = (j + 1)%nat).
  { destruct HL' as [S SS]. assert (ND' : NoDup L').
    { clear - S. induction S as [|x l S IH G]; constructor; auto. intros I. rewrite Forall_forall in G. apply G in I. lia. }
    assert (NDf : NoDup (map (sparse_code p) (firstn (j + 1) hs))).
    { rewrite <- (firstn_skipn (j + 1) hs), map_app in ND. revert ND. generalize (map (sparse_code p) (firstn (j + 1) hs)) as a, (map (sparse_code p) (skipn (j + 1) hs)) as b.
      clear. induction a as [|x a IH]; intros b ND; [constructor|]. inversion ND; subst. constructor; [rewrite in_app_iff in *; tauto|eauto]. }
    pose proof (NoDup_incl_length ND' (fun x => proj1 (SS x))) as A1. pose proof (NoDup_incl_length NDf (fun x => proj2 (SS x))) as A2.
    rewrite map_length, firstn_length in A1, A2. lia. }
  destruct (small_exact_any N e (fun l => l) h L' Hb Ha V W (fun l => Permutation_refl l)) as (c' & Ec' & Fc & T).
  - rewrite P, Hh. exact HL'.
  - rewrite P, EL. lia.
  - lia.
  - assert (c' = c) by congruence. subst c'. destruct Sh as (_ & Sh & _). specialize (Sh Fc). rewrite T, EL in Sh.
    rewrite (nth_error_nth _ _ _ No). etransitivity; [|symmetry; exact (map_nth (fun i => (N.of_nat i, N.of_nat i)) (seq 1 n) 0%nat j)].
    cbv beta. rewrite seq_nth by lia. replace (1 + j)%nat with (j + 1)%nat by lia. f_equal. lia.
Qed.

(** ** Illegal precisions *)
Theorem eval_precisions : forall e ords p draws l, build e ->
  (~ 4 <= p <= 18 -> eval_hashes_plus e ords p l = Panic /\ eval_cards_plus e ords p draws l = Panic) /\
  (~ 4 <= p <= 16 -> eval_hashes_pf e p l = Panic /\ eval_cards_pf e p draws l = Panic).
Proof.
  intros e ords p draws l Hb. split; intros NP.
  - destruct (plus_new_cases N e p hash_u64 Hb) as [[P _]|[_ E]]; [contradiction|].
    unfold eval_hashes_plus, eval_cards_plus. rewrite E. split; reflexivity.
  - destruct (pf_new_cases N e p hash_u32 Hb) as [[P _]|[_ E]]; [contradiction|].
    unfold eval_hashes_pf, eval_cards_pf. rewrite E. split; reflexivity.
Qed.

(** ** The hasher *)
Lemma hasher : (forall v, hash_u32 v = v /\ hash_u64 v = v) /\
  (forall bytes, finish (write build_hasher bytes) = 0) /\
  (forall s v bytes, finish (write (write_u64 s v) bytes) = v).
Proof. repeat split. Qed.
