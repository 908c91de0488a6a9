(** * The benchmarks: values *)
From Coq Require Import NArith ZArith Reals Lra List Bool Lia Permutation.
From Flocq Require Import Core BinarySingleNaN.
From Verif Require Import ModelRust ModelF64 ModelEnv ModelRegisters ModelCommon ModelPF ModelPlus ModelHistory ModelEval ModelFiles ModelTests ModelBench
  Spec SpecReal SpecBuild SpecBench BitFacts F64Facts AbsorbFacts LinearFacts FloatFacts PFInv PlusInv ModelConstants ClaimFloat Witness SandwichFacts RiskLinear BiasFacts BenchFacts.
Import ListNotations.
Local Open Scope R_scope.
Local Notation ln := Rpower.ln.

(** Few values: linear counting is used. *)
Lemma few_linear : forall e H l c, accurate e -> is_register_file 64 16 H l -> (length H <= 2000)%nat -> normal_value e 16 l = Ret c ->
  (65536 <= zero_count l + N.of_nat (length H))%N /\ (zero_count l <= 65536)%N /\ near_linear 65536 (zero_count l) c.
Proof.
  intros e H l c Ha RF HL Ec.
  pose proof (zeros_ge 64 16 H l H RF (incl_refl _)) as ZG. change (2 ^ 16)%N with 65536%N in ZG.
  pose proof (PFInv.zero_count_le l) as ZU. rewrite (proj1 RF) in ZU. change (2 ^ 16)%N with 65536%N in ZU.
  split; [exact ZG|]. split; [exact ZU|].
  set (z := zero_count l) in *.
  destruct (linear_ok e 65536 z Ha ltac:(lia) ltac:(lia) ltac:(lia)) as (c' & E & F & _ & _ & _ & B).
  assert (Z0 : 63536 <= IZR (Z.of_N z)) by (apply IZR_le; lia).
  assert (Z1 : IZR (Z.of_N z) <= 65536) by (apply IZR_le; lia).
  assert (L0 : 0 <= linear_R 65536 z).
  { apply (MonoFacts.linear_R_max 65536 z); lia. }
  assert (L1 : linear_R 65536 z <= 2100).
  { unfold linear_R. change (IZR (Z.of_N 65536)) with 65536.
    assert (Q : 65536 / IZR (Z.of_N z) <= 1.0315).
    { apply Rmult_le_reg_r with (IZR (Z.of_N z)); [lra|]. unfold Rdiv. rewrite Rmult_assoc, Rinv_l, Rmult_1_r by lra. lra. }
    pose proof (ln_below (65536 / IZR (Z.of_N z)) ltac:(apply Rdiv_lt_0_compat; lra)). lra. }
  rewrite (Rabs_pos_eq _ L0) in B.
  assert (B28 : bpow radix2 (-28) = / IZR (2 ^ 28)) by reflexivity.
  rewrite B28 in B.
  assert (I28 : 0 < / IZR (2 ^ 28) <= 0.5).
  { split; [apply Rinv_0_lt_compat; apply IZR_lt; reflexivity|]. replace 0.5 with (/ 2) by lra. apply Rinv_le; [lra|]. apply IZR_le. discriminate. }
  unfold normal_value in Ec. fold z in Ec. rewrite (proj2 (N.eqb_neq z 0)) in Ec by lia. cbn [negb] in Ec.
  change (2 ^ 16)%N with 65536%N in Ec. rewrite E, bind_ret in Ec.
  destruct (FloatFacts.threshold_is 16 ltac:(lia)) as (t & Et & [Ft Vt] & _). rewrite Et, bind_ret in Ec.
  assert (T : threshold_R 16 = 50000) by reflexivity.
  rewrite (fle_spec c' t F Ft), Vt, T in Ec.
  apply Rabs_le_inv in B.
  rewrite Rle_bool_true in Ec by (pose proof (Rmult_le_compat _ _ _ _ (Rlt_le _ _ (proj1 I28)) L0 (proj2 I28) L1); lra).
  injection Ec as <-. split; [exact F|]. apply Rabs_le. unfold val in B. lra.
Qed.

Lemma with_hash_bench : forall e ords draws b iters, build_std e -> accurate e -> (32 < usize_bits e)%N ->
  exists l c, is_register_file 64 16 (rev (map (hash64 b) (strings draws 2000))) l /\
    bench_insert_normal_with_hash e ords draws b iters = Ret (tt, repeat c (N.to_nat iters)) /\
    (65536 <= zero_count l + 2000)%N /\ near_linear 65536 (zero_count l) c.
Proof.
  intros e ords draws b iters Hb Ha Hu. assert (He : (32 <= usize_bits e)%N) by lia. unfold bench_insert_normal_with_hash.
  destruct (forced_normal_ok bytes e 16 b He ltac:(lia)) as (s0 & E0 & H0).
  set (H := rev (map (hash64 b) (strings draws 2000))).
  assert (ST : forall o, exists s, fill_plus e o (strings draws 2000) s0 = Ret s /\ normal_ok 16 b H s).
  { intros o. destruct (normal_fill bytes e 16 b o (strings draws 2000) [] s0 He ltac:(lia) H0) as (s & E & Hs). exists s. rewrite app_nil_r in Hs. auto. }
  destruct (ST (ords 0%N)) as (s & E & Hs).
  destruct (normal_count bytes e (ords 0%N 2000%N) 16 b H s Hb ltac:(lia) ltac:(lia) Hs) as (l & c & RF & NV & _).
  exists l, c. split; [exact RF|]. split.
  - destruct (iter_seen_inv unit _ (fun _ => True) c iters (fun u i =>
      let* s := forced_normal e 16 b in
      let* s := fill_plus e (ords i) (strings draws 2000) s in
      let* (_, c) := hp_count e (ords i 2000%N) s in
      Ret (u, c)) tt I) as ([] & E' & _); [|exact E'].
    intros [] k _. exists tt. split; [|exact I]. rewrite E0, bind_ret. destruct (ST (ords k)) as (s1 & E1 & H1). rewrite E1, bind_ret.
    destruct (normal_count bytes e (ords k 2000%N) 16 b H s1 Hb ltac:(lia) ltac:(lia) H1) as (l1 & c1 & RF1 & NV1 & E2).
    rewrite E2, bind_ret. rewrite (is_register_file_unique 64 16 H l1 l) in NV1; [congruence|lia|auto|auto].
  - assert (LH : length H = N.to_nat 2000) by (unfold H; rewrite rev_length, map_length, strings_length; reflexivity).
    destruct (few_linear e H l c Ha RF ltac:(rewrite LH; lia) NV) as (A & _ & B). rewrite LH, N2Nat.id in A. auto.
Qed.

Lemma count_normal_bench : forall e ords iters, build_std e -> accurate e -> (32 < usize_bits e)%N ->
  exists s c, bench_plus_count_normal e ords iters = Ret (s, repeat c (N.to_nat iters)) /\ is_finite c = true /\ B2R c = 0.
Proof.
  intros e ords iters Hb Ha Hu. assert (He : (32 <= usize_bits e)%N) by lia. unfold bench_plus_count_normal.
  destruct (forced_normal_ok N e 16 (fun x => x) He ltac:(lia)) as (s & -> & Hs). rewrite bind_ret.
  destruct (normal_count N e (ords 0%N) 16 _ [] s Hb ltac:(lia) ltac:(lia) Hs) as (l & c & RF & NV & _).
  destruct (iter_seen_inv _ _ (eq s) c iters (fun s i => hp_count e (ords i) s) s eq_refl) as (s' & E & _).
  { intros ? k <-. exists s. split; [|reflexivity].
    destruct (normal_count N e (ords k) 16 _ [] s Hb ltac:(lia) ltac:(lia) Hs) as (l1 & c1 & RF1 & NV1 & E2).
    rewrite E2. rewrite (is_register_file_unique 64 16 [] l1 l) in NV1; [congruence|lia|auto|auto]. }
  exists s', c. split; [exact E|].
  destruct (few_linear e [] l c Ha RF ltac:(cbn; lia) NV) as (A & A' & F & B). split; [exact F|].
  cbn [length] in A. assert (Z : zero_count l = 65536%N) by lia. rewrite Z in B. unfold linear_R in B.
  change (IZR (Z.of_N 65536)) with 65536 in B. unfold Rdiv in B. rewrite Rinv_r, ln_1, Rmult_0_r, Rmult_0_r, Rminus_0_r in B by lra.
  destruct (Req_dec (B2R c) 0) as [|N]; [auto|]. apply Rabs_pos_lt in N. lra.
Qed.

Lemma bias_18 : forall e n, build e -> (Z.abs n <= 2 ^ 53)%Z ->
  exists f, estimate_bias e 18 (lit n 3) = Ret f /\ bias_at_18 (B2R (lit n 3)) f.
Proof.
  intros e n He Hn. destruct (lit_correct n 3 Hn ltac:(lia)) as [F _].
  destruct (bias_defined e 18 (lit n 3) He ltac:(lia) F) as (f & y & E & Ff & I & B).
  exists f. split; [exact E|]. split; [exact Ff|]. exists y. split; [exact I|exact B].
Qed.

Lemma bias_bench : forall e iters, build e -> feat_std e = true ->
  exists l, bench_estimate_bias e iters = Ret (tt, repeat l (N.to_nat iters)) /\
    Forall2 bias_at_18 (map (fun n => B2R (lit n 3)) [275468768; 587532522; 1205430993; 1251260649]%Z) l.
Proof.
  intros e iters He _. unfold bench_estimate_bias.
  destruct (hp_new_ok N e 18 (fun x => x) (proj1 He) ltac:(lia)) as (s & -> & ((_ & P & _) & _) & _). rewrite bind_ret. cbn [unwrap_res]. rewrite bind_ret, P.
  destruct (bias_18 e 275468768 He ltac:(lia)) as (f1 & E1 & B1).
  destruct (bias_18 e 587532522 He ltac:(lia)) as (f2 & E2 & B2).
  destruct (bias_18 e 1205430993 He ltac:(lia)) as (f3 & E3 & B3).
  destruct (bias_18 e 1251260649 He ltac:(lia)) as (f4 & E4 & B4).
  exists [f1; f2; f3; f4]. split.
  - destruct (iter_seen_inv unit _ (fun _ => True) [f1; f2; f3; f4] iters (fun u _ =>
      let* a := estimate_bias e 18 (lit 275468768 3) in
      let* b := estimate_bias e 18 (lit 587532522 3) in
      let* c := estimate_bias e 18 (lit 1205430993 3) in
      let* d := estimate_bias e 18 (lit 1251260649 3) in
      Ret (u, [a; b; c; d])) tt I) as ([] & E & _); [|exact E].
    intros [] k _. exists tt. rewrite E1, bind_ret, E2, bind_ret, E3, bind_ret, E4, bind_ret. auto.
  - constructor; [exact B1|]. constructor; [exact B2|]. constructor; [exact B3|]. constructor; [exact B4|]. constructor.
Qed.

(** The cases of [bench_count]: below and above the threshold, at each precision. *)
Lemma bench_thresholds :
  map fst count_pf_cases = insert_precisions /\
  Forall (fun '(p, n) => 5 * m_R p < IZR (Z.of_N n)) count_pf_cases /\
  exists low high, count_plus_cases = flat_map (fun '(a, b) => [a; b]) (combine low high) /\
    map fst low = insert_precisions /\ map fst high = insert_precisions /\
    Forall (fun '(p, n) => IZR (Z.of_N n) <= threshold_R p) low /\
    Forall (fun '(p, n) => threshold_R p < IZR (Z.of_N n) /\ 5 * m_R p < IZR (Z.of_N n)) high.
Proof.
  split; [reflexivity|]. unfold m_R, threshold_R. split.
  - unfold count_pf_cases. repeat (apply Forall_cons; [cbn; lra|]). apply Forall_nil.
  - exists [(8, 200); (14, 10000); (16, 49000)]%N, [(8, 20000); (14, 100000); (16, 5000000)]%N.
    split; [reflexivity|]. split; [reflexivity|]. split; [reflexivity|]. split.
    + repeat (apply Forall_cons; [apply IZR_le; vm_compute; discriminate|]). apply Forall_nil.
    + repeat (apply Forall_cons; [split; [apply IZR_lt; reflexivity|cbn; lra]|]). apply Forall_nil.
Qed.
