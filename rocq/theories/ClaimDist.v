(** * Sketches over all hash assignments; codes per sketch; extreme counts *)
From Coq Require Import NArith ZArith Reals List Bool String Lia Lra Permutation Sorted.
From Flocq Require Import Core BinarySingleNaN.
From Verif Require Import ModelRust ModelF64 ModelEnv ModelRegisters ModelEncoding ModelCommon
  ModelError ModelPF ModelPlus ModelConstants ModelSerde ModelHistory Spec SpecDist SpecSketch SpecReal
  SpecCount SpecBuild BitFacts RegFacts EncFacts CodeFacts CountFacts DistFacts AbsorbFacts PFInv PlusInv
  RawFacts ClaimFacts ClaimFloat Witness.
Import ListNotations.
Local Open Scope N_scope.

(** ** The registers that the code computes for a list of hashes *)

Lemma map_hash64_id : forall W hs, W <= 64 -> Forall (fun h => h < 2 ^ W) hs ->
  map (hash64 (fun x => x)) hs = hs.
Proof.
  intros W hs HW F. induction F; [reflexivity|]. cbn [map]. rewrite IHF. f_equal.
  unfold hash64. apply N.mod_small. apply N.lt_le_trans with (1 := H). apply N.pow_le_mono_r; lia.
Qed.

Lemma pf_file_of : forall e p k hs, build e -> 4 <= p <= 16 -> 2 * p < usize_bits e ->
  Forall (fun h => h < 2 ^ 32) hs -> exists s,
    run_pf e (inserted p (fun x => x) k (fun l => l) hs) = Ret s /\
    is_register_file 32 p hs (reg_iter SIZE_PF (pf_registers s)) /\
    reg_zeros (pf_registers s) = zero_count (reg_iter SIZE_PF (pf_registers s)).
Proof.
  intros e p k hs Hb Hp Hu HF. set (h := inserted p (fun x => x) k (fun l => l) hs).
  assert (Ho : is_order (fun l => l)) by (intros l; apply Permutation_refl).
  destruct (inserted_spec N p (fun x => x) k (fun l => l) hs) as (A & _ & C & D & F). fold h in A, C, D, F.
  destruct (pf_registers_max N e h Hb (D _ Ho Hp) (F _ Hu)) as (s & E & _ & RF & Z).
  exists s. split; [exact E|]. split; [|exact Z]. rewrite A in RF.
  apply register_file_same with (2 := RF). intros x. rewrite in_map_iff.
  rewrite (map_hash64_id 32 hs ltac:(lia) HF) in C. rewrite Forall_forall in HF. split.
  - intros (y & <- & Hy). apply C in Hy. rewrite N.mod_small by now apply HF. exact Hy.
  - intros Hx. exists x. split; [apply N.mod_small, HF, Hx|now apply C].
Qed.

Lemma pf_files_ok : forall e p n k file, build e -> 4 <= p <= 16 -> 2 * p < usize_bits e ->
  pf_files e p n k file -> register_files 32 p n file.
Proof.
  intros e p n k file Hb Hp Hu HF hs Hh. destruct (HF hs Hh) as (s & E & -> & _).
  destruct (pf_file_of e p k hs Hb Hp Hu (proj2 Hh)) as (s' & E' & R & _). congruence.
Qed.

Lemma pf_files_exist : forall e p n k, build e -> 4 <= p <= 16 -> 2 * p < usize_bits e ->
  exists file, pf_files e p n k file.
Proof.
  intros e p n k Hb Hp Hu.
  exists (fun hs => match run_pf e (inserted p (fun x => x) k (fun l => l) hs) with
                    | Ret s => reg_iter SIZE_PF (pf_registers s) | _ => [] end).
  intros hs [_ Hh]. destruct (pf_file_of e p k hs Hb Hp Hu Hh) as (s & E & _ & Z).
  exists s. rewrite E. auto.
Qed.

Lemma plus_file_of : forall e p k ord hs, build_std e -> 4 <= p <= 18 -> 2 * p < usize_bits e ->
  is_order ord -> Forall (fun h => h < 2 ^ 64) hs -> exists s s' r,
    run_plus e (HCount ord (inserted p (fun x => x) k ord hs)) = Ret s /\
    (if is_sparse s then sparse_to_normal e s else Ret s) = Ret s' /\
    hp_registers s' = Some r /\ is_register_file 64 p hs (reg_iter SIZE_PLUS r) /\
    reg_zeros r = zero_count (reg_iter SIZE_PLUS r).
Proof.
  intros e p k ord hs Hb Hp Hu Ho HF. set (h := inserted p (fun x => x) k ord hs).
  destruct (inserted_spec N p (fun x => x) k ord hs) as (A & B & C & D & F). fold h in A, B, C, D, F.
  rewrite (map_hash64_id 64 hs ltac:(lia) HF) in C.
  destruct (count_plus_ok N e ord h Hb (D _ Ho Hp) (F _ Hu) Ho)
    as (s0 & s & c & E0 & E1 & _ & Hd & Hf & _).
  rewrite A in Hd, Hf. apply (flushed_ext N p _ hs s C) in Hf.
  assert (E : run_plus e (HCount ord h) = Ret s).
  { cbn [run_plus]. rewrite E0, bind_ret, E1. reflexivity. }
  assert (Fin : forall r, holds 6 64 p hs r ->
    is_register_file 64 p hs (reg_iter SIZE_PLUS r) /\ reg_zeros r = zero_count (reg_iter SIZE_PLUS r)).
  { intros r (_ & _ & Z & RF & _). auto. }
  exists s. unfold is_sparse. destruct Hf as [T Hf]. destruct (hp_registers s) as [r|] eqn:Er.
  - exists s, r. destruct Hf as (_ & Hr & _). destruct (Fin r Hr). auto.
  - destruct Hf as (L & HL & HD & _).
    destruct (sparse_to_normal_ok N e p _ hs L s (proj1 (proj1 Hb)) Hp Hd HF HL HD)
      as (s' & r & E' & _ & _ & _ & R & Hr).
    exists s', r. destruct (Fin r Hr). auto.
Qed.

Lemma plus_files_ok : forall e p n k ord file, build_std e -> 4 <= p <= 18 ->
  2 * p < usize_bits e -> is_order ord ->
  plus_files e p n k ord file -> register_files 64 p n file.
Proof.
  intros e p n k ord file Hb Hp Hu Ho HF hs Hh. destruct (HF hs Hh) as (s & s' & r & E & E' & R & -> & _).
  destruct (plus_file_of e p k ord hs Hb Hp Hu Ho (proj2 Hh)) as (t & t' & r' & F & F' & R' & G & _).
  rewrite E in F. injection F as <-. rewrite E' in F'. injection F' as <-. rewrite R in R'.
  injection R' as <-. exact G.
Qed.

Lemma plus_files_exist : forall e p n k ord, build_std e -> 4 <= p <= 18 ->
  2 * p < usize_bits e -> is_order ord -> exists file, plus_files e p n k ord file.
Proof.
  intros e p n k ord Hb Hp Hu Ho.
  exists (fun hs =>
    match run_plus e (HCount ord (inserted p (fun x => x) k ord hs)) with
    | Ret s => match (if is_sparse s then sparse_to_normal e s else Ret s) with
               | Ret s' => match hp_registers s' with Some r => reg_iter SIZE_PLUS r | None => [] end
               | _ => [] end
    | _ => [] end).
  intros hs [_ Hh]. destruct (plus_file_of e p k ord hs Hb Hp Hu Ho Hh) as (s & s' & r & E & E' & R & _ & Z).
  exists s, s', r. rewrite E, E', R. auto.
Qed.

(** ** How many codes fit *)
Lemma codes_bytes : forall p H L, Forall (fun h => h < 2 ^ 64) H -> is_code_list p H L ->
  N.of_nat (List.length L) <= gap_len 0 L <= 4 * N.of_nat (List.length L) + 16.
Proof.
  intros p H L HH [HS HL]. split; [apply gap_len_length|].
  assert (F : Forall (fun x => 0 <= x < 2 ^ 32) L).
  { apply Forall_forall. intros x Hx. apply HL in Hx. apply in_map_iff in Hx.
    destruct Hx as (h & <- & Hh). split; [lia|]. apply sparse_code_lt.
    rewrite Forall_forall in HH. auto. }
  pose proof (gap_len_4 L 0 HS F) as G. rewrite N.add_0_r, N.max_r in G by lia.
  change (2 ^ 32) with 4294967296 in *. change (2 ^ 28) with 268435456 in *. lia.
Qed.

Lemma plus_sparse_by_size : forall (V : Type) e ord (h : hist V) L,
  build_std e -> valid MAX_PLUS h -> narrow (usize_bits e) h -> is_order ord ->
  is_code_list (hist_precision h) (hist_hashes h) L ->
  exists s, run_plus e (HCount ord h) = Ret s /\
    (4 * N.of_nat (List.length L) + 16 <= sparse_limit (hist_precision h) -> is_sparse s = true) /\
    (sparse_limit (hist_precision h) < N.of_nat (List.length L) -> is_sparse s = false).
Proof.
  intros V e ord h L Hb Hv Hn Ho HL.
  destruct (plus_sparse_iff V e ord h L Hb Hv Hn Ho HL) as (s & s' & c & E & E' & I).
  exists s'. split; [cbn [run_plus]; rewrite E, bind_ret, E'; reflexivity|].
  pose proof (codes_bytes _ _ L (hashes_lt V h) HL). split.
  - intros B. apply I. lia.
  - intros B. destruct (is_sparse s'); [|reflexivity]. pose proof (proj1 I eq_refl). lia.
Qed.

Lemma small_exact_any : forall (V : Type) e ord (h : hist V) L,
  build_std e -> accurate e -> valid MAX_PLUS h -> narrow (usize_bits e) h -> is_order ord ->
  is_code_list (hist_precision h) (hist_hashes h) L ->
  4 * N.of_nat (List.length L) + 16 <= sparse_limit (hist_precision h) -> N.of_nat (List.length L) <= 5791 ->
  exists c, count_plus e ord h = Ret c /\ is_finite c = true /\
    Ztrunc (B2R c) = Z.of_nat (List.length L).
Proof.
  intros V e ord h L Hb Ha Hv Hn Ho HL B H5. eapply small_exact; eauto.
  pose proof (codes_bytes _ _ L (hashes_lt V h) HL). lia.
Qed.

(** ** estimate_raw *)
Lemma fadd_zero_l : forall z x, z = pzero \/ z = nzero -> is_finite x = true -> B2R x <> 0%R ->
  fadd z x = x.
Proof.
  intros z x [->| ->] F Hx; destruct x; try discriminate F; try reflexivity; now elim Hx.
Qed.

Lemma for_each_raw : forall e l x z, Forall (fun v => v < 64) l ->
  z + N.of_nat (List.length l) < 2 ^ usize_bits e ->
  for_each l
      (fun acc value =>
         let* x := inv_pow e value in
         let* z := uadd (overflow_checks e) (usize_bits e) (snd acc)
                        (if value =? 0 then 1 else 0) in
         Ret (fadd (fst acc) x, z)) (x, z)
  = Ret (fsum x l, z + zero_count l).
Proof.
  induction l as [|v l IH]; intros x z F B.
  - cbn. now rewrite N.add_0_r.
  - inversion F; subst. cbn [for_each fst snd]. rewrite inv_pow_ok by assumption. rewrite bind_ret.
    cbn [List.length] in B. rewrite uadd_ok by (destruct (v =? 0); lia). rewrite !bind_ret.
    rewrite IH by (auto; destruct (v =? 0); lia). f_equal. f_equal. unfold zero_count. cbn [filter].
    rewrite (N.eqb_sym 0 v). destruct (v =? 0); cbn [List.length]; lia.
Qed.

Lemma estimate_raw_gen : forall e p l, build e -> 4 <= p <= 18 -> 2 * p < usize_bits e ->
  N.of_nat (List.length l) = 2 ^ p -> Forall (fun v => v < if feat_std e then 64 else 32) l ->
  exists x, estimate_raw e l (2 ^ p) = Ret (x, zero_count l) /\
            estimate_raw_plus e l (2 ^ p) = Ret x.
Proof.
  intros e p l Hb Hp Hu HL HF.
  assert (P2 : 2 ^ p * 2 ^ p < 2 ^ usize_bits e) by (rewrite <- N.pow_add_r; apply pow2_lt; lia).
  assert (P1 : 2 ^ p < 2 ^ usize_bits e) by (apply pow2_lt; lia).
  assert (F64 : Forall (fun v => v < 64) l).
  { eapply Forall_impl; [|exact HF]. cbv beta. intros v Hv. destruct (feat_std e); lia. }
  rewrite estimate_raw_plus_ok by auto. unfold estimate_raw.
  rewrite for_each_raw by (auto; lia). rewrite bind_ret. rewrite umul_ok by auto. rewrite bind_ret.
  eexists. rewrite N.add_0_l. split; [reflexivity|]. f_equal. f_equal.
  destruct l as [|v l]; [exfalso; cbn [List.length] in HL; pose proof (pow2_le 4 p ltac:(lia)); change (2 ^ 4) with 16 in *; lia|].
  unfold fsum. cbn [fold_left]. f_equal. inversion F64; subst.
  destruct (invf_is v ltac:(lia)) as [Fv Vv]. pose proof (inv_pow_pos v).
  assert (Nz : B2R (invf v) <> 0%R) by (unfold F64Facts.val in Vv; rewrite Vv; lra).
  rewrite (fadd_zero_l (sum_init e)), (fadd_zero_l pzero); auto. apply Hb.
Qed.

(** ** What a sparse sketch stores *)
Lemma plus_stored : forall (V : Type) e ord (h : hist V) L s,
  build_std e -> valid MAX_PLUS h -> narrow (usize_bits e) h -> is_order ord ->
  is_code_list (hist_precision h) (hist_hashes h) L ->
  run_plus e (HCount ord h) = Ret s -> is_sparse s = true ->
  dif_count (hp_sparse s) = N.of_nat (List.length L) /\
  dif_for e (hp_sparse s) (fun acc x => Ret (acc ++ [x])) [] = Ret L.
Proof.
  intros V e ord h L s Hb Hv Hn Ho HL E S.
  destruct (count_plus_ok V e ord h Hb Hv Hn Ho) as (s0 & s1 & c & E0 & E1 & _ & _ & Hf & _).
  cbn [run_plus] in E. rewrite E0, bind_ret, E1 in E. cbn [bind] in E. injection E as <-.
  destruct Hf as [_ Hf]. unfold is_sparse in S. destruct (hp_registers s1); [discriminate S|].
  destruct Hf as (L' & HL' & HD & _). rewrite (code_list_unique _ _ _ _ HL' HL) in HD.
  split; [apply HD|]. rewrite (dif_for_ok _ e _ L _ _ HD).
  assert (G : forall l acc : list N, for_each l (fun acc x => Ret (acc ++ [x])) acc = Ret (acc ++ l)).
  { clear. induction l; intros acc; cbn [for_each]; [now rewrite app_nil_r|].
    rewrite bind_ret, IHl. now rewrite <- app_assoc. }
  apply G.
Qed.

(** ** Error messages *)
Lemma display_injective : forall err err', error_display err = error_display err' -> err = err'.
Proof. intros [] []; cbn; congruence. Qed.

Lemma plus_messages : forall (V W : Type) e ord p (b : V -> N) (s s' : plus V) (t : plus W) err,
  build e ->
  (hp_new e p b = Ret (RErr err) -> error_display err = "precision is out of bounds"%string) /\
  (hp_merge e ord s t = Ret (s', RErr err) -> error_display err = "precisions must be equal"%string).
Proof.
  intros V W e ord p b s s' t err Hb. split.
  - intros E. destruct (plus_new_cases V e p b Hb) as [(_ & x & E' & _)|[_ E']];
      rewrite E in E'; [discriminate E'|]. now injection E' as ->.
  - intros E. destruct (proj2 (plus_merge_result V W e ord s s' t _) E) as (_ & _ & [[X _]|[X _]]);
      [now injection X as ->|discriminate X].
Qed.

Lemma pf_messages : forall (V W : Type) e p (b : V -> N) (s s' : pf V) (t : pf W) err,
  build e ->
  (pf_new e p b = Ret (RErr err) -> error_display err = "precision is out of bounds"%string) /\
  (pf_merge e s t = Ret (s', RErr err) -> error_display err = "precisions must be equal"%string).
Proof.
  intros V W e p b s s' t err Hb. split.
  - intros E. destruct (pf_new_cases V e p b Hb) as [(_ & x & E' & _)|[_ E']];
      rewrite E in E'; [discriminate E'|]. now injection E' as ->.
  - intros E. destruct (proj2 (pf_merge_result V W e s s' t _) E) as (_ & _ & [[X _]|[X _]]);
      [now injection X as ->|discriminate X].
Qed.
