(** * The examples of C81 *)
From Coq Require Import NArith List Bool.
From Verif Require Import ModelRust ModelF64 ModelEnv ModelRegisters ModelEncoding ModelPF ModelPlus ModelHistory
  ModelUnwind ModelTests Spec SpecBuild SpecWide SpecUnwind WideFacts UnwindFacts UnwindClaim RefuteFacts Witness.
Import ListNotations.
Local Open Scope N_scope.

Lemma calm_ret_plus : forall (w : wild N), is_ok (run_plus test_env (calm w)) = true ->
  exists s, run_plus test_env (calm w) = Ret s /\ caught_plus test_env w = Ret s.
Proof.
  intros w H. destruct (run_plus test_env (calm w)) as [s| |] eqn:E; try discriminate.
  exists s. split; [auto|]. now apply calm_plus.
Qed.
Lemma calm_ret_pf : forall (w : wild N), is_ok (run_pf test_env (calm w)) = true ->
  exists s, run_pf test_env (calm w) = Ret s /\ caught_pf test_env w = Ret s.
Proof.
  intros w H. destruct (run_pf test_env (calm w)) as [s| |] eqn:E; try discriminate.
  exists s. split; [auto|]. now apply calm_pf.
Qed.

Lemma unwind_example :
  let w := WInsert Add keep (WFail Insert keep (WInsert Add keep (WNew 4 mix) 3)) 5 in
  (exists s, run_plus test_env (calm w) = Ret s /\ caught_plus test_env w = Ret s) /\
  (exists s, run_pf test_env (calm w) = Ret s /\ caught_pf test_env w = Ret s) /\
  run_pf small_debug (HCount keep (HNew 16 mix)) = Panic /\
  (exists s, caught_pf small_debug (WInsert Add keep (WCount keep (WNew 16 mix)) 3) = Ret s /\
             run_pf test_env (HInsert Add keep (HCount keep (HNew 16 mix)) 3) = Ret s).
Proof.
  cbv zeta. split; [apply calm_ret_plus; vm_compute; reflexivity|].
  split; [apply calm_ret_pf; vm_compute; reflexivity|].
  assert (V1 : valid MAX_PF (HCount keep (HNew 16 mix))) by (split; [apply keep_order|split; discriminate]).
  split.
  - apply (pf_panics_iff N small_debug (HCount keep (HNew 16 mix)) (proj1 small_debug_build) V1).
    split; [reflexivity|]. intros [X _]. discriminate X.
  - set (w := WInsert Add keep (WCount keep (WNew 16 mix)) 3).
    assert (V2 : valid MAX_PF (calm w)) by (split; [apply keep_order|exact V1]).
    destruct (proj2 (pf_panics_iff N test_env (calm w) (proj1 test_build) V2)) as [_ R].
    destruct R as [s E]; [right; repeat split|].
    exists s. split; [|exact E].
    apply (proj2 (programs_pf N small_debug test_env w (proj1 small_debug_build) (proj1 test_build) V2) s E).
Qed.

Lemma hostile_example :
  let bad := {| pf_builder := mix; pf_count := 16; pf_precision := 4;
                pf_registers := {| r_buf := [0; 0; 0]; r_count := 16; r_zeros := 1 |} |} in
  let ones := {| pf_builder := mix; pf_count := 16; pf_precision := 4;
                 pf_registers := {| r_buf := [33; 0; 0]; r_count := 16; r_zeros := 14 |} |} in
  let cut := {| hp_builder := mix; hp_precision := 4; hp_counts0 := 16; hp_counts1 := 2 ^ 24; hp_counts2 := 12;
                hp_tmpset := []; hp_sparse := {| d_count := 3; d_last := 9; d_buf := [2; 4; 128] |};
                hp_registers := None |} in
  let good := {| hp_builder := mix; hp_precision := 4; hp_counts0 := 16; hp_counts1 := 2 ^ 24; hp_counts2 := 12;
                hp_tmpset := []; hp_sparse := dif_new; hp_registers := None |} in
  pf_merge_x test_env bad ones =
    ({| pf_builder := mix; pf_count := 16; pf_precision := 4;
        pf_registers := {| r_buf := [1; 0; 0]; r_count := 16; r_zeros := 0 |} |}, Panic) /\
  hp_insert_x test_env keep cut (Ret (2 ^ 39)) = (set_tmpset cut [2], Panic) /\
  hp_insert_x test_env keep cut Panic = (cut, Panic) /\
  hp_merge_x test_env keep good cut = (set_tmpset good [6; 2], Panic).
Proof. cbv zeta. repeat split; vm_compute; reflexivity. Qed.
