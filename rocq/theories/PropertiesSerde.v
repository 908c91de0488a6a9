(** * C84: which data is read as a sketch, and as which *)
From Coq Require Import NArith List Bool String Lia.
From Verif Require Import ModelRust ModelEnv ModelEncoding ModelRegisters ModelPF ModelPlus ModelSerde ModelTests Witness SpecSerde SerdeSpec.
Import ListNotations.
Local Open Scope N_scope.

Theorem C84_pf : forall (V : Type) e de_b v (s : pf V), de_pf e de_b v = Some s <-> reads_pf (usize_bits e) de_b v s.
Proof. exact pf_spec. Qed.
Print Assumptions C84_pf.

Theorem C84_plus : forall (V : Type) e de_b v (s : plus V), de_plus e de_b v = Some s -> reads_plus (usize_bits e) de_b v s.
Proof. exact plus_spec. Qed.
Print Assumptions C84_plus.

(** Whatever may be read is read, up to the order of the recent codes, which is that of a hash
    set. *)
Theorem C84_plus_complete : forall (V : Type) e de_b v (s : plus V), reads_plus (usize_bits e) de_b v s ->
  exists t, NoDup t /\ (forall x, In x t <-> In x (hp_tmpset s)) /\
  de_plus e de_b v = Some {| hp_builder := hp_builder s; hp_precision := hp_precision s; hp_counts0 := hp_counts0 s;
    hp_counts1 := hp_counts1 s; hp_counts2 := hp_counts2 s; hp_tmpset := t; hp_sparse := hp_sparse s;
    hp_registers := hp_registers s |}.
Proof. exact plus_complete. Qed.
Print Assumptions C84_plus_complete.

Local Open Scope string_scope.
Example C84_example :
  de_pf small_env idle_builder (named_data (2 ^ 32 - 1)) =
    Some {| pf_builder := fun x => x; pf_count := 2 ^ 32 - 1; pf_precision := 255;
            pf_registers := {| r_buf := [7%N]; r_count := 0; r_zeros := 3 |} |} /\
  de_pf small_env idle_builder (named_data (2 ^ 32)) = None /\
  de_plus test_env idle_builder mixed_data =
    Some {| hp_builder := fun x => x; hp_precision := 9; hp_counts0 := 1; hp_counts1 := 2; hp_counts2 := 3;
            hp_tmpset := [5; 4]%N; hp_sparse := {| d_count := 2; d_last := 8; d_buf := [130; 1]%N |}; hp_registers := None |} /\
  de_plus test_env idle_builder (SStruct [("builder", SUnit); ("builder", SUnit)]) = None.
Proof. repeat split; vm_compute; reflexivity. Qed.
