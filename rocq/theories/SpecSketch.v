(** * Specification vocabulary: the registers of a sketch as a function of the hashes *)
From Coq Require Import NArith List.
From Verif Require Import ModelRust ModelEnv ModelRegisters ModelCommon ModelPF ModelPlus
  ModelHistory Spec SpecDist SpecBuild.
Import ListNotations.
Local Open Scope N_scope.

(** [file hs]: the registers of a HyperLogLogPF into which values with hashes [hs] were
    inserted. *)
Definition pf_files (e : env) (p : N) (n : nat) (k : entry) (file : list N -> list N) : Prop :=
  forall hs, hash_list 32 n hs -> exists s,
    run_pf e (inserted p (fun x => x) k (fun l => l) hs) = Ret s /\
    file hs = reg_iter SIZE_PF (pf_registers s) /\
    reg_zeros (pf_registers s) = zero_count (file hs).

(** The same for HyperLogLogPlus; a sketch that is still sparse is converted. *)
Definition plus_files (e : env) (p : N) (n : nat) (k : entry) (ord : list N -> list N)
    (file : list N -> list N) : Prop :=
  forall hs, hash_list 64 n hs -> exists s s' r,
    run_plus e (HCount ord (inserted p (fun x => x) k ord hs)) = Ret s /\
    (if is_sparse s then sparse_to_normal e s else Ret s) = Ret s' /\
    hp_registers s' = Some r /\ file hs = reg_iter SIZE_PLUS r /\
    reg_zeros r = zero_count (file hs).
