(** * C30: formats without field names *)
From Coq Require Import String NArith List.
From Verif Require Import ModelRust ModelEnv ModelRegisters ModelEncoding ModelPF ModelPlus ModelSerde ModelHistory
  ModelTests Spec SpecPositions PositionsFacts Witness.
Import ListNotations.
Local Open Scope N_scope.

(** A sketch written without field names is read as the sketch written with them, in every
    state, if that holds of its hash builder.  So all that is proved of the round trip holds of
    such formats too. *)
Theorem C30_positions_pf : forall (V : Type) e ser_b (de_b : sval -> option (V -> N)) (s : pf V),
  de_b (positions (ser_b (pf_builder s))) = de_b (ser_b (pf_builder s)) ->
  de_pf e de_b (positions (ser_pf ser_b s)) = de_pf e de_b (ser_pf ser_b s).
Proof. exact positions_pf. Qed.
Print Assumptions C30_positions_pf.

Theorem C30_positions_plus : forall (V : Type) e ord ser_b (de_b : sval -> option (V -> N)) (s : plus V),
  de_b (positions (ser_b (hp_builder s))) = de_b (ser_b (hp_builder s)) ->
  de_plus e de_b (positions (ser_plus ord ser_b s)) = de_plus e de_b (ser_plus ord ser_b s).
Proof. exact positions_plus. Qed.
Print Assumptions C30_positions_plus.

Example C30_positions_example :
  positions (ser_registers {| r_buf := [7; 8]; r_count := 10; r_zeros := 9 |}) = SSeq [SSeq [SInt 7; SInt 8]; SInt 10; SInt 9] /\
  positions (ser_dif {| d_count := 1; d_last := 5; d_buf := [5] |}) = SSeq [SInt 1; SInt 5; SNewtype (SSeq [SInt 5])] /\
  match run_plus test_env (inserted 10 mix Insert keep (range 9)) with
  | Ret s => de_plus test_env de_mix (positions (ser_plus keep ser_unit s)) = Some s /\ len (d_buf (hp_sparse s)) = 33
  | _ => False
  end.
Proof. split; [reflexivity|]. split; [reflexivity|]. vm_compute. split; reflexivity. Qed.
