(** * Reading what was written without field names *)
From Coq Require Import String NArith List Bool.
From Verif Require Import ModelRust ModelEnv ModelRegisters ModelEncoding ModelPF ModelPlus
  ModelSerde SpecPositions.
Import ListNotations.
Local Open Scope N_scope.

Lemma positions_ints : forall l, map positions (map SInt l) = map SInt l.
Proof. induction l as [|x l IH]; [reflexivity|]. cbn. now rewrite IH. Qed.
Lemma positions_registers : forall e r, de_registers e (positions (ser_registers r)) = de_registers e (ser_registers r).
Proof. intros e r. unfold ser_registers. cbn [positions map snd]. rewrite positions_ints. reflexivity. Qed.
Lemma positions_dif : forall e d, de_dif e (positions (ser_dif d)) = de_dif e (ser_dif d).
Proof. intros e d. unfold ser_dif. cbn [positions map snd]. rewrite positions_ints. reflexivity. Qed.
Lemma positions_pf : forall (V : Type) e ser_b (de_b : sval -> option (V -> N)) (s : pf V),
  de_b (positions (ser_b (pf_builder s))) = de_b (ser_b (pf_builder s)) ->
  de_pf e de_b (positions (ser_pf ser_b s)) = de_pf e de_b (ser_pf ser_b s).
Proof.
  intros V e ser_b de_b s H. unfold ser_pf. unfold de_pf. cbn -[de_registers ser_registers de_uint obind].
  cbn [obind]. rewrite H, positions_registers. reflexivity.
Qed.
Lemma positions_plus : forall (V : Type) e ord ser_b (de_b : sval -> option (V -> N)) (s : plus V),
  de_b (positions (ser_b (hp_builder s))) = de_b (ser_b (hp_builder s)) ->
  de_plus e de_b (positions (ser_plus ord ser_b s)) = de_plus e de_b (ser_plus ord ser_b s).
Proof.
  intros V e ord ser_b de_b s H. unfold ser_plus. unfold de_plus.
  cbn -[de_registers ser_registers de_uint de_dif ser_dif de_triple de_seq de_option obind fold_left].
  cbn [obind]. rewrite H, positions_dif, positions_ints.
  destruct (hp_registers s) as [r|]; [|reflexivity].
  cbn [positions de_option]. rewrite positions_registers. reflexivity.
Qed.
