(** * Deserializing what was serialized *)
From Coq Require Import NArith List Bool Lia.
From Verif Require Import ModelRust ModelEnv ModelRegisters ModelEncoding ModelPF ModelPlus
  ModelSerde BitFacts.
Import ListNotations.
Local Open Scope N_scope.

Lemma de_list_ints : forall w l, Forall (fun x => x < 2 ^ w) l ->
  de_list (de_uint w) (map SInt l) = Some l.
Proof.
  induction 1 as [|x l Hx Hl IH]; auto. cbn [map de_list].
  unfold de_uint at 1. rewrite (proj2 (N.ltb_lt x (2 ^ w)) Hx). cbn [obind].
  rewrite IH. reflexivity.
Qed.

Lemma de_uint_ok : forall w n, n < 2 ^ w -> de_uint w (SInt n) = Some n.
Proof. intros w n H. unfold de_uint. now rewrite (proj2 (N.ltb_lt _ _) H). Qed.

Definition registers_fit (e : env) (r : registers) : Prop :=
  Forall (fun x => x < 2 ^ 32) (r_buf r) /\ r_count r < 2 ^ usize_bits e /\
  r_zeros r < 2 ^ usize_bits e.

Lemma de_ser_registers : forall e r, registers_fit e r ->
  de_registers e (ser_registers r) = Some r.
Proof.
  intros e [buf c z] (Hb & Hc & Hz). cbn [r_buf r_count r_zeros] in *.
  unfold de_registers, ser_registers, field.
  cbn -[de_seq de_uint]. unfold de_seq. rewrite de_list_ints by auto. cbn [obind].
  rewrite !de_uint_ok by auto. reflexivity.
Qed.

Definition dif_fits (e : env) (d : difintvec) : Prop :=
  Forall (fun x => x < 2 ^ 8) (d_buf d) /\ d_count d < 2 ^ usize_bits e /\ d_last d < 2 ^ 32.

Lemma de_ser_dif : forall e d, dif_fits e d -> de_dif e (ser_dif d) = Some d.
Proof.
  intros e [c l b] (Hb & Hc & Hl). cbn [d_buf d_count d_last] in *.
  unfold de_dif, ser_dif, field. cbn -[de_seq de_uint].
  rewrite !de_uint_ok by auto. cbn [obind]. unfold de_seq. rewrite de_list_ints by auto.
  reflexivity.
Qed.

Lemma de_ser_pf : forall (V : Type) e ser_b de_b (s : pf V) (b : V -> N),
  de_b (ser_b (pf_builder s)) = Some b ->
  pf_count s < 2 ^ usize_bits e -> pf_precision s < 2 ^ 8 -> registers_fit e (pf_registers s) ->
  de_pf e de_b (ser_pf ser_b s) =
  Some {| pf_builder := b; pf_count := pf_count s; pf_precision := pf_precision s;
          pf_registers := pf_registers s |}.
Proof.
  intros V e ser_b de_b s b Hb Hc Hp Hr.
  unfold de_pf, ser_pf, field. cbn -[de_registers de_uint].
  rewrite Hb. cbn [obind]. rewrite !de_uint_ok by auto. cbn [obind].
  rewrite de_ser_registers by auto. reflexivity.
Qed.

Lemma de_ser_plus : forall (V : Type) e ord ser_b de_b (s : plus V) (b : V -> N),
  de_b (ser_b (hp_builder s)) = Some b ->
  hp_precision s < 2 ^ 8 -> hp_counts0 s < 2 ^ usize_bits e ->
  hp_counts1 s < 2 ^ usize_bits e -> hp_counts2 s < 2 ^ usize_bits e ->
  Forall (fun x => x < 2 ^ 32) (ord (hp_tmpset s)) -> dif_fits e (hp_sparse s) ->
  (forall r, hp_registers s = Some r -> registers_fit e r) ->
  de_plus e de_b (ser_plus ord ser_b s) =
  Some {| hp_builder := b; hp_precision := hp_precision s; hp_counts0 := hp_counts0 s;
          hp_counts1 := hp_counts1 s; hp_counts2 := hp_counts2 s;
          hp_tmpset := fold_left hset_insert (ord (hp_tmpset s)) [];
          hp_sparse := hp_sparse s; hp_registers := hp_registers s |}.
Proof.
  intros V e ord ser_b de_b s b Hb Hp H0 H1 H2 Ht Hd Hr.
  unfold de_plus, ser_plus, field, field_opt.
  cbn -[de_registers de_uint de_seq de_dif de_option hset_insert fold_left].
  rewrite Hb. cbn [obind]. rewrite !de_uint_ok by auto. cbn [obind].
  unfold de_seq. rewrite de_list_ints by auto. cbn [obind].
  rewrite de_ser_dif by auto. cbn [obind].
  destruct (hp_registers s) as [r|]; [|reflexivity].
  cbn -[de_registers hset_insert fold_left]. rewrite de_ser_registers by auto. reflexivity.
Qed.
