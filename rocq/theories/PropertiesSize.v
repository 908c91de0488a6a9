(** * C85: how long and how deeply nested the texts of sketches are *)
From Coq Require Import NArith List Lia.
From Verif Require Import ModelRust ModelEnv ModelRegisters ModelEncoding ModelPF ModelPlus ModelSerde ModelFiles ModelJson ModelHistory ModelTests
  Spec SpecBuild SpecSize Witness SizeFacts.
Import ListNotations.
Local Open Scope N_scope.

(** Words of six registers, each at most ten digits and a comma. *)
Theorem C85_pf : forall (V : Type) e other ser_b (h : hist V), build e -> valid MAX_PF h -> narrow (usize_bits e) h ->
  let words := (2 ^ hist_precision h + 5) / 6 in
  exists s, run_pf e h = Ret s /\
    let n := bytes_of (to_text other (ser_pf ser_b s)) in let b := bytes_of (write (json_of other (ser_b (hist_builder h)))) in
    b + 93 + 2 * words <= n <= b + 107 + 11 * words.
Proof. exact pf_size. Qed.
Print Assumptions C85_pf.

Theorem C85_plus : forall (V : Type) e ord other ser_b (h : hist V), build_std e -> valid MAX_PLUS h -> narrow (usize_bits e) h -> is_order ord ->
  let m := 2 ^ hist_precision h in
  exists s, run_plus e h = Ret s /\
    let n := bytes_of (to_text other (ser_plus ord ser_b s)) in let b := bytes_of (write (json_of other (ser_b (hist_builder h)))) in
    match hp_registers s with
    | None => b + 125 <= n <= b + 163 + 4 * (4 * m / 5) + 11 * (4 * m / 500)
    | Some _ => b + 150 + 2 * ((m + 4) / 5) <= n <= b + 199 + 11 * ((m + 4) / 5)
    end.
Proof. exact plus_size. Qed.
Print Assumptions C85_plus.

(** Far below the 127 levels at which serde_json gives up, whatever the sketch holds. *)
Theorem C85_depth_pf : forall (V : Type) other ser_b (s : pf V),
  depth (json_of other (ser_pf ser_b s)) = Nat.max 3 (S (depth (json_of other (ser_b (pf_builder s))))).
Proof. exact pf_depth. Qed.
Print Assumptions C85_depth_pf.

Theorem C85_depth_plus : forall (V : Type) other ord ser_b (s : plus V),
  depth (json_of other (ser_plus ord ser_b s)) = Nat.max 3 (S (depth (json_of other (ser_b (hp_builder s))))).
Proof. exact plus_depth. Qed.
Print Assumptions C85_depth_plus.

(** A sparse sketch and one with registers, of 2^10 buckets: the lengths and depths of their texts. *)
Example C85_example :
  (valid MAX_PLUS demo_sparse /\ valid MAX_PLUS demo_tree10) /\
  (let* s := run_plus test_env demo_sparse in
   let* s' := run_plus test_env demo_tree10 in
   let v := json_of (fun _ _ => JNull) (ser_plus keep (fun _ => SUnit) s) in
   let w := json_of (fun _ _ => JNull) (ser_plus keep (fun _ => SUnit) s') in
   Ret (bytes_of (write v), bytes_of (write w), depth v, depth w))
  = Ret (264, 1756, 3%nat, 3%nat).
Proof. split; [split; [now apply demo_sparse_valid|now apply demo_tree10_valid]|]. vm_compute. reflexivity. Qed.
