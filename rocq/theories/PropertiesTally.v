(** * C82: where the registers are does not matter *)
From Coq Require Import NArith ZArith Reals List Bool Lia.
From Flocq Require Import Core BinarySingleNaN.
From Verif Require Import ModelRust ModelEnv ModelF64 ModelRegisters ModelPF ModelPlus ModelHistory ModelTests
  Spec SpecBuild SpecReal SpecCount SpecTally BitFacts TallyFacts RefuteFacts Witness.
Import ListNotations.
Local Open Scope N_scope.

(** ** HyperLogLogPF *)

(** The count is determined, to the last bit, by how many registers hold each value. *)
Theorem C82_pf : forall (V V' : Type) e (h : hist V) (h' : hist V'),
  build e -> valid MAX_PF h -> valid MAX_PF h' -> narrow (usize_bits e) h -> narrow (usize_bits e) h' ->
  hist_precision h = hist_precision h' ->
  same_tally 32 (hist_precision h) (map (fun x => x mod 2 ^ 32) (hist_hashes h))
    (map (fun x => x mod 2 ^ 32) (hist_hashes h')) ->
  exists c, count_pf e h = Ret c /\ count_pf e h' = Ret c.
Proof. exact pf_tally. Qed.
Print Assumptions C82_pf.

(** In the small range already by how many hold 0. *)
Theorem C82_pf_empty : forall (V V' : Type) e (h : hist V) (h' : hist V'),
  build e -> valid MAX_PF h -> valid MAX_PF h' -> narrow (usize_bits e) h -> narrow (usize_bits e) h' ->
  hist_precision h = hist_precision h' ->
  small_range (hist_precision h) (hist_hashes h) -> small_range (hist_precision h') (hist_hashes h') ->
  same_empty 32 (hist_precision h) (map (fun x => x mod 2 ^ 32) (hist_hashes h))
    (map (fun x => x mod 2 ^ 32) (hist_hashes h')) ->
  exists c, count_pf e h = Ret c /\ count_pf e h' = Ret c.
Proof. exact pf_empty. Qed.
Print Assumptions C82_pf_empty.

(** Flipping any of the index bits, the same in every hash, changes nothing. *)
Theorem C82_pf_flip : forall (V V' : Type) e (h : hist V) (h' : hist V') mask,
  build e -> valid MAX_PF h -> valid MAX_PF h' -> narrow (usize_bits e) h -> narrow (usize_bits e) h' ->
  hist_precision h = hist_precision h' -> mask < 2 ^ hist_precision h ->
  same_set (map (fun x => N.lxor x (mask * 2 ^ (32 - hist_precision h))) (hist_hashes h)) (hist_hashes h') ->
  exists c, count_pf e h = Ret c /\ count_pf e h' = Ret c.
Proof. exact pf_flip. Qed.
Print Assumptions C82_pf_flip.

(** ** HyperLogLogPlus *)

(** With registers likewise, if no rank is over [53 - p]: then the sum of the registers is exact. *)
Theorem C82_plus : forall (V V' : Type) e ord ord' (h : hist V) (h' : hist V'),
  build_std e -> valid MAX_PLUS h -> valid MAX_PLUS h' -> narrow (usize_bits e) h -> narrow (usize_bits e) h' ->
  is_order ord -> is_order ord' -> hist_precision h = hist_precision h' ->
  ~ fits (hist_precision h) (hist_hashes h) -> ~ fits (hist_precision h') (hist_hashes h') ->
  same_tally 64 (hist_precision h) (hist_hashes h) (hist_hashes h') ->
  ranks_up_to (53 - hist_precision h) 64 (hist_precision h) (hist_hashes h) ->
  exists c, count_plus e ord h = Ret c /\ count_plus e ord' h' = Ret c.
Proof. exact plus_tally. Qed.
Print Assumptions C82_plus.

(** [54 - p] would be too much: the order of the registers can change the last bits. *)
Theorem C82_plus_refuted : ~ (forall e ord (h h' : hist N),
  build_std e -> accurate e -> valid MAX_PLUS h -> valid MAX_PLUS h' ->
  narrow (usize_bits e) h -> narrow (usize_bits e) h' -> is_order ord -> hist_precision h = hist_precision h' ->
  ~ fits (hist_precision h) (hist_hashes h) -> ~ fits (hist_precision h') (hist_hashes h') ->
  same_tally 64 (hist_precision h) (hist_hashes h) (hist_hashes h') ->
  ranks_up_to (54 - hist_precision h) 64 (hist_precision h) (hist_hashes h) ->
  exists c, count_plus e ord h = Ret c /\ count_plus e ord h' = Ret c).
Proof. exact order_matters. Qed.
Print Assumptions C82_plus_refuted.

(** Nothing but the last bits: above 5m the counts agree to one part in 2^31, whatever the ranks. *)
Theorem C82_plus_close : forall (V V' : Type) e ord ord' (h : hist V) (h' : hist V'),
  build_std e -> valid MAX_PLUS h -> valid MAX_PLUS h' -> narrow (usize_bits e) h -> narrow (usize_bits e) h' ->
  is_order ord -> is_order ord' -> accurate e -> hist_precision h = hist_precision h' ->
  past_linear (hist_precision h) (hist_hashes h) -> raw_over (hist_precision h) (hist_hashes h) ->
  ~ fits (hist_precision h') (hist_hashes h') ->
  same_tally 64 (hist_precision h) (hist_hashes h) (hist_hashes h') ->
  exists c c', count_plus e ord h = Ret c /\ count_plus e ord' h' = Ret c' /\
    is_finite c = true /\ is_finite c' = true /\
    (0 < B2R c)%R /\ (Rabs (B2R c - B2R c') <= / IZR (2 ^ 31) * B2R c)%R.
Proof. exact plus_close. Qed.
Print Assumptions C82_plus_close.

(** In the range of linear counting only the number of empty registers matters. *)
Theorem C82_plus_empty : forall (V V' : Type) e ord ord' (h : hist V) (h' : hist V'),
  build_std e -> valid MAX_PLUS h -> valid MAX_PLUS h' -> narrow (usize_bits e) h -> narrow (usize_bits e) h' ->
  is_order ord -> is_order ord' -> accurate e -> hist_precision h = hist_precision h' ->
  in_linear (hist_precision h) (hist_hashes h) -> ~ fits (hist_precision h') (hist_hashes h') ->
  same_empty 64 (hist_precision h) (hist_hashes h) (hist_hashes h') ->
  exists c, count_plus e ord h = Ret c /\ count_plus e ord' h' = Ret c.
Proof. exact plus_empty. Qed.
Print Assumptions C82_plus_empty.

(** While sparse only the number of codes matters, not even the precision. *)
Theorem C82_plus_sparse : forall (V V' : Type) e ord ord' (h : hist V) (h' : hist V'),
  build_std e -> valid MAX_PLUS h -> valid MAX_PLUS h' -> narrow (usize_bits e) h -> narrow (usize_bits e) h' ->
  is_order ord -> is_order ord' ->
  fits (hist_precision h) (hist_hashes h) -> fits (hist_precision h') (hist_hashes h') ->
  same_codes (hist_precision h) (hist_precision h') (hist_hashes h) (hist_hashes h') ->
  exists c, count_plus e ord h = Ret c /\ count_plus e ord' h' = Ret c.
Proof. exact plus_codes. Qed.
Print Assumptions C82_plus_sparse.

(** Flipping index bits changes nothing while both sketches are in the same representation. *)
Theorem C82_plus_flip : forall (V V' : Type) e ord ord' (h : hist V) (h' : hist V') mask,
  build_std e -> valid MAX_PLUS h -> valid MAX_PLUS h' -> narrow (usize_bits e) h -> narrow (usize_bits e) h' ->
  is_order ord -> is_order ord' -> hist_precision h = hist_precision h' -> mask < 2 ^ hist_precision h ->
  same_set (map (fun x => N.lxor x (mask * 2 ^ (64 - hist_precision h))) (hist_hashes h)) (hist_hashes h') ->
  (~ fits (hist_precision h) (hist_hashes h) /\ ~ fits (hist_precision h) (hist_hashes h') /\
     ranks_up_to (53 - hist_precision h) 64 (hist_precision h) (hist_hashes h) \/
   fits (hist_precision h) (hist_hashes h) /\ fits (hist_precision h) (hist_hashes h')) ->
  exists c, count_plus e ord h = Ret c /\ count_plus e ord' h' = Ret c.
Proof. exact plus_flip. Qed.
Print Assumptions C82_plus_flip.

(** ** Moving buckets *)

(** Moving buckets keeps the tally, and flipping index bits moves buckets. *)
Theorem C82_moved : forall W p f move H, p <= W -> Forall (fun h => h < 2 ^ W) H ->
  relabels W p f move H -> same_tally W p H (map f H).
Proof. exact relabel_tally. Qed.
Print Assumptions C82_moved.

Theorem C82_flip_moves : forall W p mask H, p <= W -> mask < 2 ^ p ->
  relabels W p (fun h => N.lxor h (mask * 2 ^ (W - p))) (fun i => N.lxor i mask) H.
Proof. exact flip_relabels. Qed.
Print Assumptions C82_flip_moves.

(** Eight registers at precision 4 with ranks 2 to 9, in the upper and the lower half: both sketches
    have registers, the flipped bit is the top one, and the counts agree.  With rank 50 in
    all of them they do not. *)
Example C82_example :
  let up := inserted 4 (fun v => (v + 8) * 2 ^ 60 + 2 ^ (58 - v)) Insert keep (range 8) in
  let down := inserted 4 (fun v => v * 2 ^ 60 + 2 ^ (58 - v)) Insert keep (range 8) in
  valid MAX_PLUS up /\ valid MAX_PLUS down /\ narrow (usize_bits test_env) up /\ narrow (usize_bits test_env) down /\
  same_set (map (fun x => N.lxor x (8 * 2 ^ (64 - 4))) (hist_hashes up)) (hist_hashes down) /\
  ~ fits 4 (hist_hashes up) /\ ~ fits 4 (hist_hashes down) /\ ranks_up_to (53 - 4) 64 4 (hist_hashes up) /\
  bits (count_plus test_env keep up) = bits (count_plus test_env keep down) /\
  bits (count_plus test_env keep tops) <> bits (count_plus test_env keep bottoms).
Proof.
  cbv zeta.
  split; [apply inserted_valid; [apply keep_order|unfold MAX_PLUS; lia]|].
  split; [apply inserted_valid; [apply keep_order|unfold MAX_PLUS; lia]|].
  split; [apply wide; [apply inserted_valid; [apply keep_order|unfold MAX_PLUS; lia]|cbn; lia]|].
  split; [apply wide; [apply inserted_valid; [apply keep_order|unfold MAX_PLUS; lia]|cbn; lia]|].
  split; [intros x; vm_compute; tauto|].
  split; [apply not_fits_b; vm_compute; reflexivity|]. split; [apply not_fits_b; vm_compute; reflexivity|].
  split; [intros h; revert h; apply Forall_forall; vm_compute; repeat constructor; discriminate|].
  split; [vm_compute; reflexivity|]. vm_compute. discriminate.
Qed.

(** Two sparse sketches of different precision with four codes each. *)
Example C82_sparse_example :
  let a := inserted 4 (fun v => v * 2 ^ 45 + 2 ^ 40) Insert keep (range 4) in
  let b := inserted 12 (fun v => (v + 9) * 2 ^ 50 + 2 ^ 41) Insert keep (range 4) in
  fits 4 (hist_hashes a) /\ fits 12 (hist_hashes b) /\ same_codes 4 12 (hist_hashes a) (hist_hashes b) /\
  bits (count_plus test_env keep a) = bits (count_plus test_env keep b).
Proof.
  cbv zeta.
  split; [apply ClaimRefute.sparse_fits_b; vm_compute; [reflexivity|discriminate]|].
  split; [apply ClaimRefute.sparse_fits_b; vm_compute; [reflexivity|discriminate]|].
  split; [|vm_compute; reflexivity].
  intros L L' HL HL'.
  match type of HL with is_code_list ?p ?H _ =>
    rewrite (PlusInv.code_list_unique p H L (codes p H) HL) by (apply code_list_b_ok; vm_compute; reflexivity) end.
  match type of HL' with is_code_list ?p ?H _ =>
    rewrite (PlusInv.code_list_unique p H L' (codes p H) HL') by (apply code_list_b_ok; vm_compute; reflexivity) end.
  vm_compute. reflexivity.
Qed.
