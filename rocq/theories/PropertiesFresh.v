(** * C80: which hashes change a sketch, and inputs that defeat it *)
From Coq Require Import NArith ZArith Reals List Bool Lia.
From Flocq Require Import Core BinarySingleNaN.
From Verif Require Import ModelRust ModelEnv ModelF64 ModelRegisters ModelPF ModelPlus ModelHistory ModelTests
  Spec SpecBuild SpecReal SpecCount SpecDist SpecFresh BitFacts FreshFacts ChangeFacts RefuteFacts Witness.
Import ListNotations.
Local Open Scope N_scope.

(** ** Hashes that change a sketch *)

(** A HyperLogLogPF is changed by exactly the hashes whose rank exceeds the register of their
    bucket; their number follows from the registers. *)
Theorem C80_pf : forall (V : Type) e (h : hist V) s, build e -> valid MAX_PF h -> narrow (usize_bits e) h ->
  run_pf e h = Ret s ->
  let l := reg_iter 5 (pf_registers s) in
  (forall x, x < 2 ^ 32 -> (pf_insert_hash e s x <> Ret s <-> raises 32 (hist_precision h) l x)) /\
  has_size (fun x => x < 2 ^ 32 /\ pf_insert_hash e s x <> Ret s) (raising 32 (hist_precision h) l).
Proof. exact pf_changes. Qed.
Print Assumptions C80_pf.

(** So is a HyperLogLogPlus that has left the sparse representation. *)
Theorem C80_plus : forall (V : Type) e ord (h : hist V) s r, build_std e -> valid MAX_PLUS h ->
  narrow (usize_bits e) h -> is_order ord -> run_plus e h = Ret s -> hp_registers s = Some r ->
  let l := reg_iter 6 r in
  (forall x, x < 2 ^ 64 -> (hp_insert_hash e ord s x <> Ret s <-> raises 64 (hist_precision h) l x)) /\
  has_size (fun x => x < 2 ^ 64 /\ hp_insert_hash e ord s x <> Ret s) (raising 64 (hist_precision h) l).
Proof. exact plus_changes. Qed.
Print Assumptions C80_plus.

(** While it is sparse, exactly the hashes whose code it already holds leave it, once counted,
    as it was; every plain code makes it deaf to 2^39 hashes. *)
Theorem C80_sparse : forall (V : Type) e ord (h : hist V) s L, build_std e -> valid MAX_PLUS h ->
  narrow (usize_bits e) h -> is_order ord -> run_plus e h = Ret s ->
  is_code_list (hist_precision h) (hist_hashes h) L -> gap_len 0 L <= sparse_limit (hist_precision h) ->
  (forall x, x < 2 ^ 64 -> (unmoved e ord s x <-> In (sparse_code (hist_precision h) x) L)) /\
  has_size (fun x => x < 2 ^ 64 /\ unmoved e ord s x) (sum (map code_hashes L)).
Proof. exact sparse_changes. Qed.
Print Assumptions C80_sparse.

(** The raw estimate is [alpha m] divided by the chance that a random hash changes the sketch,
    as long as no register is full. *)
Theorem C80_chance : forall W p l, p < W -> N.of_nat (length l) = 2 ^ p -> Forall (fun v => v <= W - p) l ->
  (raw_R p l = alpha_R p * m_R p / (IZR (Z.of_N (raising W p l)) / IZR (Z.of_N (2 ^ W))))%R.
Proof. exact raw_chance. Qed.
Print Assumptions C80_chance.

(** ** How often a sketch changes *)

(** A HyperLogLogPF changes at most [2^p (33 - p)] times, less the sum of its registers, however
    many values are inserted; some stream of hashes does change it that often. *)
Theorem C80_changes_pf : forall (V : Type) e (h : hist V) s xs, build e -> valid MAX_PF h -> narrow (usize_bits e) h ->
  run_pf e h = Ret s -> Forall (fun x => x < 2 ^ 32) xs ->
  let p := hist_precision h in
  let left := 2 ^ p * (33 - p) - sum (reg_iter 5 (pf_registers s)) in
  (exists s' k, moves (pf_insert_hash e) s xs s' k) /\
  (forall s' k, moves (pf_insert_hash e) s xs s' k -> k <= left) /\
  (exists ys s', Forall (fun x => x < 2 ^ 32) ys /\ moves (pf_insert_hash e) s ys s' left).
Proof. exact pf_moves. Qed.
Print Assumptions C80_changes_pf.

(** A HyperLogLogPlus that is counted after every insertion changes at most once for each byte
    of the sparse limit and [2^p (65 - p)] times after that. *)
Theorem C80_changes_plus : forall (V : Type) e ord (h : hist V) s xs, build_std e -> valid MAX_PLUS h ->
  narrow (usize_bits e) h -> is_order ord -> run_plus e (HCount ord h) = Ret s -> Forall (fun x => x < 2 ^ 64) xs ->
  let p := hist_precision h in
  (exists s' k, moves (insert_count e ord) s xs s' k) /\
  (forall s' k, moves (insert_count e ord) s xs s' k -> k <= sparse_limit p + 2 ^ p * (65 - p)).
Proof. exact plus_moves. Qed.
Print Assumptions C80_changes_plus.

(** ** Histories a sketch cannot tell apart *)

(** HyperLogLogPF: those whose largest rank is the same in every bucket. *)
Theorem C80_alike_pf : forall (V V' : Type) e (h : hist V) (h' : hist V'), build e ->
  valid MAX_PF h -> valid MAX_PF h' -> narrow (usize_bits e) h -> narrow (usize_bits e) h' ->
  hist_precision h = hist_precision h' ->
  let H := map (fun x => x mod 2 ^ 32) (hist_hashes h) in
  let H' := map (fun x => x mod 2 ^ 32) (hist_hashes h') in
  outranked 32 (hist_precision h) H H' -> outranked 32 (hist_precision h) H' H ->
  count_pf e h = count_pf e h'.
Proof. exact alike_pf. Qed.
Print Assumptions C80_alike_pf.

(** HyperLogLogPlus: those with the same codes, in either representation. *)
Theorem C80_alike_plus : forall (V V' : Type) e ord ord' (h : hist V) (h' : hist V'), build_std e ->
  valid MAX_PLUS h -> valid MAX_PLUS h' -> narrow (usize_bits e) h -> narrow (usize_bits e) h' ->
  is_order ord -> is_order ord' -> hist_precision h = hist_precision h' ->
  same_set (map (sparse_code (hist_precision h)) (hist_hashes h))
    (map (sparse_code (hist_precision h)) (hist_hashes h')) ->
  count_plus e ord h = count_plus e ord' h'.
Proof. exact alike_plus. Qed.
Print Assumptions C80_alike_plus.

(** ** Inputs that defeat the sketches *)

(** Any number of values hashed to one bucket is counted as 1 by HyperLogLogPF; by C41 a bucket
    takes 2^(32-p) hashes. *)
Theorem C80_defeat_pf : forall (V : Type) e (h : hist V) i,
  build e -> accurate e -> valid MAX_PF h -> narrow (usize_bits e) h -> hist_hashes h <> [] ->
  (forall x, In x (hist_hashes h) -> bucket 32 (hist_precision h) (x mod 2 ^ 32) = i) ->
  exists c, count_pf e h = Ret c /\ is_finite c = true /\ Ztrunc (B2R c) = 1%Z.
Proof. exact defeat_pf. Qed.
Print Assumptions C80_defeat_pf.

(** HyperLogLogPlus counts them apart while it is sparse; on leaving the sparse representation
    the count falls to 1. *)
Theorem C80_defeat_plus : forall (V : Type) e ord (h : hist V) i,
  build_std e -> accurate e -> valid MAX_PLUS h -> narrow (usize_bits e) h -> is_order ord ->
  ~ fits (hist_precision h) (hist_hashes h) ->
  (forall x, In x (hist_hashes h) -> bucket 64 (hist_precision h) x = i) ->
  exists c, count_plus e ord h = Ret c /\ is_finite c = true /\ Ztrunc (B2R c) = 1%Z.
Proof. exact defeat_plus. Qed.
Print Assumptions C80_defeat_plus.

(** Values with one code, up to 2^39 of them, are counted as 1 at every size. *)
Theorem C80_defeat_sparse : forall (V : Type) e ord (h : hist V) k,
  build_std e -> accurate e -> valid MAX_PLUS h -> narrow (usize_bits e) h -> is_order ord ->
  hist_hashes h <> [] -> (forall x, In x (hist_hashes h) -> sparse_code (hist_precision h) x = k) ->
  exists c, count_plus e ord h = Ret c /\ is_finite c = true /\ Ztrunc (B2R c) = 1%Z.
Proof. exact defeat_sparse. Qed.
Print Assumptions C80_defeat_sparse.

(** Forty values at precision 4, in both sketches; nine values at precision 10, one of them the
    only hash with its code. *)
Example C80_example :
  build_std test_env /\ valid MAX_PF demo_normal /\ narrow (usize_bits test_env) demo_normal /\
  match run_pf test_env demo_normal with
  | Ret s => let l := reg_iter 5 (pf_registers s) in
      l = [29; 0; 0; 0; 0; 0; 2; 4; 0; 0; 0; 0; 0; 0; 2; 6] /\ raising 32 4 l = 3107979264 /\
      pf_insert_hash test_env s (2 ^ 28) <> Ret s /\ pf_insert_hash test_env s (2 ^ 32 - 1) = Ret s
  | _ => False
  end /\
  match run_plus test_env demo_normal with
  | Ret s => match hp_registers s with
      | Some r => let l := reg_iter 6 r in
          l = [61; 4; 1; 2; 2; 3; 2; 3; 4; 1; 4; 2; 2; 2; 3; 4] /\ raising 64 4 l = 3602879701896396800 /\
          Forall (fun v => v <= 64 - 4) (tl l) /\
          hp_insert_hash test_env keep s (2 ^ 60) <> Ret s /\ hp_insert_hash test_env keep s (2 ^ 64 - 1) = Ret s
      | None => False
      end
  | _ => False
  end /\
  is_code_list 10 (hist_hashes demo_sparse) (Witness.codes 10 (hist_hashes demo_sparse)) /\
  gap_len 0 (Witness.codes 10 (hist_hashes demo_sparse)) <= sparse_limit 10 /\
  map code_hashes (Witness.codes 10 (hist_hashes demo_sparse)) = 1 :: repeat (2 ^ 39) 8.
Proof.
  split; [exact test_build|]. split; [apply demo_normal_valid; vm_compute; discriminate|].
  split; [vm_compute; repeat split|].
  split; [vm_compute; repeat (split; [reflexivity|]); split; [discriminate|reflexivity]|].
  split; [vm_compute; repeat (split; [reflexivity|]); split; [repeat constructor; discriminate|]; split; [discriminate|reflexivity]|].
  split; [apply code_list_b_ok; vm_compute; reflexivity|]. split; vm_compute; [discriminate|reflexivity].
Qed.

(** Precision 4, all hashes in bucket 0: the first prefix alone is ranked, the other codes are
    plain.  The count reaches 12 and falls to 1 with the 13th value.  Sixteen hashes with one
    code, and one of them. *)
Definition crowd (x : N) : N := x * 2 ^ 39.
Definition huddle (x : N) : N := 2 ^ 39 + x mod 16.
Example C80_defeat_example :
  let h := fun n => inserted 4 crowd Insert keep (range n) in
  let u := fun n => inserted 4 huddle Insert keep (range n) in
  accurate test_env /\
  (forall n, n <= 2 ^ 21 -> forall x, In x (hist_hashes (h n)) -> bucket 64 4 x = 0) /\
  ~ fits 4 (hist_hashes (h 13)) /\
  trunc (count_plus test_env keep (h 12)) = Ret 12%Z /\ trunc (count_plus test_env keep (h 13)) = Ret 1%Z /\
  trunc (count_pf test_env (h 13)) = Ret 1%Z /\
  (forall n x, In x (hist_hashes (u n)) -> sparse_code 4 x = 2) /\
  length (nodup N.eq_dec (hist_hashes (u 16))) = 16%nat /\
  trunc (count_plus test_env keep (u 16)) = Ret 1%Z /\
  outranked 64 4 (hist_hashes (u 16)) [2 ^ 39] /\ ~ outranked 64 4 [0] [2 ^ 39].
Proof.
  cbv zeta. split; [exact test_accurate'|]. split.
  { intros n Hn x Hx. apply (proj1 (proj2 (proj2 (inserted_spec N 4 crowd Insert keep (range n)))) x) in Hx.
    apply in_map_iff in Hx. destruct Hx as (v & <- & Hv). apply range_in in Hv. unfold hash64, crowd, bucket.
    change (2 ^ 64) with 18446744073709551616. change (2 ^ (64 - 4)) with 1152921504606846976.
    change (2 ^ 39) with 549755813888. change (2 ^ 21) with 2097152 in Hn.
    rewrite N.mod_small by lia. apply N.div_small. lia. }
  split.
  { intros X. specialize (X (Witness.codes 4 (hist_hashes (inserted 4 crowd Insert keep (range 13))))).
    assert (C : is_code_list 4 (hist_hashes (inserted 4 crowd Insert keep (range 13)))
      (Witness.codes 4 (hist_hashes (inserted 4 crowd Insert keep (range 13)))))
      by (apply code_list_b_ok; vm_compute; reflexivity).
    specialize (X C). vm_compute in X. now apply X. }
  split; [vm_compute; reflexivity|]. split; [vm_compute; reflexivity|]. split; [vm_compute; reflexivity|].
  split.
  { intros n x Hx. apply (proj1 (proj2 (proj2 (inserted_spec N 4 huddle Insert keep (range n)))) x) in Hx.
    apply in_map_iff in Hx. destruct Hx as (v & <- & Hv). unfold hash64, huddle.
    assert (v mod 16 < 16) by now apply N.mod_lt.
    rewrite N.mod_small by lia. unfold sparse_code, prefix25.
    change (64 - 25) with 39.
    replace ((2 ^ 39 + v mod 16) / 2 ^ 39) with 1; [reflexivity|].
    change (2 ^ 39) with 549755813888. apply (N.div_unique _ _ _ (v mod 16)); lia. }
  split; [vm_compute; reflexivity|]. split; [vm_compute; reflexivity|]. split.
  - intros x Hx. exists (2 ^ 39). split; [now left|]. vm_compute in Hx.
    repeat (destruct Hx as [<-|Hx]; [split; [reflexivity|vm_compute; discriminate]|]). destruct Hx.
  - intros X. destruct (X 0 (or_introl eq_refl)) as (y & [<-|[]] & _ & Y). vm_compute in Y. now apply Y.
Qed.

(** Three hashes in bucket 15 of a new sketch, the second of them again of rank 1: two changes. *)
Example C80_changes_example :
  match run_pf test_env (HNew 4 (fun x : N => x)), run_plus test_env (HCount keep (HNew 4 (fun x : N => x))) with
  | Ret s, Ret t =>
      2 ^ 4 * (33 - 4) - sum (reg_iter 5 (pf_registers s)) = 464 /\
      (exists s', moves (pf_insert_hash test_env) s [2 ^ 32 - 1; 2 ^ 32 - 2; 15 * 2 ^ 28] s' 2) /\
      (exists t', moves (insert_count test_env keep) t [2 ^ 64 - 1; 2 ^ 64 - 2; 15 * 2 ^ 60] t' 2)
  | _, _ => False
  end.
Proof.
  let v := eval vm_compute in (run_pf test_env (HNew 4 (fun x : N => x))) in
  replace (run_pf test_env (HNew 4 (fun x : N => x))) with v by (vm_compute; reflexivity).
  let v := eval vm_compute in (run_plus test_env (HCount keep (HNew 4 (fun x : N => x)))) in
  replace (run_plus test_env (HCount keep (HNew 4 (fun x : N => x)))) with v by (vm_compute; reflexivity).
  cbv iota beta. split; [vm_compute; reflexivity|]. split; eexists.
  - change 2 with (0 + 1 + 1). eapply moves_step; [vm_compute; reflexivity|discriminate|].
    apply moves_same; [vm_compute; reflexivity|]. eapply moves_step; [vm_compute; reflexivity|discriminate|]. apply moves_nil.
  - change 2 with (0 + 1 + 1). eapply moves_step; [vm_compute; reflexivity|discriminate|].
    apply moves_same; [vm_compute; reflexivity|]. eapply moves_step; [vm_compute; reflexivity|discriminate|]. apply moves_nil.
Qed.
