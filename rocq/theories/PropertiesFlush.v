(** * When the sparse list is rewritten *)
From Coq Require Import NArith List Bool Lia.
From Verif Require Import ModelRust ModelEnv ModelEncoding ModelPlus ModelHistory ModelTests Spec SpecBuild SpecFlush
  FlushFacts Witness RefuteFacts ClaimRefute.
Import ListNotations.
Local Open Scope N_scope.

(** ** C64: insertions are buffered

    A sparse sketch keeps new codes in a set.  An insertion touches the list of codes only if the
    set, with the new code, exceeds one percent of the byte limit; then the set is emptied. *)
Theorem C64_insert : forall (V : Type) e k ord (h : hist V) v s n,
  build_std e -> valid MAX_PLUS (HInsert k ord h v) ->
  run_plus e h = Ret s -> hp_registers s = None ->
  let code := sparse_code (hist_precision h) (hash64 (hist_builder h) v) in
  has_size (fun c => c = code \/ In c (hp_tmpset s)) n ->
  exists s', run_plus e (HInsert k ord h v) = Ret s' /\
    (100 * n <= sparse_limit (hist_precision h) ->
       hp_registers s' = None /\ hp_sparse s' = hp_sparse s /\ NoDup (hp_tmpset s') /\
       forall c, In c (hp_tmpset s') <-> c = code \/ In c (hp_tmpset s)) /\
    (sparse_limit (hist_precision h) < 100 * n -> hp_tmpset s' = []).
Proof. exact insert_flush. Qed.
Print Assumptions C64_insert.

(** The same for merging one sparse sketch into another: all codes of the other one are
    pending. *)
Theorem C64_merge : forall (V : Type) e ord (h1 h2 : hist V) s1 s2 n,
  build_std e -> valid MAX_PLUS (HMerge ord h1 h2) ->
  hist_precision h1 = hist_precision h2 ->
  run_plus e h1 = Ret s1 -> run_plus e h2 = Ret s2 -> hp_registers s1 = None -> hp_registers s2 = None ->
  has_size (fun c => In c (hp_tmpset s1) \/
              exists x, In x (hist_hashes h2) /\ sparse_code (hist_precision h1) x = c) n ->
  exists s', run_plus e (HMerge ord h1 h2) = Ret s' /\
    (100 * n <= sparse_limit (hist_precision h1) ->
       hp_registers s' = None /\ hp_sparse s' = hp_sparse s1 /\ NoDup (hp_tmpset s') /\
       forall c, In c (hp_tmpset s') <-> In c (hp_tmpset s1) \/
                   exists x, In x (hist_hashes h2) /\ sparse_code (hist_precision h1) x = c) /\
    (sparse_limit (hist_precision h1) < 100 * n -> hp_tmpset s' = []).
Proof. exact merge_flush. Qed.
Print Assumptions C64_merge.

(** So, of a run of insertions, at most every (limit/100)th rewrites the list. *)
Theorem C64_run : forall (V : Type) e k ord vs (h : hist V) s,
  build_std e -> valid MAX_PLUS h -> is_order ord ->
  run_plus e h = Ret s -> hp_registers s = None ->
  100 * (len (hp_tmpset s) + N.of_nat (length vs)) <= sparse_limit (hist_precision h) ->
  exists s', run_plus e (fold_left (fun h v => HInsert k ord h v) vs h) = Ret s' /\
    hp_registers s' = None /\ hp_sparse s' = hp_sparse s.
Proof. exact quiet. Qed.
Print Assumptions C64_run.

(** The cost of a stream: whatever the values are, of any run of insertions at most one per
    limit/100 + 1 rewrites the list. *)
Theorem C64_amortised : forall (V : Type) e k ord vs (h : hist V) s,
  build_std e -> valid MAX_PLUS h -> is_order ord -> run_plus e h = Ret s ->
  exists n, rewritten e k ord h vs n /\
    n * (sparse_limit (hist_precision h) / 100 + 1) <= len (hp_tmpset s) + N.of_nat (length vs).
Proof. exact flushes_bound. Qed.
Print Assumptions C64_amortised.

(** At precision 10 (limit 819) eight values are pending; the ninth code flushes, a known code
    does not. *)
Example C64_example :
  let h := inserted 10 mix Insert keep (range 8) in
  let pending x := let* s := run_plus test_env x in Ret (len (hp_tmpset s), len (d_buf (hp_sparse s))) in
  sparse_limit 10 = 819 /\ valid MAX_PLUS (HInsert Insert keep h 8) /\
  pending h = Ret (8, 0) /\ pending (HInsert Insert keep h 7) = Ret (8, 0) /\
  pending (HInsert Insert keep h 8) = Ret (0, 33) /\
  pending (HMerge keep h (inserted 10 mix Insert keep [20; 21])) = Ret (0, 37) /\
  pending (fold_left (fun h v => HInsert Add keep h v) [30; 31; 32; 33] (HInsert Insert keep h 8)) = Ret (4, 33).
Proof.
  cbv zeta. split; [reflexivity|]. split.
  { apply (inserted_valid _ MAX_PLUS 10 mix Insert keep (range 9)); [apply keep_order|split; discriminate]. }
  repeat split; vm_compute; reflexivity.
Qed.
