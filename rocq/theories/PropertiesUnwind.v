(** * C81: what a call that panics leaves behind *)
From Coq Require Import NArith List Bool.
From Verif Require Import ModelRust ModelF64 ModelEnv ModelRegisters ModelEncoding ModelPF ModelPlus ModelHistory
  ModelUnwind ModelTests Spec SpecBuild SpecUnwind UnwindFacts UnwindClaim UnwindWitness RefuteFacts Witness.
Import ListNotations.
Local Open Scope N_scope.

(** ** The methods as sequences of writes are the methods of the other files *)
Theorem C81_same_pf : forall (V W : Type) e (s : pf V) (o : pf W) v,
  uncaught_unit (pf_insert_x e s (Ret (pf_builder s v))) = pf_insert_impl e s v /\
  uncaught (pf_merge_x e s o) = pf_merge e s o /\
  uncaught (pf_count_x e s) = (let* c := pf_count_est e s in Ret (s, c)).
Proof. exact same_pf. Qed.
Print Assumptions C81_same_pf.

Theorem C81_same_plus : forall (V W : Type) e ord (s : plus V) (o : plus W) v,
  uncaught_unit (hp_insert_x e ord s (Ret (hp_builder s v))) = hp_insert_impl e ord s v /\
  uncaught (hp_merge_x e ord s o) = hp_merge e ord s o /\
  uncaught (hp_count_x e ord s) = hp_count e ord s.
Proof. exact same_plus. Qed.
Print Assumptions C81_same_plus.

(** ** Any receiver: also one decoded from untrusted data *)

(** An insertion into a HyperLogLogPF that panics, in the user's hashing or after it, has changed
    nothing. *)
Theorem C81_insert_pf : forall (V : Type) e (s : pf V) m,
  stopped (pf_insert_x e s m) -> fst (pf_insert_x e s m) = s.
Proof. exact pf_insert_stopped. Qed.
Print Assumptions C81_insert_pf.

(** [count] of a HyperLogLogPF never changes it. *)
Theorem C81_count_pf : forall (V : Type) e (s : pf V), fst (pf_count_x e s) = s.
Proof. exact count_pf_leaves. Qed.
Print Assumptions C81_count_pf.

(** [merge] leaves the registers it had merged when it panicked. *)
Theorem C81_merge_pf : forall (V W : Type) e (s : pf V) (o : pf W),
  exists k r, for_each_enum 0 (firstn k (reg_iter SIZE_PF (pf_registers o)))
      (fun r i val => set_greater e SIZE_PF r i val) (pf_registers s) = Ret r /\
    fst (pf_merge_x e s o) = pf_set_registers s r.
Proof. exact pf_merge_stopped. Qed.
Print Assumptions C81_merge_pf.

(** No call on a HyperLogLogPlus touches its builder, its precision or its sizes. *)
Theorem C81_setup : forall (V W : Type) e ord (s : plus V) (o : plus W) m,
  same_setup s (fst (hp_insert_x e ord s m)) /\
  same_setup s (fst (hp_merge_x e ord s o)) /\
  same_setup s (fst (hp_count_x e ord s)).
Proof. exact setup_all. Qed.
Print Assumptions C81_setup.

(** An insertion into a HyperLogLogPlus that panics has changed nothing, or the sketch is sparse
    and the new code is pending, or the list has taken the pending codes and is too long. *)
Theorem C81_insert_plus : forall (V : Type) e ord (s : plus V) m,
  stopped (hp_insert_x e ord s m) ->
  fst (hp_insert_x e ord s m) = s \/
  (hp_registers s = None /\ exists h c, m = Ret h /\ encode_hash e (hp_precision s) (cast 64 h) = Ret c /\
     flush_stopped (set_tmpset s (hset_insert (hp_tmpset s) c)) (fst (hp_insert_x e ord s m))).
Proof. exact hp_insert_stopped. Qed.
Print Assumptions C81_insert_plus.

(** [count] that panics has changed nothing, or the sketch was sparse and its flush stopped, or
    its flush was complete. *)
Theorem C81_count_plus : forall (V : Type) e ord (s : plus V),
  stopped (hp_count_x e ord s) ->
  fst (hp_count_x e ord s) = s \/
  (hp_registers s = None /\
   (flush_stopped s (fst (hp_count_x e ord s)) \/ merge_sparse e ord s = Ret (fst (hp_count_x e ord s)))).
Proof. exact hp_count_stopped. Qed.
Print Assumptions C81_count_plus.

(** [merge] that panics has taken over the codes or registers it had read. *)
Theorem C81_merge_plus : forall (V W : Type) e ord (s : plus V) (o : plus W),
  stopped (hp_merge_x e ord s o) ->
  match hp_registers o, hp_registers s with
  | None, None =>
      exists t, incl (hp_tmpset s) t /\ flush_stopped (set_tmpset s t) (fst (hp_merge_x e ord s o))
  | None, Some r =>
      exists k l r', reads e (dif_into_iter (hp_sparse o)) l /\
        for_each (firstn k (ord (hp_tmpset o)) ++ l) (absorb_code e (hp_precision o)) r = Ret r' /\
        fst (hp_merge_x e ord s o) = set_registers s (Some r')
  | Some ro, None =>
      flush_stopped s (fst (hp_merge_x e ord s o)) \/
      exists s1, merge_sparse e ord s = Ret s1 /\
        (fst (hp_merge_x e ord s o) = s1 \/
         exists s2 r k r', (s2 = s1 \/ sparse_to_normal e s1 = Ret s2) /\ hp_registers s2 = Some r /\
           for_each_enum 0 (firstn k (reg_iter SIZE_PLUS ro)) (fun r i v => set_greater e SIZE_PLUS r i v) r = Ret r' /\
           fst (hp_merge_x e ord s o) = set_registers s2 (Some r'))
  | Some ro, Some r =>
      exists k r',
        for_each_enum 0 (firstn k (reg_iter SIZE_PLUS ro)) (fun r i v => set_greater e SIZE_PLUS r i v) r = Ret r' /\
        fst (hp_merge_x e ord s o) = set_registers s (Some r')
  end.
Proof. exact hp_merge_stopped. Qed.
Print Assumptions C81_merge_plus.

(** ** Programs that catch their panics *)

(** Where only hashing panics, the sketch is the one of the program without the failed calls. *)
Theorem C81_calm_pf : forall (V : Type) e (w : wild V) s,
  run_pf e (calm w) = Ret s -> caught_pf e w = Ret s.
Proof. exact calm_pf. Qed.
Print Assumptions C81_calm_pf.

Theorem C81_calm_plus : forall (V : Type) e (w : wild V) s,
  run_plus e (calm w) = Ret s -> caught_plus e w = Ret s.
Proof. exact calm_plus. Qed.
Print Assumptions C81_calm_plus.

(** Where [count] panics as well, on a target too narrow for it, the sketch is still the one the
    program gives on any target on which it runs. *)
Theorem C81_programs_pf : forall (V : Type) e e' (w : wild V), build e -> build e' -> valid MAX_PF (calm w) ->
  (exists s, caught_pf e w = Ret s) /\
  (forall s, run_pf e' (calm w) = Ret s -> caught_pf e w = Ret s).
Proof. exact programs_pf. Qed.
Print Assumptions C81_programs_pf.

(** The same for HyperLogLogPlus, once counted: also a [count] that panics leaves what it leaves
    where it returns. *)
Theorem C81_programs_plus : forall (V : Type) e e' ord ord' (w : wild V), build_std e -> build_std e' ->
  is_order ord -> is_order ord' -> valid MAX_PLUS (calm w) ->
  exists s, caught_plus e w = Ret s /\
    forall s', run_plus e' (HCount ord' (calm w)) = Ret s' -> fst (hp_count_x e ord s) = s'.
Proof. exact programs_plus. Qed.
Print Assumptions C81_programs_plus.

(** A program with a failed insertion; a [count] that panics on a 32-bit target with overflow
    checks, caught, and the sketch it leaves. *)
Example C81_example :
  let w := WInsert Add keep (WFail Insert keep (WInsert Add keep (WNew 4 mix) 3)) 5 in
  (exists s, run_plus test_env (calm w) = Ret s /\ caught_plus test_env w = Ret s) /\
  (exists s, run_pf test_env (calm w) = Ret s /\ caught_pf test_env w = Ret s) /\
  run_pf small_debug (HCount keep (HNew 16 mix)) = Panic /\
  (exists s, caught_pf small_debug (WInsert Add keep (WCount keep (WNew 16 mix)) 3) = Ret s /\
             run_pf test_env (HInsert Add keep (HCount keep (HNew 16 mix)) 3) = Ret s).
Proof. exact unwind_example. Qed.

(** Receivers decoded from untrusted data: the register counter too small, a byte of the list
    missing.  A merge into the first panics halfway with a register raised; insertion into the
    second panics with the code pending; merging the second into a good sketch leaves the codes
    read before the end. *)
Example C81_hostile_example :
  let bad := {| pf_builder := mix; pf_count := 16; pf_precision := 4;
                pf_registers := {| r_buf := [0; 0; 0]; r_count := 16; r_zeros := 1 |} |} in
  let ones := {| pf_builder := mix; pf_count := 16; pf_precision := 4;
                 pf_registers := {| r_buf := [33; 0; 0]; r_count := 16; r_zeros := 14 |} |} in
  let cut := {| hp_builder := mix; hp_precision := 4; hp_counts0 := 16; hp_counts1 := 2 ^ 24; hp_counts2 := 12;
                hp_tmpset := []; hp_sparse := {| d_count := 3; d_last := 9; d_buf := [2; 4; 128] |};
                hp_registers := None |} in
  let good := {| hp_builder := mix; hp_precision := 4; hp_counts0 := 16; hp_counts1 := 2 ^ 24; hp_counts2 := 12;
                hp_tmpset := []; hp_sparse := dif_new; hp_registers := None |} in
  pf_merge_x test_env bad ones =
    ({| pf_builder := mix; pf_count := 16; pf_precision := 4;
        pf_registers := {| r_buf := [1; 0; 0]; r_count := 16; r_zeros := 0 |} |}, Panic) /\
  hp_insert_x test_env keep cut (Ret (2 ^ 39)) = (set_tmpset cut [2], Panic) /\
  hp_insert_x test_env keep cut Panic = (cut, Panic) /\
  hp_merge_x test_env keep good cut = (set_tmpset good [6; 2], Panic).
Proof. exact hostile_example. Qed.
