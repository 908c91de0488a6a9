(** * C79: the number of steps of a program *)
From Coq Require Import NArith List Bool Lia.
From Verif Require Import ModelRust ModelF64 ModelEnv ModelRegisters ModelEncoding ModelPF ModelPlus ModelSerde ModelHistory ModelCost
  Spec SpecBuild SpecCost ModelTests Witness PFInv CostFacts CostState CostClaim.
Import ListNotations.
Local Open Scope N_scope.

(** Counting the steps changes nothing: with the counter removed the calls, and the programs
    made of them, are those of ModelPlus.v and ModelPF.v. *)
Theorem C79_same_calls : forall (V W : Type) e ord (s : plus V) (o : plus W) v,
  erase (t_hp_insert e ord s v) = hp_insert_impl e ord s v /\
  erase (t_hp_merge e ord s o) = hp_merge e ord s o /\
  erase (t_hp_count e ord s) = hp_count e ord s.
Proof. exact (fun V W e ord s o v => conj (erase_insert V e ord s v) (conj (erase_merge V W e ord s o) (erase_count V e ord s))). Qed.
Print Assumptions C79_same_calls.

Theorem C79_same_plus : forall (V : Type) e (h : hist V), erase (t_run_plus e h) = run_plus e h.
Proof. exact erase_run_plus. Qed.
Print Assumptions C79_same_plus.

Theorem C79_same_pf : forall (V : Type) e (h : hist V), erase (t_run_pf e h) = run_pf e h.
Proof. exact erase_run_pf. Qed.
Print Assumptions C79_same_pf.

(** Every program: a constant for each insertion, a multiple of the number of registers for
    each other call, whatever is inserted and whenever the sketch changes its representation. *)
Theorem C79_plus : forall (V : Type) e (h : hist V) s, build_std e -> valid MAX_PLUS h ->
  run_plus e h = Ret s -> exists n, t_run_plus e h = Ret (s, n) /\ n <= budget h.
Proof. exact plus_steps. Qed.
Print Assumptions C79_plus.

(** A stream of values: linear in its length. *)
Theorem C79_stream : forall (V : Type) e k ord p (b : V -> N) l,
  build_std e -> 4 <= p <= MAX_PLUS -> is_order ord ->
  exists s n, t_run_plus e (insertions k ord (HNew p b) l) = Ret (s, n) /\ n <= 10 * 2 ^ p + 726 * len l.
Proof. exact stream_steps. Qed.
Print Assumptions C79_stream.

(** Any one call. *)
Theorem C79_insert : forall (V : Type) e ord (h : hist V) s v s' n,
  build_std e -> valid MAX_PLUS h -> is_order ord -> run_plus e h = Ret s ->
  t_hp_insert e ord s v = Ret (s', n) ->
  n <= 17 * 2 ^ hist_precision h /\ (is_sparse s = false -> n = 1 /\ is_sparse s' = false).
Proof. exact insert_steps. Qed.
Print Assumptions C79_insert.

Theorem C79_merge : forall (V : Type) e ord (h1 h2 : hist V) s1 s2 s' r n,
  build_std e -> valid MAX_PLUS h1 -> valid MAX_PLUS h2 -> is_order ord ->
  run_plus e h1 = Ret s1 -> run_plus e h2 = Ret s2 -> t_hp_merge e ord s1 s2 = Ret ((s', r), n) ->
  n <= 56 * 2 ^ hist_precision h1 /\ (hist_precision h1 <> hist_precision h2 -> n = 1).
Proof. exact merge_steps. Qed.
Print Assumptions C79_merge.

(** A count reads the whole encoded list, even if nothing is pending. *)
Theorem C79_count : forall (V : Type) e ord (h : hist V) s s' x n,
  build_std e -> valid MAX_PLUS h -> is_order ord -> run_plus e h = Ret s ->
  t_hp_count e ord s = Ret ((s', x), n) ->
  1 + len (d_buf (hp_sparse s)) <= n /\ n <= 21 * 2 ^ hist_precision h.
Proof. exact count_steps. Qed.
Print Assumptions C79_count.

Theorem C79_count_registers : forall (V : Type) e ord (h : hist V) s r s' x n,
  build_std e -> valid MAX_PLUS h -> run_plus e h = Ret s -> hp_registers s = Some r ->
  t_hp_count e ord s = Ret ((s', x), n) ->
  s' = s /\ (n = 1 \/ n = 1 + 2 ^ hist_precision h) /\ (reg_zeros r = 0 -> n = 1 + 2 ^ hist_precision h).
Proof. exact count_registers. Qed.
Print Assumptions C79_count_registers.

(** So counting a sparse sketch again and again changes nothing, and is paid for each time. *)
Theorem C79_again : forall (V : Type) e ord (h : hist V) s k m,
  build_std e -> valid MAX_PLUS h -> is_order ord -> t_run_plus e h = Ret (s, k) -> hp_tmpset s = [] ->
  forall s' n, t_run_plus e (counted ord h m) = Ret (s', n) ->
  s' = s /\ k + N.of_nat m * (1 + len (d_buf (hp_sparse s))) <= n.
Proof. exact counts_again. Qed.
Print Assumptions C79_again.

(** HyperLogLogPF, exactly. *)
Theorem C79_pf : forall (V : Type) e (h : hist V) s, build e -> valid MAX_PF h ->
  run_pf e h = Ret s -> t_run_pf e h = Ret (s, pf_steps h).
Proof. exact pf_program_steps. Qed.
Print Assumptions C79_pf.

(** Twelve insertions at precision 10: the ninth writes the pending codes to the list. *)
Definition steps_of {A : Type} (m : T A) : option N := match m with Ret (_, n) => Some n | _ => None end.
Example C79_example :
  let h n := insertions Insert keep (HNew 10 mix) (range n) in
  map (fun n => steps_of (t_run_plus test_env (h n))) [0; 1; 8; 9; 12] = [Some 1; Some 2; Some 9; Some 97; Some 100] /\
  budget (h 12) = 18952 /\ steps_of (t_run_plus test_env (HMerge keep (h 9) (h 12))) = Some 393 /\
  (let* s := run_plus test_env (h 9) in Ret (len (hp_tmpset s), len (d_buf (hp_sparse s)))) = Ret (0, 33).
Proof. cbv zeta. split; [vm_compute; reflexivity|]. split; [vm_compute; reflexivity|]. split; [vm_compute; reflexivity|]. vm_compute; reflexivity. Qed.

(** At precision 4 every insertion rewrites the list, until the fourth makes registers of it;
    from then on an insertion is one step. *)
Example C79_example_registers :
  map (fun n => steps_of (t_run_plus test_env (insertions Insert keep (HNew 4 mix) (range n)))) [0; 1; 2; 3; 4; 5; 9; 12] =
    [Some 1; Some 6; Some 17; Some 37; Some 87; Some 88; Some 92; Some 95].
Proof. vm_compute. reflexivity. Qed.

(** All pairs of representations merged, and all of them written and read. *)
Example C79_example_calls :
  let h n := insertions Insert keep (HNew 4 mix) (range n) in let g n := insertions Insert keep (HNew 4 mix2) (range n) in
  map (fun x => steps_of (t_run_plus test_env (HMerge keep (h (fst x)) (g (snd x))))) [(1, 1); (1, 5); (5, 1); (5, 5); (0, 2); (3, 3)] =
    [Some 31; Some 144; Some 103; Some 217; Some 54; Some 181] /\
  map (fun n => steps_of (t_run_plus test_env (HSerde (@rev N) ser_unit de_mix (insertions Insert keep (HNew 10 mix) (range n))))) [0; 8; 9] = [Some 2; Some 26; Some 164] /\
  steps_of (t_run_plus test_env (HSerde (@rev N) ser_unit de_mix (h 5))) = Some 97 /\
  steps_of (t_run_plus test_env (HMerge keep (h 5) (HNew 5 mix))) = Some 90.
Proof. cbv zeta. split; [|split; [|split]]; vm_compute; reflexivity. Qed.

(** The hypotheses of [C79_again] are met, with a list of 33 bytes: a thousand counts take
    34000 steps at the least. *)
Example C79_example_again :
  let h := insertions Insert keep (HNew 10 mix) (range 9) in
  valid MAX_PLUS h /\ is_order keep /\
  match t_run_plus test_env h with
  | Ret (s, k) => k = 97 /\ hp_tmpset s = [] /\ len (d_buf (hp_sparse s)) = 33
  | _ => False
  end.
Proof. cbv zeta. split; [apply insertions_facts; [apply keep_order|split; discriminate]|]. split; [apply keep_order|]. vm_compute. auto. Qed.

Example C79_example_pf :
  let h n := insertions Insert keep (HNew 4 mix) (range n) in
  map (fun n => steps_of (t_run_pf test_env (h n))) [0; 1; 8] = [Some 4; Some 5; Some 12] /\
  steps_of (t_run_pf test_env (HMerge keep (h 1) (h 8))) = Some 34 /\ pf_steps (HMerge keep (h 1) (h 8)) = 34 /\
  steps_of (t_run_pf test_env (HMerge keep (h 8) (HNew 5 mix))) = Some 20.
Proof. cbv zeta. split; [|split; [|split]]; vm_compute; reflexivity. Qed.
