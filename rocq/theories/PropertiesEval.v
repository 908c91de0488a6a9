(** * The evaluation experiments *)
From Coq Require Import NArith ZArith Reals List Permutation Lia.
From Flocq Require Import Core BinarySingleNaN.
From Verif Require Import ModelRust ModelF64 ModelEnv ModelHistory ModelEval ModelTests Spec SpecBuild SpecDist SpecProb
  SpecEval EvalFacts.
Import ListNotations.
Local Open Scope N_scope.

(** ** C67: the experiments record what a sketch of the values so far counts

    Although one sketch is counted again and again while it is filled. *)
Theorem C67_hashes_plus : forall e ords p, build_std e -> (forall k, is_order (ords k)) -> 4 <= p <= 18 ->
  2 * p < usize_bits e -> forall hs, Forall (fun x => x < 2 ^ 64) hs ->
  N.of_nat (length hs) < 2 ^ usize_bits e -> N.of_nat (length hs) < 2 ^ 64 ->
  exists out, eval_hashes_plus e ords p hs = Ret out /\ length out = length hs /\
  forall j (V : Type) ord (h : hist V), (j < length hs)%nat -> valid MAX_PLUS h -> narrow (usize_bits e) h -> is_order ord ->
    hist_precision h = p -> same_set (hist_hashes h) (firstn (j + 1) hs) ->
    exists c k, count_plus e ord h = Ret c /\ shown c k /\ nth_error out j = Some (N.of_nat (j + 1), k).
Proof. exact hashes_plus. Qed.
Print Assumptions C67_hashes_plus.

Theorem C67_hashes_pf : forall e p, build e -> 4 <= p <= 16 -> 2 * p < usize_bits e ->
  forall hs, Forall (fun x => x < 2 ^ 32) hs ->
  N.of_nat (length hs) < 2 ^ usize_bits e -> N.of_nat (length hs) < 2 ^ 64 ->
  exists out, eval_hashes_pf e p hs = Ret out /\ length out = length hs /\
  forall j (V : Type) (h : hist V), (j < length hs)%nat -> valid MAX_PF h -> narrow (usize_bits e) h ->
    hist_precision h = p -> same_set (map (fun x => x mod 2 ^ 32) (hist_hashes h)) (firstn (j + 1) hs) ->
    exists c k, count_pf e h = Ret c /\ shown c k /\ nth_error out j = Some (N.of_nat (j + 1), k).
Proof. exact hashes_pf. Qed.
Print Assumptions C67_hashes_pf.

(** With a list of cardinalities: the line of a cardinality below an earlier one repeats the number
    of values inserted so far. *)
Theorem C67_cards_plus : forall e ords p, build_std e -> (forall k, is_order (ords k)) -> 4 <= p <= 18 ->
  2 * p < usize_bits e -> forall draws cards, (forall i, draws i < 2 ^ 64) ->
  Forall (fun x => x < 2 ^ usize_bits e /\ x < 2 ^ 64) cards ->
  exists out, eval_cards_plus e ords p draws cards = Ret out /\ length out = length cards /\
  forall j (V : Type) ord (h : hist V), (j < length cards)%nat -> valid MAX_PLUS h -> narrow (usize_bits e) h -> is_order ord ->
    let n := largest (firstn (j + 1) cards) in
    hist_precision h = p -> same_set (hist_hashes h) (first_draws draws n) ->
    exists c k, count_plus e ord h = Ret c /\ shown c k /\ nth_error out j = Some (n, k).
Proof. exact cards_plus. Qed.
Print Assumptions C67_cards_plus.

Theorem C67_cards_pf : forall e p, build e -> 4 <= p <= 16 -> 2 * p < usize_bits e ->
  forall draws cards, (forall i, draws i < 2 ^ 32) ->
  Forall (fun x => x < 2 ^ usize_bits e /\ x < 2 ^ 64) cards ->
  exists out, eval_cards_pf e p draws cards = Ret out /\ length out = length cards /\
  forall j (V : Type) (h : hist V), (j < length cards)%nat -> valid MAX_PF h -> narrow (usize_bits e) h ->
    let n := largest (firstn (j + 1) cards) in
    hist_precision h = p -> same_set (map (fun x => x mod 2 ^ 32) (hist_hashes h)) (first_draws draws n) ->
    exists c k, count_pf e h = Ret c /\ shown c k /\ nth_error out j = Some (n, k).
Proof. exact cards_pf. Qed.
Print Assumptions C67_cards_pf.

(** A precision the sketch does not accept stops the experiment. *)
Theorem C67_precision : forall e ords p draws l, build e ->
  (~ 4 <= p <= 18 -> eval_hashes_plus e ords p l = Panic /\ eval_cards_plus e ords p draws l = Panic) /\
  (~ 4 <= p <= 16 -> eval_hashes_pf e p l = Panic /\ eval_cards_pf e p draws l = Panic).
Proof. exact eval_precisions. Qed.
Print Assumptions C67_precision.

(** The hasher passes the last number written and ignores bytes: whatever is hashed as bytes, such as a
    string, hashes to 0. *)
Theorem C67_hasher : (forall v, hash_u32 v = v /\ hash_u64 v = v) /\
  (forall bytes, finish (write build_hasher bytes) = 0) /\
  (forall s v bytes, finish (write (write_u64 s v) bytes) = v).
Proof. exact hasher. Qed.
Print Assumptions C67_hasher.

(** For all but a fraction n^2/2^26 of the files of n random hashes every single line is exact. *)
Theorem C67_exact : forall e ords p n, build_std e -> accurate e -> (forall k, is_order (ords k)) -> 4 <= p <= 18 ->
  2 * p < usize_bits e -> 4 * N.of_nat n + 16 <= sparse_limit p -> N.of_nat n <= 5791 ->
  rare 64 n (INR n ^ 2 / IZR (2 ^ 26))
    (fun hs => eval_hashes_plus e ords p hs <> Ret (map (fun i => (N.of_nat i, N.of_nat i)) (seq 1 n))).
Proof. exact exact_lines. Qed.
Print Assumptions C67_exact.

(** The last count of HyperLogLogPF is NaN and recorded as 0.  Cardinality 3 comes after 5. *)
Example C67_example :
  eval_hashes_pf test_env 4 (map (fun i => N.of_nat i * 2 ^ 28) (seq 0 16))
  = Ret [(1, 1); (2, 2); (3, 3); (4, 4); (5, 5); (6, 7); (7, 9); (8, 11); (9, 13); (10, 15); (11, 18); (12, 43);
         (13, 57); (14, 86); (15, 172); (16, 0)] /\
  eval_hashes_plus test_env (fun _ => keep) 4 [1; 2; 2 ^ 63; 2 ^ 62; 2 ^ 63; 2 ^ 60; 2 ^ 61; 2 ^ 50; 2 ^ 39; 2 ^ 40]
  = Ret [(1, 1); (2, 2); (3, 3); (4, 4); (5, 4); (6, 4); (7, 5); (8, 5); (9, 5); (10, 5)] /\
  eval_cards_plus test_env (fun _ => keep) 4 (fun i => i * 2 ^ 59) [2; 5; 3; 9] = Ret [(2, 2); (5, 3); (5, 3); (9, 5)] /\
  4 * N.of_nat 3000 + 16 <= sparse_limit 14 /\ N.of_nat 3000 <= 5791.
Proof. split; [|split; [|split; [|split]]]; lazy; reflexivity || discriminate. Qed.
