(** * /repo/evaluation/src/main.rs: the evaluation experiments

    Modelled: the hasher, the conversion of estimates to integers, and the two experiments of
    [run_impls!] from the loaded numbers to the estimations that are saved.  Not modelled: command
    line, files, threads (every file and every run is processed by itself), and the generation of
    random numbers (an arbitrary sequence instead). *)
From Coq Require Import NArith ZArith List Bool.
From Flocq Require Import Core BinarySingleNaN.
From Verif Require Import ModelRust ModelF64 ModelEnv ModelCommon ModelPF ModelPlus ModelHistory.
Import ListNotations.
Local Open Scope N_scope.

(** evaluation/src/main.rs:15-31: [PassThroughHasher]; the state is its u64. *)
Definition finish (state : N) : N := state.
Definition write (state : N) (bytes : list N) : N := state.
Definition write_u32 (state i : N) : N := i.
Definition write_u64 (state i : N) : N := i.

(** evaluation/src/main.rs:33-41: [PassThroughHasherBuilder]. *)
Definition build_hasher : N := 0.

(** The hash of a u32 or u64, behind any number of references: std's [Hash] for them makes one call,
    [write_u32] or [write_u64] with the number. *)
Definition hash_u32 (v : N) : N := finish (write_u32 build_hasher v).
Definition hash_u64 (v : N) : N := finish (write_u64 build_hasher v).

(** [x.trunc() as u64]: casts from float saturate and send NaN to 0. *)
Definition trunc_u64 (x : f64) : N :=
  match x with
  | B754_nan => 0
  | B754_infinity true => 0
  | B754_infinity false => 2 ^ 64 - 1
  | _ => Z.to_N (Z.min (Btrunc x) (2 ^ 64 - 1))
  end.

(** evaluation/src/main.rs:73-166: the experiments, for a sketch type with the operations [ins] and
    [cnt].  Their first argument numbers the calls, so that iteration orders of hash sets can
    differ from call to call.  An [Estimation] (line 43) is a pair of u64. *)
Section Run.
Context {S : Type} (ins : N -> S -> N -> M S) (cnt : N -> S -> M (S * f64)).
Variable e : env.

(** lines 95-106: the closure mapped over the enumerated hashes; [i] is a usize.  [k] is the number
    of the next call. *)
Fixpoint hashes_loop (k : N) (s : S) (i : N) (hashes : list N) : M (list (N * N)) :=
  match hashes with
  | [] => Ret []
  | num :: hashes' =>
      let* s1 := ins k s num in
      let* i1 := uadd (overflow_checks e) (usize_bits e) i 1 in
      let* (s2, c) := cnt (k + 1) s1 in
      let* rest := hashes_loop (k + 2) s2 i1 hashes' in
      Ret ((cast 64 i1, trunc_u64 c) :: rest)
  end.

(** lines 142-148: [while c < *cardinality].  [draws] are the random numbers, [c] those used. *)
Fixpoint fill (fuel : nat) (draws : N -> N) (k : N) (s : S) (c cardinality : N) : M (N * S * N) :=
  match fuel with
  | O => OutOfFuel
  | Datatypes.S fuel' =>
      if c <? cardinality then
        let* s1 := ins k s (draws c) in
        let* c1 := uadd (overflow_checks e) (usize_bits e) c 1 in
        fill fuel' draws (k + 1) s1 c1 cardinality
      else Ret (k, s, c)
  end.

(** lines 137-152. *)
Fixpoint cardinalities_loop (draws : N -> N) (k : N) (s : S) (c : N) (cardinalities : list N)
  : M (list (N * N)) :=
  match cardinalities with
  | [] => Ret []
  | cardinality :: cardinalities' =>
      let* (k1, s1, c1) := fill (N.to_nat (cardinality - c) + 1) draws k s c cardinality in
      let* (s2, x) := cnt k1 s1 in
      let* rest := cardinalities_loop draws (k1 + 1) s2 c1 cardinalities' in
      Ret ((cast 64 c1, trunc_u64 x) :: rest)
  end.
End Run.

(** The operations of the two types (lines 204-205: [HyperLogLogPF] on u32, [HyperLogLogPlus] on
    u64). *)
Definition ins_plus (e : env) (ords : N -> list N -> list N) (k : N) (s : plus N) (v : N) : M (plus N) :=
  hp_insert e (ords k) s v.
Definition cnt_plus (e : env) (ords : N -> list N -> list N) (k : N) (s : plus N) : M (plus N * f64) :=
  hp_count e (ords k) s.
Definition ins_pf (e : env) (k : N) (s : pf N) (v : N) : M (pf N) := pf_insert e s v.
Definition cnt_pf (e : env) (k : N) (s : pf N) : M (pf N * f64) :=
  let* c := pf_count_est e s in Ret (s, c).

(** lines 88-106 (mode "hashes", one file) and 128-152 (mode "cardinalities", one run). *)
Definition eval_hashes_plus (e : env) ords (precision : N) (hashes : list N) : M (list (N * N)) :=
  let* r := hp_new e precision hash_u64 in
  let* s := unwrap_res r in
  hashes_loop (ins_plus e ords) (cnt_plus e ords) e 0 s 0 hashes.
Definition eval_hashes_pf (e : env) (precision : N) (hashes : list N) : M (list (N * N)) :=
  let* r := pf_new e precision hash_u32 in
  let* s := unwrap_res r in
  hashes_loop (ins_pf e) (cnt_pf e) e 0 s 0 hashes.
Definition eval_cards_plus (e : env) ords (precision : N) (draws : N -> N) (cards : list N)
  : M (list (N * N)) :=
  let* r := hp_new e precision hash_u64 in
  let* s := unwrap_res r in
  cardinalities_loop (ins_plus e ords) (cnt_plus e ords) e draws 0 s 0 cards.
Definition eval_cards_pf (e : env) (precision : N) (draws : N -> N) (cards : list N)
  : M (list (N * N)) :=
  let* r := pf_new e precision hash_u32 in
  let* s := unwrap_res r in
  cardinalities_loop (ins_pf e) (cnt_pf e) e draws 0 s 0 cards.
