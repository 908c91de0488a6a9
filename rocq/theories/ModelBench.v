(** * The benchmarks: /repo/benchmarks/benches/hyperloglog.rs and the [benches] modules of src

    A benchmark prepares a state and runs a closure any number of times; here [iters] times, with
    what [black_box] receives collected in a list.  Timing is not modelled.  The random numbers are
    an arbitrary sequence of u64, [RandomState] and [DefaultBuildHasher] arbitrary hash functions,
    [shuffle] an arbitrary function (a permutation in the theorems), [ords] the iteration orders of
    the pending set, one for each call. *)
From Coq Require Import String.
From Coq Require Import NArith ZArith List Bool.
From Verif Require Import ModelRust ModelF64 ModelEnv ModelRegisters ModelEncoding ModelCommon ModelPF ModelPlus ModelHistory ModelEval ModelFiles.
Import ListNotations.
Local Open Scope N_scope.

(** [b.iter(|| body)]; the body gets the number of the iteration. *)
Definition iter {S : Type} (iters : N) (body : S -> N -> M S) (s : S) : M S := for_each (range iters) body s.

(** The same for a body whose result goes to [black_box]. *)
Definition iter_seen {S A : Type} (iters : N) (body : S -> N -> M (S * A)) (s : S) : M (S * list A) :=
  for_each (range iters) (fun sa k => let* (s', a) := body (fst sa) k in Ret (s', snd sa ++ [a])) (s, []).

Definition assert (b : bool) : M unit := if b then Ret tt else Panic.

(** ** src/common.rs:376-397 *)
Definition bench_registers_get (e : env) (iters : N) : M (registers * list (list N)) :=
  let* r := with_count e SIZE_PLUS 1000 in
  iter_seen iters (fun r _ =>
    let* vals := for_each (range 1000) (fun vals i => let* v := reg_get SIZE_PLUS r i in Ret (vals ++ [v])) [] in
    Ret (r, vals)) r.
Definition bench_registers_set (e : env) (iters : N) : M registers :=
  let* r := with_count e SIZE_PLUS 1000 in
  iter iters (fun r _ => for_each (range 1000) (fun r i => set_greater e SIZE_PLUS r i 123) r) r.

(** ** src/encoding.rs:272-306, [val] being [u32::min_value()] or [u32::max_value()]; the capacity
    of the vector does not matter. *)
Definition bench_varint_push (iters val : N) : M varintvec := iter iters (fun v _ => varint_push v val) [].
Definition bench_varint_decode (e : env) (iters val : N) : M (varintvec * list (N * N)) :=
  let* v := for_each (range 10) (fun v _ => varint_push v val) [] in
  iter_seen iters (fun v _ => let* x := varint_decode e v 0 in Ret (v, x)) v.

(** ** Random strings: src/hyperloglog.rs:438-444, src/hyperloglogplus.rs:1204-1210,
    benches/hyperloglog.rs:12-22; [format!("- {} - {} -", a, b)] *)
Definition bench_string (a b : N) : bytes := str "- " ++ display_uint a ++ str " - " ++ display_uint b ++ str " -".
Definition strings (draws : N -> N) (count : N) : list bytes :=
  map (fun i => bench_string (draws (2 * i)) (draws (2 * i + 1))) (range count).
Definition generate_strings (draws : N -> N) (shuffle : list bytes -> list bytes) (count : N) : list bytes :=
  shuffle (strings draws count).

(** Inserting a list in order. *)
Definition fill_pf {V : Type} (e : env) (l : list V) (s : pf V) : M (pf V) := for_each l (fun s v => pf_insert e s v) s.
Definition fill_plus {V : Type} (e : env) (ords : N -> list N -> list N) (l : list V) (s : plus V) : M (plus V) :=
  for_each_enum 0 l (fun s k v => hp_insert e (ords k) s v) s.

(** The values [u64::max_value() - i] with the hasher that passes them through. *)
Definition downwards (n : N) : list N := map (fun i => 2 ^ 64 - 1 - i) (range n).

(** ** src/hyperloglog.rs:422-475 *)
Definition bench_pf_insert (e : env) (iters : N) : M (pf N) :=
  let* r := pf_new e 16 (fun x => x) in
  let* s := unwrap_res r in
  iter iters (fun s _ => fill_pf e (downwards 1000) s) s.
Definition bench_pf_insert_with_hash (e : env) (draws : N -> N) (builder : bytes -> N) (iters : N) : M (unit * list f64) :=
  iter_seen iters (fun u _ =>
    let* r := pf_new e 16 builder in
    let* s := unwrap_res r in
    let* s := fill_pf e (strings draws 2000) s in
    let* c := pf_count_est e s in
    Ret (u, c)) tt.
Definition bench_pf_count (e : env) (iters : N) : M (pf N * list f64) :=
  let* r := pf_new e 16 (fun x => x) in
  let* s := unwrap_res r in
  let* s := fill_pf e (downwards 10000) s in
  iter_seen iters (fun s _ => let* c := pf_count_est e s in Ret (s, c)) s.

(** ** src/hyperloglogplus.rs:1186-1285; [ords i k]: call [k] of iteration [i] *)
Definition forced_normal (V : Type) (e : env) (p : N) (builder : V -> N) : M (plus V) :=
  let* r := hp_new e p builder in
  let* s := unwrap_res r in
  sparse_to_normal e s.
Arguments forced_normal {V}.
Definition bench_plus_insert_normal (e : env) (ords : N -> N -> list N -> list N) (iters : N) : M (plus N) :=
  let* s := forced_normal e 16 (fun x => x) in
  iter iters (fun s i => fill_plus e (ords i) (downwards 1000) s) s.
Definition bench_insert_normal_with_hash (e : env) (ords : N -> N -> list N -> list N) (draws : N -> N) (builder : bytes -> N)
  (iters : N) : M (unit * list f64) :=
  iter_seen iters (fun u i =>
    let* s := forced_normal e 16 builder in
    let* s := fill_plus e (ords i) (strings draws 2000) s in
    let* (_, c) := hp_count e (ords i 2000) s in
    Ret (u, c)) tt.
Definition bench_plus_count_normal (e : env) (ords : N -> list N -> list N) (iters : N) : M (plus N * list f64) :=
  let* s := forced_normal e 16 (fun x => x) in
  iter_seen iters (fun s i => hp_count e (ords i) s) s.
Definition bench_plus_merge_sparse (e : env) (ords ords' : N -> list N -> list N) (iters : N) : M (plus N) :=
  let* r := hp_new e 16 (fun x => x) in
  let* s := unwrap_res r in
  let* s := fill_plus e ords (map (fun i => N.shiftl i 39) (range 500)) s in
  let* _ := assert (hset_len (hp_tmpset s) =? 500) in
  let set := hp_tmpset s in
  let* s := iter iters (fun s i => merge_sparse e (ords' i) (set_tmpset s set)) s in
  let* _ := assert (is_sparse s) in
  let* _ := assert (hset_len (hp_tmpset s) =? 0) in
  Ret s.
Definition bench_estimate_bias (e : env) (iters : N) : M (unit * list (list f64)) :=
  let* r := hp_new e 18 (fun x : N => x) in
  let* s := unwrap_res r in
  iter_seen iters (fun u _ =>
    let* a := estimate_bias e (hp_precision s) (lit 275468768 3) in
    let* b := estimate_bias e (hp_precision s) (lit 587532522 3) in
    let* c := estimate_bias e (hp_precision s) (lit 1205430993 3) in
    let* d := estimate_bias e (hp_precision s) (lit 1251260649 3) in
    Ret (u, [a; b; c; d])) tt.

(** ** benches/hyperloglog.rs:24-48: [bench_insert], for one of the two types and a precision; the
    hash function differs in each iteration *)
Definition bench_insert_pf (e : env) (workload : list bytes) (builders : N -> bytes -> N) (precision iters : N) : M unit :=
  iter iters (fun _ i =>
    let* r := pf_new e precision (builders i) in
    let* s := unwrap_res r in
    let* _ := fill_pf e workload s in
    Ret tt) tt.
Definition bench_insert_plus (e : env) (ords : N -> N -> list N -> list N) (workload : list bytes) (builders : N -> bytes -> N)
  (precision iters : N) : M unit :=
  iter iters (fun _ i =>
    let* r := hp_new e precision (builders i) in
    let* s := unwrap_res r in
    let* _ := fill_plus e (ords i) workload s in
    Ret tt) tt.
(** lines 42-48. *)
Definition insert_precisions : list N := [8; 14; 16].

(** ** benches/hyperloglog.rs:50-110: [bench_count] *)
Definition bench_count_pf (e : env) (draws : N -> N) (shuffle : list bytes -> list bytes) (builder : bytes -> N)
  (precision count iters : N) : M (pf bytes * list f64) :=
  let workload := generate_strings draws shuffle count in
  let* r := pf_new e precision builder in
  let* s := unwrap_res r in
  let* s := fill_pf e workload s in
  iter_seen iters (fun s _ => let* c := pf_count_est e s in Ret (s, c)) s.
Definition bench_count_plus (e : env) (ords ords' : N -> list N -> list N) (draws : N -> N) (shuffle : list bytes -> list bytes)
  (builder : bytes -> N) (precision count iters : N) : M (plus bytes * list f64) :=
  let workload := generate_strings draws shuffle count in
  let* r := hp_new e precision builder in
  let* s := unwrap_res r in
  let* s := fill_plus e ords workload s in
  iter_seen iters (fun s i => hp_count e (ords' i) s) s.
(** lines 70-109: precision and number of strings. *)
Definition count_pf_cases : list (N * N) := [(8, 20000); (14, 100000); (16, 5000000)].
Definition count_plus_cases : list (N * N) := [(8, 200); (8, 20000); (14, 10000); (14, 100000); (16, 49000); (16, 5000000)].
