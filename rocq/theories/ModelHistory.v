(** * Programs using the public API

    A history describes how a sketch came to be: the calls made on it, and for every sketch
    merged into it the history of that one.  Cloning (derived [Clone]: a structural copy) is
    using the same history twice. *)
From Coq Require Import NArith ZArith List Bool.
From Verif Require Import ModelRust ModelF64 ModelEnv ModelCommon ModelPF ModelPlus ModelSerde.
Import ListNotations.
Local Open Scope N_scope.

(** The three insertion entry points (lib.rs:48-56, insert_any). *)
Inductive entry := Add | Insert | InsertAny.

(** [V] stands for every value of every type that is ever inserted anywhere in the program:
    sketches of different item types and with different builders have, in the same [V],
    different [builder] functions.  Wherever a HashSet is iterated, [ord] gives the order. *)
Inductive hist (V : Type) :=
| HNew (precision : N) (builder : V -> N)
| HInsert (k : entry) (ord : list N -> list N) (h : hist V) (v : V)
| HMerge (ord : list N -> list N) (h other : hist V)
| HCount (ord : list N -> list N) (h : hist V)
| HSerde (ord : list N -> list N) (ser_b : (V -> N) -> sval) (de_b : sval -> option (V -> N))
    (h : hist V).
Arguments HNew {V}.
Arguments HInsert {V}.
Arguments HMerge {V}.
Arguments HCount {V}.
Arguments HSerde {V}.

(** [Result::unwrap], [Option::unwrap]. *)
Definition unwrap_res {A : Type} (r : result A) : M A :=
  match r with ROk a => Ret a | RErr _ => Panic end.

(** The sketch a history of HyperLogLogPlus calls ends with.  The results of [merge] and
    [count] are discarded here; [new] and [deserialize] are unwrapped. *)
Fixpoint run_plus {V : Type} (e : env) (h : hist V) : M (plus V) :=
  match h with
  | HNew p b => let* r := hp_new e p b in unwrap_res r
  | HInsert k ord h v =>
      let* s := run_plus e h in
      match k with
      | Add => hp_add e ord s v
      | Insert => hp_insert e ord s v
      | InsertAny => hp_insert_any e ord s v
      end
  | HMerge ord h1 h2 =>
      let* s1 := run_plus e h1 in
      let* s2 := run_plus e h2 in
      let* (s, _) := hp_merge e ord s1 s2 in
      Ret s
  | HCount ord h =>
      let* s := run_plus e h in
      let* (s', _) := hp_count e ord s in
      Ret s'
  | HSerde ord ser_b de_b h =>
      let* s := run_plus e h in
      unwrap (de_plus e de_b (ser_plus ord ser_b s))
  end.

(** The same for HyperLogLogPF. *)
Fixpoint run_pf {V : Type} (e : env) (h : hist V) : M (pf V) :=
  match h with
  | HNew p b => let* r := pf_new e p b in unwrap_res r
  | HInsert k _ h v =>
      let* s := run_pf e h in
      match k with
      | Add => pf_add e s v
      | Insert => pf_insert e s v
      | InsertAny => pf_insert_any e s v
      end
  | HMerge _ h1 h2 =>
      let* s1 := run_pf e h1 in
      let* s2 := run_pf e h2 in
      let* (s, _) := pf_merge e s1 s2 in
      Ret s
  | HCount _ h =>
      let* s := run_pf e h in
      let* _ := pf_count_est e s in
      Ret s
  | HSerde _ ser_b de_b h =>
      let* s := run_pf e h in
      unwrap (de_pf e de_b (ser_pf ser_b s))
  end.

(** What [count()] returns at the end of a history. *)
Definition count_plus {V : Type} (e : env) (ord : list N -> list N) (h : hist V) : M f64 :=
  let* s := run_plus e h in
  let* (_, c) := hp_count e ord s in
  Ret c.
Definition count_pf {V : Type} (e : env) (h : hist V) : M f64 :=
  let* s := run_pf e h in
  pf_count_est e s.
