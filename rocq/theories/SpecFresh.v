(** * Hashes that change a sketch, and hashes a sketch cannot tell apart *)
From Coq Require Import NArith List.
From Verif Require Import ModelRust ModelEnv ModelPlus Spec SpecDist.
Import ListNotations.
Local Open Scope N_scope.

(** [x] has a larger rank than its register holds. *)
Definition raises (W p : N) (l : list N) (x : N) : Prop :=
  nth (N.to_nat (bucket W p x)) l 0 < rank W p x.

(** A register holding [v] is raised by [2^(W-p-v)] hashes, a full one by none. *)
Definition raising (W p : N) (l : list N) : N :=
  sum (map (fun v => if v <=? W - p then 2 ^ (W - p - v) else 0) l).

(** Hashes with code [c]: an even code keeps 25 bits of them, an odd one the rank as well. *)
Definition code_hashes (c : N) : N :=
  if N.even c then 2 ^ 39
  else let r := c / 2 mod 64 in if r =? 40 then 1 else 2 ^ (39 - r).

(** Inserting the hash [x] and counting leaves the sketch counting alone leaves. *)
Definition unmoved {V : Type} (e : env) (ord : list N -> list N) (s : plus V) (x : N) : Prop :=
  exists s0 c0 s1 c1, hp_count e ord s = Ret (s0, c0) /\ hp_insert_hash e ord s x = Ret s1 /\
    hp_count e ord s1 = Ret (s0, c1).

(** Every hash of [H] is matched in [H'] by one of the same bucket with a rank as large. *)
Definition outranked (W p : N) (H H' : list N) : Prop :=
  forall x, In x H -> exists y, In y H' /\ bucket W p y = bucket W p x /\ rank W p x <= rank W p y.

(** [step], applied to the hashes [xs] one after the other, leads from [s] to [s'] and changes
    the state [k] times. *)
Inductive moves {S : Type} (step : S -> N -> M S) : S -> list N -> S -> N -> Prop :=
| moves_nil : forall s, moves step s [] s 0
| moves_same : forall s x xs s' k, step s x = Ret s -> moves step s xs s' k -> moves step s (x :: xs) s' k
| moves_step : forall s x xs s1 s' k, step s x = Ret s1 -> s1 <> s -> moves step s1 xs s' k ->
    moves step s (x :: xs) s' (k + 1).

(** Insert a hash, then count. *)
Definition insert_count {V : Type} (e : env) (ord : list N -> list N) (s : plus V) (x : N) : M (plus V) :=
  let* s1 := hp_insert_hash e ord s x in
  let* (s2, _) := hp_count e ord s1 in
  Ret s2.
