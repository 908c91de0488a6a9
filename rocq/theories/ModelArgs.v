(** * Model: the arguments that the evaluation program declares

    clap turns the command line into values and checks them against the declarations of
    evaluation/src/main.rs:208-302; only the declared rules are modelled, not how clap splits the
    command line (an argument that is given has a value, since each [takes_value(true)]). *)
From Coq Require Import String.
From Coq Require Import NArith List Bool.
From Verif Require Import ModelRust ModelFiles.
Import ListNotations.
Local Open Scope N_scope.

Definition given {A : Type} (v : option A) : bool := match v with Some _ => true | None => false end.

(** [possible_values]. *)
Definition one_of (vs : list bytes) (v : option bytes) : bool :=
  match v with Some s => existsb (eqb_bytes s) vs | None => false end.

(** [required_if("mode", s)]. *)
Definition required_if (mode : option bytes) (s : bytes) (present : bool) : bool :=
  match mode with Some m => if eqb_bytes m s then present else true | None => true end.

(** evaluation/src/main.rs:209-240. *)
Definition accepts_gen (a : gen_args) : bool :=
  one_of [str "32"; str "64"] (g_size a) && given (g_count a) && given (g_runs a) && given (g_output a).

(** evaluation/src/main.rs:242-290; [input] is [multiple(true)]: one value or more. *)
Definition accepts_run (a : run_args) : bool :=
  one_of [str "hll"; str "hllp"] (r_type a) && one_of [str "hashes"; str "cardinalities"] (r_mode a) &&
  given (r_precision a) && given (r_output a) &&
  match r_input a with Some [] => false | _ => true end &&
  required_if (r_mode a) (str "hashes") (given (r_input a)) &&
  required_if (r_mode a) (str "cardinalities") (given (r_runs a)) &&
  required_if (r_mode a) (str "cardinalities") (given (r_cardinalities a)).
