(** * /repo/evaluation/exp.py:12-62: the commands that [prepare] and [run] start, and what the evaluation program reads in them

    The arguments of exp.py are as argparse leaves them (lines 183-331): ints have no bound, [None] is an argument that was
    not given and has no default.  Not modelled: the command line of exp.py itself, and the path of the program. *)
From Coq Require Import String.
From Coq Require Import NArith ZArith List Bool.
From Verif Require Import ModelRust ModelEnv ModelFiles ModelArgs ModelExp.
Import ListNotations.
Local Open Scope N_scope.

(** Lines 194-199 and 203-243: the arguments of "prepare". *)
Record prepare_args := PrepareArgs { a_jobs : Z; a_size : bytes; a_count : Z; a_runs : Z; a_output : bytes }.

(** Lines 194-199 and 245-292: the arguments of "run". *)
Record exp_run_args := ExpRunArgs { x_jobs : Z; x_type : bytes; x_mode : bytes; x_precision : Z; x_input : option bytes;
  x_runs : option Z; x_cardinalities : option bytes; x_output : bytes }.

(** [str] of an int that may be [None], and such a string in a format. *)
Definition str_or_none (z : option Z) : bytes := match z with Some z => str_int z | None => str "None" end.
Definition text_or_none (s : option bytes) : bytes := match s with Some s => s | None => str "None" end.

(** Lines 21-29, without the program. *)
Definition prepare_command (a : prepare_args) : list bytes :=
  [str "--jobs"; str_int (a_jobs a); str "gen"; str "--size"; a_size a; str "--count"; str_int (a_count a);
   str "--runs"; str_int (a_runs a); str "--output"; a_output a].

Section Command.
(** [glob.glob]: the paths that match a pattern. *)
Variable glob : bytes -> list bytes.

(** Lines 44-60, without the program; an element may be [None]. *)
Definition run_command (a : exp_run_args) : list (option bytes) :=
  let command := map Some [str "--jobs"; str_int (x_jobs a); str "run"; str "--type"; x_type a; str "--mode"; x_mode a;
    str "--precision"; str_int (x_precision a); str "--output"; x_output a] in
  if eqb_bytes (x_mode a) (str "cardinalities") then
    command ++ [Some (str "--runs"); Some (str_or_none (x_runs a)); Some (str "--cardinalities"); x_cardinalities a]
  else
    command ++ [Some (str "--input")] ++ map Some (glob (text_or_none (x_input a) ++ str "/*.dat")).

(** ** clap, not in /repo

    As far as these commands go: options are written in full, each followed by its values, up to the next argument that
    starts with a hyphen ("-" alone is a value).  An option has one value, or any number but zero if it is [multiple];
    it comes once; other arguments are errors.  Other ways to write options are not modelled (they are errors here):
    exp.py writes none. *)
Definition dashed (s : bytes) : bool := match s with 45 :: _ :: _ => true | _ => false end.

(** The values at the front, and the rest. *)
Fixpoint values (l : list bytes) : list bytes * list bytes :=
  match l with
  | [] => ([], [])
  | s :: l' => if dashed s then ([], l) else let (vs, rest) := values l' in (s :: vs, rest)
  end.

Definition found (name : bytes) (os : list (bytes * list bytes)) : option (list bytes) :=
  match find (fun o => eqb_bytes (fst o) name) os with Some o => Some (snd o) | None => None end.

(** The options of a subcommand: [single] take one value, [multiple] one or more. *)
Fixpoint options (fuel : nat) (single multiple : list bytes) (l : list bytes) : option (list (bytes * list bytes)) :=
  match l, fuel with
  | [], _ => Some []
  | _, O => None
  | name :: l', S fuel' =>
      let (vs, rest) := values l' in
      let known := if existsb (eqb_bytes name) single then Nat.eqb (length vs) 1
                   else if existsb (eqb_bytes name) multiple then Nat.leb 1 (length vs) else false in
      if known then
        match options fuel' single multiple rest with
        | Some os => if given (found name os) then None else Some ((name, vs) :: os)
        | None => None
        end
      else None
  end.

(** [value_of]. *)
Definition value (name : bytes) (os : list (bytes * list bytes)) : option bytes :=
  match found name os with Some (v :: _) => Some v | _ => None end.

(** evaluation/src/main.rs:207-302: the jobs, then a subcommand with its options, and the rules of ModelArgs. *)
Definition read_command (l : list bytes) : option (option bytes * subcommand) :=
  match l with
  | j :: n :: sub :: l' =>
      if eqb_bytes j (str "--jobs") && negb (dashed n) then
        if eqb_bytes sub (str "gen") then
          match options (length l') [str "--size"; str "--count"; str "--runs"; str "--output"] [] l' with
          | Some os =>
              let a := GenArgs (value (str "--size") os) (value (str "--count") os) (value (str "--runs") os) (value (str "--output") os) in
              if accepts_gen a then Some (Some n, Gen a) else None
          | None => None
          end
        else if eqb_bytes sub (str "run") then
          match options (length l') [str "--type"; str "--mode"; str "--precision"; str "--runs"; str "--cardinalities"; str "--output"]
                  [str "--input"] l' with
          | Some os =>
              let a := RunArgs (value (str "--type") os) (value (str "--mode") os) (value (str "--precision") os) (found (str "--input") os)
                         (value (str "--runs") os) (value (str "--cardinalities") os) (value (str "--output") os) in
              if accepts_run a then Some (Some n, Run a) else None
          | None => None
          end
        else None
      else None
  | _ => None
  end.

Variable e : env.
Variable resolve : bytes -> option N.
Variable draws : N -> N -> N.
Variable ords : N -> N -> list N -> list N.

(** [subprocess.run(command, check=True)]: an exception when the program fails. *)
Definition start (command : list bytes) (d : disk) (r : M disk) : Prop :=
  match read_command command with
  | Some (jobs, sub) => main e resolve draws ords jobs sub d r
  | None => r = Panic
  end.

(** Line 31: "prepare" of hashes. *)
Definition exp_prepare (a : prepare_args) (d : disk) (r : M disk) : Prop := start (prepare_command a) d r.

(** All the strings, unless one is [None]. *)
Fixpoint strings (l : list (option bytes)) : option (list bytes) :=
  match l with
  | [] => Some []
  | Some s :: l' => match strings l' with Some ss => Some (s :: ss) | None => None end
  | None :: _ => None
  end.

(** Line 62; a TypeError when an element is [None]. *)
Definition exp_run (a : exp_run_args) (d : disk) (r : M disk) : Prop :=
  match strings (run_command a) with
  | Some command => start command d r
  | None => r = Panic
  end.

End Command.
