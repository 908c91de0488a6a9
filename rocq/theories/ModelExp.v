(** * /repo/evaluation/exp.py: the cardinalities of the second experiment, and its results

    Modelled: [generate_cardinalities], the file that [prepare] writes them to, and
    [calculate_statistics] up to the relative errors (the rest is in ModelStats).  The commands run are in ModelCommand,
    the plots in ModelPlot.  Not modelled: the command line, [glob] (the files are given in some order).
    [Panic] stands for an exception.  Integers of Python have no bound; its
    floats are binary64. *)
From Coq Require Import String.
From Coq Require Import NArith ZArith List Bool.
From Flocq Require Import Core BinarySingleNaN.
From Verif Require Import ModelRust ModelF64 ModelPlus ModelFiles.
Import ListNotations.
Local Open Scope Z_scope.

(** ** Numbers (not in /repo: Python) *)
Inductive number := Int (z : Z) | Float (x : f64).

(** [a < b] of a number and an int: exact, with no rounding of [b]. *)
Definition lt_int (a : number) (b : Z) : bool :=
  match a with
  | Int z => z <? b
  | Float (B754_zero _) => 0 <? b
  | Float (B754_infinity s) => s
  | Float B754_nan => false
  | Float (B754_finite s m e _) =>
      if 0 <=? e then cond_Zopp s (Zpos m) * 2 ^ e <? b else cond_Zopp s (Zpos m) <? b * 2 ^ (- e)
  end.

(** [a * y]: an int is converted to a float first (an OverflowError if it is too large). *)
Definition mul_float (a : number) (y : f64) : M number :=
  match a with
  | Int z => if is_finite (of_Z z) then Ret (Float (fmul (of_Z z) y)) else Panic
  | Float x => Ret (Float (fmul x y))
  end.

(** [int(a)]: towards zero; a ValueError or OverflowError of what is not finite. *)
Definition int_of (a : number) : M Z :=
  match a with
  | Int z => Ret z
  | Float x => if is_finite x then Ret (Btrunc x) else Panic
  end.

(** [data.add(z)] on a set, and [sorted(data)]: the elements are distinct, so that every way of
    sorting gives the same. *)
Definition set_add (data : list Z) (z : Z) : list Z := if existsb (Z.eqb z) data then data else data ++ [z].
Fixpoint insert_sorted (z : Z) (l : list Z) : list Z :=
  match l with
  | [] => [z]
  | y :: l' => if z <=? y then z :: l else y :: insert_sorted z l'
  end.
Definition sorted (data : list Z) : list Z := fold_right insert_sorted [] data.

(** ** exp.py:169-180: [generate_cardinalities] *)

(** lines 173-176. *)
Fixpoint cards_while (fuel : nat) (max_cardinality : Z) (ratio : f64) (cur : number) (data : list Z) : M (number * list Z) :=
  match fuel with
  | O => OutOfFuel
  | S fuel' =>
      if lt_int cur max_cardinality then
        let* c := int_of cur in
        let data1 := set_add data c in
        let* cur1 := mul_float cur ratio in
        cards_while fuel' max_cardinality ratio cur1 data1
      else Ret (cur, data)
  end.

(** lines 169-180 with the default ratio; the loop ends within the fuel given here
    ([ExpFacts.cards_exact]: never [OutOfFuel]). *)
Definition generate_cardinalities (max_cardinality : Z) : M (list Z) :=
  let* (cur, data) := cards_while (N.to_nat 120000) max_cardinality (lit 1007 3) (Int 1) [] in
  let* c := int_of cur in
  Ret (sorted (set_add data c)).

(** ** exp.py:33-38: the file of cardinalities *)

(** [str] of an int. *)
Definition str_int (z : Z) : bytes := if z <? 0 then str "-" ++ display_uint (Z.to_N (- z)) else display_uint (Z.to_N z).

(** [sep.join(strings)]. *)
Fixpoint join_text (sep : bytes) (strings : list bytes) : bytes :=
  match strings with
  | [] => []
  | [s] => s
  | s :: strings' => s ++ sep ++ join_text sep strings'
  end.

(** lines 33-38; [os.path.join] with a relative name is as [Path::join].  [resolve] as in ModelFiles. *)
Definition prepare_cardinalities (resolve : bytes -> option N) (output : bytes) (max_cardinality : Z) (d : disk) : M disk :=
  let filepath := join output (str "cardinalities.dat") in
  let* cardinalities := generate_cardinalities max_cardinality in
  let* l := unwrap (resolve filepath) in
  Ret (set_file d l (join_text [10%N] (map str_int cardinalities))).

(** ** exp.py:131-166: [calculate_statistics] *)

(** [fp.readline()]: the text up to a newline, with it, or to the end of the file, and the rest.  Python also takes
    a carriage return as a newline; no file of estimates has one. *)
Fixpoint readline (s : bytes) : bytes * bytes :=
  match s with
  | [] => ([], [])
  | c :: s' => if (c =? 10)%N then ([c], s') else let (l, rest) := readline s' in (c :: l, rest)
  end.

(** [text.split(' ')]. *)
Fixpoint split_space (cur s : bytes) : list bytes :=
  match s with
  | [] => [cur]
  | c :: s' => if (c =? 32)%N then cur :: split_space [] s' else split_space (cur ++ [c]) s'
  end.

(** [float(text)] for digits, possibly followed by a newline: correctly rounded.  Python reads more than that; here
    everything else is an error. *)
Fixpoint int_digits (acc : N) (s : bytes) : option N :=
  match s with
  | [] => Some acc
  | c :: s' => if ((48 <=? c) && (c <=? 57))%N then int_digits (acc * 10 + (c - 48)) s' else None
  end.
Definition drop_newline (s : bytes) : bytes :=
  match rev s with
  | c :: l => if (c =? 10)%N then rev l else s
  | [] => s
  end.
Definition float_of (s : bytes) : M f64 :=
  match drop_newline s with
  | [] => Panic
  | t => match int_digits 0 t with Some n => Ret (of_N n) | None => Panic end
  end.

(** [list(map(f, l))]. *)
Fixpoint map_M {A B : Type} (f : A -> M B) (l : list A) : M (list B) :=
  match l with
  | [] => Ret []
  | a :: l' => let* b := f a in let* bs := map_M f l' in Ret (b :: bs)
  end.

(** line 156; [l[i]] is an IndexError when there is no such element, [/] a ZeroDivisionError. *)
Definition relative_error (line : list f64) : M f64 :=
  let* a := unwrap (nth_error line 1) in
  let* b := unwrap (nth_error line 0) in
  let x := Babs (fsub a b) in
  if Beqb b pzero then Panic else Ret (fdiv x b).

(** lines 140-161: the cardinality and the relative errors of every round.  Every round but the last takes a byte from
    some file, so that the fuel below is enough. *)
Fixpoint stats_while (fuel : nat) (files : list bytes) : M (list (Z * list f64)) :=
  match fuel with
  | O => OutOfFuel
  | S fuel' =>
      let read := map readline files in
      let lines := filter (fun l => negb (eqb_bytes l [])) (map fst read) in
      match lines with
      | [] => Ret []
      | _ =>
          let* line_values := map_M (fun values => map_M float_of (split_space [] values)) lines in
          let* errors := map_M relative_error line_values in
          let* first := unwrap (nth_error line_values 0) in
          let* c := unwrap (nth_error first 0) in
          let* cardinality := int_of (Float c) in
          let* rest := stats_while fuel' (map snd read) in
          Ret ((cardinality, errors) :: rest)
      end
  end.
Definition calculate_statistics (files : list bytes) : M (list (Z * list f64)) :=
  stats_while (S (length (concat files))) files.
