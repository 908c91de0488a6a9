(** * Texts, files and paths of the evaluation program: what they should be *)
From Coq Require Import String.
From Coq Require Import NArith ZArith List Ascii.
From Verif Require Import ModelRust ModelF64 ModelEnv ModelHistory Spec SpecEval.
Import ListNotations.
Local Open Scope N_scope.

(** The ASCII codes of a literal. *)
Definition ascii (s : string) : list N := map N_of_ascii (list_ascii_of_string s).

(** ** Decimal numbers *)

(** The number written with the decimal digits [ds], most significant first. *)
Fixpoint decimal_value (ds : list N) : N :=
  match ds with
  | [] => 0
  | d :: ds' => d * 10 ^ N.of_nat (length ds') + decimal_value ds'
  end.
Definition digits (ds : list N) : Prop := ds <> [] /\ Forall (fun d => d < 10) ds.
Definition digit_text (ds : list N) : list N := map (fun d => 48 + d) ds.

(** [s] is read as [n]: digits, possibly after a plus sign. *)
Definition reads (s : list N) (n : N) : Prop :=
  exists ds, digits ds /\ (s = digit_text ds \/ s = ascii "+" ++ digit_text ds) /\ decimal_value ds = n.

(** [s] is the numeral of [n]: no sign, and no leading zeros. *)
Definition numeral (n : N) (s : list N) : Prop :=
  exists ds, digits ds /\ s = digit_text ds /\ decimal_value ds = n /\ (forall ds', ds = 0 :: ds' -> ds' = []).

(** ** Lines *)

(** [s] consists of the lines [ls]: each ends with a newline or a carriage return and a newline, but for the
    last one, which need not, unless it is empty. *)
Inductive lines_of : list N -> list (list N) -> Prop :=
| Lines_none : lines_of [] []
| Lines_last : forall l, l <> [] -> ~ In 10 l -> lines_of l [l]
| Lines_nl : forall l s ls, ~ In 10 l -> (forall l', l <> l' ++ [13]) -> lines_of s ls -> lines_of (l ++ 10 :: s) (l :: ls)
| Lines_crnl : forall l s ls, ~ In 10 l -> lines_of s ls -> lines_of (l ++ 13 :: 10 :: s) (l :: ls).

(** A file with one number below [2^w] per line. *)
Definition number_file (w : N) (content nums : list N) : Prop :=
  exists ls, lines_of content ls /\ Forall2 (fun l n => reads l n /\ n < 2 ^ w) ls nums.

(** The text of the lines [ls], each ended by a newline. *)
Definition text (ls : list (list N)) : list N := concat (map (fun l => l ++ [10]) ls).

(** The files saved: a numeral on each line, or two separated by a space. *)
Definition numeral_file (nums content : list N) : Prop :=
  exists ls, Forall2 numeral nums ls /\ content = text ls.
Definition estimate_file (ests : list (N * N)) (content : list N) : Prop :=
  exists ls, Forall2 (fun est l => exists a b, numeral (fst est) a /\ numeral (snd est) b /\ l = a ++ ascii " " ++ b) ests ls /\
    content = text ls.

(** ** Paths *)

(** Slashes and dots that mean nothing at the end of a path: every dot stands between slashes or after the last one. *)
Inductive idle : list N -> Prop :=
| Idle_none : idle []
| Idle_slash : forall t, idle t -> idle (47 :: t)
| Idle_dot : forall t, idle t -> t = [] \/ (exists t', t = 47 :: t') -> idle (47 :: 46 :: t).

(** A name that a file can have in a directory. *)
Definition plain_name (s : list N) : Prop := s <> [] /\ ~ In 47 s /\ s <> ascii "." /\ s <> ascii "..".

(** [base] is the name of the file at [path] in its directory. *)
Definition base_name (path base : list N) : Prop :=
  plain_name base /\ exists dir tail, path = dir ++ base ++ tail /\ idle tail /\ (dir = [] \/ exists dir', dir = dir' ++ [47]).

(** The path of the file [name] in the directory [dir]. *)
Definition in_directory (dir name path : list N) : Prop :=
  (dir = [] /\ path = name) \/ ((exists dir', dir = dir' ++ [47]) /\ path = dir ++ name) \/
  (dir <> [] /\ (forall dir', dir <> dir' ++ [47]) /\ path = dir ++ [47] ++ name).

(** The names of the files saved. *)
Definition hashes_name (size : list N) (run : N) (name : list N) : Prop :=
  exists r, numeral run r /\ name = ascii "hashes-s" ++ size ++ ascii "-r" ++ r ++ ascii ".dat".
Definition estimates_name (precision : N) (base name : list N) : Prop :=
  exists p, numeral precision p /\ name = ascii "est-p" ++ p ++ ascii "-" ++ base.
Definition cards_name (precision : N) (size : list N) (run : N) (name : list N) : Prop :=
  exists p r, numeral precision p /\ numeral run r /\
    name = ascii "est-p" ++ p ++ ascii "-cards-s" ++ size ++ ascii "-r" ++ r ++ ascii ".dat".

(** ** Files on a disk

    [resolve] says which file a path leads to. *)

(** The file at [path] has the contents [content]. *)
Definition has_file (resolve : list N -> option N) (d : N -> option (list N)) (path content : list N) : Prop :=
  exists l, resolve path = Some l /\ d l = Some content.

(** Files can be created at each of the [paths], and are different ones. *)
Definition separate (resolve : list N -> option N) (paths : list (list N)) : Prop :=
  NoDup (map resolve paths) /\ ~ In None (map resolve paths).

(** Nothing but the files at [paths] differs. *)
Definition only_changed (resolve : list N -> option N) (paths : list (list N)) (d d' : N -> option (list N)) : Prop :=
  forall l, ~ In (Some l) (map resolve paths) -> d' l = d l.

(** The number of jobs, if given, is a usize. *)
Definition jobs_ok (e : env) (jobs : option (list N)) : Prop :=
  match jobs with None => True | Some j => exists k, reads j k /\ k < 2 ^ usize_bits e end.

(** ** The estimates

    As C67 has them: line j of a file of estimates from a file of hashes, and the line of a cardinality. *)
Definition plus_lines (e : env) (p : N) (hs : list N) (out : list (N * N)) : Prop :=
  length out = length hs /\
  forall j (V : Type) ord (h : hist V), (j < length hs)%nat -> valid MAX_PLUS h -> narrow (usize_bits e) h -> is_order ord ->
    hist_precision h = p -> same_set (hist_hashes h) (firstn (j + 1) hs) ->
    exists c k, count_plus e ord h = Ret c /\ shown c k /\ nth_error out j = Some (N.of_nat (j + 1), k).
Definition pf_lines (e : env) (p : N) (hs : list N) (out : list (N * N)) : Prop :=
  length out = length hs /\
  forall j (V : Type) (h : hist V), (j < length hs)%nat -> valid MAX_PF h -> narrow (usize_bits e) h ->
    hist_precision h = p -> same_set (map (fun x => x mod 2 ^ 32) (hist_hashes h)) (firstn (j + 1) hs) ->
    exists c k, count_pf e h = Ret c /\ shown c k /\ nth_error out j = Some (N.of_nat (j + 1), k).
Definition plus_card_lines (e : env) (p : N) (draws : N -> N) (cards : list N) (out : list (N * N)) : Prop :=
  length out = length cards /\
  forall j (V : Type) ord (h : hist V), (j < length cards)%nat -> valid MAX_PLUS h -> narrow (usize_bits e) h -> is_order ord ->
    let n := largest (firstn (j + 1) cards) in
    hist_precision h = p -> same_set (hist_hashes h) (first_draws draws n) ->
    exists c k, count_plus e ord h = Ret c /\ shown c k /\ nth_error out j = Some (n, k).
Definition pf_card_lines (e : env) (p : N) (draws : N -> N) (cards : list N) (out : list (N * N)) : Prop :=
  length out = length cards /\
  forall j (V : Type) (h : hist V), (j < length cards)%nat -> valid MAX_PF h -> narrow (usize_bits e) h ->
    let n := largest (firstn (j + 1) cards) in
    hist_precision h = p -> same_set (map (fun x => x mod 2 ^ 32) (hist_hashes h)) (first_draws draws n) ->
    exists c k, count_pf e h = Ret c /\ shown c k /\ nth_error out j = Some (n, k).
