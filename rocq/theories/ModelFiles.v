(** * /repo/evaluation/src/main.rs: arguments, files and threads of the evaluation program

    Modelled: from the arguments that clap has parsed to the files that are left behind, with the
    work of the thread pool in any interleaving.  Strings and files are lists of bytes.  Not
    modelled: clap itself, I/O errors after a file has been opened or created, random number
    generators (arbitrary sequences instead), Windows paths. *)
From Coq Require Import String.
From Coq Require Import NArith ZArith List Bool Ascii.
From Verif Require Import ModelRust ModelEnv ModelCommon ModelPlus ModelEval.
Import ListNotations.
Local Open Scope N_scope.

Definition bytes := list N.

(** A string literal of the source. *)
Definition str (s : string) : bytes := map N_of_ascii (list_ascii_of_string s).
Definition eqb_bytes (a b : bytes) : bool := if list_eq_dec N.eq_dec a b then true else false.

(** ** Numbers as text (not in /repo: std) *)

(** The loop of [from_str_radix] with radix 10 for an unsigned integer of [w] bits:
    [checked_mul], [to_digit], [checked_add]. *)
Fixpoint parse_digits (w : N) (acc : N) (s : bytes) : option N :=
  match s with
  | [] => Some acc
  | c :: s' =>
      let acc1 := acc * 10 in
      if acc1 <? 2 ^ w then
        if (48 <=? c) && (c <=? 57) then
          let acc2 := acc1 + (c - 48) in
          if acc2 <? 2 ^ w then parse_digits w acc2 s' else None
        else None
      else None
  end.

(** [str::parse::<T>] for an unsigned integer type [T] of [w] bits ([None] for [Err]): an empty string
    and a lone sign are errors, a leading + is skipped, and - is an invalid digit. *)
Definition parse_uint (w : N) (s : bytes) : option N :=
  match s with
  | [] => None
  | [c] => if (c =? 43) || (c =? 45) then None else parse_digits w 0 [c]
  | c :: s' => if c =? 43 then parse_digits w 0 s' else parse_digits w 0 s
  end.

(** [Display] of an unsigned integer: the digits are written from the last to the first, as long as
    the quotient is not zero; [acc] are those written. *)
Fixpoint display_loop (fuel : nat) (n : N) (acc : bytes) : bytes :=
  match fuel with
  | O => acc
  | S fuel' =>
      let acc' := (48 + n mod 10) :: acc in
      if n / 10 =? 0 then acc' else display_loop fuel' (n / 10) acc'
  end.
Definition display_uint (n : N) : bytes := display_loop (S (N.size_nat n)) n [].

(** ** Lines (not in /repo: std)

    [BufRead::lines]: a line ends at a newline, which is removed together with one carriage return before
    it, or at the end of the file unless nothing follows the last newline.  A line that is not UTF-8 is an
    error; [load] panics on it, as it does here because it has a byte that is no digit. *)
Definition drop_cr (line : bytes) : bytes :=
  match rev line with
  | c :: l => if c =? 13 then rev l else line
  | [] => line
  end.
Fixpoint lines_loop (cur s : bytes) : list bytes :=
  match s with
  | [] => match cur with [] => [] | _ => [cur] end
  | c :: s' => if c =? 10 then drop_cr cur :: lines_loop [] s' else lines_loop (cur ++ [c]) s'
  end.
Definition lines (s : bytes) : list bytes := lines_loop [] s.

(** ** Paths and the disk (not in /repo: std and the operating system)

    [Path::join] with a relative path. *)
Definition join (dir name : bytes) : bytes :=
  match rev dir with
  | [] => name
  | c :: _ => if c =? 47 then dir ++ name else dir ++ 47 :: name
  end.

(** The components of a path between slashes, without empty ones and ".", as [Path::components] gives them
    but for the leading "/" or ".". *)
Fixpoint split_loop (cur s : bytes) : list bytes :=
  match s with
  | [] => [cur]
  | c :: s' => if c =? 47 then cur :: split_loop [] s' else split_loop (cur ++ [c]) s'
  end.
Definition components (path : bytes) : list bytes :=
  filter (fun c => negb (eqb_bytes c [] || eqb_bytes c (str "."))) (split_loop [] path).

(** [Path::file_name]: the last component, unless it is ".." or there is none. *)
Definition file_name (path : bytes) : option bytes :=
  match rev (components path) with
  | c :: _ => if eqb_bytes c (str "..") then None else Some c
  | [] => None
  end.

(** The disk: contents of files by number. *)
Definition disk := N -> option bytes.
Definition set_file (d : disk) (l : N) (b : bytes) : disk := fun l' => if l' =? l then Some b else d l'.

(** Writing [b] at position [off] of an open file: whatever lies between the end of the file and [off] (the
    file may have been truncated by someone else) becomes zeros. *)
Definition write_at (old : bytes) (off : nat) (b : bytes) : bytes :=
  firstn off (old ++ repeat 0 off) ++ b ++ skipn (off + length b) old.

Section Program.
Variable e : env.
(** The file a path leads to, existing or to be created; [None] when it cannot be opened or created. *)
Variable resolve : bytes -> option N.

(** evaluation/src/main.rs:169-187: [load::<T>] for an unsigned integer type of [w] bits. *)
Definition load (w : N) (d : disk) (filepath : bytes) : M (list N) :=
  let* l := unwrap (resolve filepath) in
  let* content := unwrap (d l) in
  for_each (lines content) (fun nums line => let* n := unwrap (parse_uint w line) in Ret (nums ++ [n])) [].

(** evaluation/src/main.rs:197-199: what [save] writes, given how a value is displayed. *)
Definition saved {T : Type} (display : T -> bytes) (values : list T) : bytes :=
  concat (map (fun val => display val ++ [10]) values).

(** evaluation/src/main.rs:45-49: [Display] of [Estimation]. *)
Definition display_estimation (est : N * N) : bytes := display_uint (fst est) ++ str " " ++ display_uint (snd est).

(** ** The thread pool

    A job is the closure given to [for_each] of a parallel iterator (lines 64, 86 and 128) up to its call of [save]:
    it reads the disk and gives the name and the contents of the file to save. *)
Definition job := disk -> M (bytes * bytes).

(** Where a job is: not started, about to create its file, writing the bytes [rest] from position [off] on,
    finished, panicked. *)
Inductive status :=
| Waiting (j : job)
| Saving (name content : bytes)
| Writing (l : N) (off : nat) (rest : bytes)
| Done
| Panicked.

(** evaluation/src/main.rs:190-202, and the closures: a step of one job.  [File::create] empties the file;
    a [BufWriter] writes its bytes in pieces. *)
Inductive step1 (output : bytes) (d : disk) : status -> disk -> status -> Prop :=
| Start : forall j name content, j d = Ret (name, content) -> step1 output d (Waiting j) d (Saving name content)
| Start_panic : forall j, j d = Panic -> step1 output d (Waiting j) d Panicked
| Create : forall name content l, resolve (join output name) = Some l ->
    step1 output d (Saving name content) (set_file d l []) (Writing l 0 content)
| Create_panic : forall name content, resolve (join output name) = None ->
    step1 output d (Saving name content) d Panicked
| Write : forall l off piece rest old, piece <> [] -> d l = Some old ->
    step1 output d (Writing l off (piece ++ rest)) (set_file d l (write_at old off piece))
      (Writing l (off + length piece) rest)
| Flush : forall l off, step1 output d (Writing l off []) d Done.

(** A step of the pool: of any job. *)
Inductive step (output : bytes) : disk * list status -> disk * list status -> Prop :=
| Step : forall d d' a st st' b, step1 output d st d' st' -> step output (d, a ++ st :: b) (d', a ++ st' :: b).

Inductive steps (output : bytes) : nat -> disk * list status -> disk * list status -> Prop :=
| Steps_0 : forall s, steps output 0 s s
| Steps_S : forall n s s' s'', steps output n s s' -> step output s' s'' -> steps output (S n) s s''.

(** [for_each] returns when all jobs are done, and panics when one has panicked, whether or not the others got
    to their ends. *)
Definition done (st : status) : bool := match st with Done => true | _ => false end.
Definition panicked (st : status) : bool := match st with Panicked => true | _ => false end.
Definition pool (output : bytes) (js : list job) (d : disk) (r : M disk) : Prop :=
  exists n d' sts, steps output n (d, map Waiting js) (d', sts) /\
    (forallb done sts = true /\ r = Ret d' \/ existsb panicked sts = true /\ r = Panic).

(** ** The commands *)

(** The values of the arguments of the two subcommands, as [value_of] and [values_of] give them. *)
Record gen_args := GenArgs { g_size : option bytes; g_count : option bytes; g_runs : option bytes;
  g_output : option bytes }.
Record run_args := RunArgs { r_type : option bytes; r_mode : option bytes; r_precision : option bytes;
  r_input : option (list bytes); r_runs : option bytes; r_cardinalities : option bytes; r_output : option bytes }.

(** The random numbers: [draws r i] is number [i] of run [r]. *)
Variable draws : N -> N -> N.
(** Iteration orders, for every job and call. *)
Variable ords : N -> N -> list N -> list N.

(** evaluation/src/main.rs:65-67. *)
Definition gen_job (size : bytes) (count r : N) : job :=
  fun _ => Ret (str "hashes-s" ++ size ++ str "-r" ++ display_uint r ++ str ".dat",
                saved display_uint (map (fun i => draws r i) (range count))).

(** evaluation/src/main.rs:52-71: [generate]; the type [T] only matters to the draws. *)
Definition generate (args : gen_args) (d : disk) (r : M disk) : Prop :=
  match
    (let* size := unwrap (g_size args) in
     let* count := unwrap (g_count args) in
     let* count := unwrap (parse_uint (usize_bits e) count) in
     let* runs := unwrap (g_runs args) in
     let* runs := unwrap (parse_uint (usize_bits e) runs) in
     let* output := unwrap (g_output args) in
     Ret (output, map (gen_job size count) (range runs)))
  with
  | Ret (output, js) => pool output js d r
  | Panic => r = Panic
  | OutOfFuel => r = OutOfFuel
  end.

(** evaluation/src/main.rs:73-166: [run_impls!] for a sketch whose experiments are [hashes] and
    [cards], for numbers of [w] bits, and the text [sz]. *)
Section Impl.
Variables (w : N) (sz : bytes).
Variable hashes : N -> N -> list N -> M (list (N * N)).
Variable cards : N -> N -> (N -> N) -> list N -> M (list (N * N)).

(** lines 86-117; [k] numbers the job. *)
Definition hashes_job (precision k : N) (file : bytes) : job :=
  fun d =>
    let* nums := load w d file in
    let* estimations := hashes k precision nums in
    let* basename := unwrap (file_name file) in
    Ret (str "est-p" ++ display_uint precision ++ str "-" ++ basename, saved display_estimation estimations).

(** lines 128-159. *)
Definition cards_job (precision : N) (cardinalities : bytes) (r : N) : job :=
  fun d =>
    let* cs := load (usize_bits e) d cardinalities in
    let* estimations := cards r precision (draws r) cs in
    Ret (str "est-p" ++ display_uint precision ++ str "-cards-s" ++ sz ++ str "-r" ++ display_uint r ++ str ".dat",
         saved display_estimation estimations).

(** lines 76-164. *)
Definition run_impl (args : run_args) (d : disk) (r : M disk) : Prop :=
  match
    (let* mode := unwrap (r_mode args) in
     let* precision := unwrap (r_precision args) in
     let* precision := unwrap (parse_uint 8 precision) in
     let* output := unwrap (r_output args) in
     if eqb_bytes mode (str "hashes") then
       let* files := unwrap (r_input args) in
       Ret (output, map (fun kf => hashes_job precision (fst kf) (snd kf)) (combine (range (len files)) files))
     else if eqb_bytes mode (str "cardinalities") then
       let* runs := unwrap (r_runs args) in
       let* runs := unwrap (parse_uint (usize_bits e) runs) in
       let* cardinalities := unwrap (r_cardinalities args) in
       Ret (output, map (cards_job precision cardinalities) (range runs))
     else Ret (output, []))
  with
  | Ret (output, js) => pool output js d r
  | Panic => r = Panic
  | OutOfFuel => r = OutOfFuel
  end.
End Impl.

(** lines 204-205. *)
Definition run : run_args -> disk -> M disk -> Prop :=
  run_impl 32 (str "32") (fun _ p nums => eval_hashes_pf e p nums) (fun _ p dr cs => eval_cards_pf e p dr cs).
Definition run_plus : run_args -> disk -> M disk -> Prop :=
  run_impl 64 (str "64") (fun k p nums => eval_hashes_plus e (ords k) p nums)
    (fun k p dr cs => eval_cards_plus e (ords k) p dr cs).

(** lines 318-331: the dispatch. *)
Inductive subcommand := Gen (args : gen_args) | Run (args : run_args) | Other.
Definition main (jobs : option bytes) (sub : subcommand) (d : disk) (r : M disk) : Prop :=
  match parse_uint (usize_bits e) (match jobs with Some j => j | None => str "1" end) with
  | None => r = Panic
  | Some _ =>
      match sub with
      | Gen args =>
          if match g_size args with Some s => eqb_bytes s (str "32") || eqb_bytes s (str "64") | None => false end
          then generate args d r else r = Ret d
      | Run args =>
          match r_type args with
          | Some t => if eqb_bytes t (str "hll") then run args d r
                      else if eqb_bytes t (str "hllp") then run_plus args d r else r = Ret d
          | None => r = Ret d
          end
      | Other => r = Ret d
      end
  end.
End Program.
