(** * The derived [Debug] of the sketches

    common.rs:10, encoding.rs:4 and 12, hyperloglog.rs:44 and hyperloglogplus.rs:56 derive [Debug].  The builders of
    [std::fmt] that the derived code calls ([DebugStruct], [DebugTuple], [DebugList], [DebugSet], [PadAdapter]) and
    [Formatter::pad_integral] are not in /repo; they are modelled from their source.

    Simplifications.  Texts are lists of characters.  That a sink can refuse a text is not modelled.  What the hash
    builder and [PhantomData] write is arbitrary (the text of PhantomData names the type, and depends on the version
    of std). *)
From Coq Require Import String.
From Coq Require Import NArith List Bool.
From Verif Require Import ModelRust ModelRegisters ModelEncoding ModelPF ModelPlus ModelFormat ModelFiles.
Import ListNotations.
Local Open Scope N_scope.

(** What a format string like "{:+#06x?}" requests: beyond [format], a plus sign, the alternate form, padding with
    zeros, and x or X. *)
Inductive hex_case := Lower | Upper.
Record options := Options { o_format : format; o_plus : bool; o_alternate : bool; o_zero : bool; o_hex : option hex_case }.

(** [Formatter::pad_integral] of a number that is not negative. *)
Definition pad_integral (o : options) (prefix buf : list N) : list N :=
  let sign := if o_plus o then [43] else [] in
  let prefix := if o_alternate o then prefix else [] in
  let body := sign ++ prefix ++ buf in
  match f_width (o_format o) with
  | None => body
  | Some min =>
      let width := N.of_nat (length body) in
      if min <=? width then body
      else if o_zero o then
        (* the fill is '0' and the alignment is to the right while this is written *)
        sign ++ prefix ++ concat (repeat [48] (N.to_nat (min - width))) ++ buf
      else
        let (pre, post) := padding (o_format o) (min - width) Right in
        concat (write_fill (o_format o) pre) ++ body ++ concat (write_fill (o_format o) post)
  end.

(** [LowerHex] and [UpperHex]: the digits from the last one on. *)
Definition hex_char (c : hex_case) (d : N) : N :=
  if d <? 10 then 48 + d else match c with Lower => 97 + (d - 10) | Upper => 65 + (d - 10) end.
Fixpoint hex_loop (c : hex_case) (fuel : nat) (n : N) (acc : list N) : list N :=
  match fuel with
  | O => acc
  | S fuel' =>
      let acc' := hex_char c (n mod 16) :: acc in
      if n / 16 =? 0 then acc' else hex_loop c fuel' (n / 16) acc'
  end.
Definition hex_uint (c : hex_case) (n : N) : list N := hex_loop c (S (N.size_nat n)) n [].

(** [Debug] of the unsigned integers. *)
Definition debug_uint (o : options) (n : N) : list N :=
  match o_hex o with
  | Some c => pad_integral o (str "0x") (hex_uint c n)
  | None => pad_integral o [] (display_uint n)
  end.

(** The calls that the derived code makes: [write_str], an integer, [debug_struct], [debug_tuple], [debug_list],
    [debug_set]. *)
Inductive dbg :=
| DText (s : list N)
| DNum (n : N)
| DStruct (name : string) (fields : list (string * dbg))
| DTuple (name : string) (l : list dbg)
| DList (l : list dbg)
| DSet (l : list dbg).

(** [PadAdapter]: four spaces at the start of every line. *)
Fixpoint indent (on_newline : bool) (s : list N) : list N :=
  match s with
  | [] => []
  | c :: s' => (if on_newline then str "    " else []) ++ c :: indent (c =? 10) s'
  end.

(** Between the entries, if the form is not alternate. *)
Fixpoint commas (l : list (list N)) : list N :=
  match l with
  | [] => []
  | [s] => s
  | s :: l' => s ++ str ", " ++ commas l'
  end.
(** All entries, in the alternate form: a new adapter for each, and a comma and a newline after each. *)
Definition entries (l : list (list N)) : list N := concat (map (fun s => indent true (s ++ str "," ++ [10])) l).

(** [DebugStruct]: [field]s and [finish]. *)
Definition show_struct (alternate : bool) (name : list N) (fields : list (list N)) : list N :=
  match fields with
  | [] => name
  | _ => if alternate then name ++ str " {" ++ [10] ++ entries fields ++ str "}"
         else name ++ str " { " ++ commas fields ++ str " }"
  end.
(** [DebugTuple]; a tuple without a name and with one field is written with a comma. *)
Definition show_tuple (alternate : bool) (name : list N) (fields : list (list N)) : list N :=
  match fields with
  | [] => name
  | _ => if alternate then name ++ str "(" ++ [10] ++ entries fields ++ str ")"
         else name ++ str "(" ++ commas fields ++
              (match name, fields with [], [_] => str "," | _, _ => [] end) ++ str ")"
  end.
(** [DebugInner], of [DebugList] and [DebugSet]. *)
Definition show_list (alternate : bool) (opening closing : list N) (items : list (list N)) : list N :=
  match items with
  | [] => opening ++ closing
  | _ => if alternate then opening ++ [10] ++ entries items ++ closing
         else opening ++ commas items ++ closing
  end.

Fixpoint show (o : options) (d : dbg) : list N :=
  match d with
  | DText s => s
  | DNum n => debug_uint o n
  | DStruct name fields => show_struct (o_alternate o) (str name) (map (fun f => str (fst f) ++ str ": " ++ show o (snd f)) fields)
  | DTuple name l => show_tuple (o_alternate o) (str name) (map (show o) l)
  | DList l => show_list (o_alternate o) (str "[") (str "]") (map (show o) l)
  | DSet l => show_list (o_alternate o) (str "{") (str "}") (map (show o) l)
  end.

(** common.rs:10-19; the name is [Registers] or [RegistersPlus] (common.rs:102 and 109). *)
Definition debug_registers (name : string) (r : registers) : dbg :=
  DStruct name [("buf", DList (map DNum (r_buf r))); ("count", DNum (r_count r)); ("zeros", DNum (r_zeros r))]%string.

(** encoding.rs:4-22. *)
Definition debug_dif (d : difintvec) : dbg :=
  DStruct "DifIntVec" [("count", DNum (d_count d)); ("last", DNum (d_last d));
                       ("buf", DTuple "VarIntVec" [DList (map DNum (d_buf d))])]%string.

(** [Debug] of [Option]. *)
Definition debug_option (o : option dbg) : dbg :=
  match o with
  | None => DText (str "None")
  | Some d => DTuple "Some" [d]
  end.

(** hyperloglog.rs:44-55; [builder] and [phantom] are what these fields write. *)
Definition debug_pf {V : Type} (builder phantom : list N) (s : pf V) : dbg :=
  DStruct "HyperLogLogPF"
    [("builder", DText builder); ("count", DNum (pf_count s)); ("precision", DNum (pf_precision s));
     ("registers", debug_registers "Registers" (pf_registers s)); ("phantom", DText phantom)]%string.

(** hyperloglogplus.rs:56-69; the set is written in the order in which it is visited. *)
Definition debug_plus {V : Type} (ord : list N -> list N) (builder phantom : list N) (s : plus V) : dbg :=
  DStruct "HyperLogLogPlus"
    [("builder", DText builder); ("precision", DNum (hp_precision s));
     ("counts", DTuple "" [DNum (hp_counts0 s); DNum (hp_counts1 s); DNum (hp_counts2 s)]);
     ("tmpset", DSet (map DNum (ord (hp_tmpset s)))); ("sparse", debug_dif (hp_sparse s));
     ("registers", debug_option (option_map (debug_registers "RegistersPlus") (hp_registers s)));
     ("phantom", DText phantom)]%string.

(** [format!("{:?}", sketch)] and the like. *)
Definition pf_debug {V : Type} (o : options) (builder phantom : list N) (s : pf V) : list N := show o (debug_pf builder phantom s).
Definition plus_debug {V : Type} (o : options) (ord : list N -> list N) (builder phantom : list N) (s : plus V) : list N :=
  show o (debug_plus ord builder phantom s).
