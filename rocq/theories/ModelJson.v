(** * serde_json: sketches as JSON text

    The crate's tests write a sketch with serde_json::to_string and read it back with serde_json::from_str
    (hyperloglog.rs:383-410, hyperloglogplus.rs:1151-1174); /repo/Cargo.toml:36 asks for serde_json 1.0.  The library is not
    in /repo: its writer and its reader are modelled from their documentation, together with what the
    derived code (hyperloglog.rs:44, hyperloglogplus.rs:56, common.rs:10, encoding.rs:4 and 12) makes of a
    text.  Text is a list of bytes.

    Simplifications.  The reader first builds a tree and the derived code then reads the tree, where
    serde_json does both at once: the two differ only in which of several errors is reported, and an error
    is [None] here.  The limit of 127 nested arrays and objects is left out: the types of the crate nest
    three deep, and what a hash builder makes of its own part is a parameter.  That a text is UTF-8 is not
    checked: from_str takes a str.  A text without "builder" is always refused, where a hash builder that
    reads itself as an Option would be given a null. *)
From Coq Require Import String.
From Coq Require Import NArith List Bool.
From Verif Require Import ModelRust ModelEnv ModelRegisters ModelEncoding ModelPF ModelPlus ModelSerde ModelFiles.
Import ListNotations.
Local Open Scope N_scope.

(** A number is kept as it is spelt, a string as what is between its quotation marks. *)
Inductive json :=
| JNull
| JBool (b : bool)
| JNum (token : bytes)
| JStr (raw : bytes)
| JArr (l : list json)
| JObj (l : list (bytes * json)).

(** ** The writer: serde_json's [CompactFormatter], used by [to_string] *)

Definition hex_digit (n : N) : N := if n <? 10 then 48 + n else 87 + n.

(** [format_escaped_str]. *)
Definition escape_byte (c : N) : bytes :=
  if c =? 34 then [92; 34]
  else if c =? 92 then [92; 92]
  else if c =? 8 then str "\b"
  else if c =? 9 then str "\t"
  else if c =? 10 then str "\n"
  else if c =? 12 then str "\f"
  else if c =? 13 then str "\r"
  else if c <? 32 then str "\u00" ++ [hex_digit (c / 16); hex_digit (c mod 16)]
  else [c].
Definition escape (s : bytes) : bytes := flat_map escape_byte s.

Definition quoted (raw : bytes) : bytes := [34] ++ raw ++ [34].

Fixpoint joined (l : list bytes) : bytes :=
  match l with
  | [] => []
  | [s] => s
  | s :: l' => s ++ [44] ++ joined l'
  end.

Fixpoint write (v : json) : bytes :=
  match v with
  | JNull => str "null"
  | JBool b => if b then str "true" else str "false"
  | JNum token => token
  | JStr raw => quoted raw
  | JArr l => [91] ++ joined (map write l) ++ [93]
  | JObj l => [123] ++ joined (map (fun f => quoted (fst f) ++ [58] ++ write (snd f)) l) ++ [125]
  end.

(** What serde_json's [Serializer] makes of the values of the serde data model: a newtype struct is what
    is inside, [Some] too, [None] and unit are null, a struct is an object; [other] for what a hash
    builder writes beyond that. *)
Fixpoint json_of (other : N -> list json -> json) (v : sval) : json :=
  match v with
  | SInt n => JNum (display_uint n)
  | SSeq l => JArr (map (json_of other) l)
  | STuple l => JArr (map (json_of other) l)
  | SNewtype v => json_of other v
  | SStruct fs => JObj (map (fun f => (escape (str (fst f)), json_of other (snd f))) fs)
  | SNone => JNull
  | SSome v => json_of other v
  | SUnit => JNull
  | SOther tag l => other tag (map (json_of other) l)
  end.

(** [serde_json::to_string]. *)
Definition to_text (other : N -> list json -> json) (v : sval) : bytes := write (json_of other v).

(** ** The reader *)

(** [parse_whitespace]. *)
Definition is_space (c : N) : bool := (c =? 32) || (c =? 9) || (c =? 10) || (c =? 13).
Fixpoint skip (s : bytes) : bytes :=
  match s with
  | c :: s' => if is_space c then skip s' else s
  | [] => []
  end.

Definition is_digit (c : N) : bool := (48 <=? c) && (c <=? 57).
Fixpoint scan_digits (s : bytes) : bytes * bytes :=
  match s with
  | c :: s' => if is_digit c then let (d, r) := scan_digits s' in (c :: d, r) else ([], s)
  | [] => ([], [])
  end.

(** [ignore_integer], [ignore_decimal], [ignore_exponent]; [parse_integer] and so on accept the same
    spellings.  The result is the spelling and the rest. *)
Definition scan_int (s : bytes) : option (bytes * bytes) :=
  match s with
  | c :: s' => if c =? 48 then Some ([c], s')
               else if is_digit c then let (d, r) := scan_digits s' in Some (c :: d, r) else None
  | [] => None
  end.
Definition scan_frac (s : bytes) : option (bytes * bytes) :=
  match s with
  | c :: s' => if c =? 46 then match scan_digits s' with
                               | ([], _) => None
                               | (d, r) => Some (c :: d, r)
                               end
               else Some ([], s)
  | [] => Some ([], s)
  end.
Definition scan_sign (s : bytes) : bytes * bytes :=
  match s with
  | c :: s' => if (c =? 43) || (c =? 45) then ([c], s') else ([], s)
  | [] => ([], s)
  end.
Definition scan_exp (s : bytes) : option (bytes * bytes) :=
  match s with
  | c :: s' => if (c =? 101) || (c =? 69) then
                 let (g, s'') := scan_sign s' in
                 match scan_digits s'' with
                 | ([], _) => None
                 | (d, r) => Some (c :: g ++ d, r)
                 end
               else Some ([], s)
  | [] => Some ([], s)
  end.
Definition scan_minus (s : bytes) : bytes * bytes :=
  match s with
  | c :: s' => if c =? 45 then ([c], s') else ([], s)
  | [] => ([], s)
  end.

Local Notation "'let?' x := m 'in' k" := (obind m (fun x => k))
  (at level 200, x pattern, m at level 200, k at level 200, right associativity).

Definition scan_number (s : bytes) : option (bytes * bytes) :=
  let (g, s) := scan_minus s in
  let? (i, s) := scan_int s in
  let? (f, s) := scan_frac s in
  let? (x, s) := scan_exp s in
  Some (g ++ i ++ f ++ x, s).

Definition hex_value (c : N) : option N :=
  if is_digit c then Some (c - 48)
  else if (97 <=? c) && (c <=? 102) then Some (c - 87)
  else if (65 <=? c) && (c <=? 70) then Some (c - 55)
  else None.
(** [decode_hex_escape]. *)
Definition hex4 (a b c d : N) : option N :=
  let? a := hex_value a in let? b := hex_value b in let? c := hex_value c in let? d := hex_value d in
  Some (((a * 16 + b) * 16 + c) * 16 + d).

Definition short_escape (c : N) : option N :=
  if c =? 34 then Some 34 else if c =? 92 then Some 92 else if c =? 47 then Some 47
  else if c =? 98 then Some 8 else if c =? 102 then Some 12 else if c =? 110 then Some 10
  else if c =? 114 then Some 13 else if c =? 116 then Some 9 else None.

(** [ignore_str], after the opening quotation mark: the characters up to the closing one, and the rest. *)
Fixpoint scan_chars (s : bytes) : option (bytes * bytes) :=
  match s with
  | [] => None
  | c :: s1 =>
      if c =? 34 then Some ([], s1)
      else if c =? 92 then
        match s1 with
        | [] => None
        | c1 :: s2 =>
            if c1 =? 117 then
              match s2 with
              | h1 :: h2 :: h3 :: h4 :: s3 =>
                  let? _ := hex4 h1 h2 h3 h4 in
                  let? (r, s4) := scan_chars s3 in Some (c :: c1 :: h1 :: h2 :: h3 :: h4 :: r, s4)
              | _ => None
              end
            else
              let? _ := short_escape c1 in
              let? (r, s4) := scan_chars s2 in Some (c :: c1 :: r, s4)
        end
      else if c <? 32 then None
      else let? (r, s4) := scan_chars s1 in Some (c :: r, s4)
  end.

Fixpoint strip (lit s : bytes) : option bytes :=
  match lit with
  | [] => Some s
  | c :: lit' => match s with
                 | c' :: s' => if c' =? c then strip lit' s' else None
                 | [] => None
                 end
  end.

(** A value at the start of [s], which has no white space there; the elements of an array after the
    opening bracket or a comma, and the members of an object.  A comma before the closing bracket is an
    error.  The fuel is never exhausted (see [parse_more] in JsonGrammar). *)
Fixpoint parse_value (fuel : nat) (s : bytes) : option (json * bytes) :=
  match fuel with
  | O => None
  | S fuel =>
      match s with
      | [] => None
      | c :: s1 =>
          if c =? 110 then let? r := strip (str "ull") s1 in Some (JNull, r)
          else if c =? 116 then let? r := strip (str "rue") s1 in Some (JBool true, r)
          else if c =? 102 then let? r := strip (str "alse") s1 in Some (JBool false, r)
          else if c =? 34 then let? (raw, r) := scan_chars s1 in Some (JStr raw, r)
          else if c =? 91 then
            match skip s1 with
            | c2 :: s2 => if c2 =? 93 then Some (JArr [], s2)
                          else let? (l, r) := parse_elements fuel (c2 :: s2) in Some (JArr l, r)
            | [] => None
            end
          else if c =? 123 then
            match skip s1 with
            | c2 :: s2 => if c2 =? 125 then Some (JObj [], s2)
                          else let? (l, r) := parse_members fuel (c2 :: s2) in Some (JObj l, r)
            | [] => None
            end
          else let? (token, r) := scan_number s in Some (JNum token, r)
      end
  end
with parse_elements (fuel : nat) (s : bytes) : option (list json * bytes) :=
  match fuel with
  | O => None
  | S fuel =>
      let? (v, s1) := parse_value fuel s in
      match skip s1 with
      | c :: s2 =>
          if c =? 93 then Some ([v], s2)
          else if c =? 44 then let? (l, r) := parse_elements fuel (skip s2) in Some (v :: l, r)
          else None
      | [] => None
      end
  end
with parse_members (fuel : nat) (s : bytes) : option (list (bytes * json) * bytes) :=
  match fuel with
  | O => None
  | S fuel =>
      let? s1 := strip [34] s in
      let? (k, s2) := scan_chars s1 in
      let? s3 := strip [58] (skip s2) in
      let? (v, s4) := parse_value fuel (skip s3) in
      match skip s4 with
      | c :: s5 =>
          if c =? 125 then Some ([(k, v)], s5)
          else if c =? 44 then let? (l, r) := parse_members fuel (skip s5) in Some ((k, v) :: l, r)
          else None
      | [] => None
      end
  end.

(** [from_str] up to the derived code: one value, and nothing but white space around it ([Deserializer::end]). *)
Definition parse (s : bytes) : option json :=
  let? (v, r) := parse_value (S (length s)) (skip s) in
  match skip r with [] => Some v | _ => None end.

(** ** What the derived code makes of a value *)

(** The UTF-8 encoding of a code point. *)
Definition utf8 (n : N) : bytes :=
  if n <? 128 then [n]
  else if n <? 2048 then [192 + n / 64; 128 + n mod 64]
  else if n <? 65536 then [224 + n / 4096; 128 + n / 64 mod 64; 128 + n mod 64]
  else [240 + n / 262144; 128 + n / 4096 mod 64; 128 + n / 64 mod 64; 128 + n mod 64].

(** [parse_str]: the string that is spelt; a lone surrogate is an error. *)
Fixpoint unescape (s : bytes) : option bytes :=
  match s with
  | [] => Some []
  | c :: s1 =>
      if c =? 92 then
        match s1 with
        | [] => None
        | c1 :: s2 =>
            if c1 =? 117 then
              match s2 with
              | h1 :: h2 :: h3 :: h4 :: s3 =>
                  let? n := hex4 h1 h2 h3 h4 in
                  if (56320 <=? n) && (n <=? 57343) then None
                  else if (55296 <=? n) && (n <=? 56319) then
                    match s3 with
                    | b :: u :: l1 :: l2 :: l3 :: l4 :: s4 =>
                        if (b =? 92) && (u =? 117) then
                          let? n2 := hex4 l1 l2 l3 l4 in
                          if (56320 <=? n2) && (n2 <=? 57343) then
                            let? r := unescape s4 in
                            Some (utf8 (65536 + (n - 55296) * 1024 + (n2 - 56320)) ++ r)
                          else None
                        else None
                    | _ => None
                    end
                  else let? r := unescape s3 in Some (utf8 n ++ r)
              | _ => None
              end
            else let? x := short_escape c1 in let? r := unescape s2 in Some (x :: r)
        end
      else let? r := unescape s1 in Some (c :: r)
  end.

(** [deserialize_u8], [_u32] and [_u64] with the visitors of the unsigned integers: a spelling with a sign,
    a point or an exponent is a float or a negative number, which they refuse, and so is an integer of
    more than 64 bits. *)
Definition jde_uint (w : N) (v : json) : option N :=
  match v with
  | JNum [] => None   (* does not occur *)
  | JNum token => if forallb is_digit token then parse_digits w 0 token else None
  | _ => None
  end.

Fixpoint jde_list {A : Type} (f : json -> option A) (l : list json) : option (list A) :=
  match l with
  | [] => Some []
  | v :: l' => let? a := f v in let? r := jde_list f l' in Some (a :: r)
  end.
Definition jde_seq {A : Type} (f : json -> option A) (v : json) : option (list A) :=
  match v with JArr l => jde_list f l | _ => None end.

(** [deserialize_struct] with the derived visitor.  An object: every key must be a string that can be
    decoded; the fields are taken by name, names that are not fields are ignored, a field that occurs
    twice is an error ([visit_map]).  An array: the fields by position, neither more nor less
    ([visit_seq]).  The result has one entry for each name; [None] where the field is missing. *)
Fixpoint pairs (l : list (bytes * json)) : option (list (bytes * json)) :=
  match l with
  | [] => Some []
  | (k, v) :: l' => let? k := unescape k in let? r := pairs l' in Some ((k, v) :: r)
  end.
Definition lookup (l : list (bytes * json)) (name : string) : option (option json) :=
  match filter (fun f => eqb_bytes (fst f) (str name)) l with
  | [] => Some None
  | [f] => Some (Some (snd f))
  | _ => None
  end.
Fixpoint lookups (l : list (bytes * json)) (names : list string) : option (list (option json)) :=
  match names with
  | [] => Some []
  | n :: names' => let? a := lookup l n in let? r := lookups l names' in Some (a :: r)
  end.
Definition jfields (names : list string) (v : json) : option (list (option json)) :=
  match v with
  | JObj l => let? l := pairs l in lookups l names
  | JArr l => if Nat.eqb (length l) (length names) then Some (map Some l) else None
  | _ => None
  end.

(** A missing field is an error, unless it is an [Option], which is then [None]. *)
Definition present {A : Type} (f : json -> option A) (o : option json) : option A := let? v := o in f v.
Definition jde_option {A : Type} (f : json -> option A) (o : option json) : option (option A) :=
  match o with
  | None => Some None
  | Some JNull => Some None
  | Some v => let? a := f v in Some (Some a)
  end.
(** [PhantomData]. *)
Definition jde_unit (v : json) : option unit := match v with JNull => Some tt | _ => None end.

(** common.rs:10-19. *)
Definition jde_registers (e : env) (v : json) : option registers :=
  match jfields ["buf"; "count"; "zeros"]%string v with
  | Some [b; c; z] =>
      let? b := present (jde_seq (jde_uint 32)) b in
      let? c := present (jde_uint (usize_bits e)) c in
      let? z := present (jde_uint (usize_bits e)) z in
      Some {| r_buf := b; r_count := c; r_zeros := z |}
  | _ => None
  end.

(** encoding.rs:4-22. *)
Definition jde_dif (e : env) (v : json) : option difintvec :=
  match jfields ["count"; "last"; "buf"]%string v with
  | Some [c; l; b] =>
      let? c := present (jde_uint (usize_bits e)) c in
      let? l := present (jde_uint 32) l in
      let? b := present (jde_seq (jde_uint 8)) b in
      Some {| d_count := c; d_last := l; d_buf := b |}
  | _ => None
  end.

(** (usize, usize, usize). *)
Definition jde_triple (e : env) (v : json) : option (N * N * N) :=
  match jde_seq (jde_uint (usize_bits e)) v with
  | Some [a; b; c] => Some (a, b, c)
  | _ => None
  end.

(** hyperloglog.rs:44-55. *)
Definition jde_pf {V : Type} (e : env) (de_b : json -> option (V -> N)) (v : json) : option (pf V) :=
  match jfields ["builder"; "count"; "precision"; "registers"; "phantom"]%string v with
  | Some [b; c; p; r; u] =>
      let? b := present de_b b in
      let? c := present (jde_uint (usize_bits e)) c in
      let? p := present (jde_uint 8) p in
      let? r := present (jde_registers e) r in
      let? _ := present jde_unit u in
      Some {| pf_builder := b; pf_count := c; pf_precision := p; pf_registers := r |}
  | _ => None
  end.

(** hyperloglogplus.rs:56-69. *)
Definition jde_plus {V : Type} (e : env) (de_b : json -> option (V -> N)) (v : json) : option (plus V) :=
  match jfields ["builder"; "precision"; "counts"; "tmpset"; "sparse"; "registers"; "phantom"]%string v with
  | Some [b; p; c; t; d; r; u] =>
      let? b := present de_b b in
      let? p := present (jde_uint 8) p in
      let? (c0, c1, c2) := present (jde_triple e) c in
      let? t := present (jde_seq (jde_uint 32)) t in
      let? d := present (jde_dif e) d in
      let? r := jde_option (jde_registers e) r in
      let? _ := present jde_unit u in
      Some {| hp_builder := b; hp_precision := p;
              hp_counts0 := c0; hp_counts1 := c1; hp_counts2 := c2;
              hp_tmpset := fold_left hset_insert t []; hp_sparse := d; hp_registers := r |}
  | _ => None
  end.

(** [serde_json::from_str::<HyperLogLogPF<_, _>>] and [::<HyperLogLogPlus<_, _>>]. *)
Definition pf_of_text {V : Type} (e : env) (de_b : json -> option (V -> N)) (s : bytes) : option (pf V) :=
  let? v := parse s in jde_pf e de_b v.
Definition plus_of_text {V : Type} (e : env) (de_b : json -> option (V -> N)) (s : bytes) : option (plus V) :=
  let? v := parse s in jde_plus e de_b v.
