(** * JSON (RFC 8259), and what a JSON text has to be to be read as a sketch *)
From Coq Require Import String.
From Coq Require Import NArith List Bool Permutation.
From Verif Require Import ModelRust ModelEnv ModelRegisters ModelEncoding ModelPF ModelPlus ModelJson SpecFiles.
Import ListNotations.
Local Open Scope N_scope.

(** ** The grammar *)

Definition blank (s : list N) : Prop := Forall (fun c => In c [32; 9; 10; 13]) s.
Definition digit (c : N) : Prop := 48 <= c <= 57.
Definition hexadecimal (c : N) : Prop := 48 <= c <= 57 \/ 65 <= c <= 70 \/ 97 <= c <= 102.

(** -? (0 | [1-9][0-9]* ) ( . [0-9]+ )? ( [eE] [+-]? [0-9]+ )? *)
Definition number (s : list N) : Prop :=
  exists minus int frac exp, s = minus ++ int ++ frac ++ exp /\
    In minus [[]; ascii "-"] /\
    (int = ascii "0" \/ exists c d, int = c :: d /\ 49 <= c <= 57 /\ Forall digit d) /\
    (frac = [] \/ exists d, frac = ascii "." ++ d /\ d <> [] /\ Forall digit d) /\
    (exp = [] \/ exists x g d, exp = x ++ g ++ d /\ In x [ascii "e"; ascii "E"] /\ In g [[]; ascii "+"; ascii "-"] /\
                               d <> [] /\ Forall digit d).

(** What can stand between quotation marks. *)
Inductive chars : list N -> Prop :=
| Chars_nil : chars []
| Chars_plain : forall c s, 32 <= c -> c <> 34 -> c <> 92 -> chars s -> chars (c :: s)
| Chars_short : forall c s, In [c] [[34]; [92]; ascii "/"; ascii "b"; ascii "f"; ascii "n"; ascii "r"; ascii "t"] ->
    chars s -> chars (92 :: c :: s)
| Chars_code : forall a b c d s, hexadecimal a -> hexadecimal b -> hexadecimal c -> hexadecimal d ->
    chars s -> chars (ascii "\u" ++ [a; b; c; d] ++ s).

(** [value v s]: [s] is a text of [v]. *)
Inductive value : json -> list N -> Prop :=
| Value_null : value JNull (ascii "null")
| Value_true : value (JBool true) (ascii "true")
| Value_false : value (JBool false) (ascii "false")
| Value_number : forall s, number s -> value (JNum s) s
| Value_string : forall s, chars s -> value (JStr s) ([34] ++ s ++ [34])
| Value_array0 : forall b, blank b -> value (JArr []) (ascii "[" ++ b ++ ascii "]")
| Value_array : forall l s, elements l s -> value (JArr l) (ascii "[" ++ s ++ ascii "]")
| Value_object0 : forall b, blank b -> value (JObj []) (ascii "{" ++ b ++ ascii "}")
| Value_object : forall l s, members l s -> value (JObj l) (ascii "{" ++ s ++ ascii "}")
with elements : list json -> list N -> Prop :=
| Elements_one : forall v a s b, blank a -> value v s -> blank b -> elements [v] (a ++ s ++ b)
| Elements_more : forall v a s b l t, blank a -> value v s -> blank b -> elements l t ->
    elements (v :: l) (a ++ s ++ b ++ ascii "," ++ t)
with members : list (list N * json) -> list N -> Prop :=
| Members_one : forall k v a b c s d, blank a -> chars k -> blank b -> blank c -> value v s -> blank d ->
    members [(k, v)] (a ++ ([34] ++ k ++ [34]) ++ b ++ ascii ":" ++ c ++ s ++ d)
| Members_more : forall k v a b c s d l t, blank a -> chars k -> blank b -> blank c -> value v s -> blank d ->
    members l t -> members ((k, v) :: l) (a ++ ([34] ++ k ++ [34]) ++ b ++ ascii ":" ++ c ++ s ++ d ++ ascii "," ++ t).

Definition document (v : json) (s : list N) : Prop :=
  exists a t b, s = a ++ t ++ b /\ blank a /\ value v t /\ blank b.

(** ** What a string spells *)

Definition hex_of (c n : N) : Prop :=
  (48 <= c <= 57 /\ n = c - 48) \/ (65 <= c <= 70 /\ n = c - 65 + 10) \/ (97 <= c <= 102 /\ n = c - 97 + 10).
(** Four hexadecimal digits. *)
Definition code_of (s : list N) (n : N) : Prop :=
  exists a b c d x y z t, s = [a; b; c; d] /\ hex_of a x /\ hex_of b y /\ hex_of c z /\ hex_of d t /\
    n = x * 16 ^ 3 + y * 16 ^ 2 + z * 16 + t.
(** The UTF-8 encoding of a code point, by the bits of its bytes. *)
Inductive encoded : N -> list N -> Prop :=
| Encoded_1 : forall n, n < 2 ^ 7 -> encoded n [n]
| Encoded_2 : forall a b, a < 2 ^ 5 -> b < 2 ^ 6 -> 2 ^ 7 <= a * 2 ^ 6 + b ->
    encoded (a * 2 ^ 6 + b) [128 + 64 + a; 128 + b]
| Encoded_3 : forall a b c, a < 2 ^ 4 -> b < 2 ^ 6 -> c < 2 ^ 6 -> 2 ^ 11 <= a * 2 ^ 12 + b * 2 ^ 6 + c ->
    encoded (a * 2 ^ 12 + b * 2 ^ 6 + c) [128 + 64 + 32 + a; 128 + b; 128 + c]
| Encoded_4 : forall a b c d, a < 2 ^ 3 -> b < 2 ^ 6 -> c < 2 ^ 6 -> d < 2 ^ 6 ->
    2 ^ 16 <= a * 2 ^ 18 + b * 2 ^ 12 + c * 2 ^ 6 + d ->
    encoded (a * 2 ^ 18 + b * 2 ^ 12 + c * 2 ^ 6 + d) [128 + 64 + 32 + 16 + a; 128 + b; 128 + c; 128 + d].
Definition high_surrogate (n : N) : Prop := 55296 <= n < 56320.
Definition low_surrogate (n : N) : Prop := 56320 <= n < 57344.

Inductive spells : list N -> list N -> Prop :=
| Spells_nil : spells [] []
| Spells_plain : forall c s t, c <> 92 -> spells s t -> spells (c :: s) (c :: t)
| Spells_short : forall c x s t,
    In (c, x) [(34, 34); (92, 92); (47, 47); (98, 8); (102, 12); (110, 10); (114, 13); (116, 9)] ->
    spells s t -> spells (92 :: c :: s) (x :: t)
| Spells_code : forall h n u s t, code_of h n -> ~ high_surrogate n -> ~ low_surrogate n -> encoded n u ->
    spells s t -> spells (ascii "\u" ++ h ++ s) (u ++ t)
| Spells_pair : forall h n h' n' u s t, code_of h n -> code_of h' n' -> high_surrogate n -> low_surrogate n' ->
    encoded (65536 + (n - 55296) * 1024 + (n' - 56320)) u ->
    spells s t -> spells (ascii "\u" ++ h ++ ascii "\u" ++ h' ++ s) (u ++ t).

(** ** Sketches *)

(** The value of a field: the only one of that name, or none. *)
Definition the_field (l : list (list N * json)) (keys : list (list N)) (name : string) (o : option json) : Prop :=
  match o with
  | None => ~ In (ascii name) keys
  | Some v => exists i, nth_error (combine keys (map snd l)) i = Some (ascii name, v) /\
                        (forall k, nth_error keys k = Some (ascii name) -> k = i)
  end.
(** An object with the named fields, or an array of their values. *)
Definition record (names : list string) (v : json) (fields : list (option json)) : Prop :=
  (exists l keys, v = JObj l /\ Forall2 (fun f k => spells (fst f) k) l keys /\ Forall2 (the_field l keys) names fields) \/
  (exists l, v = JArr l /\ length l = length names /\ fields = map Some l).

Definition unsigned (w : N) (v : json) (n : N) : Prop :=
  exists ds, v = JNum (digit_text ds) /\ digits ds /\ decimal_value ds = n /\ n < 2 ^ w.
Definition array {A : Type} (P : json -> A -> Prop) (v : json) (l : list A) : Prop :=
  exists vs, v = JArr vs /\ Forall2 P vs l.

Definition is_registers (e : env) (v : json) (r : registers) : Prop :=
  exists b c z, record ["buf"; "count"; "zeros"]%string v [Some b; Some c; Some z] /\
    array (unsigned 32) b (r_buf r) /\ unsigned (usize_bits e) c (r_count r) /\ unsigned (usize_bits e) z (r_zeros r).
Definition is_list (e : env) (v : json) (d : difintvec) : Prop :=
  exists c l b, record ["count"; "last"; "buf"]%string v [Some c; Some l; Some b] /\
    unsigned (usize_bits e) c (d_count d) /\ unsigned 32 l (d_last d) /\ array (unsigned 8) b (d_buf d).

Definition is_pf {V : Type} (e : env) (de_b : json -> option (V -> N)) (v : json) (s : pf V) : Prop :=
  exists b c p r, record ["builder"; "count"; "precision"; "registers"; "phantom"]%string v
                         [Some b; Some c; Some p; Some r; Some JNull] /\
    de_b b = Some (pf_builder s) /\ unsigned (usize_bits e) c (pf_count s) /\ unsigned 8 p (pf_precision s) /\
    is_registers e r (pf_registers s).

Definition is_plus {V : Type} (e : env) (de_b : json -> option (V -> N)) (v : json) (s : plus V) : Prop :=
  exists b p c t d r codes,
    record ["builder"; "precision"; "counts"; "tmpset"; "sparse"; "registers"; "phantom"]%string v
           [Some b; Some p; Some c; Some t; Some d; r; Some JNull] /\
    de_b b = Some (hp_builder s) /\ unsigned 8 p (hp_precision s) /\
    array (unsigned (usize_bits e)) c [hp_counts0 s; hp_counts1 s; hp_counts2 s] /\
    array (unsigned 32) t codes /\ hp_tmpset s = fold_left hset_insert codes [] /\
    is_list e d (hp_sparse s) /\
    (hp_registers s = None /\ (r = None \/ r = Some JNull) \/
     exists v x, hp_registers s = Some x /\ r = Some v /\ is_registers e v x).

Definition pf_fields : list string := ["builder"; "count"; "precision"; "registers"; "phantom"]%string.
Definition plus_fields : list string := ["builder"; "precision"; "counts"; "tmpset"; "sparse"; "registers"; "phantom"]%string.

(** Only white space differs. *)
Definition same_tokens (s t : list N) : Prop := exists v, document v s /\ document v t.

(** ** The texts that are written *)

(** Every number and string in it is one of the grammar. *)
Inductive proper : json -> Prop :=
| Proper_null : proper JNull
| Proper_bool : forall b, proper (JBool b)
| Proper_number : forall s, number s -> proper (JNum s)
| Proper_string : forall s, chars s -> proper (JStr s)
| Proper_array : forall l, Forall proper l -> proper (JArr l)
| Proper_object : forall l, Forall (fun f => chars (fst f)) l -> Forall (fun f => proper (snd f)) l -> proper (JObj l).

(** Numerals with commas between them. *)
Inductive numerals : list N -> list N -> Prop :=
| Numerals_none : numerals [] []
| Numerals_one : forall n s, numeral n s -> numerals [n] s
| Numerals_more : forall n s m l t, numeral n s -> numerals (m :: l) t -> numerals (n :: m :: l) (s ++ ascii "," ++ t).

(** "name":, with quotation marks. *)
Definition label (name : string) : list N := [34] ++ ascii name ++ [34] ++ ascii ":".

Definition registers_text (r : registers) (s : list N) : Prop :=
  exists b c z, numerals (r_buf r) b /\ numeral (r_count r) c /\ numeral (r_zeros r) z /\
    s = ascii "{" ++ label "buf" ++ ascii "[" ++ b ++ ascii "]," ++ label "count" ++ c ++ ascii "," ++ label "zeros" ++ z ++ ascii "}".
Definition list_text (d : difintvec) (s : list N) : Prop :=
  exists c l b, numeral (d_count d) c /\ numeral (d_last d) l /\ numerals (d_buf d) b /\
    s = ascii "{" ++ label "count" ++ c ++ ascii "," ++ label "last" ++ l ++ ascii "," ++ label "buf" ++ ascii "[" ++ b ++ ascii "]}".
Definition pf_text {V : Type} (builder : list N) (s : pf V) (t : list N) : Prop :=
  exists c p r, numeral (pf_count s) c /\ numeral (pf_precision s) p /\ registers_text (pf_registers s) r /\
    t = ascii "{" ++ label "builder" ++ builder ++ ascii "," ++ label "count" ++ c ++ ascii "," ++
        label "precision" ++ p ++ ascii "," ++ label "registers" ++ r ++ ascii "," ++ label "phantom" ++ ascii "null}".
(** [codes]: the elements of the temporary set in the order in which they are visited. *)
Definition plus_text {V : Type} (builder : list N) (codes : list N) (s : plus V) (t : list N) : Prop :=
  exists p c x d r, numeral (hp_precision s) p /\ numerals [hp_counts0 s; hp_counts1 s; hp_counts2 s] c /\
    numerals codes x /\ list_text (hp_sparse s) d /\
    match hp_registers s with Some g => registers_text g r | None => r = ascii "null" end /\
    t = ascii "{" ++ label "builder" ++ builder ++ ascii "," ++ label "precision" ++ p ++ ascii "," ++
        label "counts" ++ ascii "[" ++ c ++ ascii "]," ++ label "tmpset" ++ ascii "[" ++ x ++ ascii "]," ++
        label "sparse" ++ d ++ ascii "," ++ label "registers" ++ r ++ ascii "," ++ label "phantom" ++ ascii "null}".
