(** * Specification vocabulary

    What the properties are stated in.  Nothing here uses the definitions that transcribe the
    code (sketch states, registers, encodings); only the type of histories is shared, since a
    history is the statement's input. *)
From Coq Require Import NArith List Bool Permutation Sorted.
From Verif Require Import ModelSerde ModelHistory.
Import ListNotations.
Local Open Scope N_scope.

Definition same_set (A B : list N) : Prop := forall x, In x A <-> In x B.

(** ** Buckets and ranks of a hash of [W] bits at precision [p] *)

(** The top [p] bits. *)
Definition bucket (W p h : N) : N := h / 2 ^ (W - p).

(** The position, counted from 1 at the left, of the first 1-bit among the other [W - p]
    bits; [W - p + 1] if they are all 0. *)
Definition rank (W p h : N) : N :=
  let rest := h mod 2 ^ (W - p) in
  if rest =? 0 then W - p + 1 else W - p - N.log2 rest.

(** [v] is the content of register [i] after absorbing [H]: the largest rank in bucket [i], 0
    if there is none. *)
Definition is_register (W p : N) (H : list N) (i v : N) : Prop :=
  (forall h, In h H -> bucket W p h = i -> rank W p h <= v) /\
  (v = 0 \/ exists h, In h H /\ bucket W p h = i /\ rank W p h = v).

(** [l] is the list of the [2^p] registers after absorbing [H]. *)
Definition is_register_file (W p : N) (H l : list N) : Prop :=
  N.of_nat (length l) = 2 ^ p /\
  forall i v, nth_error l (N.to_nat i) = Some v -> is_register W p H i v.

(** Number of zeros in a list. *)
Definition zero_count (l : list N) : N := N.of_nat (length (filter (N.eqb 0) l)).

(** Register [j] of a list of 32-bit words packing [32 / sz] registers of [sz] bits each,
    from the least significant bit on. *)
Definition packed (sz : N) (words : list N) (j v : N) : Prop :=
  exists w, nth_error words (N.to_nat (j / (32 / sz))) = Some w /\
            v = (w / 2 ^ (sz * (j mod (32 / sz)))) mod 2 ^ sz.

(** ** Sparse codes *)

(** The top 25 bits of a 64-bit hash. *)
Definition prefix25 (h : N) : N := h / 2 ^ 39.

(** The 32-bit sparse code: the prefix, together with the rank of the rest and a flag when
    the prefix alone does not determine the rank at precision [p]. *)
Definition sparse_code (p h : N) : N :=
  if prefix25 h mod 2 ^ (25 - p) =? 0
  then prefix25 h * 2 ^ 7 + rank 64 25 h * 2 + 1
  else prefix25 h * 2.

(** [L] is the increasing list of the distinct codes of [H]. *)
Definition is_code_list (p : N) (H L : list N) : Prop :=
  StronglySorted N.lt L /\ same_set L (map (sparse_code p) H).

(** No prefix is absorbed with two different ranks where the rank is part of the code. *)
Definition one_code (p : N) (H : list N) : Prop :=
  forall x y, In x H -> In y H -> prefix25 x = prefix25 y ->
    prefix25 x mod 2 ^ (25 - p) <> 0 \/ rank 64 25 x = rank 64 25 y.

(** Bytes of a varint, 7 bits per byte. *)
Definition varint_len (n : N) : N :=
  if n =? 0 then 1 else N.log2 n / 7 + 1.

(** Bytes of the varint encoding of the differences of a list, starting from [last]. *)
Fixpoint gap_len (last : N) (L : list N) : N :=
  match L with
  | [] => 0
  | x :: L' => varint_len (x - last) + gap_len x L'
  end.

(** Byte budget of the sparse representation: what [2^p] six-bit registers take, five to a
    32-bit word. *)
Definition sparse_limit (p : N) : N := 4 * 2 ^ p / 5.

(** ** Histories *)

(** Precision and hash function of the sketch a history builds. *)
Fixpoint hist_precision {V : Type} (h : hist V) : N :=
  match h with
  | HNew p _ => p
  | HInsert _ _ h _ => hist_precision h
  | HMerge _ h _ => hist_precision h
  | HCount _ h => hist_precision h
  | HSerde _ _ _ h => hist_precision h
  end.

Fixpoint hist_builder {V : Type} (h : hist V) : V -> N :=
  match h with
  | HNew _ b => b
  | HInsert _ _ h _ => hist_builder h
  | HMerge _ h _ => hist_builder h
  | HCount _ h => hist_builder h
  | HSerde _ ser_b de_b h =>
      match de_b (ser_b (hist_builder h)) with
      | Some b => b
      | None => hist_builder h
      end
  end.

(** The 64-bit hash of a value. *)
Definition hash64 {V : Type} (b : V -> N) (v : V) : N := b v mod 2 ^ 64.

(** The hashes a sketch has absorbed.  A merge of unequal precisions absorbs nothing. *)
Fixpoint hist_hashes {V : Type} (h : hist V) : list N :=
  match h with
  | HNew _ _ => []
  | HInsert _ _ h v => hash64 (hist_builder h) v :: hist_hashes h
  | HMerge _ h1 h2 =>
      if hist_precision h1 =? hist_precision h2
      then hist_hashes h2 ++ hist_hashes h1
      else hist_hashes h1
  | HCount _ h => hist_hashes h
  | HSerde _ _ _ h => hist_hashes h
  end.

(** [ord] is a possible iteration order: it permutes its argument. *)
Definition is_order (ord : list N -> list N) : Prop := forall l, Permutation (ord l) l.

(** A history that can happen: precisions between 4 and [maxp], iteration orders are orders,
    and where a sketch is serialized its hash builder survives serialization. *)
Fixpoint valid {V : Type} (maxp : N) (h : hist V) : Prop :=
  match h with
  | HNew p _ => 4 <= p <= maxp
  | HInsert _ ord h _ => is_order ord /\ valid maxp h
  | HMerge ord h1 h2 => is_order ord /\ valid maxp h1 /\ valid maxp h2
  | HCount ord h => is_order ord /\ valid maxp h
  | HSerde ord ser_b de_b h =>
      is_order ord /\ valid maxp h /\
      exists b, de_b (ser_b (hist_builder h)) = Some b /\
                forall v, hash64 b v = hash64 (hist_builder h) v
  end.

(** The largest precisions. *)
Definition MAX_PLUS : N := 18.
Definition MAX_PF : N := 16.

(** Every precision used in the history satisfies [2p < w]. *)
Fixpoint narrow {V : Type} (w : N) (h : hist V) : Prop :=
  match h with
  | HNew p _ => 2 * p < w
  | HInsert _ _ h _ => narrow w h
  | HMerge _ h1 h2 => narrow w h1 /\ narrow w h2
  | HCount _ h => narrow w h
  | HSerde _ _ _ h => narrow w h
  end.

(** The codes of [H] fit the byte budget of the sparse representation. *)
Definition fits (p : N) (H : list N) : Prop :=
  forall L, is_code_list p H L -> gap_len 0 L <= sparse_limit p.

(** Wherever [count] is called, [2p < w] or the sketch is still sparse. *)
Fixpoint countable {V : Type} (w : N) (h : hist V) : Prop :=
  match h with
  | HNew _ _ => True
  | HInsert _ _ h _ => countable w h
  | HMerge _ h1 h2 => countable w h1 /\ countable w h2
  | HCount _ h => (2 * hist_precision h < w \/ fits (hist_precision h) (hist_hashes h)) /\
                  countable w h
  | HSerde _ _ _ h => countable w h
  end.

(** Wherever [count] is called, [2p < w]. *)
Fixpoint countable_pf {V : Type} (w : N) (h : hist V) : Prop :=
  match h with
  | HNew _ _ => True
  | HInsert _ _ h _ => countable_pf w h
  | HMerge _ h1 h2 => countable_pf w h1 /\ countable_pf w h2
  | HCount _ h => 2 * hist_precision h < w /\ countable_pf w h
  | HSerde _ _ _ h => countable_pf w h
  end.

(** The history without its calls of [count]; without its serialization round trips. *)
Fixpoint without_counts {V : Type} (h : hist V) : hist V :=
  match h with
  | HNew p b => HNew p b
  | HInsert k ord h v => HInsert k ord (without_counts h) v
  | HMerge ord h1 h2 => HMerge ord (without_counts h1) (without_counts h2)
  | HCount _ h => without_counts h
  | HSerde ord ser_b de_b h => HSerde ord ser_b de_b (without_counts h)
  end.

Fixpoint without_serde {V : Type} (h : hist V) : hist V :=
  match h with
  | HNew p b => HNew p b
  | HInsert k ord h v => HInsert k ord (without_serde h) v
  | HMerge ord h1 h2 => HMerge ord (without_serde h1) (without_serde h2)
  | HCount ord h => HCount ord (without_serde h)
  | HSerde _ _ _ h => without_serde h
  end.

(** The sketch into which the values [vs] were inserted, in that order. *)
Definition inserted {V : Type} (p : N) (b : V -> N) (k : entry) (ord : list N -> list N)
    (vs : list V) : hist V :=
  fold_left (fun h v => HInsert k ord h v) vs (HNew p b).

(** ** Continuations: a program with a hole for a sketch *)
Inductive ctx (V : Type) :=
| CHole
| CInsert (k : entry) (ord : list N -> list N) (c : ctx V) (v : V)
| CMergeInto (ord : list N -> list N) (c : ctx V) (other : hist V)
| CMergeFrom (ord : list N -> list N) (h : hist V) (c : ctx V)
| CMergeBoth (ord : list N -> list N) (c1 c2 : ctx V)
| CCount (ord : list N -> list N) (c : ctx V)
| CSerde (ord : list N -> list N) (ser_b : (V -> N) -> sval) (de_b : sval -> option (V -> N))
    (c : ctx V).
Arguments CHole {V}.
Arguments CInsert {V}.
Arguments CMergeInto {V}.
Arguments CMergeFrom {V}.
Arguments CMergeBoth {V}.
Arguments CCount {V}.
Arguments CSerde {V}.

(** Run the continuation on the sketch of [h] (used several times: clones). *)
Fixpoint plug {V : Type} (c : ctx V) (h : hist V) : hist V :=
  match c with
  | CHole => h
  | CInsert k ord c v => HInsert k ord (plug c h) v
  | CMergeInto ord c other => HMerge ord (plug c h) other
  | CMergeFrom ord h' c => HMerge ord h' (plug c h)
  | CMergeBoth ord c1 c2 => HMerge ord (plug c1 h) (plug c2 h)
  | CCount ord c => HCount ord (plug c h)
  | CSerde ord ser_b de_b c => HSerde ord ser_b de_b (plug c h)
  end.

(** ** Duplicate-free enumeration of a set of numbers, for counting *)
Definition has_size (P : N -> Prop) (n : N) : Prop :=
  exists l, NoDup l /\ (forall x, In x l <-> P x) /\ N.of_nat (length l) = n.
