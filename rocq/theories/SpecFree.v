(** * Spec: stored codes, read and written without overflow checks

    Nothing here refers to the model. *)
From Coq Require Import NArith List Bool Permutation Sorted.
From Verif Require Import Spec SpecBytes SpecStored.
Import ListNotations.
Local Open Scope N_scope.

(** The bytes [v] are whole numbers, of any length, and their running sums modulo 2^32 are [L]. *)
Definition reads_free (v L : list N) : Prop :=
  exists ns, v = concat ns /\ Forall is_number ns /\ L = map (fun x => x mod 2 ^ 32) (sums 0 (map (unchecked 0) ns)).

(** [K] is the merge of [A] and [B]: the smaller head first, equal heads once.  [B] need not be sorted. *)
Inductive merged : list N -> list N -> list N -> Prop :=
| merged_left : forall A, merged A [] A
| merged_right : forall B, merged [] B B
| merged_equal : forall a A B K, merged A B K -> merged (a :: A) (a :: B) (a :: K)
| merged_less : forall a A b B K, a < b -> merged A (b :: B) K -> merged (a :: A) (b :: B) (a :: K)
| merged_greater : forall a A b B K, b < a -> merged (a :: A) B K -> merged (a :: A) (b :: B) (b :: K).

(** [K] is what a flush of the pending set [T] into a vector holding [L] leaves. *)
Definition merges_to (T L K : list N) : Prop :=
  exists A, Permutation A T /\ StronglySorted N.lt A /\ merged A L K.

(** Length in bytes of the differences modulo 2^32. *)
Fixpoint step_len (last : N) (L : list N) : N :=
  match L with
  | [] => 0
  | x :: L' => varint_len ((x + 2 ^ 32 - last) mod 2 ^ 32) + step_len x L'
  end.

(** The slots that are set up for [m] registers of six bits; [w] is the width of a length. *)
Definition slots_free (w m : N) : N := 5 * ((m + 4) mod 2 ^ w / 5).

(** A pending set [T] that cannot be flushed into the bytes [v]. *)
Definition flush_breaks (w p m limit : N) (T v : list N) : Prop :=
  ends_open v \/
  exists L K, reads_free v L /\ merges_to T L K /\ limit < step_len 0 K /\ codes_out p (slots_free w m) K.

(** The sparse code of a hash at any precision: the shift amounts are taken modulo 64. *)
Definition code_free (p h : N) : N :=
  if (h * 2 ^ (p mod 64)) mod 2 ^ 64 / 2 ^ ((p + 39) mod 64) =? 0
  then prefix25 h * 2 ^ 7 + rank 64 25 h * 2 + 1
  else prefix25 h * 2.
