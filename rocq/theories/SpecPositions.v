(** * The same value written without field names

    Formats such as bincode write the fields of a struct one after the other and leave out
    their names.  The derived reader then takes them by position (its [visit_seq]). *)
From Coq Require Import List String.
From Verif Require Import ModelSerde.
Import ListNotations.

Fixpoint positions (v : sval) : sval :=
  match v with
  | SInt n => SInt n
  | SSeq l => SSeq (map positions l)
  | STuple l => STuple (map positions l)
  | SNewtype w => SNewtype (positions w)
  | SStruct fs => SSeq (map (fun f => positions (snd f)) fs)
  | SNone => SNone
  | SSome w => SSome (positions w)
  | SUnit => SUnit
  | SOther t l => SOther t (map positions l)
  end.
