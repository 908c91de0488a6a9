(** * What formatting a text means *)
From Coq Require Import NArith List.
From Verif Require Import ModelFormat.
Import ListNotations.
Local Open Scope N_scope.

Definition size (s : list N) : N := N.of_nat (length s).

(** [t] is the text [s] cut to the precision. *)
Definition cut (precision : option N) (s t : list N) : Prop :=
  (exists rest, s = t ++ rest) /\
  match precision with
  | None => size t = size s
  | Some max => size t = N.min max (size s)
  end.

(** [out] is [t] padded to the width. *)
Definition padded (fill : N) (align : option alignment) (width : option N) (t out : list N) : Prop :=
  exists before after, out = before ++ t ++ after /\ Forall (fun c => c = fill) (before ++ after) /\
  size out = match width with None => size t | Some w => N.max w (size t) end /\
  match align with
  | None | Some Left => before = []
  | Some Right => after = []
  | Some Center => size before <= size after <= size before + 1
  end.

Definition formatted (f : format) (s out : list N) : Prop :=
  exists t, cut (f_precision f) s t /\ padded (f_fill f) (f_align f) (f_width f) t out.
