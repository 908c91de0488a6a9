(** * Formatting of errors: [Formatter::pad] (not in /repo: std) and its use in /repo/src/lib.rs

    Texts are lists of characters (numbers of Unicode scalar values).  A formatter gives the texts it writes to its
    sink, in order; that a sink can refuse a text, which ends the writing, is not modelled. *)
From Coq Require Import String.
From Coq Require Import NArith List Bool Ascii.
From Verif Require Import ModelCommon ModelError.
Import ListNotations.
Local Open Scope N_scope.

Definition chars (s : string) : list N := map N_of_ascii (list_ascii_of_string s).

(** What a format string like "{:*^30.8}" requests: fill (a space by default), alignment, width, precision. *)
Inductive alignment := Left | Right | Center.
Record format := Format { f_fill : N; f_align : option alignment; f_width : option N; f_precision : option N }.

(** [Formatter::padding]: the number of fill characters before and after. *)
Definition padding (f : format) (n : N) (default : alignment) : N * N :=
  match (match f_align f with Some a => a | None => default end) with
  | Left => (0, n)
  | Right => (n, 0)
  | Center => (n / 2, (n + 1) / 2)
  end.

(** [for _ in 0..n { write_char(fill) }]. *)
Definition write_fill (f : format) (n : N) : list (list N) := repeat [f_fill f] (N.to_nat n).

(** [Formatter::pad]. *)
Definition pad (f : format) (s : list N) : list (list N) :=
  match f_width f, f_precision f with
  | None, None => [s]
  | width, precision =>
      let s := match precision with
               | Some max => if max <? N.of_nat (length s) then firstn (N.to_nat max) s else s
               | None => s
               end in
      match width with
      | None => [s]
      | Some width =>
          let count := N.of_nat (length s) in
          if width <=? count then [s]
          else
            let (pre, post) := padding f (width - count) Left in
            write_fill f pre ++ [s] ++ write_fill f post
      end
  end.

(** lib.rs:67-78: [fmt] of [Display]; [fmt] of a [str] is [pad]. *)
Definition error_fmt (f : format) (err : error) : list (list N) := pad f (chars (error_display err)).

(** lib.rs:61: the derived [Debug] writes the name of the variant, whatever is requested. *)
Definition error_debug (f : format) (err : error) : list (list N) :=
  match err with
  | InvalidPrecision => [chars "InvalidPrecision"]
  | IncompatiblePrecision => [chars "IncompatiblePrecision"]
  end.

(** lib.rs:61: the derived [PartialEq]. *)
Definition error_eq (a b : error) : bool :=
  match a, b with
  | InvalidPrecision, InvalidPrecision | IncompatiblePrecision, IncompatiblePrecision => true
  | _, _ => false
  end.
