(** * Formatting of errors *)
From Coq Require Import String.
From Coq Require Import NArith List.
From Verif Require Import ModelCommon ModelError ModelFormat SpecFormat FormatFacts.
Import ListNotations.
Local Open Scope N_scope.

(** ** C52, continued: errors under any format *)

(** [Display] honours fill, alignment, width and precision. *)
Theorem C52_format : forall f err out, out = concat (error_fmt f err) <->
  formatted f (chars match err with InvalidPrecision => "precision is out of bounds" | IncompatiblePrecision => "precisions must be equal" end) out.
Proof. exact error_fmt_spec. Qed.
Print Assumptions C52_format.

Theorem C52_plain : forall f err, f_width f = None -> f_precision f = None -> concat (error_fmt f err) = chars (error_display err).
Proof. exact error_fmt_plain. Qed.
Print Assumptions C52_plain.

(** The texts of the two errors differ, unless they are cut to nine characters or fewer. *)
Theorem C52_distinct : forall f, concat (error_fmt f InvalidPrecision) = concat (error_fmt f IncompatiblePrecision) <-> exists k, f_precision f = Some k /\ k <= 9.
Proof. exact error_fmt_distinct. Qed.
Print Assumptions C52_distinct.

Theorem C52_debug : forall f err,
  concat (error_debug f err) = chars match err with InvalidPrecision => "InvalidPrecision" | IncompatiblePrecision => "IncompatiblePrecision" end.
Proof. exact error_debug_spec. Qed.
Print Assumptions C52_debug.

Theorem C52_eq : forall a b, error_eq a b = true <-> a = b.
Proof. exact error_eq_spec. Qed.
Print Assumptions C52_eq.

Example C52_format_example :
  concat (error_fmt (Format 42 (Some Center) (Some 15) (Some 10)) IncompatiblePrecision) = chars "**precisions***" /\
  formatted (Format 42 (Some Center) (Some 15) (Some 10)) (chars "precisions must be equal") (chars "**precisions***") /\
  concat (error_fmt (Format 32 None (Some 28) None) InvalidPrecision) = chars "precision is out of bounds  " /\
  concat (error_fmt (Format 32 None (Some 3) (Some 9)) InvalidPrecision) = chars "precision".
Proof. exact format_example. Qed.
