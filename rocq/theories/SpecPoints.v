(** * What the experiments should plot *)
From Coq Require Import NArith ZArith Reals List.
From Flocq Require Import Core BinarySingleNaN.
From Verif Require Import ModelStats ModelPlot SpecRust SpecExp.
Import ListNotations.
Local Open Scope N_scope.

(** A point for each of the [cards]: the mean and the median of the relative errors in that line of the files of estimates [outs], and
    a band from the mean less to the mean plus the standard deviation. *)
Definition points (cards : list Z) (outs : list (list (N * N))) (g : drawing) : Prop :=
  g_x g = cards /\
  length (g_mean g) = length cards /\ length (g_median g) = length cards /\ length (g_low g) = length cards /\ length (g_high g) = length cards /\
  forall j z, nth_error cards j = Some z -> exists errs m md s lo hi,
    Forall2 (fun out x => exists k, nth_error out j = Some (Z.to_N z, k) /\ relative_error_of (Z.to_N z) k x) outs errs /\
    nth_error (g_mean g) j = Some m /\ np_mean errs m /\ nth_error (g_median g) j = Some md /\ np_median errs md /\ np_std errs s /\
    nth_error (g_low g) j = Some lo /\ nth_error (g_high g) j = Some hi /\
    (B2R lo = rounded (B2R m - B2R s) /\ B2R hi = rounded (B2R m + B2R s) /\ B2R lo <= B2R m <= B2R hi)%R.
