(** * What exp.py plots *)
From Coq Require Import NArith ZArith Reals List.
From Flocq Require Import Core BinarySingleNaN.
From Verif Require Import ModelRust ModelF64 ModelFiles ModelExp ModelStats ModelPlot SpecRust SpecFiles SpecExp SpecStats SpecPlot PlotFacts.
Import ListNotations.
Local Open Scope R_scope.

(** ** C90: the curves, the band around the mean, and the marks of the y axis *)
(** Nothing to plot is an error.  Otherwise, if no estimate is 2^40 times too high, there is a point for every line of the
    longest file: the mean and the median of the errors in that line, and the standard deviation to both sides. *)
Theorem C90_plot : forall hll hashes files contents, Forall2 estimate_file files contents ->
  List.Forall (List.Forall (fun est => (1 <= fst est <= 2 ^ 53)%N /\ (snd est < 2 ^ 64)%N)) files -> INR (length files) <= 2 ^ 50 ->
  (exists r, plot hll hashes contents r) /\ forall r, plot hll hashes contents r ->
  ((forall f, In f files -> f = []) -> r = Panic) /\
  ((exists f, In f files /\ f <> []) -> List.Forall (List.Forall (fun est => (snd est <= 2 ^ 40 * fst est)%N)) files ->
   exists g, r = Ret g /\
   (forall f, In f files -> (length f <= length (g_x g))%nat) /\ (exists f, In f files /\ length f = length (g_x g)) /\
   length (g_mean g) = length (g_x g) /\ length (g_median g) = length (g_x g) /\ length (g_low g) = length (g_x g) /\ length (g_high g) = length (g_x g) /\
   forall j z, nth_error (g_x g) j = Some z -> exists c k rest errs m md s lo hi,
     row files j = (c, k) :: rest /\ z = Z.of_N c /\ Forall2 (fun est x => relative_error_of (fst est) (snd est) x) (row files j) errs /\
     nth_error (g_mean g) j = Some m /\ np_mean errs m /\ nth_error (g_median g) j = Some md /\ np_median errs md /\ np_std errs s /\
     nth_error (g_low g) j = Some lo /\ nth_error (g_high g) j = Some hi /\
     B2R lo = rounded (B2R m - B2R s) /\ B2R hi = rounded (B2R m + B2R s) /\ B2R lo <= B2R m <= B2R hi).
Proof. exact plot_ok. Qed.
Print Assumptions C90_plot.

(** The marks: multiples of the step, up to the sum of the highest mean and the highest standard deviation. *)
Theorem C90_marks : forall hll hashes cards means medians stdevs, means <> [] -> length stdevs = length means ->
  List.Forall (fun x => is_finite x = true /\ 0 <= B2R x <= 2 ^ 50) means -> List.Forall (fun x => is_finite x = true /\ 0 <= B2R x <= 2 ^ 50) stdevs ->
  exists g, draw hll hashes cards means medians stdevs = Ret g /\ g_x g = cards /\ g_mean g = means /\ g_median g = medians /\
  length (g_low g) = length means /\ length (g_high g) = length means /\
  (forall j m s, nth_error means j = Some m -> nth_error stdevs j = Some s -> exists lo hi,
     nth_error (g_low g) j = Some lo /\ nth_error (g_high g) j = Some hi /\ is_finite lo = true /\ is_finite hi = true /\
     B2R lo = rounded (B2R m - B2R s) /\ B2R hi = rounded (B2R m + B2R s) /\ B2R lo <= B2R m <= B2R hi) /\
  (exists m s, In m means /\ In s stdevs /\ List.Forall (fun x => B2R x <= B2R m) means /\ List.Forall (fun x => B2R x <= B2R s) stdevs /\
     Z.of_nat (length (g_marks g)) = Zceil (rounded (rounded (B2R m + B2R s) / rounded (axis_step hll hashes)))) /\
  (forall i, (i < length (g_marks g))%nat -> exists x, nth_error (g_marks g) i = Some x /\ is_finite x = true /\
     B2R x = rounded (rounded (INR i) * rounded (axis_step hll hashes))) /\
  B2R (fst (g_limits g)) = rounded (axis_low hll hashes) /\ B2R (snd (g_limits g)) = rounded (axis_high hll hashes).
Proof. exact draw_ok. Qed.
Print Assumptions C90_marks.

(** Computed: two files, of two lines and of one; a drawing; no lines; too many marks. *)
Example C90_example :
  let files := [[(1, 1); (2, 3)]; [(1, 2)]]%N in
  let contents := [[49; 32; 49; 10; 50; 32; 51; 10]; [49; 32; 50; 10]]%N in
  Forall2 estimate_file files contents /\
  List.Forall (List.Forall (fun est => (1 <= fst est <= 2 ^ 53)%N /\ (snd est < 2 ^ 64)%N)) files /\
  List.Forall (List.Forall (fun est => (snd est <= 2 ^ 40 * fst est)%N)) files /\
  match draw true true [1; 2]%Z [lit 5 1; lit 5 1] [lit 5 1; lit 5 1] [lit 5 1; pzero] with
  | Ret g => g_x g = [1; 2]%Z /\ shown_values (g_low g) = shown_values [pzero; lit 5 1] /\ shown_values (g_high g) = shown_values [of_N 1; lit 5 1] /\
      length (g_marks g) = 400%nat
  | _ => False
  end /\
  draw true true [] [] [] [] = Panic /\ draw false true [1%Z] [of_Z (2 ^ 60)] [pzero] [pzero] = Panic.
Proof. exact plot_example. Qed.
