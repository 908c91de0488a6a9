(** * The cardinalities and the statistics of exp.py *)
From Coq Require Import String.
From Coq Require Import NArith ZArith Reals List Bool.
From Flocq Require Import Core BinarySingleNaN.
From Verif Require Import ModelRust ModelF64 ModelEnv ModelHistory ModelEval ModelFiles ModelExp
  Spec SpecBuild SpecRust SpecEval SpecFiles SpecExp ExpFacts ExpStats ExpMain.
Import ListNotations.
Local Open Scope N_scope.

(** ** C74: the geometric series, its file, and the relative errors *)

(** [generate_cardinalities] ends for every integer, with the integer parts of the powers of 1.007 in binary64 up to the
    first that is not below the maximum; unless that is 2^1024 or more, an OverflowError. *)
Theorem C74_series : forall max, exists K, first_reach max K /\
  ((series K < bpow radix2 1024)%R -> exists l, generate_cardinalities max = Ret l /\ series_floors K l) /\
  ((bpow radix2 1024 <= series K)%R -> generate_cardinalities max = Panic).
Proof. exact cards_exact. Qed.
Print Assumptions C74_series.

(** The rounded powers against the exact ones, and that [first_reach] determines [K]. *)
Theorem C74_powers : (forall k, (1.007 * (1 - / 2 ^ 53) ^ 2) ^ k <= series k <= (1.007 * (1 + / 2 ^ 53) ^ 2) ^ k)%R.
Proof. exact series_bounds. Qed.
Print Assumptions C74_powers.

Theorem C74_reach : forall max a b, first_reach max a -> first_reach max b -> a = b.
Proof. exact reach_unique. Qed.
Print Assumptions C74_reach.

(** The comparison of a float with the maximum is exact, also where the maximum is not a float. *)
Theorem C74_compare : forall x z, lt_int (Float x) z = true <-> x = B754_infinity true \/ is_finite x = true /\ (B2R x < IZR z)%R.
Proof. exact lt_int_exact. Qed.
Print Assumptions C74_compare.

(** "A sorted list": from 1 to the maximum or at most 0.71% above it, with no gap of more than 0.71%, but for rounding to integers. *)
Theorem C74_range : forall max, (1 <= max <= 2 ^ 1023)%Z -> exists l,
  generate_cardinalities max = Ret l /\ increasing l /\ (exists l', l = 1%Z :: l') /\
  Forall (fun z => (1 <= z)%Z /\ IZR z <= 1.0071 * IZR max)%R l /\ (exists z, In z l /\ (max <= z)%Z) /\
  (forall t, 1 <= t <= IZR max -> exists z, In z l /\ IZR z <= t < 1.0071 * (IZR z + 1))%R.
Proof. exact cards_range. Qed.
Print Assumptions C74_range.

Theorem C74_small : forall max, (max <= 1)%Z -> generate_cardinalities max = Ret [1%Z].
Proof. exact cards_small. Qed.
Print Assumptions C74_small.

Theorem C74_overflow : forall max, (2 ^ 1024 <= max)%Z -> generate_cardinalities max = Panic.
Proof. exact cards_overflow. Qed.
Print Assumptions C74_overflow.

(** The file that [prepare] leaves is one that the evaluation program loads. *)
Theorem C74_file : forall resolve dir path l max d, in_directory dir (ascii "cardinalities.dat") path -> resolve path = Some l ->
  (1 <= max <= 2 ^ 1023)%Z -> exists cards content d', generate_cardinalities max = Ret cards /\
  prepare_cardinalities resolve dir max d = Ret d' /\ only_changed resolve [path] d d' /\ has_file resolve d' path content /\
  forall w, (2 * max <= 2 ^ Z.of_N w)%Z -> number_file w content (map Z.to_N cards).
Proof. exact prepared. Qed.
Print Assumptions C74_file.

(** The statistics: row j has the cardinality and the relative errors of the lines j, of those files that have one, whatever
    the lengths of the files.  No division by zero, since no cardinality is 0. *)
Theorem C74_statistics : forall files contents, Forall2 estimate_file files contents ->
  Forall (Forall (fun est => 1 <= fst est <= 2 ^ 53 /\ snd est < 2 ^ 64)) files ->
  exists rows, calculate_statistics contents = Ret rows /\
  length rows = fold_right Nat.max O (map (@length (N * N)) files) /\
  forall j r, nth_error rows j = Some r -> exists c k rest, row files j = (c, k) :: rest /\ fst r = Z.of_N c /\
    Forall2 (fun est x => relative_error_of (fst est) (snd est) x) (row files j) (snd r).
Proof. exact row_statistics. Qed.
Print Assumptions C74_statistics.

(** Estimates up to 2^53: the error is rounded once. *)
Theorem C74_error : forall c k x, 1 <= c <= 2 ^ 53 -> k <= 2 ^ 53 -> relative_error_of c k x ->
  B2R x = rounded (Rabs (IZR (Z.of_N k) - IZR (Z.of_N c)) / IZR (Z.of_N c)).
Proof. exact error_once. Qed.
Print Assumptions C74_error.

(** The second experiment from end to end: exp.py writes the cardinalities, the evaluation program estimates them in [n]
    runs, exp.py reads the estimates.  The rows are the cardinalities generated, with the relative errors of all runs; the
    lines are those of C67.  (The statistics hold for the files in any order, as [glob] may give them: C74_statistics.) *)
Theorem C74_experiment_plus : forall e resolve draws ords, 0 < usize_bits e ->
  forall max jobs precision p dir file output runs n names paths d,
  build_std e -> (forall k i, is_order (ords k i)) -> 2 * p < usize_bits e -> jobs_ok e jobs ->
  reads precision p -> 4 <= p <= 18 -> reads runs n -> 0 < n < 2 ^ usize_bits e -> (forall k i, draws k i < 2 ^ 64) ->
  (1 <= max)%Z -> (2 * max <= 2 ^ 53)%Z -> (2 * max <= 2 ^ Z.of_N (usize_bits e))%Z ->
  in_directory dir (ascii "cardinalities.dat") file -> resolve file <> None ->
  Forall2 (cards_name p (ascii "64")) (first_draws (fun r => r) n) names -> Forall2 (in_directory output) names paths -> separate resolve paths ->
  ~ In (resolve file) (map resolve paths) ->
  let args := RunArgs (Some (ascii "hllp")) (Some (ascii "cardinalities")) (Some precision) None (Some runs) (Some file) (Some output) in
  exists cards d1, generate_cardinalities max = Ret cards /\ prepare_cardinalities resolve dir max d = Ret d1 /\
  let result := main e resolve draws ords jobs (Run args) d1 in
  (exists r, result r) /\
  forall r, result r -> exists d2, r = Ret d2 /\ only_changed resolve (file :: paths) d d2 /\
    exists outs contents rows, Forall2 (fun k out => plus_card_lines e p (draws k) (map Z.to_N cards) out) (first_draws (fun r => r) n) outs /\
      Forall2 (has_file resolve d2) paths contents /\ Forall2 estimate_file outs contents /\
      calculate_statistics contents = Ret rows /\ map fst rows = cards /\
      forall j z errs, nth_error rows j = Some (z, errs) ->
        Forall2 (fun out x => exists k, nth_error out j = Some (Z.to_N z, k) /\ relative_error_of (Z.to_N z) k x) outs errs.
Proof. exact pipeline_cards_plus. Qed.
Print Assumptions C74_experiment_plus.

Theorem C74_experiment_pf : forall e resolve draws ords, 0 < usize_bits e ->
  forall max jobs precision p dir file output runs n names paths d,
  build e -> 2 * p < usize_bits e -> jobs_ok e jobs ->
  reads precision p -> 4 <= p <= 16 -> reads runs n -> 0 < n < 2 ^ usize_bits e -> (forall k i, draws k i < 2 ^ 32) ->
  (1 <= max)%Z -> (2 * max <= 2 ^ 53)%Z -> (2 * max <= 2 ^ Z.of_N (usize_bits e))%Z ->
  in_directory dir (ascii "cardinalities.dat") file -> resolve file <> None ->
  Forall2 (cards_name p (ascii "32")) (first_draws (fun r => r) n) names -> Forall2 (in_directory output) names paths -> separate resolve paths ->
  ~ In (resolve file) (map resolve paths) ->
  let args := RunArgs (Some (ascii "hll")) (Some (ascii "cardinalities")) (Some precision) None (Some runs) (Some file) (Some output) in
  exists cards d1, generate_cardinalities max = Ret cards /\ prepare_cardinalities resolve dir max d = Ret d1 /\
  let result := main e resolve draws ords jobs (Run args) d1 in
  (exists r, result r) /\
  forall r, result r -> exists d2, r = Ret d2 /\ only_changed resolve (file :: paths) d d2 /\
    exists outs contents rows, Forall2 (fun k out => pf_card_lines e p (draws k) (map Z.to_N cards) out) (first_draws (fun r => r) n) outs /\
      Forall2 (has_file resolve d2) paths contents /\ Forall2 estimate_file outs contents /\
      calculate_statistics contents = Ret rows /\ map fst rows = cards /\
      forall j z errs, nth_error rows j = Some (z, errs) ->
        Forall2 (fun out x => exists k, nth_error out j = Some (Z.to_N z, k) /\ relative_error_of (Z.to_N z) k x) outs errs.
Proof. exact pipeline_cards_pf. Qed.
Print Assumptions C74_experiment_pf.

(** Computed: the cardinalities up to 12, an overflow, a file, the statistics of two files of different lengths, and a
    ZeroDivisionError. *)
Example C74_example :
  generate_cardinalities 12 = Ret [1; 2; 3; 4; 5; 6; 7; 8; 9; 10; 11; 12]%Z /\
  generate_cardinalities (2 ^ 1024) = Panic /\
  prepare_cardinalities (fun _ => Some 0) (ascii "c/") 3 (fun _ => None)
    = Ret (set_file (fun _ => None) 0 (ascii "1" ++ [10] ++ ascii "2" ++ [10] ++ ascii "3")) /\
  (match calculate_statistics [ascii "1 1" ++ [10] ++ ascii "4 3" ++ [10]; ascii "1 2" ++ [10]] with
   | Ret rows => map (fun r => (fst r, map B2SF (snd r))) rows | _ => [] end
   = [(1%Z, [SpecFloat.S754_zero false; SpecFloat.S754_finite false (2 ^ 52) (-52)]); (4%Z, [SpecFloat.S754_finite false (2 ^ 52) (-54)])]) /\
  calculate_statistics [ascii "0 1" ++ [10]] = Panic.
Proof. exact exp_example. Qed.
