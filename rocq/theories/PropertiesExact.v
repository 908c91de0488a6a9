(** * Where the experiments find no error *)
From Coq Require Import String.
From Coq Require Import NArith ZArith Reals List Bool Permutation.
From Flocq Require Import Core BinarySingleNaN.
From Verif Require Import ModelRust ModelF64 ModelEnv ModelEval ModelFiles ModelArgs ModelExp ModelCommand ModelStats Spec SpecBuild SpecEval SpecRust SpecFiles SpecExp SpecCommand
  ModelTests FilesExample CommandFirst ExactFacts.
Import ListNotations.
Local Open Scope N_scope.

(** ** C91: hashes with different 25-bit prefixes are counted exactly while they fit the sparse list, up to 5791 of them *)
(** A line of the evaluation program. *)
Theorem C91_line : forall e p hs out j, build_std e -> accurate e -> 4 <= p <= 18 -> 2 * p < usize_bits e -> Forall (fun x => x < 2 ^ 64) hs ->
  plus_lines e p hs out -> (j < length hs)%nat -> 4 * N.of_nat (j + 1) + 16 <= sparse_limit p -> N.of_nat (j + 1) <= 5791 -> NoDup (map prefix25 (firstn (j + 1) hs)) ->
  nth_error out j = Some (N.of_nat (j + 1), N.of_nat (j + 1)).
Proof. exact exact_line. Qed.
Print Assumptions C91_line.

(** The line after the last exact one is always wrong by one; from precision 15 that many always fit. *)
Theorem C91_sharp : forall e p hs out, build_std e -> accurate e -> 15 <= p <= 18 -> 2 * p < usize_bits e -> Forall (fun x => x < 2 ^ 64) hs ->
  plus_lines e p hs out -> 5792 <= N.of_nat (length hs) -> NoDup (map prefix25 (firstn (N.to_nat 5792) hs)) ->
  nth_error out (N.to_nat 5791) = Some (5792, 5793).
Proof. exact sharp_line. Qed.
Print Assumptions C91_sharp.

(** The same row of the statistics of exp.py: every error is 0, and so are the mean, the median and the deviation. *)
Theorem C91_experiment : forall glob e resolve draws ords, 0 < usize_bits e ->
  forall jobs jobs' c n ks p dir hnames output names paths d,
  build_std e -> accurate e -> (forall k i, is_order (ords k i)) -> 2 * p < usize_bits e -> 4 <= p <= 18 -> (forall k i, draws k i < 2 ^ 64) ->
  jobs < 2 ^ usize_bits e -> jobs' < 2 ^ usize_bits e -> c <= 2 ^ 53 -> c < 2 ^ usize_bits e -> 0 < n < 2 ^ usize_bits e -> n <= 2 ^ 50 ->
  dir <> [] -> (forall t, dir <> 45 :: t) -> (forall dir', dir <> dir' ++ [47]) -> ~ hyphen output ->
  Permutation (first_draws (fun r => r) n) ks -> Forall2 (hashes_name (ascii "64")) ks hnames ->
  let files := map (fun name => dir ++ ascii "/" ++ name) hnames in
  separate resolve files -> glob (dir ++ ascii "/*.dat") = files ->
  Forall2 (estimates_name p) hnames names -> Forall2 (in_directory output) names paths -> separate resolve paths ->
  (forall f, In f files -> ~ In (resolve f) (map resolve paths)) ->
  let prepare := exp_prepare e resolve draws ords (PrepareArgs (Z.of_N jobs) (ascii "64") (Z.of_N c) (Z.of_N n) dir) in
  let run := exp_run glob e resolve draws ords (ExpRunArgs (Z.of_N jobs') (ascii "hllp") (ascii "hashes") (Z.of_N p) (Some dir) None None output) in
  forall d1 d2, prepare d (Ret d1) -> run d1 (Ret d2) ->
    exists contents rows, Forall2 (has_file resolve d2) paths contents /\
      calculate_statistics contents = Ret rows /\ map fst rows = map Z.of_nat (seq 1 (N.to_nat c)) /\
      forall j z errs, nth_error rows j = Some (z, errs) -> 4 * N.of_nat (j + 1) + 16 <= sparse_limit p -> N.of_nat (j + 1) <= 5791 ->
        (forall k, k < n -> NoDup (map prefix25 (first_draws (draws k) (N.of_nat (j + 1))))) ->
        length errs = N.to_nat n /\ Forall (fun x => is_finite x = true /\ B2R x = 0%R) errs /\
        forall m md s, np_mean errs m -> np_median errs md -> np_std errs s -> B2R m = 0%R /\ B2R md = 0%R /\ B2R s = 0%R.
Proof. exact exact_experiment. Qed.
Print Assumptions C91_experiment.

(** The second experiment. *)
Theorem C91_cards : forall glob e resolve draws ords, 0 < usize_bits e ->
  forall max jobs p dir file output n names paths d,
  build_std e -> accurate e -> (forall k i, is_order (ords k i)) -> 2 * p < usize_bits e -> jobs < 2 ^ usize_bits e ->
  4 <= p <= 18 -> 0 < n < 2 ^ usize_bits e -> n <= 2 ^ 50 -> (forall k i, draws k i < 2 ^ 64) ->
  (1 <= max)%Z -> (2 * max <= 2 ^ 53)%Z -> (2 * max <= 2 ^ Z.of_N (usize_bits e))%Z ->
  in_directory dir (ascii "cardinalities.dat") file -> resolve file <> None -> ~ hyphen file -> ~ hyphen output ->
  Forall2 (cards_name p (ascii "64")) (first_draws (fun r => r) n) names -> Forall2 (in_directory output) names paths -> separate resolve paths ->
  ~ In (resolve file) (map resolve paths) ->
  let args := ExpRunArgs (Z.of_N jobs) (ascii "hllp") (ascii "cardinalities") (Z.of_N p) None (Some (Z.of_N n)) (Some file) output in
  forall d1 d2, prepare_cardinalities resolve dir max d = Ret d1 -> exp_run glob e resolve draws ords args d1 (Ret d2) ->
    exists contents rows, Forall2 (has_file resolve d2) paths contents /\ calculate_statistics contents = Ret rows /\
      generate_cardinalities max = Ret (map fst rows) /\
      forall j z errs, nth_error rows j = Some (z, errs) -> (4 * z + 16 <= Z.of_N (sparse_limit p))%Z -> (z <= 5791)%Z ->
        (forall k, k < n -> NoDup (map prefix25 (first_draws (draws k) (Z.to_N z)))) ->
        length errs = N.to_nat n /\ Forall (fun x => is_finite x = true /\ B2R x = 0%R) errs /\
        forall m md s, np_mean errs m -> np_median errs md -> np_std errs s -> B2R m = 0%R /\ B2R md = 0%R /\ B2R s = 0%R.
Proof. exact exact_cards. Qed.
Print Assumptions C91_cards.

(** Two runs of three hashes at precision 15: the third hash repeats the first, so only the first two rows qualify. *)
Example C91_example :
  let place s := Some (number s) in
  let prepare := exp_prepare test_env place example_draws (fun _ _ => keep) (PrepareArgs 2 (ascii "64") 3 2 (ascii "h")) in
  let run := exp_run listed test_env place example_draws (fun _ _ => keep) (ExpRunArgs 1 (ascii "hllp") (ascii "hashes") 15 (Some (ascii "h")) None None (ascii "o")) in
  let paths := [ascii "o/est-p15-hashes-s64-r1.dat"; ascii "o/est-p15-hashes-s64-r0.dat"] in
  exists d1 d2 contents rows errs, prepare (fun _ => None) (Ret d1) /\ run d1 (Ret d2) /\ Forall2 (has_file place d2) paths contents /\
    calculate_statistics contents = Ret rows /\ nth_error rows 1 = Some (2%Z, errs) /\ length errs = 2%nat /\ Forall (fun x => is_finite x = true /\ B2R x = 0%R) errs.
Proof. exact exact_example. Qed.

(** The hashes 0, 2^39, 2 * 2^39, …. *)
Example C91_sharp_example : let hs := map (fun i => N.of_nat i * 2 ^ 39) (seq 0 (N.to_nat 5792)) in
  exists out, eval_hashes_plus test_env (fun _ => keep) 15 hs = Ret out /\
    nth_error out (N.to_nat 5790) = Some (5791, 5791) /\ nth_error out (N.to_nat 5791) = Some (5792, 5793).
Proof. exact sharp_example. Qed.

(** Two runs at precision 15 of the cardinalities 1 to 12: the third hash repeats the first. *)
Example C91_cards_example :
  let place s := Some (number s) in
  let args := ExpRunArgs 1 (ascii "hllp") (ascii "cardinalities") 15 None (Some 2%Z) (Some (ascii "c/cardinalities.dat")) (ascii "o") in
  let paths := [ascii "o/est-p15-cards-s64-r0.dat"; ascii "o/est-p15-cards-s64-r1.dat"] in
  exists d1 d2 contents rows errs, prepare_cardinalities place (ascii "c") 12 (fun _ => None) = Ret d1 /\
    exp_run listed test_env place example_draws (fun _ _ => keep) args d1 (Ret d2) /\ Forall2 (has_file place d2) paths contents /\
    calculate_statistics contents = Ret rows /\ nth_error rows 1 = Some (2%Z, errs) /\ length errs = 2%nat /\ Forall (fun x => is_finite x = true /\ B2R x = 0%R) errs.
Proof. exact exact_cards_example. Qed.
