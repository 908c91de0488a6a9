(** * The first experiment, by exp.py alone *)
From Coq Require Import String.
From Coq Require Import NArith ZArith List Bool Permutation.
From Verif Require Import ModelRust ModelF64 ModelEnv ModelFiles ModelArgs ModelExp ModelCommand Spec SpecBuild SpecEval SpecRust SpecFiles SpecExp SpecCommand
  ModelTests FilesExample CommandFirst.
Import ListNotations.
Local Open Scope N_scope.

(** ** C89: "prepare --type hashes", "run --mode hashes" on the directory prepared, and the statistics *)
(** Whatever the order in which the files are listed ([ks] are the runs in that order), there is a row for each of
    1, …, [c], with the relative errors of the estimates after that many hashes. *)
Theorem C89_plus : forall glob e resolve draws ords, 0 < usize_bits e ->
  forall jobs jobs' c n ks p dir hnames output names paths d,
  build_std e -> (forall k i, is_order (ords k i)) -> 2 * p < usize_bits e -> 4 <= p <= 18 -> (forall k i, draws k i < 2 ^ 64) ->
  jobs < 2 ^ usize_bits e -> jobs' < 2 ^ usize_bits e -> c <= 2 ^ 53 -> c < 2 ^ usize_bits e -> 0 < n < 2 ^ usize_bits e ->
  dir <> [] -> (forall t, dir <> 45 :: t) -> (forall dir', dir <> dir' ++ [47]) -> ~ hyphen output ->
  Permutation (first_draws (fun r => r) n) ks -> Forall2 (hashes_name (ascii "64")) ks hnames ->
  let files := map (fun name => dir ++ ascii "/" ++ name) hnames in
  separate resolve files -> glob (dir ++ ascii "/*.dat") = files ->
  Forall2 (estimates_name p) hnames names -> Forall2 (in_directory output) names paths -> separate resolve paths ->
  (forall f, In f files -> ~ In (resolve f) (map resolve paths)) ->
  let prepare := exp_prepare e resolve draws ords (PrepareArgs (Z.of_N jobs) (ascii "64") (Z.of_N c) (Z.of_N n) dir) in
  let run := exp_run glob e resolve draws ords (ExpRunArgs (Z.of_N jobs') (ascii "hllp") (ascii "hashes") (Z.of_N p) (Some dir) None None output) in
  (exists d1 r, prepare d (Ret d1) /\ run d1 r) /\
  forall r1, prepare d r1 -> exists d1, r1 = Ret d1 /\ forall r2, run d1 r2 -> exists d2, r2 = Ret d2 /\ only_changed resolve (files ++ paths) d d2 /\
    exists outs contents rows, Forall2 (fun k out => plus_lines e p (first_draws (draws k) c) out) ks outs /\
      Forall2 (has_file resolve d2) paths contents /\ Forall2 estimate_file outs contents /\
      calculate_statistics contents = Ret rows /\ map fst rows = map Z.of_nat (seq 1 (N.to_nat c)) /\
      forall j z errs, nth_error rows j = Some (z, errs) ->
        Forall2 (fun out x => exists k, nth_error out j = Some (Z.to_N z, k) /\ relative_error_of (Z.to_N z) k x) outs errs.
Proof. exact first_plus. Qed.
Print Assumptions C89_plus.

Theorem C89_pf : forall glob e resolve draws ords, 0 < usize_bits e ->
  forall jobs jobs' c n ks p dir hnames output names paths d,
  build e -> 2 * p < usize_bits e -> 4 <= p <= 16 -> (forall k i, draws k i < 2 ^ 32) ->
  jobs < 2 ^ usize_bits e -> jobs' < 2 ^ usize_bits e -> c <= 2 ^ 53 -> c < 2 ^ usize_bits e -> 0 < n < 2 ^ usize_bits e ->
  dir <> [] -> (forall t, dir <> 45 :: t) -> (forall dir', dir <> dir' ++ [47]) -> ~ hyphen output ->
  Permutation (first_draws (fun r => r) n) ks -> Forall2 (hashes_name (ascii "32")) ks hnames ->
  let files := map (fun name => dir ++ ascii "/" ++ name) hnames in
  separate resolve files -> glob (dir ++ ascii "/*.dat") = files ->
  Forall2 (estimates_name p) hnames names -> Forall2 (in_directory output) names paths -> separate resolve paths ->
  (forall f, In f files -> ~ In (resolve f) (map resolve paths)) ->
  let prepare := exp_prepare e resolve draws ords (PrepareArgs (Z.of_N jobs) (ascii "32") (Z.of_N c) (Z.of_N n) dir) in
  let run := exp_run glob e resolve draws ords (ExpRunArgs (Z.of_N jobs') (ascii "hll") (ascii "hashes") (Z.of_N p) (Some dir) None None output) in
  (exists d1 r, prepare d (Ret d1) /\ run d1 r) /\
  forall r1, prepare d r1 -> exists d1, r1 = Ret d1 /\ forall r2, run d1 r2 -> exists d2, r2 = Ret d2 /\ only_changed resolve (files ++ paths) d d2 /\
    exists outs contents rows, Forall2 (fun k out => pf_lines e p (first_draws (draws k) c) out) ks outs /\
      Forall2 (has_file resolve d2) paths contents /\ Forall2 estimate_file outs contents /\
      calculate_statistics contents = Ret rows /\ map fst rows = map Z.of_nat (seq 1 (N.to_nat c)) /\
      forall j z errs, nth_error rows j = Some (z, errs) ->
        Forall2 (fun out x => exists k, nth_error out j = Some (Z.to_N z, k) /\ relative_error_of (Z.to_N z) k x) outs errs.
Proof. exact first_pf. Qed.
Print Assumptions C89_pf.

(** Two runs of three hashes, whose files are listed in the other order. *)
Example C89_example :
  let place s := Some (number s) in
  let prepare := exp_prepare test_env place example_draws (fun _ _ => keep) (PrepareArgs 2 (ascii "64") 3 2 (ascii "h")) in
  let run := exp_run listed test_env place example_draws (fun _ _ => keep) (ExpRunArgs 1 (ascii "hllp") (ascii "hashes") 4 (Some (ascii "h")) None None (ascii "o")) in
  let paths := [ascii "o/est-p4-hashes-s64-r1.dat"; ascii "o/est-p4-hashes-s64-r0.dat"] in
  exists d1 d2 contents rows, prepare (fun _ => None) (Ret d1) /\ run d1 (Ret d2) /\ Forall2 (has_file place d2) paths contents /\
    calculate_statistics contents = Ret rows /\ map fst rows = [1; 2; 3]%Z /\ Forall (fun row => length (snd row) = 2%nat) rows.
Proof. exact first_example. Qed.
