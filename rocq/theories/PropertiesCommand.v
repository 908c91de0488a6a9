(** * The commands that exp.py starts *)
From Coq Require Import String.
From Coq Require Import NArith ZArith List Bool.
From Verif Require Import ModelRust ModelF64 ModelEnv ModelFiles ModelArgs ModelExp ModelCommand Spec SpecBuild SpecEval SpecRust SpecFiles SpecExp SpecCommand
  CommandFacts CommandPipeline.
Import ListNotations.
Local Open Scope N_scope.

(** ** C88: what the evaluation program does on the commands of exp.py *)
(** "prepare --type hashes": the numbers arrive as given, unless one is negative or the output starts with a hyphen; then
    the command is refused. *)
Theorem C88_prepare : forall e resolve draws ords a d r, a_size a = ascii "32" \/ a_size a = ascii "64" ->
  ((0 <= a_jobs a)%Z /\ (0 <= a_count a)%Z /\ (0 <= a_runs a)%Z /\ ~ hyphen (a_output a) ->
     exists j c n, numeral (Z.to_N (a_jobs a)) j /\ numeral (Z.to_N (a_count a)) c /\ numeral (Z.to_N (a_runs a)) n /\
       (exp_prepare e resolve draws ords a d r <->
        main e resolve draws ords (Some j) (Gen (GenArgs (Some (a_size a)) (Some c) (Some n) (Some (a_output a)))) d r)) /\
  (~ ((0 <= a_jobs a)%Z /\ (0 <= a_count a)%Z /\ (0 <= a_runs a)%Z /\ ~ hyphen (a_output a)) ->
     (exp_prepare e resolve draws ords a d r <-> r = Panic)).
Proof. exact prepare_exact. Qed.
Print Assumptions C88_prepare.

(** "run --mode hashes" runs on the files of the input directory, and is refused when there are none.  Without an input the
    directory is the one called "None". *)
Theorem C88_hashes : forall glob e resolve draws ords a d r, x_type a = ascii "hll" \/ x_type a = ascii "hllp" -> x_mode a = ascii "hashes" ->
  let dir := match x_input a with Some i => i | None => ascii "None" end in
  let files := glob (dir ++ ascii "/*.dat") in
  Forall (fun f => exists name, f = dir ++ ascii "/" ++ name) files ->
  let good := (0 <= x_jobs a)%Z /\ (0 <= x_precision a)%Z /\ ~ hyphen (x_output a) /\ files <> [] /\ (forall t, dir <> 45 :: t) in
  (good -> exists j p, numeral (Z.to_N (x_jobs a)) j /\ numeral (Z.to_N (x_precision a)) p /\
     (exp_run glob e resolve draws ords a d r <->
      main e resolve draws ords (Some j) (Run (RunArgs (Some (x_type a)) (Some (ascii "hashes")) (Some p) (Some files) None None (Some (x_output a)))) d r)) /\
  (~ good -> (exp_run glob e resolve draws ords a d r <-> r = Panic)).
Proof. exact hashes_exact. Qed.
Print Assumptions C88_hashes.

(** "run --mode cardinalities" needs "--runs" and "--cardinalities", although argparse does not ask for them: without the
    first the program is told to do "None" runs and panics, without the second it is not started. *)
Theorem C88_cards : forall glob e resolve draws ords a d r, x_type a = ascii "hll" \/ x_type a = ascii "hllp" -> x_mode a = ascii "cardinalities" ->
  0 < usize_bits e ->
  let good n c := (0 <= x_jobs a)%Z /\ (0 <= x_precision a)%Z /\ (0 <= n)%Z /\ ~ hyphen (x_output a) /\ ~ hyphen c in
  (forall n c, x_runs a = Some n -> x_cardinalities a = Some c ->
   (good n c -> exists j p k, numeral (Z.to_N (x_jobs a)) j /\ numeral (Z.to_N (x_precision a)) p /\ numeral (Z.to_N n) k /\
     (exp_run glob e resolve draws ords a d r <->
      main e resolve draws ords (Some j) (Run (RunArgs (Some (x_type a)) (Some (ascii "cardinalities")) (Some p) None (Some k) (Some c) (Some (x_output a)))) d r)) /\
   (~ good n c -> (exp_run glob e resolve draws ords a d r <-> r = Panic))) /\
  (x_runs a = None \/ x_cardinalities a = None -> (exp_run glob e resolve draws ords a d r <-> r = Panic)).
Proof. exact cards_exact. Qed.
Print Assumptions C88_cards.

(** The second experiment, by exp.py alone: "prepare --type cardinalities", "run", and the statistics. *)
Theorem C88_experiment_plus : forall glob e resolve draws ords, 0 < usize_bits e ->
  forall max jobs p dir file output n names paths d,
  build_std e -> (forall k i, is_order (ords k i)) -> 2 * p < usize_bits e -> jobs < 2 ^ usize_bits e ->
  4 <= p <= 18 -> 0 < n < 2 ^ usize_bits e -> (forall k i, draws k i < 2 ^ 64) ->
  (1 <= max)%Z -> (2 * max <= 2 ^ 53)%Z -> (2 * max <= 2 ^ Z.of_N (usize_bits e))%Z ->
  in_directory dir (ascii "cardinalities.dat") file -> resolve file <> None -> ~ hyphen file -> ~ hyphen output ->
  Forall2 (cards_name p (ascii "64")) (first_draws (fun r => r) n) names -> Forall2 (in_directory output) names paths -> separate resolve paths ->
  ~ In (resolve file) (map resolve paths) ->
  let args := ExpRunArgs (Z.of_N jobs) (ascii "hllp") (ascii "cardinalities") (Z.of_N p) None (Some (Z.of_N n)) (Some file) output in
  exists cards d1, generate_cardinalities max = Ret cards /\ prepare_cardinalities resolve dir max d = Ret d1 /\
  let result := exp_run glob e resolve draws ords args d1 in
  (exists r, result r) /\
  forall r, result r -> exists d2, r = Ret d2 /\ only_changed resolve (file :: paths) d d2 /\
    exists outs contents rows, Forall2 (fun k out => plus_card_lines e p (draws k) (map Z.to_N cards) out) (first_draws (fun r => r) n) outs /\
      Forall2 (has_file resolve d2) paths contents /\ Forall2 estimate_file outs contents /\
      calculate_statistics contents = Ret rows /\ map fst rows = cards /\
      forall j z errs, nth_error rows j = Some (z, errs) ->
        Forall2 (fun out x => exists k, nth_error out j = Some (Z.to_N z, k) /\ relative_error_of (Z.to_N z) k x) outs errs.
Proof. exact exp_pipeline_plus. Qed.
Print Assumptions C88_experiment_plus.

Theorem C88_experiment_pf : forall glob e resolve draws ords, 0 < usize_bits e ->
  forall max jobs p dir file output n names paths d,
  build e -> 2 * p < usize_bits e -> jobs < 2 ^ usize_bits e ->
  4 <= p <= 16 -> 0 < n < 2 ^ usize_bits e -> (forall k i, draws k i < 2 ^ 32) ->
  (1 <= max)%Z -> (2 * max <= 2 ^ 53)%Z -> (2 * max <= 2 ^ Z.of_N (usize_bits e))%Z ->
  in_directory dir (ascii "cardinalities.dat") file -> resolve file <> None -> ~ hyphen file -> ~ hyphen output ->
  Forall2 (cards_name p (ascii "32")) (first_draws (fun r => r) n) names -> Forall2 (in_directory output) names paths -> separate resolve paths ->
  ~ In (resolve file) (map resolve paths) ->
  let args := ExpRunArgs (Z.of_N jobs) (ascii "hll") (ascii "cardinalities") (Z.of_N p) None (Some (Z.of_N n)) (Some file) output in
  exists cards d1, generate_cardinalities max = Ret cards /\ prepare_cardinalities resolve dir max d = Ret d1 /\
  let result := exp_run glob e resolve draws ords args d1 in
  (exists r, result r) /\
  forall r, result r -> exists d2, r = Ret d2 /\ only_changed resolve (file :: paths) d d2 /\
    exists outs contents rows, Forall2 (fun k out => pf_card_lines e p (draws k) (map Z.to_N cards) out) (first_draws (fun r => r) n) outs /\
      Forall2 (has_file resolve d2) paths contents /\ Forall2 estimate_file outs contents /\
      calculate_statistics contents = Ret rows /\ map fst rows = cards /\
      forall j z errs, nth_error rows j = Some (z, errs) ->
        Forall2 (fun out x => exists k, nth_error out j = Some (Z.to_N z, k) /\ relative_error_of (Z.to_N z) k x) outs errs.
Proof. exact exp_pipeline_pf. Qed.
Print Assumptions C88_experiment_pf.

(** Computed: a command and what is read in it; a negative number of jobs is refused; hashes from the directory "None"; the
    cardinalities with "None" runs, and without a file. *)
Example C88_example :
  prepare_command (PrepareArgs 1 (ascii "64") 100 2 (ascii "h")) =
    [ascii "--jobs"; ascii "1"; ascii "gen"; ascii "--size"; ascii "64"; ascii "--count"; ascii "100"; ascii "--runs"; ascii "2"; ascii "--output"; ascii "h"] /\
  read_command (prepare_command (PrepareArgs 1 (ascii "64") 100 2 (ascii "h"))) =
    Some (Some (ascii "1"), Gen (GenArgs (Some (ascii "64")) (Some (ascii "100")) (Some (ascii "2")) (Some (ascii "h")))) /\
  read_command (prepare_command (PrepareArgs (-1) (ascii "64") 100 2 (ascii "h"))) = None /\
  strings (run_command (fun p => if eqb_bytes p (ascii "None/*.dat") then [ascii "None/a.dat"; ascii "None/b.dat"] else [])
    (ExpRunArgs 4 (ascii "hllp") (ascii "hashes") 14 None None None (ascii "o"))) =
    Some [ascii "--jobs"; ascii "4"; ascii "run"; ascii "--type"; ascii "hllp"; ascii "--mode"; ascii "hashes"; ascii "--precision"; ascii "14";
          ascii "--output"; ascii "o"; ascii "--input"; ascii "None/a.dat"; ascii "None/b.dat"] /\
  strings (run_command (fun _ => []) (ExpRunArgs 4 (ascii "hll") (ascii "cardinalities") 14 None None (Some (ascii "c")) (ascii "o"))) =
    Some [ascii "--jobs"; ascii "4"; ascii "run"; ascii "--type"; ascii "hll"; ascii "--mode"; ascii "cardinalities"; ascii "--precision"; ascii "14";
          ascii "--output"; ascii "o"; ascii "--runs"; ascii "None"; ascii "--cardinalities"; ascii "c"] /\
  strings (run_command (fun _ => []) (ExpRunArgs 4 (ascii "hll") (ascii "cardinalities") 14 None (Some 3%Z) None (ascii "o"))) = None.
Proof. exact command_example. Qed.
