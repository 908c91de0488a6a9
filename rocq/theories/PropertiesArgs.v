(** * C75: the arguments of the evaluation program *)
From Coq Require Import String.
From Coq Require Import NArith List Bool.
From Verif Require Import ModelRust ModelF64 ModelEnv ModelPlus ModelHistory ModelEval ModelFiles ModelArgs ModelTests Spec SpecBuild SpecEval SpecFiles
  FilesArgs FilesExample.
Import ListNotations.
Local Open Scope N_scope.

(** The arguments that satisfy the declared rules are these. *)
Theorem C75_gen_accepted : forall a, accepts_gen a = true <->
  exists size count runs output, a = GenArgs (Some size) (Some count) (Some runs) (Some output) /\ (size = ascii "32" \/ size = ascii "64").
Proof. exact accepted_gen. Qed.
Print Assumptions C75_gen_accepted.

Theorem C75_run_accepted : forall a, accepts_run a = true <->
  exists ty precision output, (ty = ascii "hll" \/ ty = ascii "hllp") /\
    ((exists files runs file, files <> [] /\
       a = RunArgs (Some ty) (Some (ascii "hashes")) (Some precision) (Some files) runs file (Some output)) \/
     (exists files runs file, files <> Some [] /\
       a = RunArgs (Some ty) (Some (ascii "cardinalities")) (Some precision) files (Some runs) (Some file) (Some output))).
Proof. exact accepted_run. Qed.
Print Assumptions C75_run_accepted.

(** An argument of the other mode changes nothing, so that the theorems of C72, for arguments
    without it, cover all that are accepted. *)
Theorem C75_unused : forall e resolve draws ords jobs ty mode precision files runs file output d r,
  (mode = ascii "hashes" ->
     main e resolve draws ords jobs (Run (RunArgs ty (Some mode) precision files runs file output)) d r =
     main e resolve draws ords jobs (Run (RunArgs ty (Some mode) precision files None None output)) d r) /\
  (mode = ascii "cardinalities" ->
     main e resolve draws ords jobs (Run (RunArgs ty (Some mode) precision files runs file output)) d r =
     main e resolve draws ords jobs (Run (RunArgs ty (Some mode) precision None runs file output)) d r).
Proof. exact main_unused. Qed.
Print Assumptions C75_unused.

(** "gen" panics, and writes nothing, when a count is not a number that fits. *)
Theorem C75_gen_bad : forall e resolve draws ords, 0 < usize_bits e -> forall jobs size count runs output d, jobs_ok e jobs -> size = ascii "32" \/ size = ascii "64" ->
  (forall k, reads count k -> ~ k < 2 ^ usize_bits e) \/ (forall k, reads runs k -> ~ k < 2 ^ usize_bits e) ->
  forall r, main e resolve draws ords jobs (Gen (GenArgs (Some size) (Some count) (Some runs) (Some output))) d r <-> r = Panic.
Proof. exact gen_bad. Qed.
Print Assumptions C75_gen_bad.

(** "run --mode cardinalities" likewise; *)
Theorem C75_cards_unreadable : forall e resolve draws ords, 0 < usize_bits e -> forall jobs ty precision output runs file d, jobs_ok e jobs ->
  ty = ascii "hll" \/ ty = ascii "hllp" ->
  (forall p, reads precision p -> ~ p < 2 ^ 8) \/ (forall k, reads runs k -> ~ k < 2 ^ usize_bits e) ->
  let args := RunArgs (Some ty) (Some (ascii "cardinalities")) (Some precision) None (Some runs) (Some file) (Some output) in
  forall r, main e resolve draws ords jobs (Run args) d r <-> r = Panic.
Proof. exact cards_unreadable. Qed.
Print Assumptions C75_cards_unreadable.

(** with one run or more, also when the precision is not one of the sketch, or the file of
    cardinalities, outside the output directory, is missing or malformed. *)
Theorem C75_cards_bad : forall e resolve draws ords, 0 < usize_bits e -> forall jobs ty precision output runs n file d, jobs_ok e jobs -> build e ->
  reads runs n -> 0 < n -> n < 2 ^ usize_bits e ->
  ty = ascii "hll" \/ ty = ascii "hllp" ->
  (forall p, reads precision p -> (ty = ascii "hll" /\ ~ 4 <= p <= 16) \/ (ty = ascii "hllp" /\ ~ 4 <= p <= 18)) \/
  (forall name path, in_directory output name path -> resolve path = None \/ resolve path <> resolve file) /\
  (forall content nums, has_file resolve d file content -> ~ number_file (usize_bits e) content nums) ->
  let args := RunArgs (Some ty) (Some (ascii "cardinalities")) (Some precision) None (Some runs) (Some file) (Some output) in
  forall r, main e resolve draws ords jobs (Run args) d r <-> r = Panic.
Proof. exact cards_stop. Qed.
Print Assumptions C75_cards_bad.

(** With no runs neither is looked at: any precision below 256 will do, and nothing is written. *)
Theorem C75_gen_idle : forall e resolve draws ords, 0 < usize_bits e -> forall jobs size count runs output c d, jobs_ok e jobs -> size = ascii "32" \/ size = ascii "64" ->
  reads count c -> c < 2 ^ usize_bits e -> reads runs 0 ->
  forall r, main e resolve draws ords jobs (Gen (GenArgs (Some size) (Some count) (Some runs) (Some output))) d r <-> r = Ret d.
Proof. exact gen_idle. Qed.
Print Assumptions C75_gen_idle.

Theorem C75_cards_idle : forall e resolve draws ords, 0 < usize_bits e -> forall jobs ty precision p output runs file d, jobs_ok e jobs ->
  ty = ascii "hll" \/ ty = ascii "hllp" -> reads precision p -> p < 2 ^ 8 -> reads runs 0 ->
  let args := RunArgs (Some ty) (Some (ascii "cardinalities")) (Some precision) None (Some runs) (Some file) (Some output) in
  forall r, main e resolve draws ords jobs (Run args) d r <-> r = Ret d.
Proof. exact cards_idle. Qed.
Print Assumptions C75_cards_idle.

(** No subcommand, or values that the rules exclude: nothing happens. *)
Theorem C75_nothing : forall e resolve draws ords, 0 < usize_bits e -> forall jobs sub d, jobs_ok e jobs ->
  match sub with
  | Gen a => forall s, g_size a = Some s -> s <> ascii "32" /\ s <> ascii "64"
  | Run a => (forall t, r_type a = Some t -> t <> ascii "hll" /\ t <> ascii "hllp") \/
      (exists mode precision p output, r_mode a = Some mode /\ r_precision a = Some precision /\ r_output a = Some output /\
         reads precision p /\ p < 2 ^ 8 /\ mode <> ascii "hashes" /\ mode <> ascii "cardinalities")
  | Other => True
  end ->
  forall r, main e resolve draws ords jobs sub d r <-> r = Ret d.
Proof. exact main_nothing. Qed.
Print Assumptions C75_nothing.

(** "--precision 4 --runs 0" is idle, "--precision 256" panics even then; a "gen" without a size, a
    "run" without its input or with an unknown mode is not accepted. *)
Example C75_example :
  accepts_gen (GenArgs (Some (ascii "64")) (Some (ascii "3")) (Some (ascii "2")) (Some (ascii "h"))) = true /\
  accepts_gen (GenArgs (Some (ascii "16")) (Some (ascii "3")) (Some (ascii "2")) (Some (ascii "h"))) = false /\
  accepts_gen (GenArgs None (Some (ascii "3")) (Some (ascii "2")) (Some (ascii "h"))) = false /\
  accepts_run (RunArgs (Some (ascii "hll")) (Some (ascii "hashes")) (Some (ascii "x")) (Some [ascii "f"]) None None (Some (ascii "o"))) = true /\
  accepts_run (RunArgs (Some (ascii "hll")) (Some (ascii "hashes")) (Some (ascii "4")) None None None (Some (ascii "o"))) = false /\
  accepts_run (RunArgs (Some (ascii "hll")) (Some (ascii "both")) (Some (ascii "4")) (Some [ascii "f"]) None None (Some (ascii "o"))) = false /\
  accepts_run (RunArgs (Some (ascii "hllp")) (Some (ascii "cardinalities")) (Some (ascii "4")) None (Some (ascii "0")) (Some (ascii "c")) (Some (ascii "o"))) = true /\
  reads (ascii "0") 0 /\ reads (ascii "4") 4 /\ jobs_ok test_env None /\
  (let run precision := main test_env (fun s => Some (number s)) (fun _ _ => 0) (fun _ _ => keep) None
     (Run (RunArgs (Some (ascii "hllp")) (Some (ascii "cardinalities")) (Some (ascii precision)) None (Some (ascii "0")) (Some (ascii "c")) (Some (ascii "o"))))
     (fun _ => None) in
   run "4"%string (Ret (fun _ => None)) /\ run "200"%string (Ret (fun _ => None)) /\ run "256"%string Panic).
Proof.
  do 7 (split; [reflexivity|]). split; [exact (reads_digit 0 eq_refl)|]. split; [exact (reads_digit 4 eq_refl)|]. split; [exact I|].
  cbv zeta. split; [|split].
  - apply (cards_idle test_env (fun s => Some (number s)) (fun _ _ => 0) (fun _ _ => keep) eq_refl None (ascii "hllp") (ascii "4") 4 (ascii "o") (ascii "0") (ascii "c"));
      [exact I|now right|exact (reads_digit 4 eq_refl)|reflexivity|exact (reads_digit 0 eq_refl)|reflexivity].
  - apply (cards_idle test_env (fun s => Some (number s)) (fun _ _ => 0) (fun _ _ => keep) eq_refl None (ascii "hllp") (ascii "200") 200 (ascii "o") (ascii "0") (ascii "c"));
      [exact I|now right| |reflexivity|exact (reads_digit 0 eq_refl)|reflexivity].
    exists [2; 0; 0]. split; [split; [discriminate|repeat constructor]|]. split; [left; reflexivity|reflexivity].
  - apply (cards_unreadable test_env (fun s => Some (number s)) (fun _ _ => 0) (fun _ _ => keep) eq_refl None (ascii "hllp") (ascii "256") (ascii "o") (ascii "0") (ascii "c"));
      [exact I|now right| |reflexivity].
    left. intros p R B. pose proof (proj2 (TextFacts.parse_uint_spec 8 _ p) (conj R B)) as Q. discriminate Q.
Qed.
