(** * The files of the evaluation program *)
From Coq Require Import String.
From Coq Require Import NArith ZArith List Bool Lia.
From Verif Require Import ModelRust ModelF64 ModelEnv ModelHistory ModelEval ModelFiles ModelTests Spec SpecBuild SpecEval SpecFiles
  TextFacts PathFacts PoolFacts FilesFacts FilesMain FilesExample.
Import ListNotations.
Local Open Scope N_scope.

(** ** C72: from arguments and files to files *)

(** A number is read from text exactly if it is digits, possibly after a plus sign, and fits; it is shown as its numeral. *)
Theorem C72_parse : forall w s n, parse_uint w s = Some n <-> reads s n /\ n < 2 ^ w.
Proof. exact parse_uint_spec. Qed.
Print Assumptions C72_parse.

Theorem C72_display : (forall n s, s = display_uint n <-> numeral n s) /\ (forall n m s, numeral n s -> numeral m s -> n = m).
Proof. exact display_spec. Qed.
Print Assumptions C72_display.

(** [load] gives the numbers on the lines of a file, and panics when there is anything else. *)
Theorem C72_load : forall resolve w d path,
  (forall nums, load resolve w d path = Ret nums <-> exists content, has_file resolve d path content /\ number_file w content nums) /\
  ((forall content nums, has_file resolve d path content -> ~ number_file w content nums) -> load resolve w d path = Panic) /\
  (forall content a b, number_file w content a -> number_file w content b -> a = b).
Proof. exact load_exact. Qed.
Print Assumptions C72_load.

(** What [save] writes, and that [load] reads it back. *)
Theorem C72_save : (forall nums, numeral_file nums (saved display_uint nums)) /\
  (forall ests, estimate_file ests (saved display_estimation ests)) /\
  (forall w nums content, Forall (fun x => x < 2 ^ w) nums -> numeral_file nums content -> number_file w content nums).
Proof. exact save_exact. Qed.
Print Assumptions C72_save.

(** Paths: of a file in a directory, and the name of a file. *)
Theorem C72_paths : (forall dir name path, path = join dir name <-> in_directory dir name path) /\
  (forall path base, file_name path = Some base <-> base_name path base) /\
  (forall dir name path, plain_name name -> in_directory dir name path -> base_name path name).
Proof. exact paths_exact. Qed.
Print Assumptions C72_paths.

(** Different runs, and files with different names, have different outputs. *)
Theorem C72_names : (forall size a b name, hashes_name size a name -> hashes_name size b name -> a = b) /\
  (forall p a b name, estimates_name p a name -> estimates_name p b name -> a = b) /\
  (forall p size a b name, cards_name p size a name -> cards_name p size b name -> a = b).
Proof. exact names_exact. Qed.
Print Assumptions C72_names.

(** Jobs that read no output and write different files: in every interleaving of their steps they end, after a bounded
    number of steps and with a step left until then, and leave the files they would leave alone. *)
Theorem C72_threads : forall resolve output js names contents paths d,
  Forall2 (in_directory output) names paths -> separate resolve paths -> length contents = length names ->
  Forall2 (fun (j : job) nc => forall d', only_changed resolve paths d d' -> j d' = Ret nc) js (combine names contents) ->
  (exists r, pool resolve output js d r) /\
  (forall r, pool resolve output js d r -> exists d', r = Ret d' /\ only_changed resolve paths d d' /\ Forall2 (has_file resolve d') paths contents) /\
  forall n d' sts, steps resolve output n (d, map Waiting js) (d', sts) ->
    (n <= 3 * length js + length (concat contents))%nat /\ (forallb done sts = true \/ exists s', step resolve output (d', sts) s').
Proof. exact pool_files. Qed.
Print Assumptions C72_threads.

(** One job that panics whatever the others do makes the program panic. *)
Theorem C72_threads_panic : forall resolve output js d0 j, In j js ->
  (forall d, (forall l, (forall name path, in_directory output name path -> resolve path <> Some l) -> d l = d0 l) -> j d = Panic) ->
  pool resolve output js d0 Panic /\ forall r, pool resolve output js d0 r -> r = Panic.
Proof. exact threads_panic. Qed.
Print Assumptions C72_threads_panic.

(** So does one whose file cannot be created; of the program: "gen" to a directory that does not exist. *)
Theorem C72_threads_no_file : forall resolve output js d0 j, In j js ->
  (forall d, (forall l, (forall name path, in_directory output name path -> resolve path <> Some l) -> d l = d0 l) ->
     exists name content path, j d = Ret (name, content) /\ in_directory output name path /\ resolve path = None) ->
  pool resolve output js d0 Panic /\ forall r, pool resolve output js d0 r -> r = Panic.
Proof. exact threads_no_file. Qed.
Print Assumptions C72_threads_no_file.

Theorem C72_no_directory : forall e resolve draws ords jobs size count runs output c n k name path d,
  0 < usize_bits e -> jobs_ok e jobs -> size = ascii "32" \/ size = ascii "64" ->
  reads count c -> c < 2 ^ usize_bits e -> reads runs n -> n < 2 ^ usize_bits e ->
  k < n -> hashes_name size k name -> in_directory output name path -> resolve path = None ->
  forall r, main e resolve draws ords jobs (Gen (GenArgs (Some size) (Some count) (Some runs) (Some output))) d r <-> r = Panic.
Proof. exact gen_no_file. Qed.
Print Assumptions C72_no_directory.

(** Writing a piece of a file, byte by byte: it replaces what was there, leaves the rest, and fills a gap with zeros. *)
Theorem C72_write : forall old off b,
  length (write_at old off b) = Nat.max (off + length b) (length old) /\
  forall i, (i < length (write_at old off b))%nat ->
  ((off <= i < off + length b)%nat -> nth i (write_at old off b) 0 = nth (i - off) b 0) /\
  (~ (off <= i < off + length b)%nat -> (i < length old)%nat -> nth i (write_at old off b) 0 = nth i old 0) /\
  (~ (off <= i < off + length b)%nat -> (length old <= i)%nat -> nth i (write_at old off b) 0 = 0).
Proof. exact writes_exact. Qed.
Print Assumptions C72_write.

(** "gen": a file of numerals for every run. *)
Theorem C72_generate : forall e resolve draws ords jobs size count runs output c n names paths d,
  0 < usize_bits e -> jobs_ok e jobs -> size = ascii "32" \/ size = ascii "64" ->
  reads count c -> c < 2 ^ usize_bits e -> reads runs n -> n < 2 ^ usize_bits e ->
  Forall2 (hashes_name size) (first_draws (fun r => r) n) names -> Forall2 (in_directory output) names paths -> separate resolve paths ->
  let result := main e resolve draws ords jobs (Gen (GenArgs (Some size) (Some count) (Some runs) (Some output))) d in
  (exists r, result r) /\
  forall r, result r -> exists d', r = Ret d' /\ only_changed resolve paths d d' /\
    Forall2 (fun k path => exists content, has_file resolve d' path content /\ numeral_file (first_draws (draws k) c) content)
      (first_draws (fun r => r) n) paths.
Proof. exact gen_ok. Qed.
Print Assumptions C72_generate.

(** "run --mode hashes": a file of estimates for every file of hashes, provided their names (without directories) differ. *)
Theorem C72_hashes_plus : forall e resolve draws ords, 0 < usize_bits e -> forall jobs precision p output files bases names paths hss d,
  build_std e -> (forall k i, is_order (ords k i)) -> 2 * p < usize_bits e -> jobs_ok e jobs ->
  reads precision p -> 4 <= p <= 18 ->
  Forall2 (fun f hs => exists content, has_file resolve d f content /\ number_file 64 content hs) files hss ->
  Forall (fun hs => N.of_nat (length hs) < 2 ^ usize_bits e /\ N.of_nat (length hs) < 2 ^ 64) hss ->
  Forall2 base_name files bases -> Forall2 (estimates_name p) bases names -> Forall2 (in_directory output) names paths -> separate resolve paths ->
  (forall f, In f files -> ~ In (resolve f) (map resolve paths)) ->
  let args := RunArgs (Some (ascii "hllp")) (Some (ascii "hashes")) (Some precision) (Some files) None None (Some output) in
  let result := main e resolve draws ords jobs (Run args) d in
  (exists r, result r) /\
  forall r, result r -> exists d', r = Ret d' /\ only_changed resolve paths d d' /\
    Forall2 (fun hs path => exists content out, has_file resolve d' path content /\ plus_lines e p hs out /\ estimate_file out content) hss paths.
Proof. exact run_hllp_hashes. Qed.
Print Assumptions C72_hashes_plus.

Theorem C72_hashes_pf : forall e resolve draws ords, 0 < usize_bits e -> forall jobs precision p output files bases names paths hss d,
  build e -> 2 * p < usize_bits e -> jobs_ok e jobs ->
  reads precision p -> 4 <= p <= 16 ->
  Forall2 (fun f hs => exists content, has_file resolve d f content /\ number_file 32 content hs) files hss ->
  Forall (fun hs => N.of_nat (length hs) < 2 ^ usize_bits e /\ N.of_nat (length hs) < 2 ^ 64) hss ->
  Forall2 base_name files bases -> Forall2 (estimates_name p) bases names -> Forall2 (in_directory output) names paths -> separate resolve paths ->
  (forall f, In f files -> ~ In (resolve f) (map resolve paths)) ->
  let args := RunArgs (Some (ascii "hll")) (Some (ascii "hashes")) (Some precision) (Some files) None None (Some output) in
  let result := main e resolve draws ords jobs (Run args) d in
  (exists r, result r) /\
  forall r, result r -> exists d', r = Ret d' /\ only_changed resolve paths d d' /\
    Forall2 (fun hs path => exists content out, has_file resolve d' path content /\ pf_lines e p hs out /\ estimate_file out content) hss paths.
Proof. exact run_hll_hashes. Qed.
Print Assumptions C72_hashes_pf.

(** "run --mode cardinalities": a file of estimates for every run. *)
Theorem C72_cards_plus : forall e resolve draws ords, 0 < usize_bits e -> forall jobs precision p output runs n file content cs names paths d,
  build_std e -> (forall k i, is_order (ords k i)) -> 2 * p < usize_bits e -> jobs_ok e jobs ->
  reads precision p -> 4 <= p <= 18 -> reads runs n -> n < 2 ^ usize_bits e -> (forall k i, draws k i < 2 ^ 64) ->
  has_file resolve d file content -> number_file (usize_bits e) content cs -> Forall (fun c => c < 2 ^ 64) cs ->
  Forall2 (cards_name p (ascii "64")) (first_draws (fun r => r) n) names -> Forall2 (in_directory output) names paths -> separate resolve paths ->
  ~ In (resolve file) (map resolve paths) ->
  let args := RunArgs (Some (ascii "hllp")) (Some (ascii "cardinalities")) (Some precision) None (Some runs) (Some file) (Some output) in
  let result := main e resolve draws ords jobs (Run args) d in
  (exists r, result r) /\
  forall r, result r -> exists d', r = Ret d' /\ only_changed resolve paths d d' /\
    Forall2 (fun k path => exists content out, has_file resolve d' path content /\ plus_card_lines e p (draws k) cs out /\ estimate_file out content)
      (first_draws (fun r => r) n) paths.
Proof. exact run_hllp_cards. Qed.
Print Assumptions C72_cards_plus.

Theorem C72_cards_pf : forall e resolve draws ords, 0 < usize_bits e -> forall jobs precision p output runs n file content cs names paths d,
  build e -> 2 * p < usize_bits e -> jobs_ok e jobs ->
  reads precision p -> 4 <= p <= 16 -> reads runs n -> n < 2 ^ usize_bits e -> (forall k i, draws k i < 2 ^ 32) ->
  has_file resolve d file content -> number_file (usize_bits e) content cs -> Forall (fun c => c < 2 ^ 64) cs ->
  Forall2 (cards_name p (ascii "32")) (first_draws (fun r => r) n) names -> Forall2 (in_directory output) names paths -> separate resolve paths ->
  ~ In (resolve file) (map resolve paths) ->
  let args := RunArgs (Some (ascii "hll")) (Some (ascii "cardinalities")) (Some precision) None (Some runs) (Some file) (Some output) in
  let result := main e resolve draws ords jobs (Run args) d in
  (exists r, result r) /\
  forall r, result r -> exists d', r = Ret d' /\ only_changed resolve paths d d' /\
    Forall2 (fun k path => exists content out, has_file resolve d' path content /\ pf_card_lines e p (draws k) cs out /\ estimate_file out content)
      (first_draws (fun r => r) n) paths.
Proof. exact run_hll_cards. Qed.
Print Assumptions C72_cards_pf.

(** The program panics, and does nothing else, when a file of hashes outside the output directory is missing or has a line
    that is not a number of the type: "hll" rejects every file with a hash of 2^32 or more. *)
Theorem C72_bad_file : forall e resolve draws ords, 0 < usize_bits e -> forall jobs ty w precision output files file d, jobs_ok e jobs ->
  (ty = ascii "hll" /\ w = 32) \/ (ty = ascii "hllp" /\ w = 64) ->
  In file files -> (forall name path, in_directory output name path -> resolve path = None \/ resolve path <> resolve file) ->
  (forall content nums, has_file resolve d file content -> ~ number_file w content nums) ->
  let args := RunArgs (Some ty) (Some (ascii "hashes")) (Some precision) (Some files) None None (Some output) in
  forall r, main e resolve draws ords jobs (Run args) d r <-> r = Panic.
Proof. exact run_bad_file. Qed.
Print Assumptions C72_bad_file.

(** So it does when the precision is not one of the sketch, or the number of jobs is not a number. *)
Theorem C72_bad_precision : forall e resolve draws ords, 0 < usize_bits e -> forall jobs ty precision output files d, jobs_ok e jobs -> build e -> files <> [] ->
  (ty = ascii "hll" /\ (forall p, reads precision p -> ~ 4 <= p <= 16)) \/ (ty = ascii "hllp" /\ (forall p, reads precision p -> ~ 4 <= p <= 18)) ->
  let args := RunArgs (Some ty) (Some (ascii "hashes")) (Some precision) (Some files) None None (Some output) in
  forall r, main e resolve draws ords jobs (Run args) d r <-> r = Panic.
Proof. exact run_bad_precision. Qed.
Print Assumptions C72_bad_precision.

Theorem C72_bad_jobs : forall e resolve draws ords j sub d, (forall k, reads j k -> ~ k < 2 ^ usize_bits e) ->
  forall r, main e resolve draws ords (Some j) sub d r <-> r = Panic.
Proof. exact bad_jobs. Qed.
Print Assumptions C72_bad_jobs.

(** Generating files and running the first experiment on them. *)
Theorem C72_pipeline : forall e resolve draws ords, 0 < usize_bits e ->
  forall jobs1 jobs2 count runs c n dir hnames hpaths precision p output names paths d,
  build_std e -> (forall k i, is_order (ords k i)) -> 2 * p < usize_bits e -> jobs_ok e jobs1 -> jobs_ok e jobs2 ->
  reads count c -> c < 2 ^ usize_bits e -> c < 2 ^ 64 -> reads runs n -> n < 2 ^ usize_bits e -> (forall k i, draws k i < 2 ^ 64) ->
  Forall2 (hashes_name (ascii "64")) (first_draws (fun r => r) n) hnames -> Forall2 (in_directory dir) hnames hpaths -> separate resolve hpaths ->
  reads precision p -> 4 <= p <= 18 ->
  Forall2 (estimates_name p) hnames names -> Forall2 (in_directory output) names paths -> separate resolve paths ->
  (forall f, In f hpaths -> ~ In (resolve f) (map resolve paths)) ->
  let gen := main e resolve draws ords jobs1 (Gen (GenArgs (Some (ascii "64")) (Some count) (Some runs) (Some dir))) in
  let args := RunArgs (Some (ascii "hllp")) (Some (ascii "hashes")) (Some precision) (Some hpaths) None None (Some output) in
  let run := main e resolve draws ords jobs2 (Run args) in
  (exists d' r, gen d (Ret d') /\ run d' r) /\
  forall r, gen d r -> exists d', r = Ret d' /\ forall r', run d' r' -> exists d'', r' = Ret d'' /\ only_changed resolve (hpaths ++ paths) d d'' /\
    Forall2 (fun k path => exists content out, has_file resolve d'' path content /\ plus_lines e p (first_draws (draws k) c) out /\ estimate_file out content)
      (first_draws (fun r => r) n) paths.
Proof. exact pipeline. Qed.
Print Assumptions C72_pipeline.

(** Without the condition on names it is false that every file of hashes gets its estimates: of "a/x" and "b/x" one run of
    the program leaves the estimates of "b/x" only, in "o/est-p4-x". *)
Theorem C72_same_name_refuted : ~ forall e resolve draws ords jobs precision p output files hss d d',
  build_std e -> (forall k i, is_order (ords k i)) -> 2 * p < usize_bits e -> jobs_ok e jobs -> reads precision p -> 4 <= p <= 18 ->
  Forall2 (fun f hs => exists content, has_file resolve d f content /\ number_file 64 content hs) files hss ->
  (forall a b, resolve a = resolve b -> a = b) -> (forall a, resolve a <> None) ->
  let args := RunArgs (Some (ascii "hllp")) (Some (ascii "hashes")) (Some precision) (Some files) None None (Some output) in
  main e resolve draws ords jobs (Run args) d (Ret d') ->
  Forall (fun hs => exists path content out, has_file resolve d' path content /\ eval_hashes_plus e (ords 0) p hs = Ret out /\ estimate_file out content) hss.
Proof. exact same_name_refuted. Qed.
Print Assumptions C72_same_name_refuted.

(** A program that meets the hypotheses: two runs of three hashes, precision given as "+04". *)
Example C72_example :
  let content path := fun d : disk => d (number path) in
  Forall2 (hashes_name (ascii "64")) (first_draws (fun r => r) 2) [ascii "hashes-s64-r0.dat"; ascii "hashes-s64-r1.dat"] /\
  Forall2 (in_directory (ascii "h")) [ascii "hashes-s64-r0.dat"; ascii "hashes-s64-r1.dat"] [ascii "h/hashes-s64-r0.dat"; ascii "h/hashes-s64-r1.dat"] /\
  separate (fun s => Some (number s)) [ascii "h/hashes-s64-r0.dat"; ascii "h/hashes-s64-r1.dat"] /\
  reads (ascii "+04") 4 /\ ~ reads (ascii "-4") 4 /\
  lines_of (ascii "7" ++ [13; 10] ++ ascii "8" ++ [10; 10] ++ ascii "9") [ascii "7"; ascii "8"; []; ascii "9"] /\
  base_name (ascii "a/../b//x.dat/./") (ascii "x.dat") /\ (forall base, ~ base_name (ascii "a/..") base) /\
  exists d', main test_env (fun s => Some (number s)) example_draws (fun _ _ => keep) (Some (ascii "2"))
      (Gen (GenArgs (Some (ascii "64")) (Some (ascii "3")) (Some (ascii "2")) (Some (ascii "h")))) (fun _ => None) (Ret d') /\
    content (ascii "h/hashes-s64-r1.dat") d' = Some (ascii "9223372036854775809" ++ [10] ++ ascii "1" ++ [10] ++ ascii "9223372036854775809" ++ [10]) /\
  exists d'', main test_env (fun s => Some (number s)) example_draws (fun _ _ => keep) None
      (Run (RunArgs (Some (ascii "hllp")) (Some (ascii "hashes")) (Some (ascii "+04")) (Some [ascii "h/hashes-s64-r0.dat"; ascii "h/hashes-s64-r1.dat"])
         None None (Some (ascii "o/")))) d' (Ret d'') /\
    content (ascii "o/est-p4-hashes-s64-r1.dat") d'' = Some (ascii "1 1" ++ [10] ++ ascii "2 2" ++ [10] ++ ascii "3 2" ++ [10]).
Proof. exact files_example. Qed.
