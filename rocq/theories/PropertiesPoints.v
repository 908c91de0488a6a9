(** * The experiments, up to their plots *)
From Coq Require Import String.
From Coq Require Import NArith ZArith List Bool Permutation.
From Verif Require Import ModelRust ModelF64 ModelEnv ModelFiles ModelArgs ModelExp ModelCommand ModelPlot Spec SpecBuild SpecEval SpecRust SpecFiles SpecExp SpecCommand SpecPoints
  ModelTests FilesExample CommandFirst PlotFirst.
Import ListNotations.
Local Open Scope N_scope.

(** ** C92: "prepare --type hashes", "run --mode hashes", and "plot" on the estimates, found in any order *)
(** HyperLogLog: whatever the hashes, the plot has a point for each of 1, …, [c]. *)
Theorem C92_pf : forall glob e resolve draws ords, 0 < usize_bits e ->
  forall jobs jobs' c n ks p dir hnames output names paths d,
  build e -> accurate e -> rejects e -> 2 * p < usize_bits e -> 4 <= p <= 16 -> (forall k i, draws k i < 2 ^ 32) ->
  jobs < 2 ^ usize_bits e -> jobs' < 2 ^ usize_bits e -> 1 <= c <= 2 ^ 53 -> c < 2 ^ usize_bits e -> 0 < n < 2 ^ usize_bits e -> n <= 2 ^ 50 ->
  dir <> [] -> (forall t, dir <> 45 :: t) -> (forall dir', dir <> dir' ++ [47]) -> ~ hyphen output ->
  Permutation (first_draws (fun r => r) n) ks -> Forall2 (hashes_name (ascii "32")) ks hnames ->
  let files := map (fun name => dir ++ ascii "/" ++ name) hnames in
  separate resolve files -> glob (dir ++ ascii "/*.dat") = files ->
  Forall2 (estimates_name p) hnames names -> Forall2 (in_directory output) names paths -> separate resolve paths ->
  (forall f, In f files -> ~ In (resolve f) (map resolve paths)) ->
  let prepare := exp_prepare e resolve draws ords (PrepareArgs (Z.of_N jobs) (ascii "32") (Z.of_N c) (Z.of_N n) dir) in
  let run := exp_run glob e resolve draws ords (ExpRunArgs (Z.of_N jobs') (ascii "hll") (ascii "hashes") (Z.of_N p) (Some dir) None None output) in
  forall d1 d2, prepare d (Ret d1) -> run d1 (Ret d2) ->
  (exists contents, Forall2 (has_file resolve d2) paths contents) /\
  forall found contents, Permutation paths found -> Forall2 (has_file resolve d2) found contents ->
    exists runs outs, Permutation (first_draws (fun r => r) n) runs /\ Forall2 (fun k out => pf_lines e p (first_draws (draws k) c) out) runs outs /\
      (exists r, plot true true contents r) /\ forall r, plot true true contents r -> exists g, r = Ret g /\ points (map Z.of_nat (seq 1 (N.to_nat c))) outs g.
Proof. exact plotted_pf. Qed.
Print Assumptions C92_pf.

(** HyperLogLog++: if no estimate is 2^40 times too high. *)
Theorem C92_plus : forall glob e resolve draws ords, 0 < usize_bits e ->
  forall jobs jobs' c n ks p dir hnames output names paths d,
  build_std e -> (forall k i, is_order (ords k i)) -> 2 * p < usize_bits e -> 4 <= p <= 18 -> (forall k i, draws k i < 2 ^ 64) ->
  jobs < 2 ^ usize_bits e -> jobs' < 2 ^ usize_bits e -> 1 <= c <= 2 ^ 53 -> c < 2 ^ usize_bits e -> 0 < n < 2 ^ usize_bits e -> n <= 2 ^ 50 ->
  dir <> [] -> (forall t, dir <> 45 :: t) -> (forall dir', dir <> dir' ++ [47]) -> ~ hyphen output ->
  Permutation (first_draws (fun r => r) n) ks -> Forall2 (hashes_name (ascii "64")) ks hnames ->
  let files := map (fun name => dir ++ ascii "/" ++ name) hnames in
  separate resolve files -> glob (dir ++ ascii "/*.dat") = files ->
  Forall2 (estimates_name p) hnames names -> Forall2 (in_directory output) names paths -> separate resolve paths ->
  (forall f, In f files -> ~ In (resolve f) (map resolve paths)) ->
  (forall k out, k < n -> plus_lines e p (first_draws (draws k) c) out -> Forall (fun est => snd est <= 2 ^ 40 * fst est) out) ->
  let prepare := exp_prepare e resolve draws ords (PrepareArgs (Z.of_N jobs) (ascii "64") (Z.of_N c) (Z.of_N n) dir) in
  let run := exp_run glob e resolve draws ords (ExpRunArgs (Z.of_N jobs') (ascii "hllp") (ascii "hashes") (Z.of_N p) (Some dir) None None output) in
  forall d1 d2, prepare d (Ret d1) -> run d1 (Ret d2) ->
  (exists contents, Forall2 (has_file resolve d2) paths contents) /\
  forall found contents, Permutation paths found -> Forall2 (has_file resolve d2) found contents ->
    exists runs outs, Permutation (first_draws (fun r => r) n) runs /\ Forall2 (fun k out => plus_lines e p (first_draws (draws k) c) out) runs outs /\
      (exists r, plot false true contents r) /\ forall r, plot false true contents r -> exists g, r = Ret g /\ points (map Z.of_nat (seq 1 (N.to_nat c))) outs g.
Proof. exact plotted_plus. Qed.
Print Assumptions C92_plus.

(** None is while there are at most a quarter as many hashes as registers. *)
Theorem C92_low : forall e p hs out, build_std e -> accurate e -> 4 <= p <= 18 -> 2 * p < usize_bits e -> Forall (fun x => x < 2 ^ 64) hs ->
  4 * N.of_nat (length hs) <= 2 ^ p -> plus_lines e p hs out -> Forall (fun est => snd est <= 2 ^ 40 * fst est) out.
Proof. exact plus_low. Qed.
Print Assumptions C92_low.

(** The second experiment: "prepare --type cardinalities", "run --mode cardinalities", and "plot". *)
Theorem C92_cards_pf : forall glob e resolve draws ords, 0 < usize_bits e ->
  forall max jobs p dir file output n names paths d,
  build e -> accurate e -> rejects e -> 2 * p < usize_bits e -> jobs < 2 ^ usize_bits e ->
  4 <= p <= 16 -> 0 < n < 2 ^ usize_bits e -> n <= 2 ^ 50 -> (forall k i, draws k i < 2 ^ 32) ->
  (1 <= max)%Z -> (2 * max <= 2 ^ 53)%Z -> (2 * max <= 2 ^ Z.of_N (usize_bits e))%Z ->
  in_directory dir (ascii "cardinalities.dat") file -> resolve file <> None -> ~ hyphen file -> ~ hyphen output ->
  Forall2 (cards_name p (ascii "32")) (first_draws (fun r => r) n) names -> Forall2 (in_directory output) names paths -> separate resolve paths ->
  ~ In (resolve file) (map resolve paths) ->
  let args := ExpRunArgs (Z.of_N jobs) (ascii "hll") (ascii "cardinalities") (Z.of_N p) None (Some (Z.of_N n)) (Some file) output in
  forall d1 d2, prepare_cardinalities resolve dir max d = Ret d1 -> exp_run glob e resolve draws ords args d1 (Ret d2) ->
  (exists contents, Forall2 (has_file resolve d2) paths contents) /\
  forall found contents, Permutation paths found -> Forall2 (has_file resolve d2) found contents ->
    exists cards runs outs, generate_cardinalities max = Ret cards /\ Permutation (first_draws (fun r => r) n) runs /\
      Forall2 (fun k out => pf_card_lines e p (draws k) (map Z.to_N cards) out) runs outs /\
      (exists r, plot true false contents r) /\ forall r, plot true false contents r -> exists g, r = Ret g /\ points cards outs g.
Proof. exact plotted_cards_pf. Qed.
Print Assumptions C92_cards_pf.

Theorem C92_cards_plus : forall glob e resolve draws ords, 0 < usize_bits e ->
  forall max jobs p dir file output n names paths d,
  build_std e -> (forall k i, is_order (ords k i)) -> 2 * p < usize_bits e -> jobs < 2 ^ usize_bits e ->
  4 <= p <= 18 -> 0 < n < 2 ^ usize_bits e -> n <= 2 ^ 50 -> (forall k i, draws k i < 2 ^ 64) ->
  (1 <= max)%Z -> (2 * max <= 2 ^ 53)%Z -> (2 * max <= 2 ^ Z.of_N (usize_bits e))%Z ->
  in_directory dir (ascii "cardinalities.dat") file -> resolve file <> None -> ~ hyphen file -> ~ hyphen output ->
  Forall2 (cards_name p (ascii "64")) (first_draws (fun r => r) n) names -> Forall2 (in_directory output) names paths -> separate resolve paths ->
  ~ In (resolve file) (map resolve paths) ->
  (forall k cards out, k < n -> generate_cardinalities max = Ret cards -> plus_card_lines e p (draws k) (map Z.to_N cards) out -> Forall (fun est => snd est <= 2 ^ 40 * fst est) out) ->
  let args := ExpRunArgs (Z.of_N jobs) (ascii "hllp") (ascii "cardinalities") (Z.of_N p) None (Some (Z.of_N n)) (Some file) output in
  forall d1 d2, prepare_cardinalities resolve dir max d = Ret d1 -> exp_run glob e resolve draws ords args d1 (Ret d2) ->
  (exists contents, Forall2 (has_file resolve d2) paths contents) /\
  forall found contents, Permutation paths found -> Forall2 (has_file resolve d2) found contents ->
    exists cards runs outs, generate_cardinalities max = Ret cards /\ Permutation (first_draws (fun r => r) n) runs /\
      Forall2 (fun k out => plus_card_lines e p (draws k) (map Z.to_N cards) out) runs outs /\
      (exists r, plot false false contents r) /\ forall r, plot false false contents r -> exists g, r = Ret g /\ points cards outs g.
Proof. exact plotted_cards_plus. Qed.
Print Assumptions C92_cards_plus.

Theorem C92_cards_low : forall e p draws cs out, build_std e -> accurate e -> 4 <= p <= 18 -> 2 * p < usize_bits e -> (forall i, draws i < 2 ^ 64) ->
  Forall (fun z => 4 * z <= 2 ^ p) cs -> plus_card_lines e p draws cs out -> Forall (fun est => snd est <= 2 ^ 40 * fst est) out.
Proof. exact plus_card_low. Qed.
Print Assumptions C92_cards_low.

(** Two runs of three hashes, and of two; the files are found in another order than they are written. *)
Example C92_pf_example :
  let place s := Some (number s) in
  let prepare := exp_prepare test_env place small_draws (fun _ _ => keep) (PrepareArgs 2 (ascii "32") 3 2 (ascii "h")) in
  let run := exp_run listed_32 test_env place small_draws (fun _ _ => keep) (ExpRunArgs 1 (ascii "hll") (ascii "hashes") 4 (Some (ascii "h")) None None (ascii "o")) in
  exists d1 d2 contents g, prepare (fun _ => None) (Ret d1) /\ run d1 (Ret d2) /\
    Forall2 (has_file place d2) [ascii "o/est-p4-hashes-s32-r0.dat"; ascii "o/est-p4-hashes-s32-r1.dat"] contents /\
    plot true true contents (Ret g) /\ g_x g = [1; 2; 3]%Z.
Proof. exact plotted_pf_example. Qed.

Example C92_plus_example :
  let place s := Some (number s) in
  let prepare := exp_prepare test_env place example_draws (fun _ _ => keep) (PrepareArgs 2 (ascii "64") 2 2 (ascii "h")) in
  let run := exp_run listed test_env place example_draws (fun _ _ => keep) (ExpRunArgs 1 (ascii "hllp") (ascii "hashes") 15 (Some (ascii "h")) None None (ascii "o")) in
  exists d1 d2 contents g, prepare (fun _ => None) (Ret d1) /\ run d1 (Ret d2) /\
    Forall2 (has_file place d2) [ascii "o/est-p15-hashes-s64-r0.dat"; ascii "o/est-p15-hashes-s64-r1.dat"] contents /\
    plot false true contents (Ret g) /\ g_x g = [1; 2]%Z.
Proof. exact plotted_plus_example. Qed.

(** Two runs of the cardinalities 1 to 12. *)
Example C92_cards_pf_example :
  let place s := Some (number s) in
  let args := ExpRunArgs 1 (ascii "hll") (ascii "cardinalities") 4 None (Some 2%Z) (Some (ascii "c/cardinalities.dat")) (ascii "o") in
  exists d1 d2 contents g, prepare_cardinalities place (ascii "c") 12 (fun _ => None) = Ret d1 /\
    exp_run listed test_env place small_draws (fun _ _ => keep) args d1 (Ret d2) /\
    Forall2 (has_file place d2) [ascii "o/est-p4-cards-s32-r1.dat"; ascii "o/est-p4-cards-s32-r0.dat"] contents /\
    plot true false contents (Ret g) /\ g_x g = [1; 2; 3; 4; 5; 6; 7; 8; 9; 10; 11; 12]%Z.
Proof. exact cards_pf_example. Qed.

Example C92_cards_plus_example :
  let place s := Some (number s) in
  let args := ExpRunArgs 1 (ascii "hllp") (ascii "cardinalities") 15 None (Some 2%Z) (Some (ascii "c/cardinalities.dat")) (ascii "o") in
  exists d1 d2 contents g, prepare_cardinalities place (ascii "c") 12 (fun _ => None) = Ret d1 /\
    exp_run listed test_env place example_draws (fun _ _ => keep) args d1 (Ret d2) /\
    Forall2 (has_file place d2) [ascii "o/est-p15-cards-s64-r1.dat"; ascii "o/est-p15-cards-s64-r0.dat"] contents /\
    plot false false contents (Ret g) /\ g_x g = [1; 2; 3; 4; 5; 6; 7; 8; 9; 10; 11; 12]%Z.
Proof. exact cards_plus_example. Qed.
