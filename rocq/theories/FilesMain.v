(** * The evaluation program from its arguments to its files *)
From Coq Require Import String.
From Coq Require Import NArith ZArith List Bool Lia.
From Verif Require Import ModelRust ModelF64 ModelEnv ModelCommon ModelPlus ModelHistory ModelEval ModelFiles Spec SpecBuild SpecEval SpecFiles
  TextFacts PathFacts PoolFacts EvalFacts FilesFacts.
Import ListNotations.
Local Open Scope N_scope.

Section Main.
Variable e : env.
Variable resolve : list N -> option N.
Variable draws : N -> N -> N.
Variable ords : N -> N -> list N -> list N.
Hypothesis HU : 0 < usize_bits e.

(** The arguments of [run] that both experiments use. *)
Definition hashes_args (ty precision output : list N) (files : list (list N)) : run_args :=
  RunArgs (Some ty) (Some (ascii "hashes")) (Some precision) (Some files) None None (Some output).
Definition cards_args (ty precision output runs file : list N) : run_args :=
  RunArgs (Some ty) (Some (ascii "cardinalities")) (Some precision) None (Some runs) (Some file) (Some output).

Lemma main_hll : forall jobs args d r, jobs_ok e jobs -> r_type args = Some (ascii "hll") ->
  main e resolve draws ords jobs (Run args) d r = run e resolve draws args d r.
Proof. intros jobs args d r J T. rewrite (main_jobs e resolve draws ords jobs _ d r HU J), T. reflexivity. Qed.

Lemma main_hllp : forall jobs args d r, jobs_ok e jobs -> r_type args = Some (ascii "hllp") ->
  main e resolve draws ords jobs (Run args) d r = run_plus e resolve draws ords args d r.
Proof. intros jobs args d r J T. rewrite (main_jobs e resolve draws ords jobs _ d r HU J), T. reflexivity. Qed.

Lemma impl_hashes : forall w sz hashes cards args mode precision p output files d r,
  r_mode args = Some mode -> mode = ascii "hashes" -> r_precision args = Some precision -> r_output args = Some output -> r_input args = Some files ->
  reads precision p -> p < 2 ^ 8 ->
  run_impl e resolve draws w sz hashes cards args d r =
  pool resolve output (map (fun kf => hashes_job resolve w hashes p (fst kf) (snd kf)) (combine (range (len files)) files)) d r.
Proof.
  intros w sz hashes cards args mode precision p output files d r M -> P O I R B. unfold run_impl. rewrite M, P, O, I. cbn [unwrap bind].
  rewrite (parse_reads _ _ _ R B). reflexivity.
Qed.

Lemma impl_cards : forall w sz hashes cards args mode precision p output runs n file d r,
  r_mode args = Some mode -> mode = ascii "cardinalities" -> r_precision args = Some precision -> r_output args = Some output ->
  r_runs args = Some runs -> r_cardinalities args = Some file ->
  reads precision p -> p < 2 ^ 8 -> reads runs n -> n < 2 ^ usize_bits e ->
  run_impl e resolve draws w sz hashes cards args d r = pool resolve output (map (cards_job e resolve draws sz cards p file) (range n)) d r.
Proof.
  intros w sz hashes cards args mode precision p output runs n file d r M -> P O RU C R B RN BN. unfold run_impl. rewrite M, P, O, RU, C. cbn [unwrap bind].
  rewrite (parse_reads _ _ _ R B), (parse_reads _ _ _ RN BN). reflexivity.
Qed.

Lemma number_file_bound : forall w content nums, number_file w content nums -> Forall (fun x => x < 2 ^ w) nums.
Proof. intros w content nums (ls & _ & F). induction F; constructor; [tauto|assumption]. Qed.

Lemma files_bound : forall w d files hss,
  Forall2 (fun f hs => exists content, has_file resolve d f content /\ number_file w content hs) files hss ->
  forall hs, In hs hss -> Forall (fun x => x < 2 ^ w) hs.
Proof.
  intros w d files hss F hs I. induction F as [|f h files hss (content & _ & N) _ IH]; [destruct I|].
  destruct I as [<-|I]; [exact (number_file_bound _ _ _ N)|now apply IH].
Qed.

Lemma run_hllp_hashes : forall jobs precision p output files bases names paths hss d,
  build_std e -> (forall k i, is_order (ords k i)) -> 2 * p < usize_bits e -> jobs_ok e jobs ->
  reads precision p -> 4 <= p <= 18 ->
  Forall2 (fun f hs => (exists content, has_file resolve d f content /\ number_file 64 content hs)) files hss ->
  Forall (fun hs => N.of_nat (length hs) < 2 ^ usize_bits e /\ N.of_nat (length hs) < 2 ^ 64) hss ->
  Forall2 base_name files bases -> Forall2 (estimates_name p) bases names -> Forall2 (in_directory output) names paths -> separate resolve paths ->
  (forall f, In f files -> ~ In (resolve f) (map resolve paths)) ->
  let result := main e resolve draws ords jobs (Run (hashes_args (ascii "hllp") precision output files)) d in
  (exists r, result r) /\
  forall r, result r -> exists d', r = Ret d' /\ only_changed resolve paths d d' /\
    Forall2 (fun hs path => exists content out, has_file resolve d' path content /\ plus_lines e p hs out /\ estimate_file out content) hss paths.
Proof.
  intros jobs precision p output files bases names paths hss d B O W J RP P HF HL HB HN HP SP AP result.
  assert (E : forall r, result r = pool resolve output (map (fun kf => hashes_job resolve 64 (fun k p nums => eval_hashes_plus e (ords k) p nums) p (fst kf) (snd kf))
     (combine (range (len files)) files)) d r).
  { intros r. unfold result. rewrite main_hllp; [|exact J|reflexivity]. eapply impl_hashes; try reflexivity; [exact RP|]. change (2 ^ 8) with 256. lia. }
  destruct (hashes_jobs resolve 64 (fun k p nums => eval_hashes_plus e (ords k) p nums) p output names paths d files bases hss (plus_lines e p) HF HB HN HP SP AP) as (A1 & A2).
  - intros k hs I. rewrite Forall_forall in HL. destruct (HL hs I) as (L1 & L2).
    destruct (hashes_plus e (ords k) p B (O k) P W hs (files_bound _ _ _ _ HF hs I) L1 L2) as (out & E1 & E2 & E3). exists out.
    split; [exact E1|]. split; [exact E2|exact E3].
  - split; [destruct A1 as (r & A1); exists r; now rewrite E|]. intros r R. rewrite E in R. exact (A2 r R).
Qed.

Lemma run_hll_hashes : forall jobs precision p output files bases names paths hss d,
  build e -> 2 * p < usize_bits e -> jobs_ok e jobs ->
  reads precision p -> 4 <= p <= 16 ->
  Forall2 (fun f hs => (exists content, has_file resolve d f content /\ number_file 32 content hs)) files hss ->
  Forall (fun hs => N.of_nat (length hs) < 2 ^ usize_bits e /\ N.of_nat (length hs) < 2 ^ 64) hss ->
  Forall2 base_name files bases -> Forall2 (estimates_name p) bases names -> Forall2 (in_directory output) names paths -> separate resolve paths ->
  (forall f, In f files -> ~ In (resolve f) (map resolve paths)) ->
  let result := main e resolve draws ords jobs (Run (hashes_args (ascii "hll") precision output files)) d in
  (exists r, result r) /\
  forall r, result r -> exists d', r = Ret d' /\ only_changed resolve paths d d' /\
    Forall2 (fun hs path => exists content out, has_file resolve d' path content /\ pf_lines e p hs out /\ estimate_file out content) hss paths.
Proof.
  intros jobs precision p output files bases names paths hss d B W J RP P HF HL HB HN HP SP AP result.
  assert (E : forall r, result r = pool resolve output (map (fun kf => hashes_job resolve 32 (fun _ p nums => eval_hashes_pf e p nums) p (fst kf) (snd kf))
     (combine (range (len files)) files)) d r).
  { intros r. unfold result. rewrite main_hll; [|exact J|reflexivity]. eapply impl_hashes; try reflexivity; [exact RP|]. change (2 ^ 8) with 256. lia. }
  destruct (hashes_jobs resolve 32 (fun _ p nums => eval_hashes_pf e p nums) p output names paths d files bases hss (pf_lines e p) HF HB HN HP SP AP) as (A1 & A2).
  - intros k hs I. rewrite Forall_forall in HL. destruct (HL hs I) as (L1 & L2).
    destruct (hashes_pf e p B P W hs (files_bound _ _ _ _ HF hs I) L1 L2) as (out & E1 & E2 & E3). exists out.
    split; [exact E1|]. split; [exact E2|exact E3].
  - split; [destruct A1 as (r & A1); exists r; now rewrite E|]. intros r R. rewrite E in R. exact (A2 r R).
Qed.

Lemma run_hllp_cards : forall jobs precision p output runs n file content cs names paths d,
  build_std e -> (forall k i, is_order (ords k i)) -> 2 * p < usize_bits e -> jobs_ok e jobs ->
  reads precision p -> 4 <= p <= 18 -> reads runs n -> n < 2 ^ usize_bits e -> (forall k i, draws k i < 2 ^ 64) ->
  has_file resolve d file content -> number_file (usize_bits e) content cs -> Forall (fun c => c < 2 ^ 64) cs ->
  Forall2 (cards_name p (ascii "64")) (first_draws (fun r => r) n) names -> Forall2 (in_directory output) names paths -> separate resolve paths ->
  ~ In (resolve file) (map resolve paths) ->
  let result := main e resolve draws ords jobs (Run (cards_args (ascii "hllp") precision output runs file)) d in
  (exists r, result r) /\
  forall r, result r -> exists d', r = Ret d' /\ only_changed resolve paths d d' /\
    Forall2 (fun k path => exists content out, has_file resolve d' path content /\ plus_card_lines e p (draws k) cs out /\ estimate_file out content)
      (first_draws (fun r => r) n) paths.
Proof.
  intros jobs precision p output runs n file content cs names paths d B O W J RP P RN BN HD HF NF HC HN HP SP AP result.
  assert (E : forall r, result r = pool resolve output (map (cards_job e resolve draws (ascii "64") (fun k p dr cs => eval_cards_plus e (ords k) p dr cs) p file) (range n)) d r).
  { intros r. unfold result. rewrite main_hllp; [|exact J|reflexivity]. eapply impl_cards; try reflexivity; try eassumption. change (2 ^ 8) with 256. lia. }
  destruct (cards_jobs e resolve draws (ascii "64") (fun k p dr cs => eval_cards_plus e (ords k) p dr cs) p output names paths d file content cs n
    (fun k => plus_card_lines e p (draws k) cs) HF NF HN HP SP AP) as (A1 & A2).
  - intros k. destruct (cards_plus e (ords k) p B (O k) P W (draws k) cs (HD k)) as (out & E1 & E2 & E3).
    + pose proof (number_file_bound _ _ _ NF) as F. rewrite Forall_forall in *. intros x I. split; [now apply F|now apply HC].
    + exists out. split; [exact E1|]. split; [exact E2|exact E3].
  - split; [destruct A1 as (r & A1); exists r; now rewrite E|]. intros r R. rewrite E in R. exact (A2 r R).
Qed.

Lemma run_hll_cards : forall jobs precision p output runs n file content cs names paths d,
  build e -> 2 * p < usize_bits e -> jobs_ok e jobs ->
  reads precision p -> 4 <= p <= 16 -> reads runs n -> n < 2 ^ usize_bits e -> (forall k i, draws k i < 2 ^ 32) ->
  has_file resolve d file content -> number_file (usize_bits e) content cs -> Forall (fun c => c < 2 ^ 64) cs ->
  Forall2 (cards_name p (ascii "32")) (first_draws (fun r => r) n) names -> Forall2 (in_directory output) names paths -> separate resolve paths ->
  ~ In (resolve file) (map resolve paths) ->
  let result := main e resolve draws ords jobs (Run (cards_args (ascii "hll") precision output runs file)) d in
  (exists r, result r) /\
  forall r, result r -> exists d', r = Ret d' /\ only_changed resolve paths d d' /\
    Forall2 (fun k path => exists content out, has_file resolve d' path content /\ pf_card_lines e p (draws k) cs out /\ estimate_file out content)
      (first_draws (fun r => r) n) paths.
Proof.
  intros jobs precision p output runs n file content cs names paths d B W J RP P RN BN HD HF NF HC HN HP SP AP result.
  assert (E : forall r, result r = pool resolve output (map (cards_job e resolve draws (ascii "32") (fun _ p dr cs => eval_cards_pf e p dr cs) p file) (range n)) d r).
  { intros r. unfold result. rewrite main_hll; [|exact J|reflexivity]. eapply impl_cards; try reflexivity; try eassumption. change (2 ^ 8) with 256. lia. }
  destruct (cards_jobs e resolve draws (ascii "32") (fun _ p dr cs => eval_cards_pf e p dr cs) p output names paths d file content cs n
    (fun k => pf_card_lines e p (draws k) cs) HF NF HN HP SP AP) as (A1 & A2).
  - intros k. destruct (cards_pf e p B P W (draws k) cs (HD k)) as (out & E1 & E2 & E3).
    + pose proof (number_file_bound _ _ _ NF) as F. rewrite Forall_forall in *. intros x I. split; [now apply F|now apply HC].
    + exists out. split; [exact E1|]. split; [exact E2|exact E3].
  - split; [destruct A1 as (r & A1); exists r; now rewrite E|]. intros r R. rewrite E in R. exact (A2 r R).
Qed.

(** ** Runs that stop *)
Lemma in_jobs : forall {A : Type} (f : N -> list N -> A) file files, In file files ->
  exists k, In (f k file) (map (fun kf => f (fst kf) (snd kf)) (combine (range (len files)) files)).
Proof.
  intros A f file files I. assert (LR : length (range (len files)) = length files) by (unfold range, len; rewrite map_length, seq_length, Nat2N.id; lia).
  revert LR. generalize (range (len files)). intros ks. revert I ks. induction files as [|g files IH]; intros I [|k ks] LR; try discriminate; [destruct I|].
  destruct I as [->|I]; [exists k; now left|]. destruct (IH I ks) as (k' & H); [cbn in LR; lia|]. exists k'. now right.
Qed.

Lemma impl_precision : forall w sz hashes cards args mode precision d,
  r_mode args = Some mode -> r_precision args = Some precision -> (forall p, reads precision p -> ~ p < 2 ^ 8) ->
  forall r, run_impl e resolve draws w sz hashes cards args d r <-> r = Panic.
Proof.
  intros w sz hashes cards args mode precision d M P B r. unfold run_impl. rewrite M, P. cbn [unwrap bind].
  destruct (parse_uint 8 precision) as [p|] eqn:Q; [|cbn; tauto]. apply parse_uint_spec in Q. exfalso. exact (B p (proj1 Q) (proj2 Q)).
Qed.

(** A file of hashes that is missing, or does not hold a number of the type on every line. *)
Lemma impl_bad_file : forall w sz hashes cards ty precision output files file d,
  In file files -> (forall name path, in_directory output name path -> resolve path = None \/ resolve path <> resolve file) ->
  (forall content nums, has_file resolve d file content -> ~ number_file w content nums) ->
  forall r, run_impl e resolve draws w sz hashes cards (hashes_args ty precision output files) d r <-> r = Panic.
Proof.
  intros w sz hashes cards ty precision output files file d I A B r.
  destruct (parse_uint 8 precision) as [p|] eqn:Q.
  - apply parse_uint_spec in Q. rewrite (impl_hashes w sz hashes cards (hashes_args ty precision output files) _ precision p output files d r eq_refl eq_refl eq_refl eq_refl eq_refl (proj1 Q) (proj2 Q)).
    destruct (in_jobs (fun k f => hashes_job resolve w hashes p k f) file files I) as (k & H).
    destruct (pool_panic resolve output _ d _ H) as (P1 & P2).
    + intros d' F. exact (bad_input resolve w hashes p output k file d A B d' F).
    + split; [apply P2|]. intros ->. exact P1.
  - unfold run_impl, hashes_args. cbn [r_mode r_precision unwrap bind]. rewrite Q. cbn. tauto.
Qed.

Lemma run_bad_file : forall jobs ty w precision output files file d, jobs_ok e jobs ->
  (ty = ascii "hll" /\ w = 32) \/ (ty = ascii "hllp" /\ w = 64) ->
  In file files -> (forall name path, in_directory output name path -> resolve path = None \/ resolve path <> resolve file) ->
  (forall content nums, has_file resolve d file content -> ~ number_file w content nums) ->
  forall r, main e resolve draws ords jobs (Run (hashes_args ty precision output files)) d r <-> r = Panic.
Proof.
  intros jobs ty w precision output files file d J [(-> & ->)|(-> & ->)] I A B r.
  - rewrite main_hll by (assumption || reflexivity). unfold run. eapply impl_bad_file; eassumption.
  - rewrite main_hllp by (assumption || reflexivity). unfold run_plus. eapply impl_bad_file; eassumption.
Qed.

(** A precision that the sketch does not accept. *)
Lemma run_bad_precision : forall jobs ty precision output files d, jobs_ok e jobs -> build e -> files <> [] ->
  (ty = ascii "hll" /\ (forall p, reads precision p -> ~ 4 <= p <= 16)) \/ (ty = ascii "hllp" /\ (forall p, reads precision p -> ~ 4 <= p <= 18)) ->
  forall r, main e resolve draws ords jobs (Run (hashes_args ty precision output files)) d r <-> r = Panic.
Proof.
  intros jobs ty precision output files d J B F T r.
  assert (X : forall w sz hashes cards, (forall p, reads precision p -> p < 2 ^ 8 -> forall k hs, hashes k p hs = Panic) ->
     run_impl e resolve draws w sz hashes cards (hashes_args ty precision output files) d r <-> r = Panic).
  { intros w sz hashes cards H. destruct (parse_uint 8 precision) as [p|] eqn:Q.
    - apply parse_uint_spec in Q. rewrite (impl_hashes w sz hashes cards (hashes_args ty precision output files) _ precision p output files d r eq_refl eq_refl eq_refl eq_refl eq_refl (proj1 Q) (proj2 Q)).
      destruct files as [|file files]; [congruence|].
      destruct (in_jobs (fun k f => hashes_job resolve w hashes p k f) file (file :: files) (or_introl eq_refl)) as (k & I).
      destruct (pool_panic resolve output _ d _ I) as (P1 & P2).
      + intros d' _. unfold hashes_job. destruct (load_total resolve w d' file) as [->|(nums & ->)]; [reflexivity|]. cbn [bind].
        rewrite (H p (proj1 Q) (proj2 Q)). reflexivity.
      + split; [apply P2|]. intros ->. exact P1.
    - unfold run_impl, hashes_args. cbn [r_mode r_precision unwrap bind]. rewrite Q. cbn. tauto. }
  destruct T as [(-> & T)|(-> & T)].
  - rewrite main_hll by (assumption || reflexivity). unfold run. apply X. intros p R _ k hs.
    exact (proj1 (proj2 (eval_precisions e (ords 0) p (draws 0) hs B) (T p R))).
  - rewrite main_hllp by (assumption || reflexivity). unfold run_plus. apply X. intros p R _ k hs.
    exact (proj1 (proj1 (eval_precisions e (ords k) p (draws 0) hs B) (T p R))).
Qed.

(** ** Generating, then running *)
Lemma pipeline : forall jobs1 jobs2 count runs c n dir hnames hpaths precision p output names paths d,
  build_std e -> (forall k i, is_order (ords k i)) -> 2 * p < usize_bits e -> jobs_ok e jobs1 -> jobs_ok e jobs2 ->
  reads count c -> c < 2 ^ usize_bits e -> c < 2 ^ 64 -> reads runs n -> n < 2 ^ usize_bits e -> (forall k i, draws k i < 2 ^ 64) ->
  Forall2 (hashes_name (ascii "64")) (first_draws (fun r => r) n) hnames -> Forall2 (in_directory dir) hnames hpaths -> separate resolve hpaths ->
  reads precision p -> 4 <= p <= 18 ->
  Forall2 (estimates_name p) hnames names -> Forall2 (in_directory output) names paths -> separate resolve paths ->
  (forall f, In f hpaths -> ~ In (resolve f) (map resolve paths)) ->
  let gen := main e resolve draws ords jobs1 (Gen (GenArgs (Some (ascii "64")) (Some count) (Some runs) (Some dir))) in
  let run := main e resolve draws ords jobs2 (Run (hashes_args (ascii "hllp") precision output hpaths)) in
  (exists d' r, gen d (Ret d') /\ run d' r) /\
  forall r, gen d r -> exists d', r = Ret d' /\ forall r', run d' r' -> exists d'', r' = Ret d'' /\ only_changed resolve (hpaths ++ paths) d d'' /\
    Forall2 (fun k path => exists content out, has_file resolve d'' path content /\ plus_lines e p (first_draws (draws k) c) out /\ estimate_file out content)
      (first_draws (fun r => r) n) paths.
Proof.
  intros jobs1 jobs2 count runs c n dir hnames hpaths precision p output names paths d B O W J1 J2 RC BC BC' RN BN HD HN HP SP RP P HN' HP' SP' AP gen run.
  destruct (gen_ok e resolve draws ords jobs1 (ascii "64") count runs dir c n hnames hpaths d HU J1 (or_intror eq_refl) RC BC RN BN HN HP SP) as (G1 & G2).
  assert (X : forall d', only_changed resolve hpaths d d' ->
    Forall2 (fun k path => exists content, has_file resolve d' path content /\ numeral_file (first_draws (draws k) c) content) (first_draws (fun r => r) n) hpaths ->
    (exists r, run d' r) /\ forall r', run d' r' -> exists d'', r' = Ret d'' /\ only_changed resolve (hpaths ++ paths) d d'' /\
    Forall2 (fun k path => exists content out, has_file resolve d'' path content /\ plus_lines e p (first_draws (draws k) c) out /\ estimate_file out content)
      (first_draws (fun r => r) n) paths).
  { intros d' OC F.
    destruct (run_hllp_hashes jobs2 precision p output hpaths hnames names paths (map (fun k => first_draws (draws k) c) (first_draws (fun r => r) n)) d' B O W J2 RP P) as (R1 & R2).
    - clear - F HD. induction F as [|k path ks paths (content & A & C) _ IH]; constructor; [|exact IH]. exists content. split; [exact A|].
      apply saved_loads; [|exact C]. unfold first_draws. apply Forall_map, Forall_forall. intros; apply HD.
    - apply Forall_map, Forall_forall. intros k _. unfold first_draws. rewrite map_length, seq_length, N2Nat.id. tauto.
    - clear - HP HN. revert HN. generalize (first_draws (fun r => r) n). intros ks HN. revert hpaths HP. induction HN as [|k name ks names H _ IH]; intros hpaths HP; inversion HP; subst; constructor; [|now apply IH].
      eapply base_in_directory; [|eassumption]. eapply hashes_name_plain; [|exact H]. cbn. intros [X|[X|[]]]; discriminate X.
    - exact HN'.
    - exact HP'.
    - exact SP'.
    - exact AP.
    - split; [exact R1|]. intros r' R. destruct (R2 r' R) as (d'' & -> & OC' & F'). exists d''. split; [reflexivity|]. split.
      + intros l N. rewrite map_app in N. rewrite OC'; [apply OC|]; intros I; apply N, in_or_app; [now left|now right].
      + clear - F'. revert F'. generalize (first_draws (fun r => r) n). intros ks. revert paths. induction ks as [|k ks IH]; intros [|q paths] F'; inversion F'; subst; constructor; [assumption|now apply IH]. }
  split.
  - destruct G1 as (r & G1). destruct (G2 r G1) as (d' & -> & OC & F). destruct (X d' OC F) as ((r & R) & _). exists d', r. split; assumption.
  - intros r G. destruct (G2 r G) as (d' & -> & OC & F). exists d'. split; [reflexivity|]. apply X; assumption.
Qed.
End Main.
