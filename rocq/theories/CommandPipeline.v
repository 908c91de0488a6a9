(** * exp.py from the cardinalities to the statistics *)
From Coq Require Import String.
From Coq Require Import NArith ZArith List Bool Lia.
From Verif Require Import ModelRust ModelF64 ModelEnv ModelFiles ModelArgs ModelExp ModelCommand Spec SpecBuild SpecEval SpecRust SpecFiles SpecExp SpecCommand
  CommandFacts ExpMain.
Import ListNotations.
Local Open Scope N_scope.

Lemma exp_pipeline_plus : forall glob e resolve draws ords, 0 < usize_bits e ->
  forall max jobs p dir file output n names paths d,
  build_std e -> (forall k i, is_order (ords k i)) -> 2 * p < usize_bits e -> jobs < 2 ^ usize_bits e ->
  4 <= p <= 18 -> 0 < n < 2 ^ usize_bits e -> (forall k i, draws k i < 2 ^ 64) ->
  (1 <= max)%Z -> (2 * max <= 2 ^ 53)%Z -> (2 * max <= 2 ^ Z.of_N (usize_bits e))%Z ->
  in_directory dir (ascii "cardinalities.dat") file -> resolve file <> None -> ~ hyphen file -> ~ hyphen output ->
  Forall2 (cards_name p (ascii "64")) (first_draws (fun r => r) n) names -> Forall2 (in_directory output) names paths -> separate resolve paths ->
  ~ In (resolve file) (map resolve paths) ->
  let args := ExpRunArgs (Z.of_N jobs) (ascii "hllp") (ascii "cardinalities") (Z.of_N p) None (Some (Z.of_N n)) (Some file) output in
  exists cards d1, generate_cardinalities max = Ret cards /\ prepare_cardinalities resolve dir max d = Ret d1 /\
  let result := exp_run glob e resolve draws ords args d1 in
  (exists r, result r) /\
  forall r, result r -> exists d2, r = Ret d2 /\ only_changed resolve (file :: paths) d d2 /\
    exists outs contents rows, Forall2 (fun k out => plus_card_lines e p (draws k) (map Z.to_N cards) out) (first_draws (fun r => r) n) outs /\
      Forall2 (has_file resolve d2) paths contents /\ Forall2 estimate_file outs contents /\
      calculate_statistics contents = Ret rows /\ map fst rows = cards /\
      forall j z errs, nth_error rows j = Some (z, errs) ->
        Forall2 (fun out x => exists k, nth_error out j = Some (Z.to_N z, k) /\ relative_error_of (Z.to_N z) k x) outs errs.
Proof.
  intros glob e resolve draws ords U max jobs p dir file output n names paths d B O W J P Hn D M1 M2 M3 I F HF HO Na Pa S X args.
  assert (NN : forall k, numeral k (display_uint k)) by apply TextFacts.display_numeral.
  destruct (pipeline_cards_plus e resolve draws ords U max (Some (display_uint jobs)) (display_uint p) p dir file output (display_uint n) n names paths d)
    as (cards & d1 & G & C & R1 & R2); auto.
  { exists jobs. split; [now apply numeral_reads|exact J]. }
  { now apply numeral_reads. }
  { now apply numeral_reads. }
  exists cards, d1. split; [exact G|]. split; [exact C|]. cbv zeta in R1, R2 |- *.
  assert (Q : forall r, exp_run glob e resolve draws ords args d1 r <-> main e resolve draws ords (Some (display_uint jobs))
    (Run (RunArgs (Some (ascii "hllp")) (Some (ascii "cardinalities")) (Some (display_uint p)) None (Some (display_uint n)) (Some file) (Some output))) d1 r).
  { intros r. destruct (cards_exact glob e resolve draws ords args d1 r) as [H _]; [now right|reflexivity|exact U|].
    specialize (H (Z.of_N n) file eq_refl eq_refl). destruct H as [H _].
    destruct H as (j & q & k & Hj & Hq & Hk & H).
    { cbn. repeat split; auto; lia. }
    cbn [x_jobs x_precision x_type x_output args] in *. rewrite !N2Z.id in *.
    assert (EQ : forall m s, numeral m s -> s = display_uint m) by (intros m s Hs; now apply (proj1 FilesExample.display_spec)).
    rewrite (EQ _ _ Hj), (EQ _ _ Hq), (EQ _ _ Hk) in H. exact H. }
  split; [destruct R1 as (r & R1); exists r; exact (proj2 (Q r) R1)|]. intros r Hr. exact (R2 r (proj1 (Q r) Hr)).
Qed.

Lemma exp_pipeline_pf : forall glob e resolve draws ords, 0 < usize_bits e ->
  forall max jobs p dir file output n names paths d,
  build e -> 2 * p < usize_bits e -> jobs < 2 ^ usize_bits e ->
  4 <= p <= 16 -> 0 < n < 2 ^ usize_bits e -> (forall k i, draws k i < 2 ^ 32) ->
  (1 <= max)%Z -> (2 * max <= 2 ^ 53)%Z -> (2 * max <= 2 ^ Z.of_N (usize_bits e))%Z ->
  in_directory dir (ascii "cardinalities.dat") file -> resolve file <> None -> ~ hyphen file -> ~ hyphen output ->
  Forall2 (cards_name p (ascii "32")) (first_draws (fun r => r) n) names -> Forall2 (in_directory output) names paths -> separate resolve paths ->
  ~ In (resolve file) (map resolve paths) ->
  let args := ExpRunArgs (Z.of_N jobs) (ascii "hll") (ascii "cardinalities") (Z.of_N p) None (Some (Z.of_N n)) (Some file) output in
  exists cards d1, generate_cardinalities max = Ret cards /\ prepare_cardinalities resolve dir max d = Ret d1 /\
  let result := exp_run glob e resolve draws ords args d1 in
  (exists r, result r) /\
  forall r, result r -> exists d2, r = Ret d2 /\ only_changed resolve (file :: paths) d d2 /\
    exists outs contents rows, Forall2 (fun k out => pf_card_lines e p (draws k) (map Z.to_N cards) out) (first_draws (fun r => r) n) outs /\
      Forall2 (has_file resolve d2) paths contents /\ Forall2 estimate_file outs contents /\
      calculate_statistics contents = Ret rows /\ map fst rows = cards /\
      forall j z errs, nth_error rows j = Some (z, errs) ->
        Forall2 (fun out x => exists k, nth_error out j = Some (Z.to_N z, k) /\ relative_error_of (Z.to_N z) k x) outs errs.
Proof.
  intros glob e resolve draws ords U max jobs p dir file output n names paths d B W J P Hn D M1 M2 M3 I F HF HO Na Pa S X args.
  assert (NN : forall k, numeral k (display_uint k)) by apply TextFacts.display_numeral.
  destruct (pipeline_cards_pf e resolve draws ords U max (Some (display_uint jobs)) (display_uint p) p dir file output (display_uint n) n names paths d)
    as (cards & d1 & G & C & R1 & R2); auto.
  { exists jobs. split; [now apply numeral_reads|exact J]. }
  { now apply numeral_reads. }
  { now apply numeral_reads. }
  exists cards, d1. split; [exact G|]. split; [exact C|]. cbv zeta in R1, R2 |- *.
  assert (Q : forall r, exp_run glob e resolve draws ords args d1 r <-> main e resolve draws ords (Some (display_uint jobs))
    (Run (RunArgs (Some (ascii "hll")) (Some (ascii "cardinalities")) (Some (display_uint p)) None (Some (display_uint n)) (Some file) (Some output))) d1 r).
  { intros r. destruct (cards_exact glob e resolve draws ords args d1 r) as [H _]; [now left|reflexivity|exact U|].
    specialize (H (Z.of_N n) file eq_refl eq_refl). destruct H as [H _].
    destruct H as (j & q & k & Hj & Hq & Hk & H).
    { cbn. repeat split; auto; lia. }
    cbn [x_jobs x_precision x_type x_output args] in *. rewrite !N2Z.id in *.
    assert (EQ : forall m s, numeral m s -> s = display_uint m) by (intros m s Hs; now apply (proj1 FilesExample.display_spec)).
    rewrite (EQ _ _ Hj), (EQ _ _ Hq), (EQ _ _ Hk) in H. exact H. }
  split; [destruct R1 as (r & R1); exists r; exact (proj2 (Q r) R1)|]. intros r Hr. exact (R2 r (proj1 (Q r) Hr)).
Qed.
