(** * The commands of the evaluation program *)
From Coq Require Import String.
From Coq Require Import NArith ZArith List Bool Lia.
From Verif Require Import ModelRust ModelF64 ModelEnv ModelCommon ModelPlus ModelEval ModelFiles Spec SpecBuild SpecEval SpecFiles
  TextFacts PathFacts PoolFacts EvalFacts.
Import ListNotations.
Local Open Scope N_scope.

Lemma forall2_impl : forall {A B : Type} (P Q : A -> B -> Prop) a b, (forall x y, P x y -> Q x y) -> Forall2 P a b -> Forall2 Q a b.
Proof. intros A B P Q a b H F. induction F; constructor; auto. Qed.

(** The plan of the jobs. *)
Lemma plans : forall resolve output js names contents paths d,
  Forall2 (in_directory output) names paths -> separate resolve paths -> length contents = length names ->
  Forall2 (fun (j : job) nc => forall d', only_changed resolve paths d d' -> j d' = Ret nc) js (combine names contents) ->
  exists outs, Forall (fun o => resolve (join output (p_name o)) = Some (p_loc o)) outs /\ NoDup (map p_loc outs) /\
    Forall2 (fun j o => forall d', agrees d outs d' -> j d' = Ret (p_name o, p_content o)) js outs /\
    (forall d', agrees d outs d' <-> only_changed resolve paths d d') /\
    map p_content outs = contents /\ map (fun o => Some (p_loc o)) outs = map resolve paths.
Proof.
  intros resolve output js names contents paths d D (ND & NN) L J.
  assert (X : exists locs, map Some locs = map resolve paths).
  { clear - NN. induction paths as [|p paths IH]; [exists []; reflexivity|]. cbn [map] in NN.
    destruct IH as (locs & E); [intros I; apply NN; now right|]. destruct (resolve p) as [l|] eqn:R; [|exfalso; apply NN; now left].
    exists (l :: locs). cbn. now rewrite E, R. }
  destruct X as (locs & EL).
  set (outs := combine (combine names contents) locs).
  assert (LN : length names = length paths) by exact (forall2_length _ _ _ D).
  assert (LL : length locs = length paths) by (rewrite <- (map_length Some locs), EL; apply map_length).
  assert (LJ : length js = length names) by (rewrite (forall2_length _ _ _ J), combine_length; lia).
  assert (ML : map p_loc outs = locs /\ map p_content outs = contents).
  { unfold outs, p_loc, p_content. clear - L LN LL. revert contents locs paths L LN LL. induction names as [|n names IH]; intros [|c contents] [|l locs] [|p paths] L LN LL;
      try discriminate; [split; reflexivity|]. cbn in *. destruct (IH contents locs paths) as (E1 & E2); [lia..|]. split; f_equal; assumption. }
  destruct ML as (ML & MC).
  assert (A : forall d', agrees d outs d' <-> only_changed resolve paths d d').
  { intros d'. unfold agrees, only_changed. rewrite ML, <- EL. split; intros H l N; apply H; intros I; apply N.
    - apply in_map, I.
    - apply in_map_iff in I. destruct I as (l' & E & I). congruence. }
  exists outs. split; [|split; [|split; [|split; [exact A|split; [exact MC|]]]]].
  - unfold outs, p_name, p_loc. clear - D EL L. revert contents locs EL L. induction D as [|n p names paths H _ IH]; intros [|c contents] [|l locs] EL L; try discriminate; [constructor|].
    cbn in *. injection EL as E EL. constructor; [|apply IH; [exact EL|lia]]. cbn. apply join_spec in H. now rewrite <- H, E.
  - rewrite ML. apply (NoDup_map_inv Some). now rewrite EL.
  - apply (forall2_impl (fun (j : job) o => forall d', only_changed resolve paths d d' -> j d' = Ret (p_name o, p_content o))).
    { intros j o H d' G. apply H, A, G. }
    unfold outs. assert (LC : length locs = length (combine names contents)) by (rewrite combine_length; lia).
    clear - J LC. revert locs LC. induction J as [|j nc js ncs H _ IH]; intros [|l locs] LC; try discriminate; [constructor|].
    cbn. constructor; [|apply IH; cbn in LC; lia]. intros d' G. rewrite (H d' G). unfold p_name, p_content. cbn. now destruct nc.
  - rewrite <- EL, <- ML, map_map. reflexivity.
Qed.

Lemma pool_files : forall resolve output js names contents paths d,
  Forall2 (in_directory output) names paths -> separate resolve paths -> length contents = length names ->
  Forall2 (fun (j : job) nc => forall d', only_changed resolve paths d d' -> j d' = Ret nc) js (combine names contents) ->
  (exists r, pool resolve output js d r) /\
  (forall r, pool resolve output js d r -> exists d', r = Ret d' /\ only_changed resolve paths d d' /\ Forall2 (has_file resolve d') paths contents) /\
  forall n d' sts, steps resolve output n (d, map Waiting js) (d', sts) ->
    (n <= 3 * length js + length (concat contents))%nat /\ (forallb done sts = true \/ exists s', step resolve output (d', sts) s').
Proof.
  intros resolve output js names contents paths d D SP L J.
  destruct (plans resolve output js names contents paths d D SP L J) as (outs & HR & HD & HJ & A & EC & EL).
  split; [exact (pool_ends resolve output d outs HR HD js HJ)|]. split.
  - intros r P. destruct (pool_ok resolve output d outs HR HD js HJ r P) as (d' & -> & G & F). exists d'.
    split; [reflexivity|]. split; [apply A, G|]. rewrite <- EC. clear - F EL. revert paths EL.
    induction F as [|o outs F _ IH]; intros [|p paths] EL; try discriminate; [constructor|]. cbn in EL. injection EL as E EL.
    constructor; [|now apply IH]. exists (p_loc o). split; [now symmetry|exact F].
  - intros n d' sts S. destruct (pool_bound resolve output d outs HR HD js HJ n d' sts S) as (B & P). split; [|exact P].
    eapply Nat.le_trans; [exact B|]. apply Nat.eq_le_incl.
    assert (LJ : length js = length outs) by exact (forall2_length _ _ _ HJ). rewrite LJ, <- EC. clear.
    induction outs as [|o outs IH]; [reflexivity|]. cbn [map fold_right concat length]. rewrite app_length, IH. lia.
Qed.

(** ** Arguments *)
Lemma parse_reads : forall w s n, reads s n -> n < 2 ^ w -> parse_uint w s = Some n.
Proof. intros. now apply parse_uint_spec. Qed.

Lemma reads_one : reads (ascii "1") 1.
Proof. exists [1]. repeat split; [discriminate|repeat constructor|now left]. Qed.

Lemma main_jobs : forall e resolve draws ords jobs sub d r, 0 < usize_bits e -> jobs_ok e jobs ->
  main e resolve draws ords jobs sub d r =
  match sub with
  | Gen args =>
      if match g_size args with Some s => eqb_bytes s (str "32") || eqb_bytes s (str "64") | None => false end
      then generate e resolve draws args d r else r = Ret d
  | Run args =>
      match r_type args with
      | Some t => if eqb_bytes t (str "hll") then run e resolve draws args d r
                  else if eqb_bytes t (str "hllp") then run_plus e resolve draws ords args d r else r = Ret d
      | None => r = Ret d
      end
  | Other => r = Ret d
  end.
Proof.
  intros e resolve draws ords jobs sub d r U J. unfold main. destruct jobs as [j|].
  - destruct J as (k & R & B). rewrite (parse_reads _ _ _ R B). reflexivity.
  - rewrite (parse_reads (usize_bits e) (str "1") 1 reads_one); [reflexivity|]. apply N.pow_gt_1; lia.
Qed.

Lemma bad_jobs : forall e resolve draws ords j sub d, (forall k, reads j k -> ~ k < 2 ^ usize_bits e) ->
  forall r, main e resolve draws ords (Some j) sub d r <-> r = Panic.
Proof.
  intros e resolve draws ords j sub d H r. unfold main. destruct (parse_uint (usize_bits e) j) as [k|] eqn:P; [|tauto].
  apply parse_uint_spec in P. exfalso. exact (H k (proj1 P) (proj2 P)).
Qed.

(** ** Generating files *)
Lemma range_draws : forall n, range n = first_draws (fun i => i) n.
Proof. reflexivity. Qed.

Lemma first_draws_map : forall f n, map f (range n) = first_draws f n.
Proof. intros f n. unfold range, first_draws. now rewrite map_map. Qed.

Lemma gen_ok : forall e resolve draws ords jobs size count runs output c n names paths d,
  0 < usize_bits e -> jobs_ok e jobs -> size = ascii "32" \/ size = ascii "64" ->
  reads count c -> c < 2 ^ usize_bits e -> reads runs n -> n < 2 ^ usize_bits e ->
  Forall2 (hashes_name size) (first_draws (fun r => r) n) names -> Forall2 (in_directory output) names paths -> separate resolve paths ->
  let result := main e resolve draws ords jobs (Gen (GenArgs (Some size) (Some count) (Some runs) (Some output))) d in
  (exists r, result r) /\
  forall r, result r -> exists d', r = Ret d' /\ only_changed resolve paths d d' /\
    Forall2 (fun k path => exists content, has_file resolve d' path content /\ numeral_file (first_draws (draws k) c) content)
      (first_draws (fun r => r) n) paths.
Proof.
  intros e resolve draws ords jobs size count runs output c n names paths d U J S RC BC RN BN HN HP SP result.
  assert (E : forall r, result r = pool resolve output (map (gen_job draws size c) (range n)) d r).
  { intros r. unfold result. rewrite (main_jobs e resolve draws ords jobs _ d r U J). cbn [g_size].
    assert (X : eqb_bytes size (str "32") || eqb_bytes size (str "64") = true).
    { destruct S as [->| ->]; reflexivity. }
    rewrite X. unfold generate. cbn [g_size g_count g_runs g_output unwrap bind].
    rewrite (parse_reads _ _ _ RC BC), (parse_reads _ _ _ RN BN). reflexivity. }
  destruct (pool_files resolve output (map (gen_job draws size c) (range n)) names
              (map (fun k => saved display_uint (first_draws (draws k) c)) (range n)) paths d HP SP) as (P1 & P2 & _).
  - rewrite map_length. exact (forall2_length _ _ _ HN).
  - clear - HN. rewrite range_draws in *. induction HN as [|k name ks names H _ IH]; [constructor|]. cbn [map combine]. constructor; [|exact IH].
    intros d' _. unfold gen_job. destruct H as (s & NS & ->). apply numeral_display in NS. subst s. now rewrite first_draws_map.
  - split; [destruct P1 as (r & P1); exists r; now rewrite E|]. intros r R. rewrite E in R. destruct (P2 r R) as (d' & -> & O & F).
    exists d'. split; [reflexivity|]. split; [exact O|]. clear - F. rewrite range_draws in *. revert F. generalize (first_draws (fun r => r) n). intros l.
    revert l. induction paths as [|p paths IH]; intros [|k l] F; inversion F; subst; constructor; [|now apply IH].
    exists (saved display_uint (first_draws (draws k) c)). split; [assumption|apply saved_numerals].
Qed.

(** ** Running the experiments *)
Section Impl.
Variable e : env.
Variable resolve : list N -> option N.
Variable draws : N -> N -> N.
Variables (w : N) (sz : list N).
Variable hashes : N -> N -> list N -> M (list (N * N)).
Variable cards : N -> N -> (N -> N) -> list N -> M (list (N * N)).

Lemma only_changed_file : forall paths d d' f content, only_changed resolve paths d d' -> ~ In (resolve f) (map resolve paths) ->
  has_file resolve d f content -> has_file resolve d' f content.
Proof.
  intros paths d d' f content O N (l & R & D). exists l. split; [exact R|]. rewrite O; [exact D|]. now rewrite <- R.
Qed.

Lemma hashes_jobs : forall p output names paths d files bases hss (Q : list N -> list (N * N) -> Prop),
  Forall2 (fun f hs => exists content, has_file resolve d f content /\ number_file w content hs) files hss ->
  Forall2 base_name files bases -> Forall2 (estimates_name p) bases names -> Forall2 (in_directory output) names paths -> separate resolve paths ->
  (forall f, In f files -> ~ In (resolve f) (map resolve paths)) ->
  (forall k hs, In hs hss -> exists out, hashes k p hs = Ret out /\ Q hs out) ->
  let js := map (fun kf => hashes_job resolve w hashes p (fst kf) (snd kf)) (combine (range (len files)) files) in
  (exists r, pool resolve output js d r) /\
  forall r, pool resolve output js d r -> exists d', r = Ret d' /\ only_changed resolve paths d d' /\
    Forall2 (fun hs path => exists content out, has_file resolve d' path content /\ Q hs out /\ estimate_file out content) hss paths.
Proof.
  intros p output names paths d files bases hss Q HF HB HN HP SP AP HQ js.
  assert (LF : length hss = length files) by (symmetry; exact (forall2_length _ _ _ HF)).
  assert (LB : length bases = length files) by (symmetry; exact (forall2_length _ _ _ HB)).
  assert (LN : length names = length files) by (rewrite <- LB; symmetry; exact (forall2_length _ _ _ HN)).
  (* the estimates of every file *)
  assert (X : exists outs, length outs = length files /\ Forall2 Q hss outs /\
    Forall2 (fun kh out => hashes (fst kh) p (snd kh) = Ret out) (combine (range (len files)) hss) outs).
  { assert (LR : length (range (len files)) = length hss) by (unfold range, len; rewrite map_length, seq_length, Nat2N.id; lia).
    revert LR. generalize (range (len files)). intros ks LR. rewrite <- LF. clear - HQ LR. revert ks LR. induction hss as [|hs hss IH]; intros [|k ks] LR; try discriminate.
    - exists []. repeat split; constructor.
    - destruct (HQ k hs (or_introl eq_refl)) as (out & E & G). destruct (IH (fun k hs I => HQ k hs (or_intror I)) ks) as (outs & L & A & B); [cbn in LR; lia|].
      exists (out :: outs). split; [cbn; lia|]. split; [constructor; assumption|]. cbn. constructor; [exact E|exact B]. }
  destruct X as (outs & LO & QO & EO).
  destruct (pool_files resolve output js names (map (saved display_estimation) outs) paths d HP SP) as (P1 & P2 & _).
  - rewrite map_length. lia.
  - unfold js. assert (LR : length (range (len files)) = length files) by (unfold range, len; rewrite map_length, seq_length, Nat2N.id; lia).
    revert LR EO. generalize (range (len files)). intros ks LR EO. clear - HF HB HN AP LR EO.
    revert ks LR bases names HB HN outs EO. induction HF as [|f hs files hss H HF IH]; intros [|k ks] LR bases names HB HN outs EO; try discriminate.
    + inversion HB; subst. inversion HN; subst. constructor.
    + inversion HB as [|? base ? bases' B HB']; subst. inversion HN as [|? name ? names' NN HN']; subst.
      cbn [combine] in EO. inversion EO as [|? out ? outs' E EO']; subst. cbn [combine map fst snd]. constructor.
      * intros d' O. unfold hashes_job. destruct H as (content & HC & NF). pose proof (only_changed_file _ _ _ _ _ O (AP f (or_introl eq_refl)) HC) as HC'.
        rewrite (proj2 (load_spec resolve w d' f hs) (ex_intro _ content (conj HC' NF))). cbn [bind fst snd] in *. rewrite E. cbn [bind].
        rewrite (proj2 (file_name_spec f base) B). cbn [unwrap bind]. destruct NN as (s & NS & ->). apply numeral_display in NS. now subst s.
      * eapply IH; try eassumption; [intros; apply AP; now right|cbn in LR; lia].
  - split; [exact P1|]. intros r R. destruct (P2 r R) as (d' & -> & O & F). exists d'. split; [reflexivity|]. split; [exact O|].
    clear - F QO. revert paths F. induction QO as [|hs out hss outs G _ IH]; intros [|p paths] F; inversion F; subst; constructor; [|now apply IH].
    exists (saved display_estimation out), out. split; [assumption|]. split; [exact G|apply saved_estimates].
Qed.

Lemma cards_jobs : forall p output names paths d file content cs n (Q : N -> list (N * N) -> Prop),
  has_file resolve d file content -> number_file (usize_bits e) content cs ->
  Forall2 (cards_name p sz) (first_draws (fun r => r) n) names -> Forall2 (in_directory output) names paths -> separate resolve paths ->
  ~ In (resolve file) (map resolve paths) ->
  (forall k, exists out, cards k p (draws k) cs = Ret out /\ Q k out) ->
  let js := map (cards_job e resolve draws sz cards p file) (range n) in
  (exists r, pool resolve output js d r) /\
  forall r, pool resolve output js d r -> exists d', r = Ret d' /\ only_changed resolve paths d d' /\
    Forall2 (fun k path => exists content out, has_file resolve d' path content /\ Q k out /\ estimate_file out content)
      (first_draws (fun r => r) n) paths.
Proof.
  intros p output names paths d file content cs n Q HF NF HN HP SP AP HQ js. unfold js. rewrite range_draws in *. clear js. revert HN. generalize (first_draws (fun r => r) n). intros ks HN.
  assert (X : exists outs, Forall2 Q ks outs /\ Forall2 (fun k out => cards k p (draws k) cs = Ret out) ks outs).
  { clear - HQ. induction ks as [|k ks (outs & A & B)]; [exists []; split; constructor|]. destruct (HQ k) as (out & E & G).
    exists (out :: outs). split; constructor; assumption. }
  destruct X as (outs & QO & EO).
  assert (LO : length outs = length ks) by (symmetry; exact (forall2_length _ _ _ QO)).
  assert (LN : length names = length ks) by (symmetry; exact (forall2_length _ _ _ HN)).
  destruct (pool_files resolve output (map (cards_job e resolve draws sz cards p file) ks) names (map (saved display_estimation) outs) paths d HP SP) as (P1 & P2 & _).
  - rewrite map_length. lia.
  - clear - HF NF HN AP EO. revert outs EO. induction HN as [|k name ks names H _ IH]; intros outs EO; inversion EO as [|? out ? outs' E EO']; subst; [constructor|].
    cbn [map combine]. constructor; [|now apply IH]. intros d' O. unfold cards_job. pose proof (only_changed_file _ _ _ _ _ O AP HF) as HF'.
    rewrite (proj2 (load_spec resolve _ d' file cs) (ex_intro _ content (conj HF' NF))). cbn [bind]. rewrite E. cbn [bind].
    destruct H as (a & b & NA & NB & ->). apply numeral_display in NA, NB. now subst a b.
  - split; [exact P1|]. intros r R. destruct (P2 r R) as (d' & -> & O & F). exists d'. split; [reflexivity|]. split; [exact O|].
    clear - F QO. revert paths F. induction QO as [|k out ks outs G _ IH]; intros [|p paths] F; inversion F; subst; constructor; [|now apply IH].
    exists (saved display_estimation out), out. split; [assumption|]. split; [exact G|apply saved_estimates].
Qed.

(** A file that cannot be read stops the run. *)
Lemma bad_input : forall p output k file d, (forall name path, in_directory output name path -> resolve path = None \/ resolve path <> resolve file) ->
  (forall content nums, has_file resolve d file content -> ~ number_file w content nums) ->
  forall d', (forall l, spare resolve output l -> d' l = d l) -> hashes_job resolve w hashes p k file d' = Panic.
Proof.
  intros p output k file d A B d' F. unfold hashes_job. destruct (load_total resolve w d' file) as [->|(nums & E)]; [reflexivity|exfalso].
  apply load_spec in E. destruct E as (content & (l & R & D) & N). apply (B content nums); [|exact N]. exists l. split; [exact R|].
  rewrite <- F; [exact D|]. intros name Q. destruct (A name _ (proj1 (join_spec _ _ _) eq_refl)) as [X|X]; congruence.
Qed.
End Impl.
