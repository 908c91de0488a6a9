(** * The arguments of the evaluation program: accepted, unused, unreadable *)
From Coq Require Import String.
From Coq Require Import NArith ZArith List Bool Lia.
From Verif Require Import ModelRust ModelF64 ModelEnv ModelCommon ModelPlus ModelHistory ModelEval ModelFiles ModelArgs Spec SpecBuild SpecEval SpecFiles
  TextFacts PathFacts PoolFacts EvalFacts FilesFacts FilesMain.
Import ListNotations.
Local Open Scope N_scope.

Lemma eqb_bytes_spec : forall a b, eqb_bytes a b = true <-> a = b.
Proof.
  intros a b. unfold eqb_bytes. destruct (list_eq_dec N.eq_dec a b); split; congruence.
Qed.

Lemma accepted_gen : forall a, accepts_gen a = true <->
  exists size count runs output, a = GenArgs (Some size) (Some count) (Some runs) (Some output) /\ (size = ascii "32" \/ size = ascii "64").
Proof.
  intros [s c r o]. unfold accepts_gen. cbn [g_size g_count g_runs g_output]. rewrite !andb_true_iff. split.
  - intros (((A & B) & C) & D). destruct s as [s|], c as [c|], r as [r|], o as [o|]; try discriminate.
    exists s, c, r, o. split; [reflexivity|]. cbn [one_of existsb] in A. rewrite !orb_true_iff, !eqb_bytes_spec in A. destruct A as [A|[A|A]]; auto. discriminate.
  - intros (size & count & runs & output & E & S). injection E as -> -> -> ->. repeat split.
    cbn [one_of existsb]. rewrite !orb_true_iff, !eqb_bytes_spec. destruct S as [S|S]; rewrite S; auto.
Qed.

Lemma accepted_run : forall a, accepts_run a = true <->
  exists ty precision output, (ty = ascii "hll" \/ ty = ascii "hllp") /\
    ((exists files runs file, files <> [] /\
       a = RunArgs (Some ty) (Some (ascii "hashes")) (Some precision) (Some files) runs file (Some output)) \/
     (exists files runs file, files <> Some [] /\
       a = RunArgs (Some ty) (Some (ascii "cardinalities")) (Some precision) files (Some runs) (Some file) (Some output))).
Proof.
  intros [t m p i r c o]. unfold accepts_run. cbn [r_type r_mode r_precision r_input r_runs r_cardinalities r_output]. rewrite !andb_true_iff. split.
  - intros (((((((A & B) & C) & D) & E) & F) & G) & H). destruct t as [t|], m as [m|], p as [p|], o as [o|]; try discriminate.
    exists t, p, o. cbn [one_of existsb] in A, B. rewrite !orb_true_iff, !eqb_bytes_spec in A, B.
    split; [destruct A as [A|[A|A]]; auto; discriminate|].
    destruct B as [B|[B|B]]; [left|right|discriminate]; subst m; cbn [required_if] in F, G, H.
    + change (given i = true) in F. destruct i as [[|f i]|]; try discriminate. exists (f :: i), r, c. split; [discriminate|reflexivity].
    + change (given r = true) in G. change (given c = true) in H. destruct r as [r|], c as [c|]; try discriminate. exists i, r, c.
      split; [|reflexivity]. destruct i as [[|f i]|]; discriminate.
  - intros (ty & precision & output & T & [(files & runs & file & NE & E)|(files & runs & file & NE & E)]); injection E as -> -> -> -> -> -> ->.
    + destruct files; [congruence|]. repeat split. cbn [one_of existsb]. rewrite !orb_true_iff, !eqb_bytes_spec. destruct T as [T|T]; rewrite T; auto.
    + repeat split; [|now destruct files as [[|]|]]. cbn [one_of existsb]. rewrite !orb_true_iff, !eqb_bytes_spec. destruct T as [T|T]; rewrite T; auto.
Qed.

(** ** No jobs *)
Lemma pool_nil : forall resolve output d r, pool resolve output [] d r <-> r = Ret d.
Proof.
  intros resolve output d r. split.
  - intros (n & d' & sts & S & E).
    assert (X : forall n s s', steps resolve output n s s' -> snd s = [] -> s' = s).
    { clear. intros n s s' S. induction S as [|n s s' s'' S IH T]; intros Q; [reflexivity|]. rewrite (IH Q) in T.
      inversion T as [d d' a st st' b T' E1 E2]. subst s. cbn in Q. now destruct a. }
    specialize (X _ _ _ S eq_refl). injection X as -> ->. destruct E as [(_ & ->)|(E & _)]; [reflexivity|discriminate].
  - intros ->. exists 0%nat, d, []. split; [constructor|]. left. auto.
Qed.

Section Args.
Variable e : env.
Variable resolve : list N -> option N.
Variable draws : N -> N -> N.
Variable ords : N -> N -> list N -> list N.
Hypothesis HU : 0 < usize_bits e.

Lemma main_unused : forall jobs ty mode precision files runs file output d r,
  (mode = ascii "hashes" ->
     main e resolve draws ords jobs (Run (RunArgs ty (Some mode) precision files runs file output)) d r =
     main e resolve draws ords jobs (Run (RunArgs ty (Some mode) precision files None None output)) d r) /\
  (mode = ascii "cardinalities" ->
     main e resolve draws ords jobs (Run (RunArgs ty (Some mode) precision files runs file output)) d r =
     main e resolve draws ords jobs (Run (RunArgs ty (Some mode) precision None runs file output)) d r).
Proof. intros. split; intros ->; reflexivity. Qed.

Lemma unread : forall w s, (forall k, reads s k -> ~ k < 2 ^ w) -> parse_uint w s = None.
Proof.
  intros w s H. destruct (parse_uint w s) as [k|] eqn:E; [|reflexivity]. apply parse_uint_spec in E. exfalso. exact (H k (proj1 E) (proj2 E)).
Qed.

Lemma gen_bad : forall jobs size count runs output d, jobs_ok e jobs -> size = ascii "32" \/ size = ascii "64" ->
  (forall k, reads count k -> ~ k < 2 ^ usize_bits e) \/ (forall k, reads runs k -> ~ k < 2 ^ usize_bits e) ->
  forall r, main e resolve draws ords jobs (Gen (GenArgs (Some size) (Some count) (Some runs) (Some output))) d r <-> r = Panic.
Proof.
  intros jobs size count runs output d J S B r. rewrite (main_jobs e resolve draws ords jobs _ d r HU J). cbn [g_size].
  assert (X : eqb_bytes size (str "32") || eqb_bytes size (str "64") = true) by (destruct S as [->| ->]; reflexivity).
  rewrite X. unfold generate. cbn [g_size g_count g_runs g_output unwrap bind].
  destruct B as [B|B]; [rewrite (unread _ _ B); cbn; tauto|]. destruct (parse_uint _ count); [|cbn; tauto]. cbn [unwrap bind]. rewrite (unread _ _ B). cbn. tauto.
Qed.

Lemma gen_idle : forall jobs size count runs output c d, jobs_ok e jobs -> size = ascii "32" \/ size = ascii "64" ->
  reads count c -> c < 2 ^ usize_bits e -> reads runs 0 ->
  forall r, main e resolve draws ords jobs (Gen (GenArgs (Some size) (Some count) (Some runs) (Some output))) d r <-> r = Ret d.
Proof.
  intros jobs size count runs output c d J S RC BC RN r. rewrite (main_jobs e resolve draws ords jobs _ d r HU J). cbn [g_size].
  assert (X : eqb_bytes size (str "32") || eqb_bytes size (str "64") = true) by (destruct S as [->| ->]; reflexivity).
  rewrite X. unfold generate. cbn [g_size g_count g_runs g_output unwrap bind].
  rewrite (parse_reads _ _ _ RC BC), (parse_reads _ _ _ RN ltac:(apply N.neq_0_lt_0, N.pow_nonzero; discriminate)). cbn [unwrap bind].
  apply pool_nil.
Qed.

(** [main] for the second experiment, whatever the sketch. *)
Lemma main_cards : forall jobs ty precision output runs file d r, jobs_ok e jobs -> ty = ascii "hll" \/ ty = ascii "hllp" ->
  exists w sz hashes cards,
    main e resolve draws ords jobs (Run (cards_args ty precision output runs file)) d r =
    run_impl e resolve draws w sz hashes cards (cards_args ty precision output runs file) d r /\
    (forall k p dr cs, build e -> (ty = ascii "hll" /\ ~ 4 <= p <= 16) \/ (ty = ascii "hllp" /\ ~ 4 <= p <= 18) -> cards k p dr cs = Panic).
Proof.
  intros jobs ty precision output runs file d r J [-> | ->].
  - do 4 eexists. split; [rewrite main_hll by (assumption || reflexivity); reflexivity|]. intros k p dr cs B [(_ & L)|(Q & _)]; [|discriminate].
    exact (proj2 (proj2 (eval_precisions e (ords 0) p dr cs B) L)).
  - do 4 eexists. split; [rewrite main_hllp by (assumption || reflexivity); reflexivity|]. intros k p dr cs B [(Q & _)|(_ & L)]; [discriminate|].
    exact (proj2 (proj1 (eval_precisions e (ords k) p dr cs B) L)).
Qed.

Lemma cards_unreadable : forall jobs ty precision output runs file d, jobs_ok e jobs -> ty = ascii "hll" \/ ty = ascii "hllp" ->
  (forall p, reads precision p -> ~ p < 2 ^ 8) \/ (forall k, reads runs k -> ~ k < 2 ^ usize_bits e) ->
  forall r, main e resolve draws ords jobs (Run (cards_args ty precision output runs file)) d r <-> r = Panic.
Proof.
  intros jobs ty precision output runs file d J T B r. destruct (main_cards jobs ty precision output runs file d r J T) as (w & sz & h & c & -> & _).
  unfold run_impl, cards_args. cbn [r_mode r_precision r_output r_runs r_cardinalities unwrap bind].
  destruct B as [B|B]; [rewrite (unread _ _ B); cbn; tauto|]. destruct (parse_uint 8 precision); [|cbn; tauto]. cbn [unwrap bind]. 
  change (eqb_bytes (ascii "cardinalities") (str "hashes")) with false. change (eqb_bytes (ascii "cardinalities") (str "cardinalities")) with true.
  cbv iota. rewrite (unread _ _ B). cbn. tauto.
Qed.

Lemma cards_stop : forall jobs ty precision output runs n file d, jobs_ok e jobs -> build e ->
  reads runs n -> 0 < n -> n < 2 ^ usize_bits e ->
  ty = ascii "hll" \/ ty = ascii "hllp" ->
  (forall p, reads precision p -> (ty = ascii "hll" /\ ~ 4 <= p <= 16) \/ (ty = ascii "hllp" /\ ~ 4 <= p <= 18)) \/
  (forall name path, in_directory output name path -> resolve path = None \/ resolve path <> resolve file) /\
  (forall content nums, has_file resolve d file content -> ~ number_file (usize_bits e) content nums) ->
  forall r, main e resolve draws ords jobs (Run (cards_args ty precision output runs file)) d r <-> r = Panic.
Proof.
  intros jobs ty precision output runs n file d J B RN N0 BN T H r.
  destruct (main_cards jobs ty precision output runs file d r J T) as (w & sz & h & c & -> & PC).
  destruct (parse_uint 8 precision) as [p|] eqn:Q.
  2:{ unfold run_impl, cards_args. cbn [r_mode r_precision unwrap bind]. rewrite Q. cbn. tauto. }
  apply parse_uint_spec in Q. destruct Q as (RP & BP).
  rewrite (impl_cards e resolve draws w sz h c (cards_args ty precision output runs file) _ precision p output runs n file d r eq_refl eq_refl eq_refl eq_refl eq_refl eq_refl RP BP RN BN).
  assert (I : In (cards_job e resolve draws sz c p file 0) (map (cards_job e resolve draws sz c p file) (range n))).
  { apply in_map. unfold range. apply in_map_iff. exists 0%nat. split; [reflexivity|]. apply in_seq. lia. }
  destruct (pool_panic resolve output _ d _ I) as (P1 & P2).
  - intros d' F. unfold cards_job. destruct (load_total resolve (usize_bits e) d' file) as [->|(nums & E)]; [reflexivity|].
    destruct H as [L|(A & L)].
    + rewrite E. cbn [bind]. rewrite PC by auto. reflexivity.
    + exfalso. apply load_spec in E. destruct E as (content & (l & R & D) & N). apply (L content nums); [|exact N]. exists l. split; [exact R|].
      rewrite <- F; [exact D|]. intros name Q. destruct (A name _ (proj1 (join_spec _ _ _) eq_refl)) as [X|X]; congruence.
  - split; [apply P2|]. intros ->. exact P1.
Qed.

Lemma cards_idle : forall jobs ty precision p output runs file d, jobs_ok e jobs -> ty = ascii "hll" \/ ty = ascii "hllp" ->
  reads precision p -> p < 2 ^ 8 -> reads runs 0 ->
  forall r, main e resolve draws ords jobs (Run (cards_args ty precision output runs file)) d r <-> r = Ret d.
Proof.
  intros jobs ty precision p output runs file d J T RP BP RN r.
  destruct (main_cards jobs ty precision output runs file d r J T) as (w & sz & h & c & -> & _).
  rewrite (impl_cards e resolve draws w sz h c (cards_args ty precision output runs file) _ precision p output runs 0 file d r eq_refl eq_refl eq_refl eq_refl eq_refl eq_refl RP BP RN
    ltac:(apply N.neq_0_lt_0, N.pow_nonzero; discriminate)).
  apply pool_nil.
Qed.

Lemma main_nothing : forall jobs sub d, jobs_ok e jobs ->
  match sub with
  | Gen a => forall s, g_size a = Some s -> s <> ascii "32" /\ s <> ascii "64"
  | Run a => (forall t, r_type a = Some t -> t <> ascii "hll" /\ t <> ascii "hllp") \/
      (exists mode precision p output, r_mode a = Some mode /\ r_precision a = Some precision /\ r_output a = Some output /\
         reads precision p /\ p < 2 ^ 8 /\ mode <> ascii "hashes" /\ mode <> ascii "cardinalities")
  | Other => True
  end ->
  forall r, main e resolve draws ords jobs sub d r <-> r = Ret d.
Proof.
  intros jobs sub d J H r. rewrite (main_jobs e resolve draws ords jobs _ d r HU J). destruct sub as [a|a|]; [| |tauto].
  - destruct (g_size a) as [s|]; [|tauto]. destruct (H s eq_refl) as (A & B).
    destruct (eqb_bytes s (str "32")) eqn:E1; [apply eqb_bytes_spec in E1; destruct (A E1)|].
    destruct (eqb_bytes s (str "64")) eqn:E2; [apply eqb_bytes_spec in E2; destruct (B E2)|]. cbn. tauto.
  - assert (X : (exists mode precision p output, r_mode a = Some mode /\ r_precision a = Some precision /\ r_output a = Some output /\
         reads precision p /\ p < 2 ^ 8 /\ mode <> ascii "hashes" /\ mode <> ascii "cardinalities") ->
       forall w sz hs cs, run_impl e resolve draws w sz hs cs a d r <-> r = Ret d).
    { intros (mode & precision & p & output & M & P & O & R & B & N1 & N2) w sz hs cs. unfold run_impl. rewrite M, P, O. cbn [unwrap bind].
      rewrite (parse_reads _ _ _ R B). cbn [unwrap bind].
      destruct (eqb_bytes mode (str "hashes")) eqn:E1; [apply eqb_bytes_spec in E1; destruct (N1 E1)|].
      destruct (eqb_bytes mode (str "cardinalities")) eqn:E2; [apply eqb_bytes_spec in E2; destruct (N2 E2)|]. apply pool_nil. }
    destruct (r_type a) as [t|]; [|tauto].
    destruct (eqb_bytes t (str "hll")) eqn:E1; [apply eqb_bytes_spec in E1; subst t|
      destruct (eqb_bytes t (str "hllp")) eqn:E2; [apply eqb_bytes_spec in E2; subst t|tauto]];
      (destruct H as [H|H]; [destruct (H _ eq_refl) as (A & B); first [destruct (A eq_refl)|destruct (B eq_refl)]|]); apply X, H.
Qed.
End Args.
