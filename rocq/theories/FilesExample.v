(** * Examples of the evaluation program *)
From Coq Require Import String.
From Coq Require Import NArith ZArith List Bool Lia.
From Verif Require Import ModelRust ModelF64 ModelEnv ModelHistory ModelCommon ModelPlus ModelEval ModelFiles ModelTests Spec SpecBuild SpecEval SpecFiles
  TextFacts PathFacts PoolFacts FilesFacts FilesMain Witness.
Import ListNotations.
Local Open Scope N_scope.

Lemma display_spec : (forall n s, s = display_uint n <-> numeral n s) /\ (forall n m s, numeral n s -> numeral m s -> n = m).
Proof. split; [|exact numeral_inj]. intros n s. split; [intros ->; apply display_numeral|apply numeral_display]. Qed.

Lemma load_exact : forall resolve w d path,
  (forall nums, load resolve w d path = Ret nums <-> exists content, has_file resolve d path content /\ number_file w content nums) /\
  ((forall content nums, has_file resolve d path content -> ~ number_file w content nums) -> load resolve w d path = Panic) /\
  (forall content a b, number_file w content a -> number_file w content b -> a = b).
Proof.
  intros resolve w d path. split; [intros nums; apply load_spec|]. split; [|intros content a b; apply numeral_file_unique].
  intros H. destruct (load_total resolve w d path) as [E|(nums & E)]; [exact E|exfalso]. apply load_spec in E. destruct E as (c & A & B). exact (H c nums A B).
Qed.

Lemma save_exact : (forall nums, numeral_file nums (saved display_uint nums)) /\
  (forall ests, estimate_file ests (saved display_estimation ests)) /\
  (forall w nums content, Forall (fun x => x < 2 ^ w) nums -> numeral_file nums content -> number_file w content nums).
Proof. exact (conj saved_numerals (conj saved_estimates saved_loads)). Qed.

Lemma paths_exact : (forall dir name path, path = join dir name <-> in_directory dir name path) /\
  (forall path base, file_name path = Some base <-> base_name path base) /\
  (forall dir name path, plain_name name -> in_directory dir name path -> base_name path name).
Proof. exact (conj join_spec (conj file_name_spec base_in_directory)). Qed.

Lemma names_exact : (forall size a b name, hashes_name size a name -> hashes_name size b name -> a = b) /\
  (forall p a b name, estimates_name p a name -> estimates_name p b name -> a = b) /\
  (forall p size a b name, cards_name p size a name -> cards_name p size b name -> a = b).
Proof. exact (conj hashes_name_inj (conj estimates_name_inj cards_name_inj)). Qed.

Lemma threads_panic : forall resolve output js d0 j, In j js ->
  (forall d, (forall l, (forall name path, in_directory output name path -> resolve path <> Some l) -> d l = d0 l) -> j d = Panic) ->
  pool resolve output js d0 Panic /\ forall r, pool resolve output js d0 r -> r = Panic.
Proof.
  intros resolve output js d0 j I H. apply (pool_panic resolve output js d0 j I). intros d F. apply H. intros l S. apply F.
  intros name. apply (S name). now apply join_spec.
Qed.

Lemma threads_no_file : forall resolve output js d0 j, In j js ->
  (forall d, (forall l, (forall name path, in_directory output name path -> resolve path <> Some l) -> d l = d0 l) ->
     exists name content path, j d = Ret (name, content) /\ in_directory output name path /\ resolve path = None) ->
  pool resolve output js d0 Panic /\ forall r, pool resolve output js d0 r -> r = Panic.
Proof.
  intros resolve output js d0 j I H. apply (pool_no_file resolve output js d0 j I). intros d F. destruct (H d) as (name & content & path & E & D & R).
  - intros l S. apply F. intros name. apply (S name). now apply join_spec.
  - exists name, content. split; [exact E|]. apply join_spec in D. now subst path.
Qed.

Lemma gen_no_file : forall e resolve draws ords jobs size count runs output c n k name path d,
  0 < usize_bits e -> jobs_ok e jobs -> size = ascii "32" \/ size = ascii "64" ->
  reads count c -> c < 2 ^ usize_bits e -> reads runs n -> n < 2 ^ usize_bits e ->
  k < n -> hashes_name size k name -> in_directory output name path -> resolve path = None ->
  forall r, main e resolve draws ords jobs (Gen (GenArgs (Some size) (Some count) (Some runs) (Some output))) d r <-> r = Panic.
Proof.
  intros e resolve draws ords jobs size count runs output c n k name path d U J S RC BC RN BN K HN HP HR r.
  rewrite (main_jobs e resolve draws ords jobs _ d r U J). cbn [g_size].
  assert (X : eqb_bytes size (str "32") || eqb_bytes size (str "64") = true) by (destruct S as [->| ->]; reflexivity).
  rewrite X. unfold generate. cbn [g_size g_count g_runs g_output unwrap bind].
  rewrite (parse_reads _ _ _ RC BC), (parse_reads _ _ _ RN BN). cbn [bind].
  destruct (threads_no_file resolve output (map (gen_job draws size c) (range n)) d (gen_job draws size c k)) as (P1 & P2).
  - apply in_map. unfold range. apply in_map_iff. exists (N.to_nat k). split; [apply N2Nat.id|]. apply in_seq. lia.
  - intros d' _. destruct HN as (s & NS & ->). apply numeral_display in NS. subst s.
    eexists _, _, path. split; [reflexivity|]. split; [exact HP|exact HR].
  - split; [apply P2|intros ->; exact P1].
Qed.

Lemma writes_exact : forall old off b,
  length (write_at old off b) = Nat.max (off + length b) (length old) /\
  forall i, (i < length (write_at old off b))%nat ->
  ((off <= i < off + length b)%nat -> nth i (write_at old off b) 0 = nth (i - off) b 0) /\
  (~ (off <= i < off + length b)%nat -> (i < length old)%nat -> nth i (write_at old off b) 0 = nth i old 0) /\
  (~ (off <= i < off + length b)%nat -> (length old <= i)%nat -> nth i (write_at old off b) 0 = 0).
Proof. intros old off b. split; [apply write_at_length|apply write_at_nth]. Qed.

(** Every path is a file of its own. *)
Fixpoint number (s : list N) : N := match s with [] => 0 | c :: s' => 2 ^ c * (2 * number s' + 1) end.

Lemma odd_inj : forall c d x y, 2 ^ c * (2 * x + 1) = 2 ^ d * (2 * y + 1) -> c = d /\ x = y.
Proof.
  assert (P : forall c, 2 ^ c <> 0) by (intros; apply N.pow_nonzero; lia).
  assert (Q : forall c d x y, c < d -> 2 ^ c * (2 * x + 1) <> 2 ^ d * (2 * y + 1)).
  { intros c d x y L E. replace d with (c + N.succ (d - c - 1)) in E by lia. rewrite N.pow_add_r, <- N.mul_assoc in E.
    apply N.mul_cancel_l in E; [|apply P]. rewrite N.pow_succ_r' in E. generalize dependent (2 ^ (d - c - 1)). intros k E. nia. }
  intros c d x y E. destruct (N.lt_trichotomy c d) as [L|[->|L]].
  - exfalso. exact (Q c d x y L E).
  - apply N.mul_cancel_l in E; [|apply P]. split; [reflexivity|lia].
  - exfalso. exact (Q d c y x L (eq_sym E)).
Qed.

Lemma number_inj : forall a b, number a = number b -> a = b.
Proof.
  assert (P : forall c x, 2 ^ c * (2 * x + 1) <> 0).
  { intros c x E. apply N.mul_eq_0 in E. destruct E as [E|E]; [revert E; apply N.pow_nonzero; lia|lia]. }
  induction a as [|c a IH]; intros [|d b] E; cbn [number] in E; [reflexivity|symmetry in E; now apply P in E|now apply P in E|].
  apply odd_inj in E. destruct E as (-> & E). f_equal. now apply IH.
Qed.

Lemma estimate_file_functional : forall ests a b, estimate_file ests a -> estimate_file ests b -> a = b.
Proof.
  intros ests a b (x & A & ->) (y & B & ->). f_equal. revert y B. induction A as [|est l ests ls H _ IH]; intros y B; inversion B; subst; [reflexivity|].
  f_equal; [|now apply IH]. destruct H as (a & b & N1 & N2 & ->). destruct H2 as (a' & b' & N1' & N2' & ->).
  now rewrite (numeral_unique _ _ _ N1 N1'), (numeral_unique _ _ _ N2 N2').
Qed.

Definition each_own (s : list N) : option N := Some (number s).

Lemma own_inj : forall a b, Some (number a) = Some (number b) -> a = b.
Proof. intros a b E. apply number_inj. now injection E. Qed.

(** ** Two files of the same name *)
Definition two_disk : disk := fun l =>
  if l =? number (ascii "a/x") then Some (ascii "1" ++ [10])
  else if l =? number (ascii "b/x") then Some (ascii "1" ++ [10] ++ ascii "9223372036854775808" ++ [10]) else None.

Definition two_job (k : N) (f : list N) : job :=
  hashes_job each_own 64 (fun k p nums => eval_hashes_plus test_env ((fun _ _ => keep) k) p nums) 4 k f.
Definition first_content : list N := ascii "1 1" ++ [10].
Definition second_content : list N := ascii "1 1" ++ [10] ++ ascii "2 2" ++ [10].
Definition two_after : disk :=
  saved_disk (saved_disk two_disk (number (ascii "o/est-p4-x")) first_content) (number (ascii "o/est-p4-x")) second_content.

Lemma first_job : two_job 0 (ascii "a/x") two_disk = Ret (ascii "est-p4-x", first_content).
Proof. lazy. reflexivity. Qed.

Lemma second_job : two_job 1 (ascii "b/x") (saved_disk two_disk (number (ascii "o/est-p4-x")) first_content) = Ret (ascii "est-p4-x", second_content).
Proof. lazy. reflexivity. Qed.

Lemma two_pool : pool each_own (ascii "o") [two_job 0 (ascii "a/x"); two_job 1 (ascii "b/x")] two_disk (Ret two_after).
Proof. apply one_by_one_pool. cbn [one_by_one]. rewrite first_job. cbn [bind]. change (each_own (join (ascii "o") (ascii "est-p4-x"))) with (Some (number (ascii "o/est-p4-x"))).
  cbv iota. rewrite second_job. cbn [bind]. reflexivity.
Qed.

Lemma reads_4 : reads (ascii "4") 4.
Proof. exists [4]. repeat split; [discriminate|repeat constructor|now left]. Qed.

Lemma two_main : main test_env each_own (fun _ _ => 0) (fun _ _ => keep) None
  (Run (hashes_args (ascii "hllp") (ascii "4") (ascii "o") [ascii "a/x"; ascii "b/x"])) two_disk (Ret two_after).
Proof.
  rewrite main_hllp; [|reflexivity|exact I|reflexivity]. unfold run_plus.
  rewrite (impl_hashes test_env each_own (fun _ _ => 0) _ _ _ _ (hashes_args (ascii "hllp") (ascii "4") (ascii "o") [ascii "a/x"; ascii "b/x"]) _ (ascii "4") 4
    (ascii "o") [ascii "a/x"; ascii "b/x"] two_disk (Ret two_after) eq_refl eq_refl eq_refl eq_refl eq_refl reads_4 eq_refl). exact two_pool.
Qed.

Lemma same_name_refuted : ~ forall e resolve draws ords jobs precision p output files hss d d',
  build_std e -> (forall k i, is_order (ords k i)) -> 2 * p < usize_bits e -> jobs_ok e jobs -> reads precision p -> 4 <= p <= 18 ->
  Forall2 (fun f hs => exists content, has_file resolve d f content /\ number_file 64 content hs) files hss ->
  (forall a b, resolve a = resolve b -> a = b) -> (forall a, resolve a <> None) ->
  let args := RunArgs (Some (ascii "hllp")) (Some (ascii "hashes")) (Some precision) (Some files) None None (Some output) in
  main e resolve draws ords jobs (Run args) d (Ret d') ->
  Forall (fun hs => exists path content out, has_file resolve d' path content /\ eval_hashes_plus e (ords 0) p hs = Ret out /\ estimate_file out content) hss.
Proof.
  intros H. specialize (H test_env each_own (fun _ _ => 0) (fun _ _ => keep) None (ascii "4") 4 (ascii "o") [ascii "a/x"; ascii "b/x"] [[1]; [1; 2 ^ 63]]
    two_disk two_after test_build (fun _ _ => keep_order) eq_refl I reads_4 ltac:(lia)).
  assert (F : Forall2 (fun f hs => exists content, has_file each_own two_disk f content /\ number_file 64 content hs) [ascii "a/x"; ascii "b/x"] [[1]; [1; 2 ^ 63]]).
  { repeat constructor; apply load_spec; lazy; reflexivity. }
  specialize (H F). specialize (H (fun a b E => number_inj a b (f_equal (fun o => match o with Some x => x | None => 0 end) E))).
  specialize (H ltac:(discriminate) two_main). apply Forall_inv in H. destruct H as (path & content & out & (l & _ & D) & E & C).
  assert (EO : eval_hashes_plus test_env (fun _ => keep) 4 [1] = Ret [(1, 1)]) by (lazy; reflexivity).
  rewrite EO in E. injection E as <-. pose proof (estimate_file_functional _ _ _ C (saved_estimates [(1, 1)])) as X. subst content.
  assert (Y : saved display_estimation [(1, 1)] = first_content) by reflexivity. rewrite Y in D.
  unfold two_after in D. set (f := number (ascii "o/est-p4-x")) in D.
  assert (G : forall d c l, c <> [] -> saved_disk d f c l = if l =? f then Some c else d l).
  { intros d c x Z. destruct c as [|y c]; [congruence|]. unfold saved_disk. unfold set_file. destruct (x =? f); [|reflexivity].
    f_equal. exact (write_at_end [] (y :: c)). }
  rewrite !G in D by discriminate. destruct (l =? f); [discriminate D|]. unfold two_disk in D.
  destruct (l =? number (ascii "a/x")); [discriminate D|]. destruct (l =? number (ascii "b/x")); discriminate D.
Qed.

(** ** Generating and running *)
Definition example_draws (k i : N) : N := if N.odd (k + i) then 2 ^ 63 + 1 else 1.
Definition gen_file (k : N) : list N := if k =? 0 then ascii "h/hashes-s64-r0.dat" else ascii "h/hashes-s64-r1.dat".
Definition gen_content (k : N) : list N :=
  if k =? 0 then ascii "1" ++ [10] ++ ascii "9223372036854775809" ++ [10] ++ ascii "1" ++ [10]
  else ascii "9223372036854775809" ++ [10] ++ ascii "1" ++ [10] ++ ascii "9223372036854775809" ++ [10].
Definition gen_after : disk :=
  saved_disk (saved_disk (fun _ => None) (number (gen_file 0)) (gen_content 0)) (number (gen_file 1)) (gen_content 1).
Definition run_file (k : N) : list N := if k =? 0 then ascii "o/est-p4-hashes-s64-r0.dat" else ascii "o/est-p4-hashes-s64-r1.dat".
Definition run_content : list N := ascii "1 1" ++ [10] ++ ascii "2 2" ++ [10] ++ ascii "3 2" ++ [10].
Definition run_after : disk :=
  saved_disk (saved_disk gen_after (number (run_file 0)) run_content) (number (run_file 1)) run_content.

Lemma gen_pool : pool each_own (ascii "h") (map (gen_job example_draws (ascii "64") 3) (range 2)) (fun _ => None) (Ret gen_after).
Proof. apply one_by_one_pool. reflexivity. Qed.

Definition run_job (k : N) : job :=
  hashes_job each_own 64 (fun k p nums => eval_hashes_plus test_env ((fun _ _ => keep) k) p nums) 4 k (gen_file k).

Lemma run_job_0 : run_job 0 gen_after = Ret (ascii "est-p4-hashes-s64-r0.dat", run_content).
Proof. lazy. reflexivity. Qed.
Lemma run_job_1 : run_job 1 (saved_disk gen_after (number (run_file 0)) run_content) = Ret (ascii "est-p4-hashes-s64-r1.dat", run_content).
Proof. lazy. reflexivity. Qed.

Lemma run_pool : pool each_own (ascii "o/") [run_job 0; run_job 1] gen_after (Ret run_after).
Proof.
  apply one_by_one_pool. cbn [one_by_one]. rewrite run_job_0. cbn [bind].
  change (each_own (join (ascii "o/") (ascii "est-p4-hashes-s64-r0.dat"))) with (Some (number (run_file 0))). cbv iota. rewrite run_job_1. cbn [bind]. reflexivity.
Qed.

Lemma reads_04 : reads (ascii "+04") 4.
Proof. exists [0; 4]. repeat split; [discriminate|repeat constructor|now right]. Qed.

Lemma reads_digit : forall d, d < 10 -> reads [48 + d] d.
Proof. intros d H. exists [d]. repeat split; [discriminate|repeat constructor; exact H|now left|cbn; lia]. Qed.

Lemma numeral_digit : forall d, d < 10 -> numeral d [48 + d].
Proof. intros d H. exists [d]. repeat split; [discriminate|repeat constructor; exact H|cbn; lia|]. intros ds' E. now injection E as _ <-. Qed.

Lemma gen_main : main test_env each_own example_draws (fun _ _ => keep) (Some (ascii "2"))
  (Gen (GenArgs (Some (ascii "64")) (Some (ascii "3")) (Some (ascii "2")) (Some (ascii "h")))) (fun _ => None) (Ret gen_after).
Proof. exact gen_pool. Qed.

Lemma run_main : main test_env each_own example_draws (fun _ _ => keep) None
  (Run (hashes_args (ascii "hllp") (ascii "+04") (ascii "o/") [ascii "h/hashes-s64-r0.dat"; ascii "h/hashes-s64-r1.dat"])) gen_after (Ret run_after).
Proof. exact run_pool. Qed.

Lemma files_example :
  let content path := fun d : disk => d (number path) in
  Forall2 (hashes_name (ascii "64")) (first_draws (fun r => r) 2) [ascii "hashes-s64-r0.dat"; ascii "hashes-s64-r1.dat"] /\
  Forall2 (in_directory (ascii "h")) [ascii "hashes-s64-r0.dat"; ascii "hashes-s64-r1.dat"] [ascii "h/hashes-s64-r0.dat"; ascii "h/hashes-s64-r1.dat"] /\
  separate (fun s => Some (number s)) [ascii "h/hashes-s64-r0.dat"; ascii "h/hashes-s64-r1.dat"] /\
  reads (ascii "+04") 4 /\ ~ reads (ascii "-4") 4 /\
  lines_of (ascii "7" ++ [13; 10] ++ ascii "8" ++ [10; 10] ++ ascii "9") [ascii "7"; ascii "8"; []; ascii "9"] /\
  base_name (ascii "a/../b//x.dat/./") (ascii "x.dat") /\ (forall base, ~ base_name (ascii "a/..") base) /\
  exists d', main test_env (fun s => Some (number s)) example_draws (fun _ _ => keep) (Some (ascii "2"))
      (Gen (GenArgs (Some (ascii "64")) (Some (ascii "3")) (Some (ascii "2")) (Some (ascii "h")))) (fun _ => None) (Ret d') /\
    content (ascii "h/hashes-s64-r1.dat") d' = Some (ascii "9223372036854775809" ++ [10] ++ ascii "1" ++ [10] ++ ascii "9223372036854775809" ++ [10]) /\
  exists d'', main test_env (fun s => Some (number s)) example_draws (fun _ _ => keep) None
      (Run (RunArgs (Some (ascii "hllp")) (Some (ascii "hashes")) (Some (ascii "+04")) (Some [ascii "h/hashes-s64-r0.dat"; ascii "h/hashes-s64-r1.dat"])
         None None (Some (ascii "o/")))) d' (Ret d'') /\
    content (ascii "o/est-p4-hashes-s64-r1.dat") d'' = Some (ascii "1 1" ++ [10] ++ ascii "2 2" ++ [10] ++ ascii "3 2" ++ [10]).
Proof.
  intros content. split; [|split; [|split; [|split; [|split; [|split; [|split; [|split]]]]]]].
  - constructor; [exists [48]|constructor; [exists [49]|constructor]]; (split; [|reflexivity]); [exact (numeral_digit 0 eq_refl)|exact (numeral_digit 1 eq_refl)].
  - constructor; [now apply join_spec|]. constructor; [now apply join_spec|constructor].
  - split; [|cbn; intros [X|[X|[]]]; discriminate X]. repeat constructor; [|intros []]. intros [X|[]]. apply own_inj in X. discriminate X.
  - exact reads_04.
  - intros R. pose proof (parse_reads 8 (ascii "-4") 4 R eq_refl) as X. lazy in X. discriminate X.
  - apply (lines_spec (ascii "7" ++ [13; 10] ++ ascii "8" ++ [10; 10] ++ ascii "9")).
  - now apply file_name_spec.
  - intros base B. apply file_name_spec in B. lazy in B. discriminate B.
  - exists gen_after. split; [exact gen_main|]. split; [lazy; reflexivity|]. exists run_after. split; [exact run_main|]. lazy. reflexivity.
Qed.
