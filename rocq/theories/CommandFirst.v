(** * exp.py from the hashes to the statistics *)
From Coq Require Import String.
From Coq Require Import NArith ZArith List Bool Permutation Lia.
From Verif Require Import ModelRust ModelF64 ModelEnv ModelHistory ModelFiles ModelArgs ModelExp ModelCommand Spec SpecBuild SpecEval SpecRust SpecFiles SpecExp
  SpecCommand TextFacts PathFacts FilesFacts FilesMain ModelTests Witness FilesExample RiskFacts CommandFacts ExpMain.
Import ListNotations.
Local Open Scope N_scope.

Lemma Forall2_perm_l : forall (A B : Type) (P : A -> B -> Prop) l l', Permutation l l' -> forall k, Forall2 P l k -> exists k', Permutation k k' /\ Forall2 P l' k'.
Proof.
  intros A B P l l' H. induction H as [|x l l' H IH|x y l|l1 l2 l3 H1 IH1 H2 IH2]; intros k F.
  - inversion F; subst. exists []. split; constructor.
  - inversion F as [|? b ? k0 Hx F']; subst. destruct (IH k0 F') as (k' & A1 & A2). exists (b :: k'). split; constructor; assumption.
  - inversion F as [|? b ? k0 Hx F']; subst. inversion F' as [|? b' ? k1 Hy F'']; subst. exists (b' :: b :: k1). split; [apply perm_swap|repeat constructor; assumption].
  - destruct (IH1 k F) as (k2 & A1 & A2). destruct (IH2 k2 A2) as (k3 & A3 & A4). exists k3. split; [eapply perm_trans; eassumption|exact A4].
Qed.

Lemma same_length : forall (A B : Type) (P : A -> B -> Prop) l k, Forall2 P l k -> length l = length k.
Proof. intros A B P l k F. induction F as [|x y l k _ _ IH]; cbn; congruence. Qed.

Lemma seq_increasing : forall n a, increasing (map Z.of_nat (seq a n)).
Proof.
  induction n as [|n IH]; intros a; cbn; [constructor|]. constructor; [|apply IH].
  apply Forall_map, Forall_forall. intros x Hx. apply in_seq in Hx. lia.
Qed.

Lemma nth_seq_Z : forall n j, (j < n)%nat -> nth_error (map Z.of_nat (seq 1 n)) j = Some (Z.of_nat (j + 1)).
Proof.
  intros n j H. erewrite map_nth_error; [reflexivity|]. rewrite nth_error_nth' with (d := O) by (now rewrite seq_length). f_equal. rewrite seq_nth by exact H. lia.
Qed.

(** Files with a line for each of 1, …, c. *)
Lemma count_statistics : forall c outs contents, N.of_nat c <= 2 ^ 53 -> outs <> [] ->
  Forall (fun out => length out = c /\ forall j, (j < c)%nat -> exists k, nth_error out j = Some (N.of_nat (j + 1), k) /\ k < 2 ^ 64) outs ->
  Forall2 estimate_file outs contents ->
  exists rows, calculate_statistics contents = Ret rows /\ map fst rows = map Z.of_nat (seq 1 c) /\
  forall j z errs, nth_error rows j = Some (z, errs) ->
    Forall2 (fun out x => exists k, nth_error out j = Some (Z.to_N z, k) /\ relative_error_of (Z.to_N z) k x) outs errs.
Proof.
  intros c outs contents C H0 A F. apply card_statistics; [apply seq_increasing| |exact H0| |exact F].
  - apply Forall_map, Forall_forall. intros x Hx. apply in_seq in Hx. change (2 ^ 53)%Z with 9007199254740992%Z. change (2 ^ 53) with 9007199254740992 in C. lia.
  - eapply Forall_impl; [|exact A]. cbv beta. intros out (L & G). rewrite map_length, seq_length. split; [exact L|].
    intros j Hj. destruct (G j Hj) as (k & E & B). exists k. split; [|exact B]. rewrite E. f_equal. f_equal. symmetry.
    rewrite (increasing_largest _ j (Z.of_nat (j + 1)) (seq_increasing c 1)); [lia| |now apply nth_seq_Z].
    apply Forall_map, Forall_forall. intros x _. lia.
Qed.

Section First.
Variable glob : list N -> list (list N).
Variable e : env.
Variable resolve : list N -> option N.
Variable draws : N -> N -> N.
Variable ords : N -> N -> list N -> list N.
Hypothesis HU : 0 < usize_bits e.
Variable ty size : list N.
Hypothesis HT : ty = ascii "hll" \/ ty = ascii "hllp".
Hypothesis HS : size = ascii "32" \/ size = ascii "64".
Variable p : N.
Variable lines : list N -> list (N * N) -> Prop.
Variable bits : N.
Hypothesis HD : forall k i, draws k i < 2 ^ bits.
Hypothesis RUN : forall jobs precision output files bases names paths hss d, jobs_ok e jobs -> reads precision p ->
  Forall2 (fun f hs => (exists content, has_file resolve d f content /\ number_file bits content hs)) files hss ->
  Forall (fun hs => N.of_nat (length hs) < 2 ^ usize_bits e /\ N.of_nat (length hs) < 2 ^ 64) hss ->
  Forall2 base_name files bases -> Forall2 (estimates_name p) bases names -> Forall2 (in_directory output) names paths -> separate resolve paths ->
  (forall f, In f files -> ~ In (resolve f) (map resolve paths)) ->
  let result := main e resolve draws ords jobs (Run (hashes_args ty precision output files)) d in
  (exists r, result r) /\
  forall r, result r -> exists d', r = Ret d' /\ only_changed resolve paths d d' /\
    Forall2 (fun hs path => exists content out, has_file resolve d' path content /\ lines hs out /\ estimate_file out content) hss paths.
Hypothesis ALL : forall hs out, Forall (fun x => x < 2 ^ bits) hs -> lines hs out ->
  length out = length hs /\ forall j, (j < length hs)%nat -> exists k, nth_error out j = Some (N.of_nat (j + 1), k) /\ k < 2 ^ 64.

Lemma first : forall jobs jobs' c n ks dir hnames output names paths d,
  jobs < 2 ^ usize_bits e -> jobs' < 2 ^ usize_bits e -> c <= 2 ^ 53 -> c < 2 ^ usize_bits e -> 0 < n < 2 ^ usize_bits e ->
  dir <> [] -> (forall t, dir <> 45 :: t) -> (forall dir', dir <> dir' ++ [47]) -> ~ hyphen output ->
  Permutation (first_draws (fun r => r) n) ks -> Forall2 (hashes_name size) ks hnames ->
  let files := map (fun name => dir ++ ascii "/" ++ name) hnames in
  separate resolve files -> glob (dir ++ ascii "/*.dat") = files ->
  Forall2 (estimates_name p) hnames names -> Forall2 (in_directory output) names paths -> separate resolve paths ->
  (forall f, In f files -> ~ In (resolve f) (map resolve paths)) ->
  let prepare := exp_prepare e resolve draws ords (PrepareArgs (Z.of_N jobs) size (Z.of_N c) (Z.of_N n) dir) in
  let run := exp_run glob e resolve draws ords (ExpRunArgs (Z.of_N jobs') ty (ascii "hashes") (Z.of_N p) (Some dir) None None output) in
  (exists d1 r, prepare d (Ret d1) /\ run d1 r) /\
  forall r1, prepare d r1 -> exists d1, r1 = Ret d1 /\ forall r2, run d1 r2 -> exists d2, r2 = Ret d2 /\ only_changed resolve (files ++ paths) d d2 /\
    exists outs contents rows, Forall2 (fun k out => lines (first_draws (draws k) c) out) ks outs /\
      Forall2 (has_file resolve d2) paths contents /\ Forall2 estimate_file outs contents /\
      calculate_statistics contents = Ret rows /\ map fst rows = map Z.of_nat (seq 1 (N.to_nat c)) /\
      forall j z errs, nth_error rows j = Some (z, errs) ->
        Forall2 (fun out x => exists k, nth_error out j = Some (Z.to_N z, k) /\ relative_error_of (Z.to_N z) k x) outs errs.
Proof.
  intros jobs jobs' c n ks dir hnames output names paths d J J' C53 CU Nn D0 D1 D2 O PK HN files SF GL EN PN SP AP prepare run.
  assert (NN : forall k, numeral k (display_uint k)) by apply display_numeral.
  assert (EQ : forall m s, numeral m s -> s = display_uint m) by (intros m s Hs; now apply (proj1 FilesExample.display_spec)).
  assert (Q1 : forall r, prepare d r <-> main e resolve draws ords (Some (display_uint jobs))
    (Gen (GenArgs (Some size) (Some (display_uint c)) (Some (display_uint n)) (Some dir))) d r).
  { intros r. destruct (prepare_exact e resolve draws ords (PrepareArgs (Z.of_N jobs) size (Z.of_N c) (Z.of_N n) dir) d r HS) as [H _].
    destruct H as (j & c' & n' & Hj & Hc & Hn & H).
    { cbn. repeat split; try lia. intros (x & t & ->). now apply (D1 (x :: t)). }
    cbn [a_jobs a_size a_count a_runs a_output] in *. rewrite !N2Z.id in *. rewrite (EQ _ _ Hj), (EQ _ _ Hc), (EQ _ _ Hn) in H. exact H. }
  assert (FN : files <> []).
  { unfold files. intros E. apply map_eq_nil in E. subst hnames. inversion HN; subst. apply Permutation_sym, Permutation_nil in PK.
    unfold first_draws in PK. apply map_eq_nil in PK. destruct (N.to_nat n) eqn:Z0; [lia|discriminate PK]. }
  assert (Q2 : forall d1 r, run d1 r <-> main e resolve draws ords (Some (display_uint jobs')) (Run (hashes_args ty (display_uint p) output files)) d1 r).
  { intros d1 r. destruct (hashes_exact glob e resolve draws ords (ExpRunArgs (Z.of_N jobs') ty (ascii "hashes") (Z.of_N p) (Some dir) None None output) d1 r HT eq_refl) as [H _].
    - cbn [x_input]. rewrite GL. unfold files. apply Forall_map, Forall_forall. intros x _. exists x. reflexivity.
    - destruct H as (j & q & Hj & Hq & H).
      { cbn [x_input x_jobs x_precision x_output]. rewrite GL. repeat split; try lia; assumption. }
      cbn [x_input x_jobs x_precision x_output x_type] in *. rewrite GL in H. rewrite !N2Z.id in *. rewrite (EQ _ _ Hj), (EQ _ _ Hq) in H. exact H. }
  destruct (Forall2_perm_l _ _ _ _ _ (Permutation_sym PK) _ HN) as (gnames & PG & HG).
  set (gfiles := map (fun name => dir ++ ascii "/" ++ name) gnames).
  assert (PF : Permutation files gfiles) by (apply Permutation_map, PG).
  assert (ID : forall l, Forall2 (in_directory dir) l (map (fun name => dir ++ ascii "/" ++ name) l)).
  { induction l as [|x l IH]; constructor; [|exact IH]. right; right. repeat split; assumption. }
  assert (SG : separate resolve gfiles).
  { destruct SF as (S1 & S2). split; [eapply Permutation_NoDup; [apply Permutation_map; exact PF|exact S1]|].
    intros I. apply S2. eapply Permutation_in; [apply Permutation_sym, Permutation_map; exact PF|exact I]. }
  destruct (gen_ok e resolve draws ords (Some (display_uint jobs)) size (display_uint c) (display_uint n) dir c n gnames gfiles d HU) as (G1 & G2);
    [exists jobs; split; [now apply numeral_reads|exact J]|exact HS|now apply numeral_reads|exact CU|now apply numeral_reads|apply Nn|exact HG|apply ID|exact SG|].
  assert (X : forall d1, only_changed resolve gfiles d d1 ->
    Forall2 (fun k path => exists content, has_file resolve d1 path content /\ numeral_file (first_draws (draws k) c) content) (first_draws (fun r => r) n) gfiles ->
    (exists r, run d1 r) /\ forall r2, run d1 r2 -> exists d2, r2 = Ret d2 /\ only_changed resolve (files ++ paths) d d2 /\
    exists outs contents rows, Forall2 (fun k out => lines (first_draws (draws k) c) out) ks outs /\
      Forall2 (has_file resolve d2) paths contents /\ Forall2 estimate_file outs contents /\
      calculate_statistics contents = Ret rows /\ map fst rows = map Z.of_nat (seq 1 (N.to_nat c)) /\
      forall j z errs, nth_error rows j = Some (z, errs) ->
        Forall2 (fun out x => exists k, nth_error out j = Some (Z.to_N z, k) /\ relative_error_of (Z.to_N z) k x) outs errs).
  { intros d1 OC F.
    assert (F1 : Forall2 (fun k f => exists content, has_file resolve d1 f content /\ numeral_file (first_draws (draws k) c) content) ks files).
    { assert (ON : forall k name, In k ks -> hashes_name size k name -> exists content,
        has_file resolve d1 (dir ++ ascii "/" ++ name) content /\ numeral_file (first_draws (draws k) c) content).
      { intros k name Ik Hk. assert (Ik' : In k (first_draws (fun r => r) n)) by (eapply Permutation_in; [apply Permutation_sym, PK|exact Ik]).
        revert Ik' HG F. unfold gfiles. clear - Hk EQ. generalize (first_draws (fun r => r) n). intros l. revert gnames.
        induction l as [|k0 l IH]; intros gnames I HG F; [destruct I|]. inversion HG as [|? nm ? gn Hnm HG']; subst. cbn in F. inversion F as [|? ? ? ? F0 F']; subst.
        destruct I as [->|I]; [|exact (IH gn I HG' F')].
        assert (nm = name) as <-; [|exact F0]. destruct Hk as (s & A & ->). destruct Hnm as (s' & A' & ->). now rewrite (EQ _ _ A), (EQ _ _ A'). }
      unfold files. clear - HN ON. induction HN as [|k nm ks hn Hk _ IH]; constructor; [now apply ON; [left|]|]. apply IH. intros k' nm' I. apply ON. now right. }
    destruct (RUN (Some (display_uint jobs')) (display_uint p) output files hnames names paths (map (fun k => first_draws (draws k) c) ks) d1) as (R1 & R2).
    - exists jobs'. split; [now apply numeral_reads|exact J'].
    - now apply numeral_reads.
    - clear - F1 HD. induction F1 as [|k path ks paths (content & A & B) _ IH]; constructor; [|exact IH]. exists content. split; [exact A|].
      apply saved_loads; [|exact B]. unfold first_draws. apply Forall_map, Forall_forall. intros; apply HD.
    - apply Forall_map, Forall_forall. intros k _. unfold first_draws. rewrite map_length, seq_length, N2Nat.id. split; [exact CU|].
      change (2 ^ 53) with 9007199254740992 in C53. change (2 ^ 64) with 18446744073709551616. lia.
    - unfold files. clear - HN ID HS. induction HN as [|k nm ks hn Hk HN' IH]; constructor; [|exact IH].
      eapply base_in_directory; [|pose proof (ID [nm]) as I; inversion I; eassumption].
      eapply hashes_name_plain; [|exact Hk]. destruct HS as [-> | ->]; cbn; intros [X|[X|[]]]; discriminate X.
    - exact EN.
    - exact PN.
    - exact SP.
    - exact AP.
    - split; [destruct R1 as (r & R1); exists r; exact (proj2 (Q2 d1 r) R1)|]. intros r2 Hr. destruct (R2 r2 (proj1 (Q2 d1 r2) Hr)) as (d2 & -> & OC' & F2).
      exists d2. split; [reflexivity|]. split.
      + intros l I. rewrite map_app in I. rewrite OC'; [apply OC|]; intros I'; apply I, in_or_app; [left|now right].
        eapply Permutation_in; [apply Permutation_sym, Permutation_map; exact PF|exact I'].
      + assert (Q : exists outs contents, Forall2 (fun k out => lines (first_draws (draws k) c) out) ks outs /\
          Forall2 (has_file resolve d2) paths contents /\ Forall2 estimate_file outs contents).
        { clear - F2. revert paths F2. induction ks as [|k l IH]; intros paths F2; inversion F2 as [|? path ? paths' (content & out & H1 & H2 & H3) F3]; subst.
          - exists [], []. repeat split; constructor.
          - destruct (IH paths' F3) as (outs & contents & A & B & D). exists (out :: outs), (content :: contents). repeat split; now constructor. }
        destruct Q as (outs & contents & A & B & D). exists outs, contents.
        destruct (count_statistics (N.to_nat c) outs contents) as (rows & T1 & T2 & T3).
        * now rewrite N2Nat.id.
        * intros ->. inversion A; subst. apply Permutation_sym, Permutation_nil in PK. unfold first_draws in PK. apply map_eq_nil in PK. destruct (N.to_nat n) eqn:Z0; [lia|discriminate PK].
        * clear - A ALL HD. induction A as [|k out ks outs H _ IH]; constructor; [|exact IH].
          destruct (ALL _ _ ltac:(unfold first_draws; apply Forall_map, Forall_forall; intros; apply HD) H) as (L & G).
          unfold first_draws in L, G. rewrite map_length, seq_length in L, G. split; assumption.
        * exact D.
        * exists rows. tauto. }
  split.
  - destruct G1 as (r & G1). destruct (G2 r G1) as (d1 & -> & OC & F). destruct (X d1 OC F) as ((r & R) & _). exists d1, r. split; [exact (proj2 (Q1 _) G1)|exact R].
  - intros r1 P1. destruct (G2 r1 (proj1 (Q1 r1) P1)) as (d1 & -> & OC & F). exists d1. split; [reflexivity|]. apply X; assumption.
Qed.
End First.

Lemma plus_all : forall e p hs out, build_std e -> 4 <= p <= 18 -> 2 * p < usize_bits e -> Forall (fun x => x < 2 ^ 64) hs -> plus_lines e p hs out ->
  length out = length hs /\ forall j, (j < length hs)%nat -> exists k, nth_error out j = Some (N.of_nat (j + 1), k) /\ k < 2 ^ 64.
Proof.
  intros e p hs out Hb Hp Hw Hd (L & H). split; [exact L|]. intros j Hj.
  assert (D : Forall (fun x => x < 2 ^ 64) (firstn (j + 1) hs)) by (apply Forall_forall; intros x I; rewrite Forall_forall in Hd; apply Hd; rewrite <- (firstn_skipn (j + 1) hs); apply in_or_app; now left).
  destruct (inserts_ok p (firstn (j + 1) hs) _ Hp Hw D) as (V & W & P & HH).
  destruct (H j N (fun l => l) (inserts p (firstn (j + 1) hs)) Hj V W) as (c & k & _ & S & E).
  - intros l; apply Permutation_refl.
  - exact P.
  - intros x. now rewrite HH.
  - exists k. split; [exact E|now apply (shown_bound c)].
Qed.

Lemma pf_all : forall e p hs out, build e -> 4 <= p <= 16 -> 2 * p < usize_bits e -> Forall (fun x => x < 2 ^ 32) hs -> pf_lines e p hs out ->
  length out = length hs /\ forall j, (j < length hs)%nat -> exists k, nth_error out j = Some (N.of_nat (j + 1), k) /\ k < 2 ^ 64.
Proof.
  intros e p hs out Hb Hp Hw Hd (L & H). split; [exact L|]. intros j Hj.
  assert (D : Forall (fun x => x < 2 ^ 32) (firstn (j + 1) hs)) by (apply Forall_forall; intros x I; rewrite Forall_forall in Hd; apply Hd; rewrite <- (firstn_skipn (j + 1) hs); apply in_or_app; now left).
  assert (D64 : Forall (fun x => x < 2 ^ 64) (firstn (j + 1) hs)).
  { eapply Forall_impl; [|exact D]. cbv beta. intros a Ha. change (2 ^ 64) with 18446744073709551616. change (2 ^ 32) with 4294967296 in Ha. lia. }
  destruct (inserts_ok p (firstn (j + 1) hs) _ ltac:(lia) Hw D64) as (_ & W & P & HH).
  assert (V : valid MAX_PF (inserts p (firstn (j + 1) hs))).
  { clear - Hp. induction (firstn (j + 1) hs) as [|x l IH]; [exact Hp|]. split; [intros l'; apply Permutation_refl|exact IH]. }
  destruct (H j N (inserts p (firstn (j + 1) hs)) Hj V W P) as (c & k & _ & S & E).
  - rewrite HH. rewrite map_ext_in with (g := fun x => x); [rewrite map_id; intros x; reflexivity|].
    intros x I. apply N.mod_small. rewrite Forall_forall in D. now apply D.
  - exists k. split; [exact E|now apply (shown_bound c)].
Qed.

Lemma first_plus : forall glob e resolve draws ords, 0 < usize_bits e ->
  forall jobs jobs' c n ks p dir hnames output names paths d,
  build_std e -> (forall k i, is_order (ords k i)) -> 2 * p < usize_bits e -> 4 <= p <= 18 -> (forall k i, draws k i < 2 ^ 64) ->
  jobs < 2 ^ usize_bits e -> jobs' < 2 ^ usize_bits e -> c <= 2 ^ 53 -> c < 2 ^ usize_bits e -> 0 < n < 2 ^ usize_bits e ->
  dir <> [] -> (forall t, dir <> 45 :: t) -> (forall dir', dir <> dir' ++ [47]) -> ~ hyphen output ->
  Permutation (first_draws (fun r => r) n) ks -> Forall2 (hashes_name (ascii "64")) ks hnames ->
  let files := map (fun name => dir ++ ascii "/" ++ name) hnames in
  separate resolve files -> glob (dir ++ ascii "/*.dat") = files ->
  Forall2 (estimates_name p) hnames names -> Forall2 (in_directory output) names paths -> separate resolve paths ->
  (forall f, In f files -> ~ In (resolve f) (map resolve paths)) ->
  let prepare := exp_prepare e resolve draws ords (PrepareArgs (Z.of_N jobs) (ascii "64") (Z.of_N c) (Z.of_N n) dir) in
  let run := exp_run glob e resolve draws ords (ExpRunArgs (Z.of_N jobs') (ascii "hllp") (ascii "hashes") (Z.of_N p) (Some dir) None None output) in
  (exists d1 r, prepare d (Ret d1) /\ run d1 r) /\
  forall r1, prepare d r1 -> exists d1, r1 = Ret d1 /\ forall r2, run d1 r2 -> exists d2, r2 = Ret d2 /\ only_changed resolve (files ++ paths) d d2 /\
    exists outs contents rows, Forall2 (fun k out => plus_lines e p (first_draws (draws k) c) out) ks outs /\
      Forall2 (has_file resolve d2) paths contents /\ Forall2 estimate_file outs contents /\
      calculate_statistics contents = Ret rows /\ map fst rows = map Z.of_nat (seq 1 (N.to_nat c)) /\
      forall j z errs, nth_error rows j = Some (z, errs) ->
        Forall2 (fun out x => exists k, nth_error out j = Some (Z.to_N z, k) /\ relative_error_of (Z.to_N z) k x) outs errs.
Proof.
  intros glob e resolve draws ords U jobs jobs' c n ks p dir hnames output names paths d B O W P D.
  apply (first glob e resolve draws ords U (ascii "hllp") (ascii "64")) with (bits := 64); [now right|now right|exact D| |].
  - intros. eapply run_hllp_hashes; eassumption.
  - intros hs out. now apply plus_all.
Qed.

Lemma first_pf : forall glob e resolve draws ords, 0 < usize_bits e ->
  forall jobs jobs' c n ks p dir hnames output names paths d,
  build e -> 2 * p < usize_bits e -> 4 <= p <= 16 -> (forall k i, draws k i < 2 ^ 32) ->
  jobs < 2 ^ usize_bits e -> jobs' < 2 ^ usize_bits e -> c <= 2 ^ 53 -> c < 2 ^ usize_bits e -> 0 < n < 2 ^ usize_bits e ->
  dir <> [] -> (forall t, dir <> 45 :: t) -> (forall dir', dir <> dir' ++ [47]) -> ~ hyphen output ->
  Permutation (first_draws (fun r => r) n) ks -> Forall2 (hashes_name (ascii "32")) ks hnames ->
  let files := map (fun name => dir ++ ascii "/" ++ name) hnames in
  separate resolve files -> glob (dir ++ ascii "/*.dat") = files ->
  Forall2 (estimates_name p) hnames names -> Forall2 (in_directory output) names paths -> separate resolve paths ->
  (forall f, In f files -> ~ In (resolve f) (map resolve paths)) ->
  let prepare := exp_prepare e resolve draws ords (PrepareArgs (Z.of_N jobs) (ascii "32") (Z.of_N c) (Z.of_N n) dir) in
  let run := exp_run glob e resolve draws ords (ExpRunArgs (Z.of_N jobs') (ascii "hll") (ascii "hashes") (Z.of_N p) (Some dir) None None output) in
  (exists d1 r, prepare d (Ret d1) /\ run d1 r) /\
  forall r1, prepare d r1 -> exists d1, r1 = Ret d1 /\ forall r2, run d1 r2 -> exists d2, r2 = Ret d2 /\ only_changed resolve (files ++ paths) d d2 /\
    exists outs contents rows, Forall2 (fun k out => pf_lines e p (first_draws (draws k) c) out) ks outs /\
      Forall2 (has_file resolve d2) paths contents /\ Forall2 estimate_file outs contents /\
      calculate_statistics contents = Ret rows /\ map fst rows = map Z.of_nat (seq 1 (N.to_nat c)) /\
      forall j z errs, nth_error rows j = Some (z, errs) ->
        Forall2 (fun out x => exists k, nth_error out j = Some (Z.to_N z, k) /\ relative_error_of (Z.to_N z) k x) outs errs.
Proof.
  intros glob e resolve draws ords U jobs jobs' c n ks p dir hnames output names paths d B W P D.
  apply (first glob e resolve draws ords U (ascii "hll") (ascii "32")) with (bits := 32); [now left|now left|exact D| |].
  - intros. eapply run_hll_hashes; eassumption.
  - intros hs out. now apply pf_all.
Qed.

(** Two runs of three hashes, whose files are listed in the other order. *)
Definition listed (pattern : list N) : list (list N) :=
  if eqb_bytes pattern (ascii "h/*.dat") then [ascii "h/hashes-s64-r1.dat"; ascii "h/hashes-s64-r0.dat"] else [].

Lemma first_example :
  let place s := Some (number s) in
  let prepare := exp_prepare test_env place example_draws (fun _ _ => keep) (PrepareArgs 2 (ascii "64") 3 2 (ascii "h")) in
  let run := exp_run listed test_env place example_draws (fun _ _ => keep) (ExpRunArgs 1 (ascii "hllp") (ascii "hashes") 4 (Some (ascii "h")) None None (ascii "o")) in
  let paths := [ascii "o/est-p4-hashes-s64-r1.dat"; ascii "o/est-p4-hashes-s64-r0.dat"] in
  exists d1 d2 contents rows, prepare (fun _ => None) (Ret d1) /\ run d1 (Ret d2) /\ Forall2 (has_file place d2) paths contents /\
    calculate_statistics contents = Ret rows /\ map fst rows = [1; 2; 3]%Z /\ Forall (fun row => length (snd row) = 2%nat) rows.
Proof.
  intros place prepare run paths.
  assert (NN : forall k, numeral k (display_uint k)) by apply display_numeral.
  destruct (first_plus listed test_env place example_draws (fun _ _ => keep) eq_refl 2 1 3 2 [1; 0] 4 (ascii "h")
    [ascii "hashes-s64-r1.dat"; ascii "hashes-s64-r0.dat"] (ascii "o") [ascii "est-p4-hashes-s64-r1.dat"; ascii "est-p4-hashes-s64-r0.dat"] paths (fun _ => None))
    as ((d1 & r & P & R) & A).
  - exact test_build.
  - intros _ _ l. apply Permutation_refl.
  - reflexivity.
  - lia.
  - intros k i. unfold example_draws. destruct (N.odd (k + i)); reflexivity.
  - reflexivity.
  - reflexivity.
  - discriminate.
  - reflexivity.
  - split; reflexivity.
  - discriminate.
  - discriminate.
  - intros dir' H. destruct dir' as [|a [|b dir']]; discriminate H.
  - intros (x & t & H). discriminate H.
  - apply perm_swap.
  - repeat apply Forall2_cons; [| |apply Forall2_nil]; [exists (ascii "1")|exists (ascii "0")]; (split; [|reflexivity]); [exact (NN 1)|exact (NN 0)].
  - split; [|cbn; intros [X|[X|[]]]; discriminate X]. repeat constructor; [|intros []]. intros [X|[]]. apply own_inj in X. discriminate X.
  - reflexivity.
  - repeat apply Forall2_cons; [| |apply Forall2_nil]; exists (ascii "4"); (split; [exact (NN 4)|reflexivity]).
  - repeat apply Forall2_cons; [| |apply Forall2_nil]; now apply join_spec.
  - split; [|cbn; intros [X|[X|[]]]; discriminate X]. repeat constructor; [|intros []]. intros [X|[]]. apply own_inj in X. discriminate X.
  - intros f [<-|[<-|[]]] [X|[X|[]]]; apply own_inj in X; discriminate X.
  - destruct (A _ P) as (d & E & B). injection E as <-. destruct (B r R) as (d2 & -> & _ & outs & contents & rows & G & F & _ & S & M & V).
    exists d1, d2, contents, rows. split; [exact P|]. split; [exact R|]. split; [exact F|]. split; [exact S|]. split; [exact M|].
    apply Forall_forall. intros (z & errs) I. apply In_nth_error in I. destruct I as (j & I). pose proof (same_length _ _ _ _ _ (V j z errs I)) as L.
    cbn [snd]. rewrite <- L. symmetry. exact (same_length _ _ _ _ _ G).
Qed.
