(** * The order in which exp.py finds the files *)
From Coq Require Import NArith ZArith Reals List Permutation Bool Lia Lra.
From Flocq Require Import Core BinarySingleNaN.
From Verif Require Import ModelRust ModelF64 ModelPlus ModelFiles ModelExp ModelStats ModelPlot Spec SpecRust SpecFiles SpecExp TextFacts ExpStats ExpMain PlotFacts.
Import ListNotations.

Lemma map_M_each : forall A B (f : A -> M B) l bs, map_M f l = Ret bs -> Forall2 (fun a b => f a = Ret b) l bs.
Proof.
  intros A B f l. induction l as [|a l IH]; intros bs H; cbn [map_M] in H.
  - injection H as <-. constructor.
  - destruct (f a) as [b| |] eqn:E; try discriminate. cbn [bind] in H. destruct (map_M f l) as [bs'| |] eqn:E'; try discriminate.
    cbn [bind] in H. injection H as <-. constructor; [exact E|]. now apply IH.
Qed.
Lemma each_unique : forall A B (f : A -> M B) l bs bs', Forall2 (fun a b => f a = Ret b) l bs -> Forall2 (fun a b => f a = Ret b) l bs' -> bs = bs'.
Proof.
  intros A B f l bs bs' H. revert bs'. induction H as [|a b l bs E H IH]; intros bs' H'; inversion H' as [|a' b' l' bs'' E' H'']; subst; [reflexivity|].
  rewrite E in E'. injection E' as <-. f_equal. now apply IH.
Qed.
Lemma map_M_perm : forall A B (f : A -> M B) l l' bs bs', Permutation l l' -> map_M f l = Ret bs -> map_M f l' = Ret bs' -> Permutation bs bs'.
Proof.
  intros A B f l l' bs bs' P H H'. apply map_M_each in H, H'. destruct (Permutation_Forall2 P H) as (bs'' & P' & H'').
  now rewrite (each_unique _ _ _ _ _ _ H' H'').
Qed.
Lemma filter_perm : forall A (f : A -> bool) l l', Permutation l l' -> Permutation (filter f l) (filter f l').
Proof.
  intros A f l l' P. induction P as [|x l l' P IH|x y l|l l' l'' P1 IH1 P2 IH2]; cbn [filter].
  - constructor.
  - destruct (f x); [now constructor|exact IH].
  - destruct (f x), (f y); try reflexivity. apply perm_swap.
  - now transitivity (filter f l').
Qed.

(** The rows have the same errors. *)
Lemma stats_perm : forall fuel files files' rows rows', Permutation files files' ->
  stats_while fuel files = Ret rows -> stats_while fuel files' = Ret rows' -> Forall2 (fun r r' => Permutation (snd r) (snd r')) rows rows'.
Proof.
  induction fuel as [|fuel IH]; intros files files' rows rows' P H H'; [discriminate|]. cbn [stats_while] in H, H'.
  assert (PL := filter_perm _ (fun l => negb (eqb_bytes l [])) _ _ (Permutation_map fst (Permutation_map readline P))).
  set (lines := filter _ (map fst (map readline files))) in *. set (lines' := filter _ (map fst (map readline files'))) in *.
  clearbody lines lines'. destruct lines as [|a l].
  - apply Permutation_nil in PL. subst lines'. injection H as <-. injection H' as <-. constructor.
  - destruct lines' as [|a' l']. { symmetry in PL. apply Permutation_nil in PL. discriminate. }
    destruct (map_M _ (a :: l)) as [vs| |] eqn:V in H; try discriminate. cbn [bind] in H.
    destruct (map_M _ (a' :: l')) as [vs'| |] eqn:V' in H'; try discriminate. cbn [bind] in H'.
    assert (PV := map_M_perm _ _ _ _ _ _ _ PL V V'). clear V V' PL.
    destruct (map_M relative_error vs) as [es| |] eqn:E; try discriminate. cbn [bind] in H.
    destruct (map_M relative_error vs') as [es'| |] eqn:E'; try discriminate. cbn [bind] in H'.
    assert (PE := map_M_perm _ _ _ _ _ _ _ PV E E'). clear E E' PV.
    destruct (unwrap (nth_error vs 0)) as [v| |]; try discriminate. cbn [bind] in H.
    destruct (unwrap (nth_error v 0)) as [c| |]; try discriminate. cbn [bind] in H.
    destruct (int_of (Float c)) as [z| |]; try discriminate. cbn [bind] in H.
    destruct (unwrap (nth_error vs' 0)) as [v'| |]; try discriminate. cbn [bind] in H'.
    destruct (unwrap (nth_error v' 0)) as [c'| |]; try discriminate. cbn [bind] in H'.
    destruct (int_of (Float c')) as [z'| |]; try discriminate. cbn [bind] in H'.
    destruct (stats_while fuel (map snd (map readline files))) as [rest| |] eqn:R; try discriminate. cbn [bind] in H.
    destruct (stats_while fuel (map snd (map readline files'))) as [rest'| |] eqn:R'; try discriminate. cbn [bind] in H'.
    injection H as <-. injection H' as <-. constructor; [exact PE|].
    exact (IH _ _ _ _ (Permutation_map snd (Permutation_map readline P)) R R').
Qed.
Lemma concat_perm : forall (A : Type) (l l' : list (list A)), Permutation l l' -> length (concat l) = length (concat l').
Proof.
  intros A l l' P. induction P as [|x l l' P IH|x y l|l l' l'' P1 IH1 P2 IH2]; cbn [concat].
  - reflexivity.
  - rewrite !app_length. now rewrite IH.
  - rewrite !app_length. lia.
  - now rewrite IH1.
Qed.

(** The results do not depend on the order. *)
Lemma added_perm : forall l x, added l x -> forall l', Permutation l l' -> added l' x.
Proof.
  intros l x H l' P. destruct H as [sign|x|l1 l2 l x y H1 H2 P'].
  - apply Permutation_nil in P. subst. constructor.
  - apply Permutation_length_1_inv in P. subst. constructor.
  - apply (Added_two l1 l2); [exact H1|exact H2|]. now transitivity l.
Qed.
Lemma mean_perm : forall l l' m, Permutation l l' -> np_mean l m -> np_mean l' m.
Proof. intros l l' m P (s & A & ->). exists s. split; [now apply (added_perm l)|]. now rewrite (Permutation_length P). Qed.
Lemma median_perm : forall l l' m, Permutation l l' -> np_median l m -> np_median l' m.
Proof.
  intros l l' m P (part & P' & H). exists part. split; [transitivity l; [now symmetry|exact P']|]. now rewrite <- (Permutation_length P).
Qed.
Lemma std_perm : forall l l' s, Permutation l l' -> np_std l s -> np_std l' s.
Proof.
  intros l l' s P (m & v & H1 & H2 & ->). exists m, v. split; [now apply (mean_perm l)|]. split; [|reflexivity].
  apply (mean_perm (map (fun x => fmul (fsub x m) (fsub x m)) l)); [now apply Permutation_map|exact H2].
Qed.
Lemma each_row : forall (P : list f64 -> f64 -> Prop) (rows rows' : list (Z * list f64)) ms,
  (forall l l' m, Permutation l l' -> P l m -> P l' m) -> Forall2 (fun r r' => Permutation (snd r) (snd r')) rows rows' ->
  Forall2 (fun row m => P (snd row) m) rows ms -> Forall2 (fun row m => P (snd row) m) rows' ms.
Proof.
  intros P rows rows' ms HP H. revert ms. induction H as [|r r' rows rows' E H IH]; intros ms F; inversion F; subst; constructor.
  - eapply HP; eassumption.
  - now apply IH.
Qed.

Lemma in_row : forall (A : Type) (files : list (list A)) j a, In a (row files j) -> exists f, In f files /\ nth_error f j = Some a.
Proof.
  intros A files j a H. apply in_flat_map in H. destruct H as (f & I & H). exists f. split; [exact I|].
  destruct (nth_error f j); [|contradiction]. now destruct H as [->|[]].
Qed.

Lemma longest_perm : forall l l' : list nat, Permutation l l' -> fold_right Nat.max O l = fold_right Nat.max O l'.
Proof.
  intros l l' P. induction P as [|x l l' P IH|x y l|l l' l'' P1 IH1 P2 IH2]; cbn [fold_right]; try lia.
Qed.
Lemma same_firsts : forall (A : Type) (rows rows' : list (Z * A)), length rows = length rows' ->
  (forall j r r', nth_error rows j = Some r -> nth_error rows' j = Some r' -> fst r = fst r') -> map fst rows = map fst rows'.
Proof.
  intros A rows. induction rows as [|r rows IH]; intros [|r' rows'] L H; cbn [length] in L; try discriminate; [reflexivity|].
  cbn [map]. rewrite (H O r r' eq_refl eq_refl). f_equal. apply IH; [lia|]. intros j a b Ha Hb. exact (H (S j) a b Ha Hb).
Qed.

Section Order.
Variables files : list (list (N * N)).
Variables contents contents' : list (list N).
Hypothesis E : Forall2 estimate_file files contents.
Hypothesis B : List.Forall (List.Forall (fun est => (1 <= fst est <= 2 ^ 53)%N /\ (snd est < 2 ^ 64)%N)) files.
Hypothesis P : Permutation contents contents'.

Lemma reordered : exists files', Permutation files files' /\ Forall2 estimate_file files' contents' /\
  List.Forall (List.Forall (fun est => (1 <= fst est <= 2 ^ 53)%N /\ (snd est < 2 ^ 64)%N)) files'.
Proof.
  assert (F : Forall2 (fun c f => estimate_file f c) contents files).
  { clear B P. induction E; constructor; auto. }
  destruct (Permutation_Forall2 P F) as (files' & P' & F'). exists files'. split; [exact P'|]. split.
  - clear - F'. induction F'; constructor; auto.
  - apply Forall_forall. intros f I. rewrite Forall_forall in B. apply B. symmetry in P'. exact (Permutation_in _ P' I).
Qed.

Lemma order_rows : exists rows rows', calculate_statistics contents = Ret rows /\ calculate_statistics contents' = Ret rows' /\
  Forall2 (fun r r' => Permutation (snd r) (snd r')) rows rows'.
Proof.
  destruct reordered as (files' & P' & E' & B').
  destruct (row_statistics files contents E B) as (rows & C & _ & _). destruct (row_statistics files' contents' E' B') as (rows' & C' & _ & _).
  exists rows, rows'. split; [exact C|]. split; [exact C'|]. unfold calculate_statistics in C, C'.
  rewrite <- (concat_perm _ _ _ P) in C'. exact (stats_perm _ _ _ _ _ P C C').
Qed.

Hypothesis SL : forall f g j a b, In f files -> In g files -> nth_error f j = Some a -> nth_error g j = Some b -> fst a = fst b.
Lemma order_cards : forall rows rows', calculate_statistics contents = Ret rows -> calculate_statistics contents' = Ret rows' -> map fst rows = map fst rows'.
Proof.
  intros rows rows' C C'. destruct reordered as (files' & P' & E' & B').
  destruct (row_statistics files contents E B) as (q & Q & L & H). destruct (row_statistics files' contents' E' B') as (q' & Q' & L' & H').
  rewrite C in Q. rewrite C' in Q'. injection Q as <-. injection Q' as <-. apply same_firsts.
  - rewrite L, L'. apply longest_perm. now apply Permutation_map.
  - intros j r r' Hr Hr'. destruct (H j r Hr) as (c & k & rest & R & -> & _). destruct (H' j r' Hr') as (c' & k' & rest' & R' & -> & _). f_equal.
    destruct (in_row _ files j (c, k)) as (f & If & Nf); [rewrite R; now left|].
    destruct (in_row _ files' j (c', k')) as (g & Ig & Ng); [rewrite R'; now left|].
    symmetry in P'. exact (SL f g j _ _ If (Permutation_in _ P' Ig) Nf Ng).
Qed.

Lemma order_half : forall hll hashes r, plot hll hashes contents r -> plot hll hashes contents' r.
Proof.
  intros hll hashes r. destruct order_rows as (rows & rows' & C & C' & F). unfold plot. rewrite C, C'.
  intros (means & medians & stdevs & M1 & M2 & M3 & ->). exists means, medians, stdevs.
  split; [exact (each_row np_mean _ _ _ mean_perm F M1)|]. split; [exact (each_row np_median _ _ _ median_perm F M2)|].
  split; [exact (each_row np_std _ _ _ std_perm F M3)|]. now rewrite (order_cards rows rows' C C').
Qed.
End Order.

Lemma order_plot : forall hll hashes files contents contents' r, Forall2 estimate_file files contents ->
  List.Forall (List.Forall (fun est => (1 <= fst est <= 2 ^ 53)%N /\ (snd est < 2 ^ 64)%N)) files ->
  (forall f g j a b, In f files -> In g files -> nth_error f j = Some a -> nth_error g j = Some b -> fst a = fst b) ->
  Permutation contents contents' -> (plot hll hashes contents r <-> plot hll hashes contents' r).
Proof.
  intros hll hashes files contents contents' r E B SL P. split.
  - now apply (order_half files).
  - destruct (reordered files contents contents' E B P) as (files' & P' & E' & B'). apply (order_half files'); try assumption.
    + now symmetry.
    + symmetry in P'. intros f g j a b If Ig. exact (SL f g j a b (Permutation_in _ P' If) (Permutation_in _ P' Ig)).
Qed.

(** An empty file is never seen. *)
Lemma empty_while : forall fuel l1 l2, stats_while fuel (l1 ++ [] :: l2) = stats_while fuel (l1 ++ l2).
Proof.
  induction fuel as [|fuel IH]; intros l1 l2; [reflexivity|]. cbn [stats_while]. rewrite !map_app, !filter_app. cbn [map readline fst snd filter].
  change (negb (eqb_bytes [] [])) with false. cbv iota. rewrite IH. reflexivity.
Qed.
Lemma empty_plot : forall hll hashes l1 l2 r, plot hll hashes (l1 ++ [] :: l2) r <-> plot hll hashes (l1 ++ l2) r.
Proof.
  intros hll hashes l1 l2 r. unfold plot, calculate_statistics. rewrite empty_while, !concat_app. reflexivity.
Qed.

(** Computed: two files of different lengths in the two orders; and two that disagree about the cardinality of their line. *)
Lemma order_example :
  let a := [49; 32; 49; 10; 50; 32; 51; 10]%N in let b := [49; 32; 50; 10]%N in let c := [51; 32; 51; 10]%N in
  Forall2 estimate_file [[(1, 1); (2, 3)]; [(1, 2)]]%N [a; b] /\ Permutation [a; b] [b; a] /\
  (exists g, plot true true [a; b] (Ret g) /\ plot true true [b; a] (Ret g) /\ g_x g = [1; 2]%Z) /\
  (exists rows rows', calculate_statistics [b; c] = Ret rows /\ calculate_statistics [c; b] = Ret rows' /\ map fst rows = [1]%Z /\ map fst rows' = [3]%Z).
Proof.
  cbv zeta. destruct plot_example as (F & B & _). split; [exact F|]. split; [apply perm_swap|]. split.
  - destruct (plot_ok true true _ _ F B) as ((r & R) & H).
    { cbn [length]. rewrite S_INR, S_INR. cbn [INR]. apply Rle_trans with 2%R; [lra|]. simpl; lra. }
    destruct (H r R) as (_ & H2). destruct H2 as (g & -> & _).
    { eexists. split; [now left|discriminate]. }
    { destruct plot_example as (_ & _ & B2 & _). exact B2. }
    exists g. split; [exact R|]. split.
    + refine (proj1 (order_plot true true _ _ _ (Ret g) F B _ (perm_swap _ _ _)) R).
      intros f h j x y [<-|[<-|[]]] [<-|[<-|[]]]; destruct j as [|[|j]]; cbn; intros X Y; try (destruct j); try discriminate; injection X as <-; injection Y as <-; reflexivity.
    + unfold plot in R. destruct (calculate_statistics _) as [rows| |] eqn:C in R; try discriminate.
      destruct R as (means & medians & stdevs & _ & _ & _ & D). unfold draw in D.
      assert (X : map fst rows = [1; 2]%Z).
      { assert (Y : match calculate_statistics [[49; 32; 49; 10; 50; 32; 51; 10]; [49; 32; 50; 10]]%N with Ret rows => map fst rows | _ => [] end = [1; 2]%Z) by (vm_compute; reflexivity).
        rewrite C in Y. exact Y. }
      destruct (limits true true) as ((lo & hi) & st). destruct (py_max means); try discriminate. destruct (py_max stdevs); try discriminate.
      cbn [bind] in D. destruct (arange _ _); try discriminate. cbn [bind] in D. injection D as ->. exact X.
  - assert (Y : match calculate_statistics [[49; 32; 50; 10]; [51; 32; 51; 10]]%N with Ret rows => map fst rows | _ => [] end = [1]%Z) by (vm_compute; reflexivity).
    assert (Y' : match calculate_statistics [[51; 32; 51; 10]; [49; 32; 50; 10]]%N with Ret rows => map fst rows | _ => [] end = [3]%Z) by (vm_compute; reflexivity).
    revert Y Y'. generalize (calculate_statistics [[49; 32; 50; 10]; [51; 32; 51; 10]]%N) (calculate_statistics [[51; 32; 51; 10]; [49; 32; 50; 10]]%N).
    intros [rows| |] [rows'| |] Y Y'; try discriminate. now exists rows, rows'.
Qed.
