(** * The jobs of the thread pool in any interleaving *)
From Coq Require Import NArith ZArith List Bool Lia.
From Verif Require Import ModelRust ModelF64 ModelEnv ModelFiles SpecFiles TextFacts.
Import ListNotations.
Local Open Scope N_scope.

Lemma forall2_length : forall {A B : Type} (R : A -> B -> Prop) a b, Forall2 R a b -> length a = length b.
Proof. intros A B R a b H. induction H; cbn; congruence. Qed.

Section Pool.
Variable resolve : list N -> option N.
Variable output : list N.

Lemma set_file_same : forall d l b, set_file d l b l = Some b.
Proof. intros. unfold set_file. now rewrite N.eqb_refl. Qed.
Lemma set_file_other : forall d l b l', l' <> l -> set_file d l b l' = d l'.
Proof. intros d l b l' H. unfold set_file. destruct (N.eqb_spec l' l); [contradiction|reflexivity]. Qed.

Lemma write_at_end : forall old piece, write_at old (length old) piece = old ++ piece.
Proof.
  intros old piece. unfold write_at. rewrite firstn_app, firstn_all, Nat.sub_diag. cbn [firstn]. rewrite app_nil_r.
  rewrite skipn_all2 by lia. now rewrite app_nil_r.
Qed.

(** ** Files that are no outputs never change *)
Definition spare (l : N) : Prop := forall name, resolve (join output name) <> Some l.
Definition own (st : status) : Prop :=
  match st with Writing l _ _ => exists name, resolve (join output name) = Some l | _ => True end.

Lemma frame_step1 : forall d st d' st', step1 resolve output d st d' st' -> own st ->
  own st' /\ forall l, spare l -> d' l = d l.
Proof.
  intros d st d' st' H O. destruct H; cbn in *; try (split; [exact I|reflexivity]).
  - split; [eauto|]. intros l' S. apply set_file_other. intros ->. exact (S _ H).
  - split; [exact O|]. intros l' S. apply set_file_other. intros ->. destruct O as (name & O). exact (S name O).
Qed.

Lemma frame : forall n s s', steps resolve output n s s' -> Forall own (snd s) ->
  Forall own (snd s') /\ forall l, spare l -> fst s' l = fst s l.
Proof.
  intros n s s' H. induction H as [s|n s s' s'' H IH T]; intros O; [split; [exact O|reflexivity]|].
  destruct (IH O) as (O' & F). destruct T as [d d' a st st' b T]. cbn [fst snd] in *. apply Forall_app in O'. destruct O' as (OA & OB).
  inversion OB as [|? ? OS OB']; subst. destruct (frame_step1 d st d' st' T OS) as (O1 & F1). split.
  - apply Forall_app. split; [exact OA|]. now constructor.
  - intros l S. rewrite (F1 l S). now apply F.
Qed.

Lemma own_waiting : forall js, Forall own (map Waiting js).
Proof. induction js; constructor; [exact I|assumption]. Qed.

(** ** All jobs succeed *)
Variable d0 : disk.
(** Name, contents and file of every job. *)
Definition plan : Type := list N * list N * N.
Definition p_name (o : plan) := fst (fst o).
Definition p_content (o : plan) := snd (fst o).
Definition p_loc (o : plan) := snd o.
Variable outs : list plan.
Hypothesis Hres : Forall (fun o => resolve (join output (p_name o)) = Some (p_loc o)) outs.
Hypothesis Hdis : NoDup (map p_loc outs).

Definition agrees (d : disk) : Prop := forall l, ~ In l (map p_loc outs) -> d l = d0 l.

Definition ok (d : disk) (st : status) (o : plan) : Prop :=
  match st with
  | Waiting j => forall d', agrees d' -> j d' = Ret (p_name o, p_content o)
  | Saving n c => n = p_name o /\ c = p_content o
  | Writing l off rest => l = p_loc o /\ exists old, d l = Some old /\ off = length old /\ old ++ rest = p_content o
  | Done => d (p_loc o) = Some (p_content o)
  | Panicked => False
  end.

Definition weight (st : status) (o : plan) : nat :=
  match st with
  | Waiting _ => 3 + length (p_content o)
  | Saving _ c => 2 + length c
  | Writing _ _ rest => 1 + length rest
  | _ => 0
  end.

Lemma ok_other : forall d b o o' st, p_loc o' <> p_loc o -> ok d st o' -> ok (set_file d (p_loc o) b) st o'.
Proof.
  intros d b o o' st N H. destruct st; cbn in *; try exact H.
  - destruct H as (-> & old & D & R). split; [reflexivity|]. exists old. rewrite set_file_other by exact N. tauto.
  - now rewrite set_file_other by exact N.
Qed.

Lemma agrees_set : forall d o b, In o outs -> agrees d -> agrees (set_file d (p_loc o) b).
Proof.
  intros d o b I A l N. rewrite set_file_other; [now apply A|]. intros ->. apply N, in_map, I.
Qed.

Lemma ok_step1 : forall d st d' st' o, In o outs -> step1 resolve output d st d' st' -> agrees d -> ok d st o ->
  ok d' st' o /\ (weight st' o < weight st o)%nat /\ (d' = d \/ exists b, d' = set_file d (p_loc o) b).
Proof.
  intros d st d' st' o I H A K. assert (R : resolve (join output (p_name o)) = Some (p_loc o)) by (rewrite Forall_forall in Hres; now apply Hres).
  destruct H as [j name content E|j E|name content l E|name content E|l off piece rest old P E|l off]; cbn in K.
  - rewrite (K d A) in E. injection E as <- <-. cbn. split; [tauto|]. split; [lia|now left].
  - rewrite (K d A) in E. discriminate E.
  - destruct K as (-> & ->). rewrite R in E. injection E as <-. cbn. split; [|split; [lia|right; eauto]].
    split; [reflexivity|]. exists []. rewrite set_file_same. tauto.
  - destruct K as (-> & ->). congruence.
  - destruct K as (-> & old' & E' & -> & C). rewrite E in E'. injection E' as <-. split; [|split; [|right; eauto]].
    + cbn. split; [reflexivity|]. exists (old ++ piece). rewrite set_file_same, write_at_end, app_length, <- app_assoc. tauto.
    + cbn. rewrite app_length. destruct piece; [congruence|]. cbn. lia.
  - destruct K as (-> & old & E & _ & C). rewrite app_nil_r in C. subst old. cbn. split; [exact E|]. split; [lia|now left].
Qed.

Definition total (sts : list status) (os : list plan) : nat := fold_right (fun p n => (weight (fst p) (snd p) + n)%nat) 0%nat (combine sts os).

Lemma total_app : forall a oa b ob, length a = length oa -> total (a ++ b) (oa ++ ob) = (total a oa + total b ob)%nat.
Proof.
  unfold total. induction a as [|x a IH]; intros [|o oa] b ob L; try discriminate L; [reflexivity|]. cbn in L. injection L as L.
  cbn [app combine fold_right fst snd]. rewrite (IH oa b ob L). lia.
Qed.

Lemma split_forall2 : forall {A B : Type} (R : A -> B -> Prop) a x b os, Forall2 R (a ++ x :: b) os ->
  exists oa o ob, os = oa ++ o :: ob /\ Forall2 R a oa /\ R x o /\ Forall2 R b ob.
Proof.
  intros A B R a x b os H. apply Forall2_app_inv_l in H. destruct H as (oa & l & HA & H & ->). inversion H as [|? o ? ob X HB]; subst.
  exists oa, o, ob. tauto.
Qed.

Lemma ok_step : forall d sts d' sts', step resolve output (d, sts) (d', sts') -> agrees d -> Forall2 (ok d) sts outs ->
  agrees d' /\ Forall2 (ok d') sts' outs /\ (total sts' outs < total sts outs)%nat.
Proof.
  intros d sts d' sts' H A F. inversion H as [d1 d1' a st st' b T E1 E2]; subst. destruct (split_forall2 _ a st b outs F) as (oa & o & ob & O & FA & K & FB).
  assert (I : In o outs) by (rewrite O; apply in_or_app; right; now left).
  destruct (ok_step1 d st d' st' o I T A K) as (K' & W & D).
  assert (X : forall o', In o' (oa ++ ob) -> p_loc o' <> p_loc o).
  { intros o' I' Q. rewrite O, map_app in Hdis. cbn [map] in Hdis. apply NoDup_remove_2 in Hdis. apply Hdis. rewrite <- map_app, <- Q. apply in_map, I'. }
  assert (Y : forall sts os, (forall o', In o' os -> In o' (oa ++ ob)) -> Forall2 (ok d) sts os -> Forall2 (ok d') sts os).
  { intros ss os S G. destruct D as [->|(b' & ->)]; [exact G|]. clear - X S G. induction G as [|s o' ss os H _ IH]; constructor.
    - apply ok_other; [apply X, S; now left|exact H].
    - apply IH. intros; apply S; now right. }
  split; [destruct D as [->|(b' & ->)]; [exact A|now apply agrees_set]|]. split.
  - rewrite O. apply Forall2_app; [apply Y; [intros; apply in_or_app; now left|exact FA]|]. constructor; [exact K'|].
    apply Y; [intros; apply in_or_app; now right|exact FB].
  - rewrite O. pose proof (forall2_length _ _ _ FA) as L. rewrite !total_app by exact L. unfold total at 2 4. cbn [combine fold_right fst snd]. lia.
Qed.

Lemma ok_steps : forall n s s', steps resolve output n s s' -> agrees (fst s) -> Forall2 (ok (fst s)) (snd s) outs ->
  agrees (fst s') /\ Forall2 (ok (fst s')) (snd s') outs /\ (n + total (snd s') outs <= total (snd s) outs)%nat.
Proof.
  intros n s s' H. induction H as [s|n s s' s'' H IH T]; intros A F; [split; [exact A|]; split; [exact F|lia]|].
  destruct (IH A F) as (A' & F' & L). destruct s' as [d' ss'], s'' as [d'' ss'']. destruct (ok_step _ _ _ _ T A' F') as (A'' & F'' & L').
  split; [exact A''|]. split; [exact F''|]. cbn [snd] in *. lia.
Qed.

Lemma ok_progress : forall d sts, agrees d -> Forall2 (ok d) sts outs -> forallb done sts = true \/ exists s', step resolve output (d, sts) s'.
Proof.
  intros d sts A F. destruct (forallb done sts) eqn:E; [now left|right].
  assert (X : exists st, In st sts /\ done st = false).
  { clear - E. induction sts as [|st sts IH]; [discriminate E|]. cbn in E. destruct (done st) eqn:S; [|exists st; split; [now left|exact S]].
    destruct (IH E) as (x & I & D). exists x. split; [now right|exact D]. }
  destruct X as (st & I & D). apply in_split in I. destruct I as (a & b & ->).
  destruct (split_forall2 _ a st b outs F) as (oa & o & ob & O & _ & K & _).
  assert (R : resolve (join output (p_name o)) = Some (p_loc o)).
  { rewrite Forall_forall in Hres. apply Hres. rewrite O. apply in_or_app. right. now left. }
  destruct st as [j|name content|l off rest| |]; cbn in K; try discriminate D; try contradiction.
  - eexists. apply Step. apply Start. exact (K d A).
  - destruct K as (-> & ->). eexists. apply Step. apply Create. exact R.
  - destruct K as (-> & old & E' & -> & _). destruct rest as [|c rest].
    + eexists. apply Step. apply Flush.
    + eexists. apply Step. rewrite <- (app_nil_r (c :: rest)). apply Write; [discriminate|exact E'].
Qed.

Variable js : list job.
Hypothesis Hjobs : Forall2 (fun j o => forall d', agrees d' -> j d' = Ret (p_name o, p_content o)) js outs.

Lemma ok_start : Forall2 (ok d0) (map Waiting js) outs.
Proof.
  assert (Q : forall js os, Forall2 (fun j o => forall d', agrees d' -> j d' = Ret (p_name o, p_content o)) js os -> Forall2 (ok d0) (map Waiting js) os).
  { intros js' os H. induction H; constructor; assumption. }
  apply Q, Hjobs.
Qed.

Lemma agrees_refl : agrees d0.
Proof. intros l _. reflexivity. Qed.

Lemma ok_end : forall d sts os, Forall2 (ok d) sts os -> existsb panicked sts = false.
Proof. intros d sts os F. induction F as [|st o sts os K _ IH]; [reflexivity|]. cbn [existsb]. rewrite IH. destruct st; try reflexivity. destruct K. Qed.

Lemma done_files : forall d sts os, Forall2 (ok d) sts os -> forallb done sts = true -> Forall (fun o => d (p_loc o) = Some (p_content o)) os.
Proof.
  intros d sts os F. induction F as [|st o sts os K _ IH]; intros E; constructor.
  - cbn in E. destruct st; try discriminate E. exact K.
  - apply IH. cbn in E. apply andb_prop in E. apply E.
Qed.

Lemma pool_ok : forall r, pool resolve output js d0 r ->
  exists d', r = Ret d' /\ agrees d' /\ Forall (fun o => d' (p_loc o) = Some (p_content o)) outs.
Proof.
  intros r (n & d' & sts & H & E). destruct (ok_steps n _ _ H agrees_refl ok_start) as (A & F & _). cbn [fst snd] in *.
  destruct E as [(E & ->)|(E & _)]; [|rewrite (ok_end d' sts outs F) in E; discriminate E].
  exists d'. split; [reflexivity|]. split; [exact A|]. exact (done_files d' sts outs F E).
Qed.

Lemma pool_ends : exists r, pool resolve output js d0 r.
Proof.
  assert (Q : forall m n d sts, steps resolve output n (d0, map Waiting js) (d, sts) -> (total sts outs < m)%nat -> exists r, pool resolve output js d0 r).
  { induction m as [|m IH]; intros n d sts H L; [lia|]. destruct (ok_steps n _ _ H agrees_refl ok_start) as (A & F & _). cbn [fst snd] in *.
    destruct (ok_progress d sts A F) as [E|((d', sts') & T)].
    - exists (Ret d), n, d, sts. split; [exact H|]. left. split; [exact E|reflexivity].
    - destruct (ok_step _ _ _ _ T A F) as (_ & _ & L'). apply (IH (S n) d' sts'); [econstructor; eassumption|lia]. }
  apply (Q (S (total (map Waiting js) outs)) 0%nat d0 (map Waiting js)); [constructor|lia].
Qed.

(** At most this many steps; and there is a next one until all jobs are done. *)
Lemma pool_bound : forall n d sts, steps resolve output n (d0, map Waiting js) (d, sts) ->
  (n <= fold_right (fun o k => (3 + length (p_content o) + k)%nat) 0%nat outs)%nat /\
  (forallb done sts = true \/ exists s', step resolve output (d, sts) s').
Proof.
  intros n d sts H. destruct (ok_steps n _ _ H agrees_refl ok_start) as (A & F & L). cbn [fst snd] in *. split; [|exact (ok_progress d sts A F)].
  assert (E : total (map Waiting js) outs = fold_right (fun o k => (3 + length (p_content o) + k)%nat) 0%nat outs).
  { assert (Q : forall js0 os, length js0 = length os -> total (map Waiting js0) os = fold_right (fun o k => (3 + length (p_content o) + k)%nat) 0%nat os).
    { clear. induction js0 as [|j js0 IH]; intros [|o os] L; try discriminate L; [reflexivity|]. cbn in L. injection L as L.
      cbn [map fold_right]. rewrite <- (IH os L). reflexivity. }
    apply Q. exact (forall2_length _ _ _ Hjobs). }
  lia.
Qed.
End Pool.

(** ** A job that panics *)
Lemma pool_panic : forall resolve output js d0 j, In j js ->
  (forall d, (forall l, spare resolve output l -> d l = d0 l) -> j d = Panic) ->
  pool resolve output js d0 Panic /\ forall r, pool resolve output js d0 r -> r = Panic.
Proof.
  intros resolve output js d0 j I P. split.
  - apply in_split in I. destruct I as (a & b & ->). exists 1%nat, d0, (map Waiting a ++ Panicked :: map Waiting b). split.
    + econstructor; [constructor|]. rewrite map_app. cbn [map]. apply Step, Start_panic, P. reflexivity.
    + right. split; [|reflexivity]. rewrite existsb_app. cbn. apply orb_true_r.
  - intros r (n & d' & sts & H & E). destruct E as [(E & _)|(_ & E)]; [exfalso|exact E].
    assert (Q : forall n s, steps resolve output n (d0, map Waiting js) s -> In (Waiting j) (snd s) \/ In Panicked (snd s)).
    { clear n d' sts H E. intros n s H. remember (d0, map Waiting js) as s0 eqn:S0. induction H as [s|n s s' s'' H IH T].
      - left. subst s. cbn. apply in_map, I.
      - subst s. destruct (frame resolve output n _ _ H (own_waiting resolve output js)) as (_ & FR). cbn [fst] in FR.
        specialize (IH eq_refl). destruct T as [d d' a st st' b T]. cbn [fst snd] in *. rewrite !in_app_iff in *. cbn [In] in *.
        destruct IH as [[X|[X|X]]|[X|[X|X]]]; try tauto.
        + subst st. right. right. left. inversion T as [j0 name content E|j0 E| | | |]; subst; [|reflexivity]. match goal with E : j _ = Ret _ |- _ => rewrite (P _ FR) in E; discriminate E end.
        + subst st. inversion T. }
    specialize (Q n _ H). cbn in Q. rewrite forallb_forall in E. destruct Q as [Q|Q]; apply E in Q; discriminate Q.
Qed.

(** ** A job whose file cannot be created *)
Lemma pool_no_file : forall resolve output js d0 j, In j js ->
  (forall d, (forall l, spare resolve output l -> d l = d0 l) -> exists name content, j d = Ret (name, content) /\ resolve (join output name) = None) ->
  pool resolve output js d0 Panic /\ forall r, pool resolve output js d0 r -> r = Panic.
Proof.
  intros resolve output js d0 j I P. split.
  - apply in_split in I. destruct I as (a & b & ->). destruct (P d0 (fun _ _ => eq_refl)) as (name & content & E & R).
    exists 2%nat, d0, (map Waiting a ++ Panicked :: map Waiting b). split.
    + econstructor; [econstructor; [constructor|]|]; [|apply Step, Create_panic, R]. rewrite map_app. cbn [map].
      apply Step, (Start _ _ _ j name content E).
    + right. split; [|reflexivity]. rewrite existsb_app. cbn. apply orb_true_r.
  - intros r (n & d' & sts & H & E). destruct E as [(E & _)|(_ & E)]; [exfalso|exact E].
    assert (Q : forall n s, steps resolve output n (d0, map Waiting js) s ->
      In (Waiting j) (snd s) \/ In Panicked (snd s) \/ exists name content, resolve (join output name) = None /\ In (Saving name content) (snd s)).
    { clear n d' sts H E. intros n s H. remember (d0, map Waiting js) as s0 eqn:S0. induction H as [s|n s s' s'' H IH T].
      - left. subst s. cbn. apply in_map, I.
      - subst s. destruct (frame resolve output n _ _ H (own_waiting resolve output js)) as (_ & FR). cbn [fst] in FR.
        specialize (IH eq_refl). destruct T as [d d' a st st' b T]. cbn [fst snd] in *.
        assert (Keep : forall x, x <> st -> In x (a ++ st :: b) -> In x (a ++ st' :: b)).
        { intros x N X. rewrite in_app_iff in *. cbn [In] in *. destruct X as [X|[X|X]]; auto. now symmetry in X. }
        assert (New : In st' (a ++ st' :: b)) by (rewrite in_app_iff; right; left; reflexivity).
        destruct T as [j0 name content E|j0 E|name content l E|name content E|l off piece rest old N0 E|l off].
        + destruct IH as [X|[X|(n1 & c1 & X1 & X2)]].
          * apply in_app_or in X. destruct X as [X|[X|X]]; [left; apply in_or_app; now left| |left; apply in_or_app; right; now right].
            injection X as ->. destruct (P _ FR) as (n1 & c1 & E1 & R1). rewrite E in E1. injection E1 as <- <-. right; right. eauto.
          * right; left. apply Keep; [discriminate|exact X].
          * right; right. exists n1, c1. split; [exact X1|]. apply Keep; [discriminate|exact X2].
        + right; left. exact New.
        + destruct IH as [X|[X|(n1 & c1 & X1 & X2)]].
          * left. apply Keep; [discriminate|exact X].
          * right; left. apply Keep; [discriminate|exact X].
          * right; right. exists n1, c1. split; [exact X1|]. apply Keep; [|exact X2]. intros Y. injection Y as -> ->. congruence.
        + right; left. exact New.
        + destruct IH as [X|[X|(n1 & c1 & X1 & X2)]]; [left|right; left|right; right; exists n1, c1; split; [exact X1|]]; (apply Keep; [discriminate|assumption]).
        + destruct IH as [X|[X|(n1 & c1 & X1 & X2)]]; [left|right; left|right; right; exists n1, c1; split; [exact X1|]]; (apply Keep; [discriminate|assumption]). }
    specialize (Q n _ H). cbn in Q. rewrite forallb_forall in E. destruct Q as [Q|[Q|(? & ? & _ & Q)]]; apply E in Q; discriminate Q.
Qed.

(** ** Writing, byte by byte *)
Lemma write_at_length : forall old off b, length (write_at old off b) = Nat.max (off + length b) (length old).
Proof. intros old off b. unfold write_at. rewrite !app_length, firstn_length, app_length, repeat_length, skipn_length. lia. Qed.

Lemma write_at_nth : forall old off b i, (i < length (write_at old off b))%nat ->
  ((off <= i < off + length b)%nat -> nth i (write_at old off b) 0 = nth (i - off) b 0) /\
  (~ (off <= i < off + length b)%nat -> (i < length old)%nat -> nth i (write_at old off b) 0 = nth i old 0) /\
  (~ (off <= i < off + length b)%nat -> (length old <= i)%nat -> nth i (write_at old off b) 0 = 0).
Proof.
  intros old off b i Hi. rewrite write_at_length in Hi.
  assert (L : length (firstn off (old ++ repeat 0 off)) = off) by (rewrite firstn_length, app_length, repeat_length; lia).
  assert (F : (i < off)%nat -> nth i (write_at old off b) 0 = nth i (old ++ repeat 0 off) 0).
  { intros H. unfold write_at. rewrite app_nth1 by lia. rewrite <- (firstn_skipn off (old ++ repeat 0 off)) at 2. now rewrite app_nth1 by lia. }
  assert (B : (off + length b <= i)%nat -> nth i (write_at old off b) 0 = nth i old 0).
  { intros H. unfold write_at. rewrite app_nth2 by lia. rewrite L, app_nth2 by lia.
    rewrite <- (firstn_skipn (off + length b) old) at 2. rewrite (app_nth2 (firstn _ _)); rewrite firstn_length; [|lia]. f_equal. lia. }
  split; [|split].
  - intros H. unfold write_at. rewrite app_nth2 by lia. rewrite L. apply app_nth1. lia.
  - intros H Ho. destruct (Nat.lt_ge_cases i off) as [K|K]; [|apply B; lia]. rewrite (F K). now apply app_nth1.
  - intros H Ho. destruct (Nat.lt_ge_cases i off) as [K|K]; [|rewrite B by lia; now apply nth_overflow].
    rewrite (F K), app_nth2 by lia. apply nth_repeat.
Qed.

(** ** The jobs one after the other *)
Definition saved_disk (d : disk) (l : N) (content : list N) : disk :=
  match content with [] => set_file d l [] | _ => set_file (set_file d l []) l (write_at [] 0 content) end.

Fixpoint one_by_one (resolve : list N -> option N) (output : list N) (js : list job) (d : disk) : M disk :=
  match js with
  | [] => Ret d
  | j :: js' =>
      let* (name, content) := j d in
      match resolve (join output name) with
      | Some l => one_by_one resolve output js' (saved_disk d l content)
      | None => Panic
      end
  end.

Lemma steps_trans : forall resolve output n s s', steps resolve output n s s' -> forall m s'', steps resolve output m s' s'' ->
  exists k, steps resolve output k s s''.
Proof.
  intros resolve output n s s' H m s'' H'. revert n s H. induction H' as [s'|m s' t t' H' IH T]; intros n s H; [eauto|].
  destruct (IH n s H) as (k & K). exists (S k). econstructor; eassumption.
Qed.

Lemma one_by_one_pool : forall resolve output js d d', one_by_one resolve output js d = Ret d' -> pool resolve output js d (Ret d').
Proof.
  intros resolve output js d d' H.
  assert (Q : forall js pre d d', one_by_one resolve output js d = Ret d' ->
    exists n, steps resolve output n (d, pre ++ map Waiting js) (d', pre ++ map (fun _ => Done) js)).
  { clear. induction js as [|j js IH]; intros pre d d' H; cbn [one_by_one] in H.
    - injection H as <-. exists 0%nat. constructor.
    - destruct (j d) as [(name, content)| |] eqn:E; cbn [bind] in H; try discriminate H.
      destruct (resolve (join output name)) as [l|] eqn:R; [|discriminate H].
      assert (S : exists n, steps resolve output n (d, pre ++ map Waiting (j :: js)) (saved_disk d l content, pre ++ Done :: map Waiting js)).
      { cbn [map]. destruct content as [|c content]; cbn [saved_disk].
        - exists 3%nat. econstructor; [econstructor; [econstructor; [constructor|]|]|].
          + apply Step, Start, E.
          + apply Step, Create, R.
          + apply Step, Flush.
        - exists 4%nat. econstructor; [econstructor; [econstructor; [econstructor; [constructor|]|]|]|].
          + apply Step, Start, E.
          + apply Step, Create, R.
          + apply Step. rewrite <- (app_nil_r (c :: content)) at 1. apply Write; [discriminate|]. unfold set_file. now rewrite N.eqb_refl.
          + apply Step, Flush. }
      destruct S as (n & S). destruct (IH (pre ++ [Done]) _ d' H) as (m & S'). rewrite <- !app_assoc in S'. cbn [app] in S'.
      destruct (steps_trans _ _ _ _ _ S _ _ S') as (k & K). exists k. exact K. }
  destruct (Q js [] d d' H) as (n & S). exists n, d', (map (fun _ => Done) js). split; [exact S|]. left. split; [|reflexivity].
  clear. induction js; [reflexivity|assumption].
Qed.
