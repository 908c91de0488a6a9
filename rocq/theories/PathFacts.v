(** * Paths *)
From Coq Require Import String.
From Coq Require Import NArith ZArith List Bool Lia Ascii.
From Verif Require Import ModelRust ModelF64 ModelEnv ModelFiles SpecFiles TextFacts.
Import ListNotations.
Local Open Scope N_scope.

Lemma eqb_bytes_spec : forall a b, reflect (a = b) (eqb_bytes a b).
Proof. intros a b. unfold eqb_bytes. destruct (list_eq_dec N.eq_dec a b); constructor; assumption. Qed.

Lemma join_spec : forall dir name path, path = join dir name <-> in_directory dir name path.
Proof.
  assert (D : forall (dir : list N), dir = [] \/ exists d' x, dir = d' ++ [x]).
  { intros dir. destruct (rev dir) as [|x r] eqn:E; [left|right].
    - rewrite <- (rev_involutive dir), E. reflexivity.
    - exists (rev r), x. rewrite <- (rev_involutive dir), E. reflexivity. }
  assert (J : forall d' x name, join (d' ++ [x]) name = if x =? 47 then (d' ++ [x]) ++ name else (d' ++ [x]) ++ 47 :: name).
  { intros d' x name. unfold join. rewrite rev_app_distr. reflexivity. }
  intros dir name path. unfold in_directory. destruct (D dir) as [->|(d' & x & ->)].
  - cbn. split; [intros ->; tauto|]. intros [(_ & E)|[((d' & E) & _)|(E & _)]]; [exact E|destruct d'; discriminate E|congruence].
  - rewrite J. destruct (N.eqb_spec x 47) as [->|X].
    + split; [intros ->; right; left; split; [eauto|reflexivity]|]. intros [(E & _)|[(_ & E)|(_ & E & _)]]; [destruct d'; discriminate E|exact E|].
      exfalso. exact (E d' eq_refl).
    + split.
      * intros ->. right. right. split; [destruct d'; discriminate|]. split; [|reflexivity].
        intros d'' E. apply app_inj_tail in E. destruct E. congruence.
      * intros [(E & _)|[((d'' & E) & _)|(_ & _ & E)]]; [destruct d'; discriminate E| |exact E].
        apply app_inj_tail in E. destruct E. congruence.
Qed.

(** ** Components *)
Lemma split_app : forall a b cur, split_loop cur (a ++ 47 :: b) = split_loop cur a ++ split_loop [] b.
Proof.
  induction a as [|c a IH]; intros b cur; cbn [app split_loop].
  - reflexivity.
  - destruct (c =? 47); cbn [app]; [f_equal|]; apply IH.
Qed.

Lemma split_plain : forall a cur, ~ In 47 a -> split_loop cur a = [cur ++ a].
Proof.
  induction a as [|c a IH]; intros cur H; cbn [split_loop]; [now rewrite app_nil_r|].
  destruct (N.eqb_spec c 47) as [->|C]; [exfalso; apply H; now left|]. rewrite IH by (intros I; apply H; now right). now rewrite <- app_assoc.
Qed.

Definition kept (c : bytes) : bool := negb (eqb_bytes c [] || eqb_bytes c (str ".")).

Lemma kept_spec : forall c, kept c = true <-> c <> [] /\ c <> ascii ".".
Proof.
  intros c. unfold kept. destruct (eqb_bytes_spec c []) as [A|A]; cbn [orb negb].
  - split; [discriminate|]. intros (X & _). contradiction.
  - destruct (eqb_bytes_spec c (str ".")) as [B|B]; cbn [negb].
    + split; [discriminate|]. intros (_ & X). contradiction.
    + split; [intros _; split; assumption|reflexivity].
Qed.

Lemma components_split : forall s, components s = filter kept (split_loop [] s).
Proof. reflexivity. Qed.

Lemma components_app : forall a b, components (a ++ 47 :: b) = components a ++ components b.
Proof. intros a b. rewrite !components_split, split_app, filter_app. reflexivity. Qed.

Lemma idle_components : forall t, idle t -> forall b, components (b ++ t) = components b.
Proof.
  intros t H. induction H as [|t _ IH|t H IH K]; intros b.
  - now rewrite app_nil_r.
  - rewrite components_app. pose proof (IH []) as E. cbn [app] in E. rewrite E. apply app_nil_r.
  - rewrite components_app. destruct K as [->|(t' & ->)].
    + cbn. apply app_nil_r.
    + change (46 :: 47 :: t') with ([46] ++ 47 :: t'). rewrite IH. apply app_nil_r.
Qed.

(** The end of a path that adds no component. *)
Lemma components_nil_idle : forall s, components s = [] -> idle (47 :: s).
Proof.
  assert (Q : forall n s, (length s < n)%nat -> components s = [] -> idle (47 :: s)).
  { induction n as [|n IH]; intros s L E; [lia|].
    destruct (in_dec N.eq_dec 47 s) as [I|I].
    - apply in_split in I. destruct I as (a & b & ->). rewrite components_app in E. apply app_eq_nil in E. destruct E as (EA & EB).
      assert (IB : idle (47 :: b)) by (apply IH; [rewrite app_length in L; cbn in L; lia|exact EB]).
      destruct a as [|x a].
      + constructor. exact IB.
      + assert (IA : idle (47 :: x :: a)) by (apply IH; [rewrite app_length in L; cbn in L |- *; lia|exact EA]).
        clear - IA IB. change (47 :: (x :: a) ++ 47 :: b) with ((47 :: x :: a) ++ 47 :: b).
        assert (A : forall t, idle t -> idle (t ++ 47 :: b)).
        { intros t H. induction H as [|t H IH|t H IH K].
          - exact IB.
          - cbn. now constructor.
          - cbn. constructor; [exact IH|]. right. destruct K as [->|(t' & ->)]; cbn; eauto. }
        apply A, IA.
    - rewrite components_split, (split_plain s [] I) in E. cbn [app filter] in E. destruct (kept s) eqn:K; [discriminate E|].
      destruct (list_eq_dec N.eq_dec s []) as [->|S1]; [repeat constructor|].
      destruct (list_eq_dec N.eq_dec s (ascii ".")) as [->|S2]; [cbn; constructor; [constructor|now left]|].
      rewrite (proj2 (kept_spec s) (conj S1 S2)) in K. discriminate K. }
  intros s. apply (Q (S (length s))). lia.
Qed.

Lemma last_component : forall s c r, rev (components s) = c :: r ->
  exists dir tail, s = dir ++ c ++ tail /\ idle tail /\ (dir = [] \/ exists dir', dir = dir' ++ [47]) /\ ~ In 47 c /\ kept c = true.
Proof.
  assert (Q : forall n s c r, (length s < n)%nat -> rev (components s) = c :: r ->
    exists dir tail, s = dir ++ c ++ tail /\ idle tail /\ (dir = [] \/ exists dir', dir = dir' ++ [47]) /\ ~ In 47 c /\ kept c = true).
  { induction n as [|n IH]; intros s c r L E; [lia|].
    destruct (in_dec N.eq_dec 47 s) as [I|I].
    - apply in_split in I. destruct I as (a & b & ->). rewrite app_length in L. cbn in L.
      rewrite components_app, rev_app_distr in E. destruct (rev (components b)) as [|c' r'] eqn:B.
      + cbn in E. assert (EB : components b = []) by (rewrite <- (rev_involutive (components b)), B; reflexivity).
        destruct (IH a c r ltac:(lia) E) as (dir & tail & -> & T & D & K). exists dir, (tail ++ 47 :: b).
        split; [rewrite <- !app_assoc; reflexivity|]. split; [|tauto]. apply components_nil_idle in EB.
        clear - T EB. induction T as [|t H IH|t H IH K]; cbn; [exact EB|now constructor|]. constructor; [exact IH|].
        right. destruct K as [->|(t' & ->)]; cbn; eauto.
      + cbn in E. injection E as <- _. destruct (IH b c' r' ltac:(lia) B) as (dir & tail & -> & T & D & K).
        exists (a ++ 47 :: dir), tail. split; [rewrite <- app_assoc; reflexivity|]. split; [exact T|]. split; [|exact K].
        right. destruct D as [->|(d' & ->)]; [exists a; reflexivity|]. exists (a ++ 47 :: d'). rewrite <- app_assoc. reflexivity.
    - rewrite components_split, (split_plain s [] I) in E. cbn [app filter] in E. destruct (kept s) eqn:K; [|discriminate E].
      cbn in E. injection E as <- _. exists [], []. rewrite app_nil_r. repeat split; [constructor|now left|exact I|exact K]. }
  intros s c r. apply (Q (S (length s))). lia.
Qed.

Lemma plain_components : forall base, plain_name base -> components base = [base].
Proof.
  intros base (A & B & C & _). rewrite components_split, (split_plain base [] B). cbn [app filter].
  now rewrite (proj2 (kept_spec base) (conj A C)).
Qed.

Lemma file_name_spec : forall path base, file_name path = Some base <-> base_name path base.
Proof.
  intros path base. unfold file_name. split.
  - destruct (rev (components path)) as [|c r] eqn:E; [discriminate|]. destruct (eqb_bytes_spec c (str "..")) as [X|X]; [discriminate|].
    intros Q. injection Q as <-. destruct (last_component path c r E) as (dir & tail & P & T & D & I & K). apply kept_spec in K.
    split; [split; [tauto|]; split; [exact I|]; split; [tauto|exact X]|]. eauto.
  - intros (P & dir & tail & -> & T & D). assert (C : exists r, components (dir ++ base ++ tail) = r ++ [base]).
    { rewrite app_assoc, (idle_components tail T). destruct D as [->|(d' & ->)].
      - exists []. apply plain_components, P.
      - exists (components d'). rewrite <- app_assoc. cbn [app]. rewrite components_app. now rewrite (plain_components base P). }
    destruct C as (r & ->). rewrite rev_app_distr. cbn [rev app].
    destruct (eqb_bytes_spec base (str "..")) as [X|X]; [exfalso; destruct P as (_ & _ & _ & P); contradiction|reflexivity].
Qed.

Lemma base_unique : forall path a b, base_name path a -> base_name path b -> a = b.
Proof. intros path a b A B. apply file_name_spec in A, B. congruence. Qed.

Lemma base_in_directory : forall dir name path, plain_name name -> in_directory dir name path -> base_name path name.
Proof.
  intros dir name path P [(-> & ->)|[((d' & ->) & ->)|(_ & _ & ->)]]; (split; [exact P|]).
  - exists [], []. rewrite app_nil_r. repeat split; [constructor|now left].
  - exists (d' ++ [47]), []. rewrite app_nil_r. repeat split; [constructor|right; eauto].
  - exists (dir ++ [47]), []. rewrite app_nil_r, <- app_assoc. repeat split; [constructor|right; eauto].
Qed.

(** ** The names of the files saved *)
Lemma not_in_ascii : forall (c : N) s, forallb (fun x => negb (x =? c)) (ascii s) = true -> ~ In c (ascii s).
Proof. intros c s H I. rewrite forallb_forall in H. apply H in I. rewrite N.eqb_refl in I. discriminate I. Qed.

Lemma plain_longer : forall s c1 c2 c3 s', s = c1 :: c2 :: c3 :: s' -> ~ In 47 s -> plain_name s.
Proof. intros s c1 c2 c3 s' -> H. split; [discriminate|]. split; [exact H|]. split; discriminate. Qed.

Lemma hashes_name_plain : forall size r name, ~ In 47 size -> hashes_name size r name -> plain_name name.
Proof.
  intros size r name S (t & T & ->). eapply plain_longer; [reflexivity|]. intros I. rewrite !in_app_iff in I.
  destruct I as [I|[I|[I|[I|I]]]]; try (revert I; apply not_in_ascii; reflexivity); [contradiction|].
  pose proof (numeral_chars r t 47 T I). lia.
Qed.

Lemma app_inj_len : forall (a b c d : list N), a ++ b = c ++ d -> length a = length c -> a = c /\ b = d.
Proof.
  induction a as [|x a IH]; intros b [|y c] d E L; try discriminate L; [split; [reflexivity|exact E]|]. cbn in E, L. injection E as -> E.
  injection L as L. destruct (IH b c d E L) as (-> & ->). split; reflexivity.
Qed.

Lemma hashes_name_inj : forall size a b name, hashes_name size a name -> hashes_name size b name -> a = b.
Proof.
  intros size a b name (s & A & ->) (t & B & E). apply app_inv_head in E. apply app_inv_head in E. apply app_inv_head in E.
  apply app_inv_tail in E. subst t. exact (numeral_inj a b s A B).
Qed.

Lemma estimates_name_inj : forall p a b name, estimates_name p a name -> estimates_name p b name -> a = b.
Proof.
  intros p a b name (s & A & ->) (t & B & E). rewrite (numeral_unique p t s B A) in E. apply app_inv_head in E.
  apply app_inv_head in E. apply app_inv_head in E. exact E.
Qed.

Lemma cards_name_inj : forall p size a b name, cards_name p size a name -> cards_name p size b name -> a = b.
Proof.
  intros p size a b name (s & t & P & A & ->) (s' & t' & P' & B & E). rewrite (numeral_unique p s' s P' P) in E.
  apply app_inv_head in E. apply app_inv_head in E. apply app_inv_head in E. apply app_inv_head in E. apply app_inv_head in E.
  apply app_inv_tail in E. subst t'. exact (numeral_inj a b t A B).
Qed.
