(** * The relative errors that exp.py computes *)
From Coq Require Import String.
From Coq Require Import NArith ZArith Reals List Bool Lia Lra.
From Flocq Require Import Core BinarySingleNaN.
From Verif Require Import ModelRust ModelF64 ModelPlus ModelEval ModelFiles ModelExp SpecRust SpecFiles SpecExp F64Facts TextFacts.
Import ListNotations.
Local Open Scope N_scope.

(** ** Text *)
Lemma int_digits_spec : forall ds acc, Forall (fun d => d < 10) ds ->
  int_digits acc (digit_text ds) = Some (acc * 10 ^ N.of_nat (length ds) + decimal_value ds).
Proof.
  induction ds as [|d ds IH]; intros acc F; [cbn; f_equal; lia|]. inversion F as [|? ? D F']; subst.
  cbn [digit_text map int_digits]. fold (digit_text ds).
  assert (E : (48 <=? 48 + d) && (48 + d <=? 57) = true) by (apply andb_true_intro; split; apply N.leb_le; lia).
  rewrite E, IH by exact F'. f_equal. cbn [decimal_value length]. rewrite pow10_S. replace (48 + d - 48) with d by lia. ring.
Qed.

Lemma drop_newline_end : forall s, drop_newline (s ++ [10]) = s.
Proof. intros s. unfold drop_newline. rewrite rev_app_distr. cbn. apply rev_involutive. Qed.

Lemma drop_newline_id : forall s, ~ In 10 s -> drop_newline s = s.
Proof.
  intros s H. unfold drop_newline. destruct (rev s) as [|c l] eqn:E; [reflexivity|]. destruct (N.eqb_spec c 10) as [->|]; [|reflexivity].
  exfalso. apply H. apply in_rev. rewrite E. now left.
Qed.

Lemma no_newline : forall n, ~ In 10 (display_uint n).
Proof. intros n I. apply (numeral_chars n _ _ (display_numeral n)) in I. lia. Qed.
Lemma no_space : forall n, ~ In 32 (display_uint n).
Proof. intros n I. apply (numeral_chars n _ _ (display_numeral n)) in I. lia. Qed.

Lemma float_of_digits : forall n, match display_uint n with [] => Panic | t => match int_digits 0 t with Some n => Ret (of_N n) | None => Panic end end = Ret (of_N n).
Proof.
  intros n. destruct (display_numeral n) as (ds & (N0 & F) & E & V & _). rewrite E.
  assert (X := int_digits_spec ds 0 F). destruct (digit_text ds) as [|c t] eqn:D; [destruct ds; [congruence|discriminate D]|].
  rewrite X, V. reflexivity.
Qed.

Lemma float_of_numeral : forall n, float_of (display_uint n) = Ret (of_N n).
Proof. intros n. unfold float_of. rewrite (drop_newline_id _ (no_newline n)). apply float_of_digits. Qed.
Lemma float_of_last : forall n, float_of (display_uint n ++ [10]) = Ret (of_N n).
Proof. intros n. unfold float_of. rewrite drop_newline_end. apply float_of_digits. Qed.

Lemma split_space_none : forall s cur, ~ In 32 s -> split_space cur s = [cur ++ s].
Proof.
  induction s as [|c s IH]; intros cur H; cbn [split_space]; [now rewrite app_nil_r|].
  destruct (N.eqb_spec c 32) as [->|]; [exfalso; apply H; now left|]. rewrite IH by (intros I; apply H; now right). now rewrite <- app_assoc.
Qed.
Lemma split_space_one : forall a b cur, ~ In 32 a -> ~ In 32 b -> split_space cur (a ++ 32 :: b) = [cur ++ a; b].
Proof.
  induction a as [|c a IH]; intros b cur A B; cbn [split_space app].
  - change (32 =? 32) with true. cbn iota. rewrite (split_space_none b [] B), app_nil_r. reflexivity.
  - destruct (N.eqb_spec c 32) as [->|]; [exfalso; apply A; now left|]. rewrite IH by (assumption || intros I; apply A; now right). now rewrite <- app_assoc.
Qed.

Definition line_of (est : N * N) : bytes := display_estimation est ++ [10].

Lemma line_floats : forall est, map_M float_of (split_space [] (line_of est)) = Ret [of_N (fst est); of_N (snd est)].
Proof.
  intros [c k]. unfold line_of, display_estimation. cbn [fst snd]. change (str " ") with [32]. rewrite <- !app_assoc. cbn [app].
  rewrite split_space_one; [|apply no_space|].
  - cbn [app map_M]. rewrite float_of_numeral. cbn [bind]. rewrite float_of_last. reflexivity.
  - intros I. apply in_app_or in I. destruct I as [I|[I|[]]]; [now apply no_space in I|discriminate I].
Qed.

Lemma readline_end : forall l s, ~ In 10 l -> readline (l ++ 10 :: s) = (l ++ [10], s).
Proof.
  induction l as [|c l IH]; intros s H; cbn [readline app]; [reflexivity|]. destruct (N.eqb_spec c 10) as [->|]; [exfalso; apply H; now left|].
  rewrite IH by (intros I; apply H; now right). reflexivity.
Qed.

Definition file_of (ests : list (N * N)) : bytes := saved display_estimation ests.

Lemma readline_file : forall est ests, readline (file_of (est :: ests)) = (line_of est, file_of ests).
Proof.
  intros [c k] ests. unfold file_of, saved. cbn [map concat]. rewrite <- app_assoc. cbn [app]. apply readline_end.
  unfold display_estimation. cbn [fst snd]. intros I. apply in_app_or in I. destruct I as [I|I]; [now apply no_newline in I|].
  apply in_app_or in I. destruct I as [I|I]; [|now apply no_newline in I]. destruct I as [I|[]]; discriminate I.
Qed.

Lemma line_not_nil : forall est, eqb_bytes (line_of est) [] = false.
Proof.
  intros est. unfold eqb_bytes. destruct (list_eq_dec N.eq_dec (line_of est) []) as [E|]; [|reflexivity].
  unfold line_of in E. apply app_eq_nil in E. destruct E as [_ E]. discriminate E.
Qed.

(** ** A round *)
Lemma read_lines : forall files, filter (fun l => negb (eqb_bytes l [])) (map fst (map readline (map file_of files))) = map line_of (row files 0).
Proof.
  induction files as [|[|est ests] files IH]; [reflexivity| |]; cbn [map].
  - exact IH.
  - rewrite readline_file. cbn [fst filter]. rewrite line_not_nil. cbn [negb]. rewrite IH. reflexivity.
Qed.

Lemma read_rest : forall files, map snd (map readline (map file_of files)) = map file_of (map (@tl (N * N)) files).
Proof.
  induction files as [|[|est ests] files IH]; [reflexivity| |]; cbn [map].
  - now rewrite IH.
  - rewrite readline_file, IH. reflexivity.
Qed.

Lemma row_tl : forall files j, row (map (@tl (N * N)) files) j = row files (S j).
Proof.
  intros files j. unfold row. induction files as [|[|est ests] files IH]; [reflexivity| |]; cbn [map flat_map tl]; rewrite IH.
  - now destruct j.
  - reflexivity.
Qed.

Lemma map_M_all : forall {A B : Type} (f : A -> M B) (R : A -> B -> Prop) l, (forall a, In a l -> exists b, f a = Ret b /\ R a b) ->
  exists bs, map_M f l = Ret bs /\ Forall2 R l bs.
Proof.
  intros A B f R l. induction l as [|a l IH]; intros H; [exists []; split; [reflexivity|constructor]|].
  destruct (H a (or_introl eq_refl)) as (b & E & Rb). destruct IH as (bs & E' & F); [intros x I; apply H; now right|].
  exists (b :: bs). cbn [map_M]. rewrite E, E'. split; [reflexivity|now constructor].
Qed.

Definition readable (est : N * N) : Prop := 1 <= fst est <= 2 ^ 53 /\ snd est < 2 ^ 64.

Lemma error_exact : forall est, readable est ->
  exists x, relative_error [of_N (fst est); of_N (snd est)] = Ret x /\ relative_error_of (fst est) (snd est) x.
Proof.
  intros [c k] ((C1 & C2) & K). cbn [fst snd] in *. unfold relative_error. cbn [nth_error unwrap bind].
  destruct (of_N_exact c C2) as (FC & VC).
  assert (B64 : (2 ^ 64 <= 2 ^ 1000)%Z) by (apply Z.pow_le_mono_r; lia).
  assert (KZ : (Z.of_N k <= 2 ^ 64)%Z) by (change (2 ^ 64)%Z with (Z.of_N (2 ^ 64)); lia).
  assert (CZ : (Z.of_N c <= 2 ^ 53)%Z) by (change (2 ^ 53)%Z with (Z.of_N (2 ^ 53)); lia).
  destruct (of_Z_is (Z.of_N k)) as (FK & VK); [lia|]. fold (of_N k) in FK, VK.
  assert (PC : (1 <= IZR (Z.of_N c))%R) by (apply IZR_le; lia).
  assert (NZ : Beqb (of_N c) pzero = false).
  { destruct (Beqb (of_N c) pzero) eqn:E; [|reflexivity]. exfalso. rewrite Beqb_correct in E by (assumption || reflexivity).
    destruct (Req_bool_spec (B2R (of_N c)) (B2R pzero)) as [Q|]; [|discriminate E]. unfold val in VC. rewrite VC in Q. cbn in Q. lra. }
  rewrite NZ.
  assert (K0 : (0 <= rnd (IZR (Z.of_N k)) <= bpow radix2 64)%R).
  { split; [rewrite <- rnd_0; apply rnd_le, IZR_le; lia|]. apply rnd_le_bpow; [lia|]. rewrite <- (IZR_Zpower radix2) by lia. apply IZR_le. exact KZ. }
  assert (C0 : (IZR (Z.of_N c) <= bpow radix2 64)%R).
  { apply Rle_trans with (bpow radix2 53); [rewrite <- (IZR_Zpower radix2) by lia; apply IZR_le; exact CZ|apply bpow_le; lia]. }
  assert (D0 : (Rabs (rnd (IZR (Z.of_N k)) - IZR (Z.of_N c)) <= bpow radix2 64)%R) by (apply Rabs_le; lra).
  destruct (fsub_is (of_N k) (of_N c) FK FC) as (FS & VS).
  { rewrite VC, VK. eapply Rle_trans; [exact D0|]. apply bpow_le. lia. }
  rewrite VC, VK in VS.
  set (x := Babs (fsub (of_N k) (of_N c))).
  assert (FX : fin x) by (unfold x, fin; rewrite is_finite_Babs; exact FS).
  assert (VX : val x = Rabs (rnd (rnd (IZR (Z.of_N k)) - IZR (Z.of_N c)))) by (unfold x, val; rewrite B2R_Babs; unfold val in VS; now rewrite VS).
  eexists. split; [reflexivity|]. destruct (fdiv_is x (of_N c) FX FC) as (FD & VD).
  - rewrite VC. lra.
  - rewrite VX, VC. apply Rle_trans with (bpow radix2 64); [|apply bpow_le; lia].
    assert (D1 : (Rabs (rnd (rnd (IZR (Z.of_N k)) - IZR (Z.of_N c))) <= bpow radix2 64)%R) by (apply rnd_abs_le; [lia|exact D0]).
    unfold Rdiv. rewrite Rabs_mult, Rabs_Rabsolu, Rabs_inv, (Rabs_pos_eq (IZR (Z.of_N c))) by lra.
    eapply Rle_trans; [|exact D1]. rewrite <- (Rmult_1_r (Rabs (rnd _))) at 2. apply Rmult_le_compat_l; [apply Rabs_pos|].
    rewrite <- Rinv_1. apply Rinv_le_contravar; lra.
  - split; [exact FD|]. unfold val in VD. rewrite VD. fold (val x) (val (of_N c)). rewrite VX, VC. reflexivity.
Qed.

(** Up to 2^53 there is one rounding. *)
Lemma error_once : forall c k x, 1 <= c <= 2 ^ 53 -> k <= 2 ^ 53 -> relative_error_of c k x ->
  B2R x = rounded (Rabs (IZR (Z.of_N k) - IZR (Z.of_N c)) / IZR (Z.of_N c)).
Proof.
  intros c k x C K (_ & ->). change rounded with rnd. rewrite (rnd_generic (IZR (Z.of_N k))).
  - rewrite <- minus_IZR, (rnd_generic (IZR (Z.of_N k - Z.of_N c))); [reflexivity|]. apply int_generic. change (2 ^ 53)%Z with (Z.of_N (2 ^ 53)). lia.
  - apply int_generic. change (2 ^ 53)%Z with (Z.of_N (2 ^ 53)). lia.
Qed.

(** ** The rows *)
Definition rows_of (files : list (list (N * N))) (rows : list (Z * list f64)) : Prop :=
  length rows = fold_right Nat.max O (map (@length (N * N)) files) /\
  forall j r, nth_error rows j = Some r -> exists c k rest, row files j = (c, k) :: rest /\ fst r = Z.of_N c /\
    Forall2 (fun est x => relative_error_of (fst est) (snd est) x) (row files j) (snd r).

Lemma row_nil : forall (files : list (list (N * N))), row files 0 = [] -> fold_right Nat.max O (map (@length (N * N)) files) = O.
Proof. induction files as [|[|est ests] files IH]; intros H; cbn in *; [reflexivity| |discriminate H]. now rewrite IH. Qed.

Lemma row_cons : forall (files : list (list (N * N))) x l, row files 0 = x :: l ->
  fold_right Nat.max O (map (@length (N * N)) files) = S (fold_right Nat.max O (map (@length (N * N)) (map (@tl (N * N)) files))).
Proof.
  assert (G : forall files : list (list (N * N)), (fold_right Nat.max O (map (@length (N * N)) (map (@tl (N * N)) files)) =
    Nat.pred (fold_right Nat.max O (map (@length (N * N)) files)))%nat).
  { induction files as [|[|est ests] files IH]; [reflexivity| |]; cbn [map fold_right tl length]; rewrite IH; lia. }
  intros files x l H. rewrite G. assert (fold_right Nat.max O (map (@length (N * N)) files) <> O); [|lia].
  revert H. induction files as [|[|est ests] files IH]; intros H; [discriminate H| |]; cbn [map fold_right length].
  - specialize (IH H). lia.
  - lia.
Qed.

Lemma readable_row : forall files j, Forall (Forall readable) files -> Forall readable (row files j).
Proof.
  intros files j F. apply Forall_forall. intros est I. unfold row in I. apply in_flat_map in I. destruct I as (ests & Ie & I).
  rewrite Forall_forall in F. specialize (F ests Ie). rewrite Forall_forall in F. destruct (nth_error ests j) as [y|] eqn:E; [|destruct I].
  destruct I as [->|[]]. apply F. eapply nth_error_In, E.
Qed.

Lemma stats_exact : forall fuel files, (fold_right Nat.max O (map (@length (N * N)) files) < fuel)%nat -> Forall (Forall readable) files ->
  exists rows, stats_while fuel (map file_of files) = Ret rows /\ rows_of files rows.
Proof.
  induction fuel as [|fuel IH]; intros files L F; [lia|]. cbn [stats_while]. rewrite read_lines, read_rest.
  destruct (row files 0) as [|est rest] eqn:R0.
  - exists []. split; [reflexivity|]. split; [now rewrite (row_nil files R0)|]. intros [|j] r H; discriminate H.
  - cbn [map]. rewrite <- map_cons, <- R0.
    destruct (map_M_all (fun values => map_M float_of (split_space [] values))
                (fun l v => exists est, l = line_of est /\ v = [of_N (fst est); of_N (snd est)]) (map line_of (row files 0))) as (vs & -> & V).
    { intros l I. apply in_map_iff in I. destruct I as (y & <- & _). eexists. split; [apply line_floats|eauto]. }
    cbn [bind].
    assert (V' : vs = map (fun est => [of_N (fst est); of_N (snd est)]) (row files 0)).
    { clear - V. revert V. generalize (row files 0). intros l. revert vs. induction l as [|y l IH]; intros vs V; cbn [map] in V; inversion V as [|? ? ? ? (z & E1 & E2) V']; subst; [reflexivity|].
      cbn [map]. f_equal; [|now apply IH]. pose proof (line_floats z) as A. rewrite <- E1, line_floats in A. congruence. }
    subst vs. clear V. pose proof (readable_row files 0 F) as RR.
    assert (XE : exists errs, map_M relative_error (map (fun est => [of_N (fst est); of_N (snd est)]) (row files 0)) = Ret errs /\
      Forall2 (fun est x => relative_error_of (fst est) (snd est) x) (row files 0) errs).
    { clear - RR. induction RR as [|y l Y RR (errs & E & G)]; [exists []; split; [reflexivity|constructor]|].
      destruct (error_exact y Y) as (x & E1 & X). exists (x :: errs). cbn [map map_M]. rewrite E1. cbn [bind]. rewrite E. split; [reflexivity|now constructor]. }
    destruct XE as (errs & -> & G). cbn [bind]. rewrite R0. cbn [map nth_error unwrap bind].
    rewrite R0 in RR. apply Forall_inv in RR. destruct RR as ((C1 & C2) & _). destruct (of_N_exact (fst est) C2) as (FC & VC).
    cbn [int_of]. unfold fin in FC. rewrite FC. cbn [bind].
    destruct (IH (map (@tl (N * N)) files)) as (rows & -> & RL & RJ).
    + rewrite (row_cons files est rest R0) in L. lia.
    + apply Forall_map. eapply Forall_impl; [|exact F]. intros [|y ests] Y; [constructor|now inversion Y].
    + cbn [bind]. eexists. split; [reflexivity|]. split; [cbn [length]; rewrite RL; symmetry; exact (row_cons files est rest R0)|].
      intros [|j] r H; cbn [nth_error] in H.
      * injection H as <-. destruct est as [c k]. exists c, k, rest. split; [exact R0|]. split; [|exact G]. cbn [fst] in *.
        apply eq_IZR. rewrite Btrunc_correct by reflexivity. rewrite round_FIX_IZR. unfold val in VC. rewrite VC. now rewrite Ztrunc_IZR.
      * destruct (RJ j r H) as (c & k & rest' & A & B & D). rewrite row_tl in A, D. eauto 10.
Qed.

Theorem statistics_exact : forall files contents, Forall2 estimate_file files contents -> Forall (Forall readable) files ->
  exists rows, calculate_statistics contents = Ret rows /\ rows_of files rows.
Proof.
  intros files contents E F.
  assert (X : contents = map file_of files).
  { clear F. induction E as [|ests content files contents E _ IH]; [reflexivity|]. cbn [map]. f_equal; [|exact IH].
    destruct E as (ls & A & ->). destruct (saved_estimates ests) as (ls' & A' & B'). unfold file_of. rewrite B'. f_equal. clear B'.
    revert ls' A'. induction A as [|est l ests ls (a & b & Na & Nb & ->) _ IHA]; intros ls' A'; inversion A' as [|? ? ? ? (a' & b' & Na' & Nb' & ->)]; subst; [reflexivity|].
    f_equal; [|now apply IHA]. now rewrite (numeral_unique _ _ _ Na Na'), (numeral_unique _ _ _ Nb Nb'). }
  subst contents. unfold calculate_statistics. apply stats_exact; [|exact F]. apply Nat.lt_succ_r. clear E F.
  induction files as [|ests files IH]; [cbn; lia|]. cbn [map fold_right concat]. rewrite app_length. apply Nat.max_lub; [|lia].
  apply Nat.le_trans with (length (file_of ests)); [|lia]. clear. unfold file_of, saved. induction ests as [|y ests IH]; [cbn; lia|].
  cbn [map concat length]. rewrite !app_length. cbn [length]. lia.
Qed.
