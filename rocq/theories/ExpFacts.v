(** * The cardinalities that exp.py generates *)
From Coq Require Import NArith ZArith Reals List Bool Lia Lra.
From Flocq Require Import Core BinarySingleNaN.
From Verif Require Import ModelRust ModelF64 ModelPlus ModelFiles ModelExp SpecRust SpecExp F64Facts RustFloat.
Import ListNotations.
Local Open Scope R_scope.

(** ** The series *)
Definition ratio : R := rounded 1.007.

Lemma rounded_rel : forall x, 1 <= x -> x * (1 - u) <= rounded x <= x * (1 + u).
Proof.
  intros x Hx. destruct (rnd_rel x) as (d & Hd & E).
  { rewrite Rabs_pos_eq by lra. apply Rle_trans with (bpow radix2 0); [apply bpow_le; lia|cbn; lra]. }
  change (rounded x) with (rnd x). rewrite E. apply Rabs_le_inv in Hd. nra.
Qed.

Lemma ratio_bounds : 1.007 * (1 - u) <= ratio <= 1.007 * (1 + u).
Proof. apply rounded_rel. lra. Qed.

Lemma series_ge_1 : forall k, 1 <= series k.
Proof.
  induction k as [|k IH]; [cbn; lra|]. cbn [series]. fold ratio. pose proof ratio_bounds as B. rewrite u_val in B.
  change 1 with (bpow radix2 0). apply rnd_ge_bpow; [lia|]. change (bpow radix2 0) with 1. nra.
Qed.

Lemma series_step : forall k, 1.007 * (1 - u) ^ 2 * series k <= series (S k) <= 1.007 * (1 + u) ^ 2 * series k.
Proof.
  intros k. cbn [series]. fold ratio. pose proof (series_ge_1 k) as G. pose proof ratio_bounds as B.
  assert (H : 1 <= series k * ratio) by (rewrite u_val in B; nra).
  destruct (rounded_rel _ H) as [L U]. pose proof u_val as Uv. split.
  - eapply Rle_trans; [|exact L]. assert (1.007 * (1 - u) * series k <= series k * ratio) by nra.
    assert (0 <= 1 - u) by (rewrite Uv; lra). apply (Rmult_le_compat_r (1 - u)) in H0; [|assumption]. lra.
  - eapply Rle_trans; [exact U|]. assert (series k * ratio <= 1.007 * (1 + u) * series k) by nra.
    assert (0 <= 1 + u) by (rewrite Uv; lra). apply (Rmult_le_compat_r (1 + u)) in H0; [|assumption]. lra.
Qed.

Lemma series_incr : forall k, series k < series (S k).
Proof. intros k. pose proof (series_step k) as [L _]. pose proof (series_ge_1 k). rewrite u_val in L. nra. Qed.

Lemma series_mono : forall i j, (i <= j)%nat -> series i <= series j.
Proof. intros i j H. induction H as [|j H IH]; [lra|]. pose proof (series_incr j). lra. Qed.

Lemma series_powers : forall k, (1.007 * (1 - u) ^ 2) ^ k <= series k <= (1.007 * (1 + u) ^ 2) ^ k.
Proof.
  induction k as [|k [L U]]; [cbn; lra|]. destruct (series_step k) as [SL SU]. cbn [pow]. pose proof u_val as Uv.
  assert (0 <= 1.007 * (1 - u) ^ 2) by (rewrite Uv; lra). assert (0 <= 1.007 * (1 + u) ^ 2) by (rewrite Uv; lra). split.
  - eapply Rle_trans; [|exact SL]. now apply Rmult_le_compat_l.
  - eapply Rle_trans; [exact SU|]. now apply Rmult_le_compat_l.
Qed.

Lemma series_grows : forall j, 2 ^ j <= series (110 * j).
Proof.
  assert (P : forall d n, 0 <= d -> 1 + INR n * d + INR n * (INR n - 1) / 2 * d ^ 2 <= (1 + d) ^ n).
  { intros d n Hd. induction n as [|n IH]; [cbn; lra|]. rewrite S_INR. cbn [pow].
    apply (Rmult_le_compat_l (1 + d)) in IH; [|lra]. pose proof (pos_INR n) as Hn.
    assert (0 <= INR n * (INR n - 1) / 2 * d ^ 2 * d).
    { apply Rmult_le_pos; [|exact Hd]. apply Rmult_le_pos; [|apply pow2_ge_0]. destruct n as [|n]; [cbn; lra|].
      rewrite S_INR. pose proof (pos_INR n). nra. } simpl (d ^ 2) in *. nra. }
  intros j. eapply Rle_trans; [|apply series_powers]. rewrite pow_mult. apply pow_incr. split; [lra|].
  apply Rle_trans with ((1 + 0.0069) ^ 110).
  - eapply Rle_trans; [|apply P; lra]. rewrite INR_IZR_INZ. change (Z.of_nat 110) with 110%Z. lra.
  - apply pow_incr. rewrite u_val. lra.
Qed.

Lemma reach_exists : forall max, exists K, (K <= 110 * 1024)%nat /\ first_reach max K.
Proof.
  intros max.
  assert (D : forall k, {IZR max <= series k \/ bpow radix2 1024 <= series k} + {series k < IZR max /\ series k < bpow radix2 1024}).
  { intros k. destruct (Rle_dec (IZR max) (series k)) as [|A]; [left; now left|].
    destruct (Rle_dec (bpow radix2 1024) (series k)) as [|B]; [left; now right|]. right. lra. }
  assert (X : forall n, (forall k, (k < n)%nat -> series k < IZR max /\ series k < bpow radix2 1024) \/
    exists K, (K < n)%nat /\ first_reach max K).
  { induction n as [|n [IH|(K & L & H)]]; [left; intros k Hk; lia| |right; exists K; split; [lia|exact H]].
    destruct (D n) as [R|R]; [right; exists n; split; [lia|now split]|]. left. intros k Hk.
    destruct (Nat.eq_dec k n) as [->|Hn]; [exact R|]. apply IH. lia. }
  destruct (X (S (110 * 1024))) as [H|(K & L & H)].
  - exfalso. destruct (H (110 * 1024)%nat) as [_ A]; [lia|]. pose proof (series_grows 1024) as G.
    rewrite <- (IZR_Zpower radix2) in A by lia. rewrite pow_IZR in G. cbn [radix_val radix2] in A.
    change (Z.of_nat 1024) with 1024%Z in G. lra.
  - exists K. split; [lia|exact H].
Qed.

Lemma reach_unique : forall max a b, first_reach max a -> first_reach max b -> a = b.
Proof.
  assert (X : forall max a b, first_reach max a -> first_reach max b -> (b <= a)%nat).
  { intros max a b (_ & A) (B & _). destruct (Nat.le_gt_cases b a) as [|L]; [assumption|]. specialize (B a L). lra. }
  intros max a b A B. apply Nat.le_antisymm; eapply X; eassumption.
Qed.

(** ** Comparing and truncating *)
Lemma lt_int_spec : forall x z, is_finite x = true -> lt_int (Float x) z = true <-> B2R x < IZR z.
Proof.
  intros [s|s| |s m e H] z F; try discriminate F; cbn [lt_int B2R].
  - rewrite Z.ltb_lt. split; [apply IZR_lt|apply lt_IZR].
  - unfold F2R. cbn [Fnum Fexp]. destruct (Z.leb_spec 0 e) as [E|E].
    + rewrite Z.ltb_lt, <- (IZR_Zpower radix2) by exact E. rewrite <- mult_IZR. split; [apply IZR_lt|apply lt_IZR].
    + rewrite Z.ltb_lt. assert (P : 0 < bpow radix2 (- e)) by apply bpow_gt_0.
      assert (Q : IZR z = IZR (z * 2 ^ (- e)) * bpow radix2 e).
      { rewrite mult_IZR. change (2 ^ (- e))%Z with (radix2 ^ (- e))%Z. rewrite (IZR_Zpower radix2) by lia.
        rewrite Rmult_assoc, <- bpow_plus. replace (- e + e)%Z with 0%Z by lia. cbn. lra. }
      rewrite Q. split.
      * intros L. apply Rmult_lt_compat_r; [apply bpow_gt_0|]. now apply IZR_lt.
      * intros L. apply Rmult_lt_reg_r in L; [|apply bpow_gt_0]. now apply lt_IZR.
Qed.

Lemma lt_int_exact : forall x z, lt_int (Float x) z = true <-> x = B754_infinity true \/ is_finite x = true /\ B2R x < IZR z.
Proof.
  intros x z. destruct (is_finite x) eqn:F.
  - rewrite (lt_int_spec x z F). split; [auto|]. intros [->|[_ H]]; [discriminate F|exact H].
  - destruct x as [s|[|]| |s m e H]; try discriminate F; cbn [lt_int]; split; auto; try discriminate; intros [Q|[Q _]]; discriminate Q.
Qed.

(** [cur] in round [k]: the series, or infinity. *)
Definition holds (cur : number) (k : nat) : Prop :=
  match cur with
  | Int z => k = O /\ z = 1%Z
  | Float x => (series k < bpow radix2 1024 -> is_finite x = true /\ B2R x = series k) /\
               (bpow radix2 1024 <= series k -> x = B754_infinity false)
  end.

Lemma big_1 : 1 < bpow radix2 1024.
Proof. change 1 with (bpow radix2 0). apply bpow_lt. lia. Qed.

Lemma holds_lt : forall cur k max, holds cur k -> lt_int cur max = true <-> series k < IZR max /\ series k < bpow radix2 1024.
Proof.
  intros [z|x] k max H.
  - destruct H as (-> & ->). cbn [lt_int series]. rewrite Z.ltb_lt. pose proof big_1. split.
    + intros L. split; [now apply IZR_lt|assumption].
    + intros [L _]. now apply lt_IZR.
  - destruct H as (F & I). destruct (Rlt_or_le (series k) (bpow radix2 1024)) as [L|L].
    + destruct (F L) as (FF & V). rewrite (lt_int_spec x max FF), V. tauto.
    + rewrite (I L). cbn [lt_int]. split; [discriminate|lra].
Qed.

Lemma holds_int : forall cur k, holds cur k -> series k < bpow radix2 1024 -> int_of cur = Ret (Zfloor (series k)).
Proof.
  intros [z|x] k H L.
  - destruct H as (-> & ->). cbn [int_of series]. now rewrite Zfloor_IZR.
  - destruct H as (F & _). destruct (F L) as (FF & V). cbn [int_of]. rewrite FF. f_equal.
    apply eq_IZR. rewrite Btrunc_correct by reflexivity. change (round radix2 (FIX_exp 0) Ztrunc (B2R x)) with (round radix2 (FIX_exp 0) Ztrunc (B2R x)).
    rewrite round_FIX_IZR, V. rewrite Ztrunc_floor; [reflexivity|]. pose proof (series_ge_1 k). lra.
Qed.

Lemma holds_mul : forall cur k, holds cur k -> series k < bpow radix2 1024 -> exists cur', mul_float cur (lit 1007 3) = Ret cur' /\ holds cur' (S k).
Proof.
  intros cur k H L.
  assert (LR : is_finite (lit 1007 3) = true /\ B2R (lit 1007 3) = ratio).
  { destruct (lit_correct 1007 3) as [A B]; [lia|lia|]. split; [exact A|]. unfold val in B. rewrite B. unfold ratio. change (rounded 1.007) with (rnd 1.007).
    f_equal. change (N.to_nat 3) with 3%nat. lra. }
  assert (X : forall x, is_finite x = true -> B2R x = series k -> exists cur', Ret (Float (fmul x (lit 1007 3))) = Ret cur' /\ holds cur' (S k)).
  { intros x F V. eexists. split; [reflexivity|]. pose proof (mul_ieee x (lit 1007 3) F (proj1 LR)) as (A & B). rewrite V, (proj2 LR) in A, B.
    change (rounded (series k * ratio)) with (series (S k)) in A, B. pose proof (series_ge_1 (S k)) as G.
    rewrite Rabs_pos_eq in A, B by lra. split.
    - intros LL. destruct (A LL) as (F' & V' & _). now split.
    - intros LL. rewrite (B LL). f_equal. apply Rlt_bool_false. pose proof (series_ge_1 k). pose proof ratio_bounds as RB. rewrite u_val in RB. nra. }
  destruct cur as [z|x].
  - destruct H as (-> & ->). cbn [mul_float]. destruct (of_Z_exact 1) as [F V]; [lia|]. rewrite F. now apply X.
  - destruct H as (A & _). destruct (A L) as (F & V). cbn [mul_float]. now apply X.
Qed.

(** ** The loop *)
Lemma set_add_in : forall data z y, In y (set_add data z) <-> In y data \/ y = z.
Proof.
  intros data z y. unfold set_add. destruct (existsb (Z.eqb z) data) eqn:E.
  - apply existsb_exists in E. destruct E as (x & I & Q). apply Z.eqb_eq in Q. subst x. split; [tauto|]. intros [H| ->]; assumption.
  - rewrite in_app_iff. cbn. intuition.
Qed.

Lemma set_add_nodup : forall data z, NoDup data -> NoDup (set_add data z).
Proof.
  intros data z D. unfold set_add. destruct (existsb (Z.eqb z) data) eqn:E; [exact D|]. apply NoDup_app_intro || idtac.
  assert (N0 : ~ In z data).
  { intros I. rewrite (proj2 (existsb_exists _ _)) in E; [discriminate|]. exists z. split; [exact I|apply Z.eqb_refl]. }
  apply (NoDup_Add (a := z) (l := data)); [|split; assumption]. rewrite <- (app_nil_r data) at 1. apply Add_app.
Qed.

Lemma while_exact : forall max K, first_reach max K -> forall fuel k cur data, (k <= K)%nat -> (K - k < fuel)%nat -> holds cur k -> NoDup data ->
  (forall z, In z data <-> exists i, (i < k)%nat /\ z = Zfloor (series i)) ->
  exists cur' data', cards_while fuel max (lit 1007 3) cur data = Ret (cur', data') /\ holds cur' K /\ NoDup data' /\
    (forall z, In z data' <-> exists i, (i < K)%nat /\ z = Zfloor (series i)).
Proof.
  intros max K (A & B). induction fuel as [|fuel IH]; intros k cur data L F H D I; [lia|]. cbn [cards_while].
  destruct (lt_int cur max) eqn:E.
  - apply (holds_lt cur k max H) in E. assert (k <> K) by (intros ->; lra).
    rewrite (holds_int cur k H (proj2 E)). cbn [bind]. destruct (holds_mul cur k H (proj2 E)) as (cur' & -> & H'). cbn [bind].
    apply (IH (S k)); [lia|lia|exact H'|now apply set_add_nodup|]. intros z. rewrite set_add_in, I. split.
    + intros [(i & Li & ->)| ->]; [exists i|exists k]; split; auto; lia.
    + intros (i & Li & ->). destruct (Nat.eq_dec i k) as [->|]; [now right|left]. exists i. split; [lia|reflexivity].
  - assert (k = K) as ->.
    { destruct (Nat.eq_dec k K) as [|N0]; [assumption|]. assert (T : lt_int cur max = true) by (apply (holds_lt cur k max H); apply A; lia). congruence. }
    exists cur, data. auto.
Qed.

(** ** Sorting *)
Lemma insert_sorted_in : forall z l y, In y (insert_sorted z l) <-> y = z \/ In y l.
Proof.
  intros z l y. induction l as [|x l IH]; cbn [insert_sorted]; [cbn; intuition|].
  destruct (z <=? x)%Z; cbn [In]; [intuition|]. rewrite IH. tauto.
Qed.

Lemma insert_sorted_increasing : forall z l, ~ In z l -> increasing l -> increasing (insert_sorted z l).
Proof.
  intros z l N0 I. induction I as [|x l F I IH]; cbn [insert_sorted]; [repeat constructor|].
  destruct (Z.leb_spec z x) as [L|L].
  - assert (z <> x) by (intros ->; apply N0; now left). constructor; [|now constructor].
    constructor; [lia|]. eapply Forall_impl; [|exact F]. cbn. lia.
  - constructor; [|apply IH; intros H; apply N0; now right]. apply Forall_forall. intros y Hy. apply insert_sorted_in in Hy.
    destruct Hy as [->|Hy]; [lia|]. rewrite Forall_forall in F. now apply F.
Qed.

Lemma sorted_spec : forall l, NoDup l -> increasing (sorted l) /\ forall z, In z (sorted l) <-> In z l.
Proof.
  intros l D. induction D as [|x l N0 D (I & E)]; [split; [constructor|reflexivity]|]. cbn [sorted fold_right].
  change (fold_right insert_sorted [] l) with (sorted l). split.
  - apply insert_sorted_increasing; [now rewrite E|exact I].
  - intros z. rewrite insert_sorted_in, E. cbn. intuition.
Qed.

(** ** The result *)
Theorem cards_exact : forall max, exists K, first_reach max K /\
  (series K < bpow radix2 1024 -> exists l, generate_cardinalities max = Ret l /\ series_floors K l) /\
  (bpow radix2 1024 <= series K -> generate_cardinalities max = Panic).
Proof.
  intros max. destruct (reach_exists max) as (K & LK & R). exists K. split; [exact R|].
  destruct (while_exact max K R (N.to_nat 120000) 0 (Int 1) []) as (cur & data & E & H & D & I).
  - lia.
  - lia.
  - now split.
  - constructor.
  - intros z. split; [intros []|intros (i & Li & _); lia].
  - unfold generate_cardinalities. rewrite E. cbn [bind]. split.
    + intros L. rewrite (holds_int cur K H L). cbn [bind]. eexists. split; [reflexivity|].
      destruct (sorted_spec (set_add data (Zfloor (series K))) (set_add_nodup _ _ D)) as (S1 & S2). split; [exact S1|].
      intros z. rewrite S2, set_add_in, I. split.
      * intros [(i & Li & ->)| ->]; [exists i|exists K]; split; auto; lia.
      * intros (i & Li & ->). destruct (Nat.eq_dec i K) as [->|]; [now right|left]. exists i. split; [lia|reflexivity].
    + intros L. destruct cur as [z|x].
      * destruct H as (-> & _). cbn [series] in L. pose proof big_1. lra.
      * destruct H as (_ & H). rewrite (H L). reflexivity.
Qed.
