(** * Decimal literals *)
From Coq Require Import NArith ZArith Reals Lra Lia List Bool.
From Flocq Require Import Core BinarySingleNaN.
From Verif Require Import ModelRust ModelF64 ModelLog ModelConstants SpecRust F64Facts LogFacts LogConst RustFloat.
Import ListNotations.
Local Open Scope R_scope.

Lemma pow_not_0 : forall k, IZR (10 ^ Z.of_N k) <> 0.
Proof. intros k. apply IZR_neq. apply Z.pow_nonzero; lia. Qed.

Lemma lit_ieee : forall n k, (Z.abs n <= 2 ^ 53)%Z -> (k <= 22)%N -> ieee (IZR n / IZR (10 ^ Z.of_N k)) false (lit n k).
Proof.
  intros n k Hn Hk. unfold lit.
  destruct (of_Z_exact n Hn) as [Fn Vn]. destruct (ten_exact k Hk) as [Fk Vk].
  assert (EP : 10 ^ N.to_nat k = IZR (10 ^ Z.of_N k)).
  { rewrite <- (N2Nat.id k) at 2. rewrite nat_N_Z, <- pow_IZR. reflexivity. }
  rewrite EP in Vk. unfold val in Vn, Vk.
  pose proof (div_ieee (of_Z n) (of_Z (10 ^ Z.of_N k)) Fn Fk) as H. rewrite Vn, Vk in H.
  specialize (H (pow_not_0 k)). destruct H as [H1 H2]. split; [|exact H2].
  intros L. destruct (H1 L) as (A & B & C). split; [exact A|]. split; [exact B|]. rewrite C.
  destruct (Req_bool_spec (IZR n / IZR (10 ^ Z.of_N k)) 0) as [E|E]; [|reflexivity].
  assert (IZR n = 0).
  { apply Rmult_integral in E. destruct E as [E|E]; [exact E|]. exfalso. revert E. apply Rinv_neq_0_compat, pow_not_0. }
  apply eq_IZR in H. subst n.
  destruct (of_Z_ieee (10 ^ Z.of_N k)) as [T _]. rewrite <- Vk in T at 2.
  assert (S : forall z, (0 <= z)%Z -> is_finite (of_Z z) = true -> Bsign (of_Z z) = false).
  { intros z Hz Fz. destruct (of_Z_ieee z) as [P Q].
    destruct (Rlt_or_le (Rabs (rounded (IZR z))) (bpow radix2 1024)) as [X|X].
    - destruct (P X) as (_ & _ & S). rewrite S. destruct (Req_bool (IZR z) 0); [reflexivity|].
      apply Rlt_bool_false. apply IZR_le. exact Hz.
    - rewrite (Q X) in Fz. discriminate. }
  rewrite (S 0%Z), (S (10 ^ Z.of_N k)%Z); auto; try lia.
Qed.

(** The decimals of the tables are short enough for that. *)
Definition short (nk : Z * N) : Prop := (Z.abs (fst nk) <= 2 ^ 53)%Z /\ (snd nk <= 22)%N.
Definition short_b (nk : Z * N) : bool := (Z.abs (fst nk) <=? 2 ^ 53)%Z && (snd nk <=? 22)%N.

Lemma short_ok : forall l, forallb (forallb short_b) l = true -> Forall (Forall short) l.
Proof.
  intros l H. rewrite forallb_forall in H. apply Forall_forall. intros k Hk. specialize (H k Hk).
  rewrite forallb_forall in H. apply Forall_forall. intros x Hx. specialize (H x Hx).
  apply andb_true_iff in H. destruct H as [A B]. apply Z.leb_le in A. apply N.leb_le in B. now split.
Qed.

Lemma short_ieee : forall l, Forall short l ->
  Forall2 (fun nk x => ieee (IZR (fst nk) / IZR (10 ^ Z.of_N (snd nk))) false x) l (decimals l).
Proof.
  intros l H. induction H as [|[n k] l [A B] H IH]; cbn [decimals map]; constructor; auto. now apply lit_ieee.
Qed.

Lemma table_literals :
  Forall2 (Forall2 (fun nk x => ieee (IZR (fst nk) / IZR (10 ^ Z.of_N (snd nk))) false x)) raw_dec RAW_ESTIMATE_DATA /\
  Forall2 (Forall2 (fun nk x => ieee (IZR (fst nk) / IZR (10 ^ Z.of_N (snd nk))) false x)) bias_dec BIAS_DATA.
Proof.
  assert (W : forall l, Forall (Forall short) l ->
    Forall2 (Forall2 (fun nk x => ieee (IZR (fst nk) / IZR (10 ^ Z.of_N (snd nk))) false x)) l (map decimals l)).
  { intros l H. induction H; cbn [map]; constructor; auto. now apply short_ieee. }
  split; apply W, short_ok; vm_compute; reflexivity.
Qed.

Lemma log_literals : Forall (fun '(n, k, x) => is_finite x = true /\ B2R x = rounded (IZR n / IZR (10 ^ Z.of_N k)))
  [(693147180369123816490, 21%N, LN2_HI); (190821492927058770002, 30%N, LN2_LO); (6666666666666735130, 19%N, LG1);
   (3999999999940941908, 19%N, LG2); (2857142874366239149, 19%N, LG3); (2222219843214978396, 19%N, LG4);
   (1818357216161805012, 19%N, LG5); (1531383769920937332, 19%N, LG6); (1479819860511658591, 19%N, LG7)]%Z.
Proof.
  destruct log_constants as (A & B & C & D & E & F & G & H & I).
  assert (W : forall x n k, is x (rnd (IZR n / 10 ^ k)) ->
    is_finite x = true /\ B2R x = rounded (IZR n / IZR (10 ^ Z.of_nat k))).
  { intros x n k [Fx Vx]. split; [exact Fx|]. unfold val in Vx. rewrite Vx. unfold rnd, rounded.
    now rewrite <- pow_IZR. }
  apply Forall_cons; [exact (W _ _ 21%nat A)|]. apply Forall_cons; [exact (W _ _ 30%nat B)|].
  apply Forall_cons; [exact (W _ _ 19%nat C)|]. apply Forall_cons; [exact (W _ _ 19%nat D)|].
  apply Forall_cons; [exact (W _ _ 19%nat E)|]. apply Forall_cons; [exact (W _ _ 19%nat F)|].
  apply Forall_cons; [exact (W _ _ 19%nat G)|]. apply Forall_cons; [exact (W _ _ 19%nat H)|].
  apply Forall_cons; [exact (W _ _ 19%nat I)|]. apply Forall_nil.
Qed.
