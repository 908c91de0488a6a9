(** * The no_std logarithm: bit patterns, special values, no overflow *)
From Coq Require Import NArith ZArith Reals Lra Lia List Bool.
From Flocq Require Import Core BinarySingleNaN.
From Flocq Require Binary Bits.
From Verif Require Import ModelRust ModelF64 ModelLog BitFacts F64Facts.
Local Open Scope N_scope.

(** ** Fields of a 64-bit pattern *)
Definition b_sign (b : N) : bool := 2 ^ 63 <=? b.
Definition b_exp (b : N) : N := (b / 2 ^ 52) mod 2 ^ 11.
Definition b_man (b : N) : N := b mod 2 ^ 52.

Definition signed (s : bool) (r : R) : R := if s then Ropp r else r.

Lemma aux_spec : forall b, b < 2 ^ 64 ->
  Bits.binary_float_of_bits_aux 52 11 (Z.of_N b) =
  if b_exp b =? 0 then
    match b_man b with
    | 0 => Binary.F754_zero (b_sign b)
    | Npos m => Binary.F754_finite (b_sign b) m (-1074)
    end
  else if b_exp b =? 2047 then
    match b_man b with
    | 0 => Binary.F754_infinity (b_sign b)
    | Npos m => Binary.F754_nan (b_sign b) m
    end
  else
    match b_man b + 2 ^ 52 with
    | 0 => Binary.F754_nan false 1
    | Npos m => Binary.F754_finite (b_sign b) m (Z.of_N (b_exp b) - 1075)
    end.
Proof.
  intros b Hb. unfold Bits.binary_float_of_bits_aux, Bits.split_bits.
  assert (S : Z.leb (2 ^ 52 * 2 ^ 11) (Z.of_N b) = b_sign b).
  { unfold b_sign. apply eq_true_iff_eq. rewrite Z.leb_le, N.leb_le. lia. }
  assert (Mn : (Z.of_N b mod 2 ^ 52)%Z = Z.of_N (b_man b)).
  { unfold b_man. rewrite N2Z.inj_mod. reflexivity. }
  assert (Ex : ((Z.of_N b / 2 ^ 52) mod 2 ^ 11)%Z = Z.of_N (b_exp b)).
  { unfold b_exp. rewrite N2Z.inj_mod, N2Z.inj_div. reflexivity. }
  rewrite S, Mn, Ex. clear S Mn Ex.
  assert (Z0 : Zbool.Zeq_bool (Z.of_N (b_exp b)) 0 = (b_exp b =? 0)).
  { rewrite Zbool.Zeq_is_eq_bool || idtac. apply eq_true_iff_eq.
    rewrite <- Zbool.Zeq_is_eq_bool, N.eqb_eq. lia. }
  assert (Z1 : Zbool.Zeq_bool (Z.of_N (b_exp b)) (2 ^ 11 - 1) = (b_exp b =? 2047)).
  { apply eq_true_iff_eq. rewrite <- Zbool.Zeq_is_eq_bool, N.eqb_eq. lia. }
  rewrite Z0, Z1. clear Z0 Z1.
  destruct (b_exp b =? 0).
  { destruct (b_man b); reflexivity. }
  destruct (b_exp b =? 2047).
  { destruct (b_man b); reflexivity. }
  change (2 ^ 52)%Z with (Z.of_N (2 ^ 52)). rewrite <- N2Z.inj_add.
  destruct (b_man b + 2 ^ 52) as [|m]; auto.
  cbn [Z.of_N]. f_equal. change (SpecFloat.emin (52 + 1) (2 ^ (11 - 1))) with (-1074)%Z. lia.
Qed.

Definition ff (b : N) : Binary.full_float := Bits.binary_float_of_bits_aux 52 11 (Z.of_N b).

Lemma from_bits_ff : forall b,
  val (from_bits b) = Binary.FF2R radix2 (ff b) /\
  is_finite (from_bits b) = Binary.is_finite_FF (ff b) /\
  is_nan (from_bits b) = Binary.is_nan_FF (ff b).
Proof.
  intros b. unfold from_bits, val, ff. rewrite Binary.B2R_B2BSN, Binary.is_finite_B2BSN,
    Binary.is_nan_B2BSN.
  unfold Bits.b64_of_bits, Bits.binary_float_of_bits.
  rewrite Binary.B2R_FF2B, Binary.is_finite_FF2B, Binary.is_nan_FF2B. auto.
Qed.

Lemma from_bits_zero : forall b s, ff b = Binary.F754_zero s -> from_bits b = B754_zero s.
Proof.
  intros b s H. unfold from_bits, Bits.b64_of_bits, Bits.binary_float_of_bits. unfold ff in H.
  generalize (Bits.binary_float_of_bits_aux_correct 52 11 eq_refl eq_refl eq_refl (Z.of_N b)).
  rewrite H. reflexivity.
Qed.

Lemma from_bits_inf : forall b s, ff b = Binary.F754_infinity s -> from_bits b = B754_infinity s.
Proof.
  intros b s H. unfold from_bits, Bits.b64_of_bits, Bits.binary_float_of_bits. unfold ff in H.
  generalize (Bits.binary_float_of_bits_aux_correct 52 11 eq_refl eq_refl eq_refl (Z.of_N b)).
  rewrite H. reflexivity.
Qed.

Lemma from_bits_nan : forall b s m, ff b = Binary.F754_nan s m -> from_bits b = B754_nan.
Proof.
  intros b s m H. unfold from_bits, Bits.b64_of_bits, Bits.binary_float_of_bits. unfold ff in H.
  generalize (Bits.binary_float_of_bits_aux_correct 52 11 eq_refl eq_refl eq_refl (Z.of_N b)).
  rewrite H. reflexivity.
Qed.

Lemma from_bits_finite : forall b s m e, ff b = Binary.F754_finite s m e ->
  is (from_bits b) (signed s (IZR (Zpos m) * bpow radix2 e)).
Proof.
  intros b s m e H. destruct (from_bits_ff b) as (V & F & _). rewrite H in V, F. split; auto.
  rewrite V. simpl. unfold F2R. simpl. destruct s; simpl; auto.
  change (IZR (Zneg m)) with (- IZR (Zpos m))%R. ring.
Qed.

Lemma from_bits_to_bits : forall x, is_nan x = false -> from_bits (to_bits x) = x.
Proof.
  intros x Hx. unfold from_bits, to_bits.
  pose proof (Bits.bits_of_binary_float_range 52 11 eq_refl eq_refl
    (Binary.BSN2B 53 1024 Bits.default_nan_pl64 x)) as [H0 _].
  unfold Bits.bits_of_b64. rewrite Z2N.id by exact H0.
  unfold Bits.b64_of_bits.
  rewrite (Bits.binary_float_of_bits_of_binary_float 52 11 eq_refl eq_refl eq_refl).
  apply Binary.B2BSN_BSN2B.
Qed.

Lemma to_bits_lt : forall x, to_bits x < 2 ^ 64.
Proof.
  intros x. unfold to_bits.
  pose proof (Bits.bits_of_binary_float_range 52 11 eq_refl eq_refl
    (Binary.BSN2B 53 1024 Bits.default_nan_pl64 x)) as [H0 H1].
  unfold Bits.bits_of_b64. apply N2Z.inj_lt. rewrite Z2N.id by exact H0. exact H1.
Qed.

Lemma fields : forall b, b < 2 ^ 64 ->
  b = (if b_sign b then 2 ^ 63 else 0) + b_exp b * 2 ^ 52 + b_man b /\
  b_exp b < 2048 /\ b_man b < 2 ^ 52.
Proof.
  intros b Hb. unfold b_sign, b_exp, b_man.
  pose proof (N.mod_lt b (2 ^ 52) ltac:(discriminate)).
  pose proof (N.mod_lt (b / 2 ^ 52) (2 ^ 11) ltac:(discriminate)).
  pose proof (N.div_mod b (2 ^ 52) ltac:(discriminate)).
  pose proof (N.div_mod (b / 2 ^ 52) (2 ^ 11) ltac:(discriminate)).
  assert (b / 2 ^ 52 / 2 ^ 11 = if 2 ^ 63 <=? b then 1 else 0).
  { rewrite N.div_div by discriminate. change (2 ^ 52 * 2 ^ 11) with (2 ^ 63).
    destruct (N.leb_spec (2 ^ 63) b).
    - symmetry. apply (N.div_unique _ _ _ (b - 2 ^ 63)); lia.
    - apply N.div_small. lia. }
  rewrite H3 in H2. clear H3.
  change (2 ^ 11) with 2048 in *. change (2 ^ 52) with 4503599627370496 in *.
  change (2 ^ 63) with 9223372036854775808 in *.
  destruct (9223372036854775808 <=? b); nlia.
Qed.

(** Value of a positive normal pattern. *)
Lemma normal_value : forall E M, 1 <= E -> E <= 2046 -> M < 2 ^ 52 ->
  is (from_bits (E * 2 ^ 52 + M))
     (IZR (Z.of_N (2 ^ 52 + M)) * bpow radix2 (Z.of_N E - 1075)).
Proof.
  intros E M H1 H2 HM.
  assert (Hb : E * 2 ^ 52 + M < 2 ^ 63).
  { change (2 ^ 63) with (2048 * 2 ^ 52). change (2 ^ 52) with 4503599627370496 in *. lia. }
  assert (Hb' : E * 2 ^ 52 + M < 2 ^ 64) by (change (2 ^ 64) with (2 * 2 ^ 63); lia).
  assert (Bm : b_man (E * 2 ^ 52 + M) = M).
  { unfold b_man. rewrite N.add_comm, N.mod_add by discriminate. now apply N.mod_small. }
  assert (Be : b_exp (E * 2 ^ 52 + M) = E).
  { unfold b_exp. rewrite N.add_comm, N.div_add by discriminate.
    rewrite (N.div_small M) by auto. rewrite N.add_0_l. apply N.mod_small.
    change (2 ^ 11) with 2048. lia. }
  assert (Bs : b_sign (E * 2 ^ 52 + M) = false) by (apply N.leb_gt; auto).
  pose proof (aux_spec _ Hb') as A. fold (ff (E * 2 ^ 52 + M)) in A.
  rewrite Bm, Be, Bs in A.
  rewrite (proj2 (N.eqb_neq E 0)) in A by lia. rewrite (proj2 (N.eqb_neq E 2047)) in A by lia.
  rewrite (N.add_comm M) in A. destruct (2 ^ 52 + M) as [|m] eqn:Em.
  { change (2 ^ 52) with 4503599627370496 in Em. lia. }
  apply from_bits_finite in A. exact A.
Qed.

Lemma i32_ok : forall ck z, (- 2 ^ 31 <= z < 2 ^ 31)%Z -> i32 ck z = Ret z.
Proof.
  intros ck z H. unfold i32. rewrite (proj2 (Z.leb_le _ _)), (proj2 (Z.ltb_lt _ _)) by lia.
  reflexivity.
Qed.

(** The reduction step. *)
Lemma log_reduce_ok : forall ck E M k, 1 <= E -> E <= 2046 -> M < 2 ^ 52 ->
  (-100 <= k <= 100)%Z ->
  exists E' k1, log_reduce ck (E * 2 ^ 52 + M) k
                = Ret (log_poly (from_bits (E' * 2 ^ 52 + M)) (k + k1)) /\
    Z.of_N E = (Z.of_N E' + k1)%Z /\
    (E' = 1023 /\ M < 0x6a09e * 2 ^ 32 \/ E' = 1022 /\ 0x6a09e * 2 ^ 32 <= M).
Proof.
  intros ck E M k H1 H2 HM Hk. unfold log_reduce.
  set (hm := M / 2 ^ 32).
  assert (Hhm : hm < 2 ^ 20).
  { unfold hm. apply N.div_lt_upper_bound; [discriminate|]. exact HM. }
  change (2 ^ 20) with 1048576 in Hhm.
  assert (Hx : N.shiftr (E * 2 ^ 52 + M) 32 = E * 2 ^ 20 + hm).
  { rewrite N.shiftr_div_pow2. change (2 ^ 52) with (2 ^ 20 * 2 ^ 32).
    rewrite N.mul_assoc, N.add_comm, N.div_add by discriminate. apply N.add_comm. }
  rewrite Hx.
  change (0x3ff00000 - 0x3fe6a09e) with 614242.
  rewrite uadd_ok, bind_ret.
  2:{ change (2 ^ 32) with 4294967296. change (2 ^ 20) with 1048576. lia. }
  assert (Hlow : N.land (E * 2 ^ 52 + M) 4294967295 = M mod 2 ^ 32).
  { change 4294967295 with (2 ^ 32 - 1). rewrite land_mask.
    change (2 ^ 52) with (2 ^ 20 * 2 ^ 32). rewrite N.mul_assoc, N.add_comm.
    apply N.mod_add. discriminate. }
  rewrite Hlow.
  assert (HMs : M = hm * 2 ^ 32 + M mod 2 ^ 32).
  { unfold hm. rewrite N.mul_comm. apply N.div_mod. discriminate. }
  pose proof (N.mod_lt M (2 ^ 32) ltac:(discriminate)) as Hml.
  destruct (N.lt_ge_cases hm 434334) as [C|C].
  - assert (Sh : N.shiftr (E * 2 ^ 20 + hm + 614242) 20 = E).
    { rewrite N.shiftr_div_pow2. symmetry. change (2 ^ 20) with 1048576.
      apply (N.div_unique _ _ _ (hm + 614242)); lia. }
    assert (La : N.land (E * 2 ^ 20 + hm + 614242) 1048575 = hm + 614242).
    { change 1048575 with (2 ^ 20 - 1). rewrite land_mask. symmetry.
      change (2 ^ 20) with 1048576. apply (N.mod_unique _ _ E); lia. }
    rewrite Sh, La. rewrite !i32_ok, bind_ret by lia. rewrite i32_ok, bind_ret by lia.
    rewrite uadd_ok, bind_ret by (change (2 ^ 32) with 4294967296; lia).
    exists 1023, (Z.of_N E - 1023)%Z. split.
    + f_equal. f_equal. f_equal. rewrite N.shiftl_mul_pow2, lor_mul_add by auto.
      change 0x3fe6a09e with (1023 * 2 ^ 20 - 614242). change (2 ^ 20) with 1048576.
      change (2 ^ 52) with 4503599627370496. change (2 ^ 32) with 4294967296 in *. nlia.
    + split; [lia|]. left. split; auto. change (2 ^ 32) with 4294967296 in *. nlia.
  - assert (Sh : N.shiftr (E * 2 ^ 20 + hm + 614242) 20 = E + 1).
    { rewrite N.shiftr_div_pow2. symmetry. change (2 ^ 20) with 1048576.
      apply (N.div_unique _ _ _ (hm + 614242 - 1048576)); lia. }
    assert (La : N.land (E * 2 ^ 20 + hm + 614242) 1048575 = hm + 614242 - 1048576).
    { change 1048575 with (2 ^ 20 - 1). rewrite land_mask. symmetry.
      change (2 ^ 20) with 1048576. apply (N.mod_unique _ _ (E + 1)); lia. }
    rewrite Sh, La. rewrite !i32_ok, bind_ret by lia. rewrite i32_ok, bind_ret by lia.
    rewrite uadd_ok, bind_ret by (change (2 ^ 32) with 4294967296; lia).
    exists 1022, (Z.of_N (E + 1) - 1023)%Z. split.
    + f_equal. f_equal. f_equal. rewrite N.shiftl_mul_pow2, lor_mul_add by auto.
      change 0x3fe6a09e with (1022 * 2 ^ 20 + 434334). change (2 ^ 20) with 1048576.
      change (2 ^ 52) with 4503599627370496. change (2 ^ 32) with 4294967296 in *. nlia.
    + split; [lia|]. right. split; auto. change (2 ^ 32) with 4294967296 in *. nlia.
Qed.

(** Upper half of a pattern. *)
Lemma upper_half : forall b, b < 2 ^ 64 ->
  cast 32 (N.shiftr b 32) = (if b_sign b then 2 ^ 31 else 0) + b_exp b * 2 ^ 20 + b_man b / 2 ^ 32.
Proof.
  intros b Hb. destruct (fields b Hb) as (E & HE & HM). unfold cast.
  rewrite N.shiftr_div_pow2.
  assert (Hq : b_man b / 2 ^ 32 < 2 ^ 20).
  { apply N.div_lt_upper_bound; [discriminate|]. exact HM. }
  assert (Ed : b / 2 ^ 32 = (if b_sign b then 2 ^ 31 else 0) + b_exp b * 2 ^ 20 + b_man b / 2 ^ 32).
  { rewrite E at 1. symmetry.
    apply (N.div_unique _ _ _ (b_man b mod 2 ^ 32)); [apply N.mod_lt; discriminate|].
    pose proof (N.div_mod (b_man b) (2 ^ 32) ltac:(discriminate)).
    change (2 ^ 52) with 4503599627370496 in *. change (2 ^ 32) with 4294967296 in *.
    change (2 ^ 20) with 1048576 in *. change (2 ^ 63) with 9223372036854775808.
    change (2 ^ 31) with 2147483648.
    destruct (b_sign b); nlia. }
  rewrite Ed. apply N.mod_small.
  change (2 ^ 32) with 4294967296 in *. change (2 ^ 20) with 1048576 in *.
  change (2 ^ 31) with 2147483648. destruct (b_sign b); nlia.
Qed.

Lemma sign_of_half : forall b, b < 2 ^ 64 ->
  N.shiftr (cast 32 (N.shiftr b 32)) 31 = if b_sign b then 1 else 0.
Proof.
  intros b Hb. rewrite upper_half by auto. destruct (fields b Hb) as (_ & HE & HM).
  assert (Hq : b_man b / 2 ^ 32 < 2 ^ 20).
  { apply N.div_lt_upper_bound; [discriminate|]. exact HM. }
  rewrite N.shiftr_div_pow2. symmetry.
  change (2 ^ 20) with 1048576 in *. change (2 ^ 31) with 2147483648.
  apply (N.div_unique _ _ _ (b_exp b * 1048576 + b_man b / 2 ^ 32)); destruct (b_sign b); nlia.
Qed.

Lemma ff_cases : forall b, b < 2 ^ 64 -> ff b =
  if b_exp b =? 0 then
    match b_man b with
    | 0 => Binary.F754_zero (b_sign b)
    | Npos m => Binary.F754_finite (b_sign b) m (-1074)
    end
  else if b_exp b =? 2047 then
    match b_man b with
    | 0 => Binary.F754_infinity (b_sign b)
    | Npos m => Binary.F754_nan (b_sign b) m
    end
  else
    match b_man b + 2 ^ 52 with
    | 0 => Binary.F754_nan false 1
    | Npos m => Binary.F754_finite (b_sign b) m (Z.of_N (b_exp b) - 1075)
    end.
Proof. exact aux_spec. Qed.

(** ** The whole function *)

(** [log] was computed by the polynomial at [x'], with [x = x' * 2^k]. *)
Definition reduced (x : R) (y : f64) : Prop :=
  exists x' k r, y = log_poly x' k /\ is x' r /\
    (0.70710659 <= r < 1.41421319)%R /\ (x = r * bpow radix2 k)%R /\ (-1200 <= k <= 1200)%Z /\
    (exists z, r = (IZR z * bpow radix2 (-53))%R).

Lemma reduce_normal : forall ck E M k, 1 <= E -> E <= 2046 -> M < 2 ^ 52 ->
  (-100 <= k <= 100)%Z ->
  exists y, log_reduce ck (E * 2 ^ 52 + M) k = Ret y /\
    reduced (val (from_bits (E * 2 ^ 52 + M)) * bpow radix2 k) y.
Proof.
  intros ck E M k H1 H2 HM Hk.
  destruct (log_reduce_ok ck E M k H1 H2 HM Hk) as (E' & k1 & Er & EE & HE').
  exists (log_poly (from_bits (E' * 2 ^ 52 + M)) (k + k1)). split; auto.
  destruct (normal_value E M H1 H2 HM) as [_ V]. rewrite V.
  assert (N' : is (from_bits (E' * 2 ^ 52 + M))
     (IZR (Z.of_N (2 ^ 52 + M)) * bpow radix2 (Z.of_N E' - 1075))).
  { apply normal_value; lia. }
  exists (from_bits (E' * 2 ^ 52 + M)), (k + k1)%Z,
    (IZR (Z.of_N (2 ^ 52 + M)) * bpow radix2 (Z.of_N E' - 1075))%R.
  split; [reflexivity|split; [auto|split]].
  - assert (IZR (Z.of_N (2 ^ 52 + M)) = 4503599627370496 + IZR (Z.of_N M))%R as ->.
    { rewrite N2Z.inj_add, plus_IZR. reflexivity. }
    apply (N2Z.inj_lt M) in HM. apply IZR_lt in HM.
    change (IZR (Z.of_N (2 ^ 52))) with 4503599627370496%R in HM.
    assert (HM0 : (0 <= IZR (Z.of_N M))%R) by (apply IZR_le; lia).
    destruct HE' as [[-> HC]|[-> HC]].
    + change (Z.of_N 1023 - 1075)%Z with (-52)%Z.
      apply N2Z.inj_lt, IZR_lt in HC.
      change (IZR (Z.of_N (434334 * 2 ^ 32))) with 1865450325540864%R in HC.
      simpl bpow. lra.
    + change (Z.of_N 1022 - 1075)%Z with (-53)%Z.
      apply N2Z.inj_le, IZR_le in HC.
      change (IZR (Z.of_N (434334 * 2 ^ 32))) with 1865450325540864%R in HC.
      simpl bpow. lra.
  - split; [|split].
    + rewrite !Rmult_assoc, <- !bpow_plus. f_equal. f_equal. lia.
    + destruct HE' as [[-> _]|[-> _]]; lia.
    + destruct HE' as [[-> _]|[-> _]].
      * exists (2 * Z.of_N (2 ^ 52 + M))%Z. rewrite mult_IZR.
        change (Z.of_N 1023 - 1075)%Z with (1 + -53)%Z. rewrite bpow_plus. change (bpow radix2 1) with 2%R.
        generalize (bpow radix2 (-53)). intros. ring.
      * exists (Z.of_N (2 ^ 52 + M)). reflexivity.
Qed.

Lemma x1p54_is : is (from_bits 0x4350000000000000) (bpow radix2 54).
Proof.
  change 0x4350000000000000 with (1077 * 2 ^ 52 + 0).
  pose proof (normal_value 1077 0 ltac:(lia) ltac:(lia) eq_refl) as H.
  replace (bpow radix2 54) with (IZR (Z.of_N (2 ^ 52 + 0)) * bpow radix2 (Z.of_N 1077 - 1075))%R.
  - exact H.
  - change (IZR (Z.of_N (2 ^ 52 + 0))) with (bpow radix2 52). now rewrite <- bpow_plus.
Qed.

Lemma pos_bits : forall x, fin x -> (bpow radix2 (-1022) <= val x)%R ->
  exists E M, 1 <= E /\ E <= 2046 /\ M < 2 ^ 52 /\ to_bits x = E * 2 ^ 52 + M.
Proof.
  intros x Fx Hx. assert (Hn : is_nan x = false) by (destruct x; auto; discriminate).
  pose proof (from_bits_to_bits x Hn) as FB. pose proof (to_bits_lt x) as HL.
  destruct (fields _ HL) as (Ef & HE & HM).
  pose proof (ff_cases _ HL) as HF.
  pose proof (bpow_gt_0 radix2 (-1022)) as Hb.
  assert (Hs : b_sign (to_bits x) = false).
  { destruct (b_sign (to_bits x)) eqn:Es; auto. exfalso.
    destruct (b_exp (to_bits x) =? 0); [|destruct (b_exp (to_bits x) =? 2047)].
    - destruct (b_man (to_bits x)).
      + apply from_bits_zero in HF. rewrite FB in HF. rewrite HF in Hx. simpl in Hx. lra.
      + apply from_bits_finite in HF. destruct HF as [_ V]. rewrite FB in V. cbn [signed] in V.
        assert (0 < IZR (Zpos p) * bpow radix2 (-1074))%R.
        { apply Rmult_lt_0_compat; [now apply IZR_lt|apply bpow_gt_0]. }
        lra.
    - destruct (b_man (to_bits x)).
      + apply from_bits_inf in HF. rewrite FB in HF. rewrite HF in Fx. discriminate.
      + apply from_bits_nan in HF. rewrite FB in HF. rewrite HF in Fx. discriminate.
    - destruct (b_man (to_bits x) + 2 ^ 52).
      + apply from_bits_nan in HF. rewrite FB in HF. rewrite HF in Fx. discriminate.
      + apply from_bits_finite in HF. destruct HF as [_ V]. rewrite FB in V. cbn [signed] in V.
        assert (0 < IZR (Zpos p) * bpow radix2 (Z.of_N (b_exp (to_bits x)) - 1075))%R.
        { apply Rmult_lt_0_compat; [now apply IZR_lt|apply bpow_gt_0]. }
        lra. }
  rewrite Hs in *. exists (b_exp (to_bits x)), (b_man (to_bits x)).
  split; [|split; [|split; [auto|lia]]].
  - destruct (N.eqb_spec (b_exp (to_bits x)) 0) as [E0|]; [exfalso|lia].
    destruct (b_man (to_bits x)) eqn:Em.
    + apply from_bits_zero in HF. rewrite FB in HF. rewrite HF in Hx. simpl in Hx. lra.
    + apply from_bits_finite in HF. destruct HF as [_ V]. rewrite FB in V. cbn [signed] in V.
      apply N2Z.inj_lt, IZR_lt in HM.
      assert (val x < bpow radix2 52 * bpow radix2 (-1074))%R.
      { rewrite V. apply Rmult_lt_compat_r; [apply bpow_gt_0|].
        change (bpow radix2 52) with 4503599627370496%R. exact HM. }
      rewrite <- bpow_plus in H. change (52 + -1074)%Z with (-1022)%Z in H. lra.
  - destruct (N.eqb_spec (b_exp (to_bits x)) 0) as [E0|]; [lia|].
    destruct (N.eqb_spec (b_exp (to_bits x)) 2047) as [E1|]; [exfalso|lia].
    destruct (b_man (to_bits x)) eqn:Em.
    + apply from_bits_inf in HF. rewrite FB in HF. rewrite HF in Fx. discriminate.
    + apply from_bits_nan in HF. rewrite FB in HF. rewrite HF in Fx. discriminate.
Qed.

Lemma zero_value : forall x : f64, fin x -> val x = 0%R -> exists s, x = B754_zero s.
Proof.
  intros [s| | |s m e Hm] F V; try discriminate; eauto. exfalso. revert V. unfold val. simpl.
  unfold F2R. simpl. intros V. apply Rmult_integral in V. pose proof (bpow_gt_0 radix2 e).
  destruct V as [V|V]; [|lra]. apply (eq_IZR _ 0) in V. destruct s; discriminate.
Qed.

Lemma nan_of_difference : forall x, fdiv (fsub x x) pzero = B754_nan.
Proof.
  intros [[]|[]| |s m e Hm]; try reflexivity.
  assert (Fx : fin (B754_finite s m e Hm)) by reflexivity.
  destruct (fsub_is _ _ Fx Fx) as [F V].
  { rewrite Rminus_diag_eq, Rabs_R0 by auto. apply bpow_ge_0. }
  rewrite Rminus_diag_eq in V by auto. rewrite rnd_0 in V.
  destruct (zero_value _ F V) as [t ->]. destruct t; reflexivity.
Qed.

(** Every pattern. *)
Theorem log_bits_cases : forall ck b, b < 2 ^ 64 ->
  exists y, log_bits ck b = Ret y /\
    match from_bits b with
    | B754_zero _ => y = B754_infinity true
    | B754_infinity false => y = B754_infinity false
    | B754_infinity true => y = B754_nan
    | B754_nan => y = B754_nan
    | B754_finite true _ _ _ => y = B754_nan
    | B754_finite false _ _ _ =>
        b = 0x3ff0000000000000 /\ y = pzero \/
        b <> 0x3ff0000000000000 /\ reduced (val (from_bits b)) y
    end.
Proof.
  intros ck b Hb. destruct (fields b Hb) as (Ef & HE & HM).
  assert (Hq : b_man b / 2 ^ 32 < 2 ^ 20).
  { apply N.div_lt_upper_bound; [discriminate|]. exact HM. }
  pose proof (ff_cases b Hb) as HF.
  unfold log_bits. rewrite (sign_of_half b Hb).
  destruct (b_sign b) eqn:Es.
  - (* sign bit set *)
    rewrite orb_true_r.
    destruct (N.eqb_spec (cast 64 (N.shiftl b 1)) 0) as [Z|Z].
    + assert (b = 2 ^ 63).
      { unfold cast in Z. rewrite N.shiftl_mul_pow2 in Z. unfold b_sign in Es.
        apply N.leb_le in Es. apply N.mod_divide in Z; [|discriminate].
        destruct Z as [q Hq']. change (2 ^ 64) with (2 * 2 ^ 63) in *. change (2 ^ 1) with 2 in *.
        assert (b = q * 2 ^ 63) by lia. assert (q < 2) by nia. nia. }
      subst b. eexists. split; [reflexivity|]. reflexivity.
    + cbn [negb N.eqb]. eexists. split; [reflexivity|]. rewrite nan_of_difference.
      assert (H : b_exp b <> 0 \/ b_man b <> 0).
      { destruct (N.eq_dec (b_exp b) 0) as [E0|]; [|now left]. right. intros E1. apply Z.
        rewrite Ef, E0, E1. reflexivity. }
      assert (Hs : forall s m e, ff b = Binary.F754_finite s m e -> s = true ->
                exists m' e' H', from_bits b = B754_finite true m' e' H').
      { intros s m e HF' ->. apply from_bits_finite in HF'. destruct HF' as [F V].
        assert (0 < IZR (Zpos m) * bpow radix2 e)%R.
        { apply Rmult_lt_0_compat; [now apply IZR_lt|apply bpow_gt_0]. }
        cbn [signed] in V. destruct (from_bits b) as [t| | |t m' e' H']; try discriminate.
        - change (val (B754_zero t)) with 0%R in V. lra.
        - destruct t; eauto. exfalso. unfold val, B2R, F2R in V. cbn [cond_Zopp Z.opp Fnum Fexp] in V.
          assert (0 < IZR (Zpos m') * bpow radix2 e')%R.
          { apply Rmult_lt_0_compat; [now apply IZR_lt|apply bpow_gt_0]. }
          lra. }
      destruct (N.eqb_spec (b_exp b) 0) as [E0|]; [|destruct (b_exp b =? 2047)].
      * destruct (b_man b) eqn:Em; [tauto|].
        destruct (Hs _ _ _ HF eq_refl) as (? & ? & ? & ->). reflexivity.
      * destruct (b_man b) eqn:Em.
        -- apply from_bits_inf in HF. rewrite HF. reflexivity.
        -- apply from_bits_nan in HF. rewrite HF. reflexivity.
      * destruct (b_man b + 2 ^ 52) eqn:Em.
        -- apply from_bits_nan in HF. rewrite HF. reflexivity.
        -- destruct (Hs _ _ _ HF eq_refl) as (? & ? & ? & ->). reflexivity.
  - (* sign bit clear *)
    cbn [negb N.eqb]. rewrite orb_false_r. rewrite (upper_half b Hb), Es, N.add_0_l.
    rewrite N.add_0_l in Ef.
    assert (Hpos : forall m e, ff b = Binary.F754_finite false m e ->
              exists m' e' H', from_bits b = B754_finite false m' e' H').
    { intros m e HF'. apply from_bits_finite in HF'. destruct HF' as [F V].
      assert (0 < IZR (Zpos m) * bpow radix2 e)%R.
      { apply Rmult_lt_0_compat; [now apply IZR_lt|apply bpow_gt_0]. }
      cbn [signed] in V. destruct (from_bits b) as [t| | |t m' e' H']; try discriminate.
      - change (val (B754_zero t)) with 0%R in V. lra.
      - destruct t; eauto. exfalso. unfold val, B2R, F2R in V. cbn [cond_Zopp Z.opp Fnum Fexp] in V.
        assert (0 < IZR (Zpos m') * bpow radix2 e')%R.
        { apply Rmult_lt_0_compat; [now apply IZR_lt|apply bpow_gt_0]. }
        change (IZR (Zneg m')) with (- IZR (Zpos m'))%R in V. lra. }
    destruct (N.eqb_spec (b_exp b) 0) as [E0|E0].
    + (* zero and subnormal *)
      rewrite E0, N.mul_0_l, N.add_0_l in *.
      change 0x00100000 with (2 ^ 20). rewrite (proj2 (N.ltb_lt _ _)) by auto.
      assert (Hc : cast 64 (N.shiftl b 1) = 2 * b).
      { unfold cast. rewrite N.shiftl_mul_pow2, N.mul_comm. change (2 ^ 1) with 2.
        apply N.mod_small. change (2 ^ 64) with (4096 * 2 ^ 52). lia. }
      rewrite Hc. destruct (b_man b) eqn:Em.
      * rewrite Ef. eexists. split; [reflexivity|]. reflexivity.
      * rewrite (proj2 (N.eqb_neq (2 * b) 0)) by lia.
        rewrite i32_ok, bind_ret by lia.
        pose proof (from_bits_finite _ _ _ _ HF) as [F V]. cbn [signed] in V.
        destruct x1p54_is as [F1 V1].
        set (x2 := fmul (from_bits b) (from_bits 0x4350000000000000)).
        assert (HX : is x2 (IZR (Zpos p) * bpow radix2 (-1020))).
        { assert (B : (IZR (Zpos p) < bpow radix2 52)%R).
          { apply N2Z.inj_lt, IZR_lt in HM. exact HM. }
          assert (HP : (0 < IZR (Zpos p))%R) by now apply IZR_lt.
          assert (EV : (val (from_bits b) * val (from_bits 0x4350000000000000)
                        = IZR (Zpos p) * bpow radix2 (-1020))%R).
          { rewrite V, V1, Rmult_assoc, <- bpow_plus. reflexivity. }
          destruct (fmul_is (from_bits b) (from_bits 0x4350000000000000)) as [F2 V2]; auto.
          { rewrite EV, Rabs_pos_eq by (apply Rmult_le_pos; [lra|apply bpow_ge_0]).
            apply Rle_trans with (bpow radix2 52 * bpow radix2 (-1020))%R.
            - apply Rmult_le_compat_r; [apply bpow_ge_0|lra].
            - rewrite <- bpow_plus. apply bpow_le. lia. }
          split; [exact F2|]. change (val x2) with (val (fmul (from_bits b) (from_bits 0x4350000000000000))).
          rewrite V2, EV. apply rnd_generic. 
          change (IZR (Zpos p) * bpow radix2 (-1020))%R with (F2R (Float radix2 (Zpos p) (-1020))).
          apply generic_format_F2R. intros _. unfold cexp, FLT_exp. apply Z.max_lub; [|lia].
          rewrite mag_F2R by discriminate. apply N2Z.inj_lt in HM.
          assert (mag radix2 (IZR (Zpos p)) <= 52)%Z; [|lia].
          apply mag_le_bpow; [lra|]. rewrite Rabs_pos_eq; lra. }
        clearbody x2. destruct HX as [FX VX].
        destruct (pos_bits x2 FX) as (E & M & HE1 & HE2 & HM2 & Eb).
        { rewrite VX. assert (HP : (1 <= IZR (Zpos p))%R) by (apply IZR_le; lia).
          apply Rle_trans with (1 * bpow radix2 (-1020))%R.
          - rewrite Rmult_1_l. apply bpow_le. lia.
          - apply Rmult_le_compat_r; [apply bpow_ge_0|auto]. }
        rewrite Eb. destruct (reduce_normal ck E M (0 - 54) HE1 HE2 HM2 ltac:(lia)) as (y & Ey & Ry).
        exists y. split; [exact Ey|]. destruct (Hpos _ _ HF) as (m' & e' & H' & Eq).
        rewrite Eq. right. split.
        { intros ->. rewrite Ef in Hc. simpl in Em. vm_compute in Em. discriminate Em. }
        rewrite <- Eq. rewrite <- Eb, from_bits_to_bits, VX in Ry by (destruct x2; auto; discriminate).
        rewrite V. rewrite Rmult_assoc, <- bpow_plus in Ry.
        change (-1020 + (0 - 54))%Z with (-1074)%Z in Ry. exact Ry.
    + (* normal, infinite, NaN *)
      assert (G1 : 0x00100000 <= b_exp b * 2 ^ 20 + b_man b / 2 ^ 32).
      { change (2 ^ 20) with 0x00100000. nlia. }
      rewrite (proj2 (N.ltb_ge _ _)) by exact G1.
      destruct (N.eqb_spec (b_exp b) 2047) as [E1|E1].
      * rewrite (proj2 (N.leb_le _ _)).
        2:{ rewrite E1. change 0x7ff00000 with (2047 * 2 ^ 20). nlia. }
        exists (from_bits b). split; auto. destruct (b_man b).
        -- apply from_bits_inf in HF. rewrite HF. reflexivity.
        -- apply from_bits_nan in HF. rewrite HF. reflexivity.
      * rewrite (proj2 (N.leb_gt _ _)).
        2:{ change 0x7ff00000 with (2047 * 2 ^ 20). change (2 ^ 20) with 1048576 in *. nlia. }
        destruct (b_man b + 2 ^ 52) as [|m] eqn:Em.
        { change (2 ^ 52) with 4503599627370496 in Em. lia. }
        destruct (Hpos _ _ HF) as (m' & e' & H' & Eq).
        destruct ((b_exp b * 2 ^ 20 + b_man b / 2 ^ 32 =? 0x3ff00000) &&
                  (cast 64 (N.shiftl b 32) =? 0)) eqn:E1'.
        -- exists pzero. split; auto. rewrite Eq. left. split; auto.
           apply andb_true_iff in E1'. destruct E1' as [A B].
           apply N.eqb_eq in A, B. unfold cast in B. rewrite N.shiftl_mul_pow2 in B.
           rewrite mul_pow2_mod in B by lia. change (64 - 32) with 32 in B.
           assert (b mod 2 ^ 32 = 0) by nia.
           pose proof (N.div_mod (b_man b) (2 ^ 32) ltac:(discriminate)) as DM.
           assert (b_man b mod 2 ^ 32 = b mod 2 ^ 32) as BM.
           { unfold b_man. change (2 ^ 52) with (2 ^ 32 * 2 ^ 20).
             rewrite N.mod_mul_r by discriminate. rewrite N.mul_comm, N.mod_add by discriminate.
             apply N.mod_mod. discriminate. }
           rewrite BM, H in DM. rewrite Ef. rewrite DM.
           change (2 ^ 52) with (2 ^ 20 * 2 ^ 32) in *. change 0x3ff00000 with (1023 * 2 ^ 20) in A.
           change 0x3ff0000000000000 with (1023 * 2 ^ 20 * 2 ^ 32). rewrite <- A. ring.
        -- rewrite Ef. destruct (reduce_normal ck (b_exp b) (b_man b) 0 ltac:(lia) ltac:(lia) HM
             ltac:(lia)) as (y & Ey & Ry).
           exists y. split; [exact Ey|]. rewrite <- Ef. rewrite Eq. right. split.
           { intros ->. vm_compute in E1'. discriminate E1'. }
           rewrite <- Eq. rewrite <- Ef in Ry. change (bpow radix2 0) with 1%R in Ry.
           rewrite Rmult_1_r in Ry. exact Ry.
Qed.

Theorem log_total : forall ck x, exists y, log ck x = Ret y.
Proof.
  intros ck x. destruct (log_bits_cases ck (to_bits x) (to_bits_lt x)) as (y & E & _). eauto.
Qed.
