(** * The cardinalities at which the bias tables were measured *)
From Coq Require Import NArith ZArith Reals Lra Lia List Bool.
From Flocq Require Import Core BinarySingleNaN.
From Verif Require Import ModelRust ModelF64 ModelConstants SpecRust F64Facts LiteralFacts.
Import ListNotations.
Local Open Scope R_scope.

(** One entry of each table with [k <= 16] decimals, over the common denominator 10^16; the nearest
    whole number to the difference. *)
Definition scaled (nk : Z * N) : Z := (fst nk * 10 ^ (16 - Z.of_N (snd nk)))%Z.
Definition card (r b : Z * N) : Z := ((scaled r - scaled b + 5 * 10 ^ 15) / 10 ^ 16)%Z.
Definition entry_ok (rb : (Z * N) * (Z * N)) : bool :=
  let '(r, b) := rb in
  ((snd r <=? 16)%N && (snd b <=? 16)%N && (Z.abs (fst r) <=? 2 ^ 53) && (Z.abs (fst b) <=? 2 ^ 53) &&
   (Z.abs (scaled r) <=? 2 ^ 21 * 10 ^ 16) && (Z.abs (scaled b) <=? 2 ^ 21 * 10 ^ 16) &&
   (Z.abs (scaled r - scaled b - card r b * 10 ^ 16) <=? 2 * 10 ^ 6))%Z.
Fixpoint gaps_ok (m : Z) (l : list Z) : bool :=
  match l with
  | a :: (b :: _) as l' => (Z.abs (40 * (b - a) - Z.max 40 m) <? 40)%Z && gaps_ok m l'
  | _ => true
  end.
Definition grid (r b : list (Z * N)) : list Z := map (fun '(r, b) => card r b) (combine r b).
Definition table_ok (p : Z) (r b : list (Z * N)) : bool :=
  let m := (2 ^ p)%Z in let l := grid r b in
  (length r =? length b)%nat && forallb entry_ok (combine r b) && gaps_ok m l &&
  (hd 0 l =? 1)%Z && (49 * m <=? 10 * last l 0)%Z && (last l 0 <=? 5 * m)%Z.

Lemma half_ulp : forall r, Rabs r <= 2 ^ 21 -> Rabs (rounded r - r) <= / 2 ^ 32.
Proof.
  intros r H. unfold rounded.
  apply Rle_trans with (/ 2 * ulp radix2 (FLT_exp (-1074) 53) r).
  - apply error_le_half_ulp. now apply FLT_exp_valid.
  - apply Rle_trans with (/ 2 * ulp radix2 (FLT_exp (-1074) 53) (bpow radix2 21)).
    + apply Rmult_le_compat_l; [lra|]. apply ulp_le; [now apply FLT_exp_valid|typeclasses eauto|].
      rewrite (Rabs_pos_eq (bpow radix2 21)) by apply bpow_ge_0.
      replace (bpow radix2 21) with (2 ^ 21) by (simpl; lra). exact H.
    + rewrite ulp_bpow. unfold FLT_exp. simpl. lra.
Qed.

(** A literal of this size is its decimal up to 2^-32. *)
Lemma lit_near : forall nk, (Z.abs (fst nk) <= 2 ^ 53)%Z -> (snd nk <= 16)%N ->
  (Z.abs (scaled nk) <= 2 ^ 21 * 10 ^ 16)%Z ->
  Rabs (B2R (lit (fst nk) (snd nk)) - IZR (scaled nk) / 10 ^ 16) <= / 2 ^ 32.
Proof.
  intros [n k] Hn Hk Hs. cbn [fst snd] in *.
  assert (E : IZR n / IZR (10 ^ Z.of_N k) = IZR (scaled (n, k)) / 10 ^ 16).
  { assert (P : (10 ^ 16 = 10 ^ Z.of_N k * 10 ^ (16 - Z.of_N k))%Z).
    { rewrite <- Z.pow_add_r by lia. f_equal. lia. }
    assert (IZR (10 ^ Z.of_N k) <> 0) by apply pow_not_0.
    assert (IZR (10 ^ (16 - Z.of_N k)) <> 0) by (apply IZR_neq, Z.pow_nonzero; lia).
    unfold scaled; cbn [fst snd]. rewrite mult_IZR.
    replace (10 ^ 16) with (IZR (10 ^ 16)) by (simpl; lra). rewrite P, mult_IZR. field. auto. }
  assert (B : Rabs (IZR (scaled (n, k)) / 10 ^ 16) <= 2 ^ 21).
  { unfold Rdiv. rewrite Rabs_mult, <- abs_IZR, (Rabs_pos_eq (/ 10 ^ 16)) by (simpl; lra).
    apply IZR_le in Hs. rewrite mult_IZR in Hs. simpl in Hs |- *. lra. }
  destruct (lit_ieee n k Hn ltac:(lia)) as [L _]. rewrite E in L.
  pose proof (half_ulp _ B) as H.
  assert (O : Rabs (rounded (IZR (scaled (n, k)) / 10 ^ 16)) < bpow radix2 1024).
  { apply Rle_lt_trans with (2 ^ 22); [|replace (2 ^ 22) with (bpow radix2 22) by (simpl; lra); now apply bpow_lt].
    apply Rabs_le_inv in H. apply Rabs_le_inv in B. apply Rabs_le. simpl in H, B |- *. lra. }
  destruct (L O) as (_ & V & _). rewrite V. exact H.
Qed.

Lemma entry_near : forall r b, entry_ok (r, b) = true ->
  Rabs (B2R (lit (fst r) (snd r)) - B2R (lit (fst b) (snd b)) - IZR (card r b)) <= / 10 ^ 9.
Proof.
  intros r b H. cbn [entry_ok] in H. repeat (apply andb_prop in H; destruct H as [H ?]).
  repeat match goal with X : (_ <=? _)%Z = true |- _ => apply Z.leb_le in X | X : (_ <=? _)%N = true |- _ => apply N.leb_le in X end.
  pose proof (lit_near r ltac:(assumption) ltac:(assumption) ltac:(assumption)) as A.
  pose proof (lit_near b ltac:(assumption) ltac:(assumption) ltac:(assumption)) as B.
  assert (C : Rabs (IZR (scaled r) / 10 ^ 16 - IZR (scaled b) / 10 ^ 16 - IZR (card r b)) <= 2 / 10 ^ 10).
  { match goal with X : (Z.abs (_ - _ - _) <= _)%Z |- _ => apply IZR_le in X; rewrite abs_IZR, !minus_IZR, mult_IZR in X;
      apply Rabs_le_inv in X end.
    apply Rabs_le. change (IZR (10 ^ 16)) with 10000000000000000 in *. change (IZR (2 * 10 ^ 6)) with 2000000 in *. simpl. lra. }
  apply Rabs_le_inv in A. apply Rabs_le_inv in B. apply Rabs_le_inv in C. apply Rabs_le. simpl in A, B, C |- *. lra.
Qed.

Lemma gaps_ok_spec : forall m l i a b, gaps_ok m l = true ->
  nth_error l i = Some a -> nth_error l (S i) = Some b -> (Z.abs (40 * (b - a) - Z.max 40 m) < 40)%Z.
Proof.
  intros m l. induction l as [|x l IH]; intros i a b H Ha Hb; [now destruct i|].
  destruct l as [|y l]; [now destruct i as [|[|i]]|].
  cbn [gaps_ok] in H. apply andb_prop in H. destruct H as [H1 H2]. destruct i as [|i].
  - cbn in Ha, Hb. injection Ha as <-. injection Hb as <-. now apply Z.ltb_lt.
  - eapply IH; eauto.
Qed.

Lemma tables_ok : forallb (fun k => table_ok (4 + Z.of_nat k) (nth k raw_dec []) (nth k bias_dec [])) (seq 0 15) = true.
Proof. vm_compute. reflexivity. Qed.

Lemma tables_grid : forall p E B, (4 <= p <= 18)%N ->
  index RAW_ESTIMATE_DATA (p - 4) = Ret E -> index BIAS_DATA (p - 4) = Ret B ->
  exists ns : list Z, length E = length ns /\ length B = length ns /\ hd 0%Z ns = 1%Z /\
  (49 * 2 ^ Z.of_N p <= 10 * last ns 0 <= 50 * 2 ^ Z.of_N p)%Z /\
  (forall i a b, nth_error ns i = Some a -> nth_error ns (S i) = Some b ->
    Z.abs (40 * (b - a) - Z.max 40 (2 ^ Z.of_N p)) < 40)%Z /\
  (forall i x y n, nth_error E i = Some x -> nth_error B i = Some y -> nth_error ns i = Some n ->
    Rabs (B2R x - B2R y - IZR n) <= / 10 ^ 9).
Proof.
  intros p E B Hp HE HB. pose proof tables_ok as T. rewrite forallb_forall in T.
  set (k := N.to_nat (p - 4)). specialize (T k). rewrite in_seq in T. specialize (T ltac:(unfold k; lia)).
  replace (4 + Z.of_nat k)%Z with (Z.of_N p) in T by (unfold k; lia).
  unfold index in HE, HB. fold k in HE, HB. unfold RAW_ESTIMATE_DATA in HE. unfold BIAS_DATA in HB.
  rewrite nth_error_map in HE, HB.
  destruct (nth_error raw_dec k) as [r|] eqn:Er; [|discriminate]. destruct (nth_error bias_dec k) as [b|] eqn:Eb; [|discriminate].
  cbn [option_map] in HE, HB. injection HE as <-. injection HB as <-.
  rewrite (nth_error_nth _ _ _ Er), (nth_error_nth _ _ _ Eb) in T. clear Er Eb.
  unfold table_ok in T. repeat (apply andb_prop in T; destruct T as [T ?]).
  apply Nat.eqb_eq in T. rewrite forallb_forall in *.
  repeat match goal with X : (_ =? _)%Z = true |- _ => apply Z.eqb_eq in X | X : (_ <=? _)%Z = true |- _ => apply Z.leb_le in X end.
  exists (grid r b). unfold decimals. rewrite !map_length.
  assert (L : length (grid r b) = length r).
  { unfold grid. rewrite map_length, combine_length, T. apply Nat.min_id. }
  rewrite L. repeat split; auto; try lia.
  - intros i a c Ha Hc. now apply (gaps_ok_spec _ (grid r b) i).
  - intros i x y n Hx Hy Hn. rewrite nth_error_map in Hx, Hy. unfold grid in Hn. rewrite nth_error_map in Hn.
    destruct (nth_error r i) as [u|] eqn:Eu; [|discriminate]. destruct (nth_error b i) as [v|] eqn:Ev; [|discriminate].
    destruct (nth_error (combine r b) i) as [[u' v']|] eqn:Ec; [|discriminate].
    cbn [option_map] in *. injection Hx as <-. injection Hy as <-. injection Hn as <-.
    assert (F : u' = u /\ v' = v).
    { clear - Eu Ev Ec. revert b i Eu Ev Ec. induction r as [|r0 r IH]; intros [|b0 b] [|i] Eu Ev Ec; try discriminate; cbn in *.
      - injection Eu as <-. injection Ev as <-. now injection Ec as <- <-.
      - eauto. }
    destruct F as [-> ->]. apply entry_near. apply nth_error_In in Ec. auto.
Qed.

(** At precision 18 the entries 0, 1 and 199 stand for 1, 6554 and 1304169 values. *)
Lemma grid_18 : let l := grid raw_dec_18 bias_dec_18 in
  nth_error l 0 = Some 1%Z /\ nth_error l 1 = Some 6554%Z /\ nth_error l 199 = Some 1304169%Z /\ length l = 200%nat.
Proof. cbv zeta. repeat split; vm_compute; reflexivity. Qed.
