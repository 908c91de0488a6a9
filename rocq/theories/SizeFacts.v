(** * The size of the text of a sketch *)
From Coq Require Import String.
From Coq Require Import NArith Arith List Bool Lia Permutation.
From Verif Require Import ModelRust ModelEnv ModelRegisters ModelEncoding ModelPF ModelPlus ModelSerde ModelFiles ModelJson ModelHistory
  Spec SpecBuild SpecFiles SpecJson SpecSize BitFacts EncFacts RegFacts AbsorbFacts TextFacts SerdeFacts MergeFacts PFInv PlusInv ObsFacts ClaimFacts JsonClaim.
Import ListNotations.
Local Open Scope N_scope.

Lemma numeral_length : forall n s k, numeral n s -> n < 10 ^ N.of_nat (S k) -> (1 <= length s <= S k)%nat.
Proof.
  intros n s k (ds & (Hne & F) & -> & V & Z) B. unfold digit_text. rewrite map_length.
  destruct ds as [|d ds]; [congruence|]. cbn [length]. split; [lia|].
  destruct (N.eq_dec d 0) as [->|Hd].
  - rewrite (Z ds eq_refl). cbn. lia.
  - pose proof (numeral_low d ds ltac:(lia)) as L. rewrite V in L.
    assert (X : N.of_nat (length ds) < N.of_nat (S k)).
    { apply (N.pow_lt_mono_r_iff 10); [reflexivity|]. lia. }
    lia.
Qed.

Lemma numerals_length : forall l t k, numerals l t -> List.Forall (fun n => n < 10 ^ N.of_nat (S k)) l ->
  (length t <= (k + 2) * length l /\ 2 * length l <= length t + 1)%nat.
Proof.
  intros l t k H. induction H as [|n s H|n s m l t H H' IH]; intros F.
  - cbn. lia.
  - pose proof (numeral_length n s k H (Forall_inv F)). cbn [length]. lia.
  - pose proof (numeral_length n s k H (Forall_inv F)). specialize (IH (Forall_inv_tail F)).
    rewrite !app_length. cbn [length ascii map list_ascii_of_string] in *. lia.
Qed.

Lemma registers_length : forall r t j, registers_text r t -> List.Forall (fun w => w < 10 ^ N.of_nat 10) (r_buf r) ->
  r_count r < 10 ^ N.of_nat (S j) -> r_zeros r < 10 ^ N.of_nat (S j) ->
  (length t <= 28 + 11 * length (r_buf r) + 2 * S j /\ 28 + 2 * length (r_buf r) + 1 <= length t)%nat.
Proof.
  intros r t j (b & c & z & B & C & Z & ->) FB FC FZ.
  pose proof (numerals_length _ _ 9 B FB). pose proof (numeral_length _ _ j C FC). pose proof (numeral_length _ _ j Z FZ).
  unfold label. repeat rewrite app_length. cbn [length ascii map list_ascii_of_string]. lia.
Qed.

Lemma list_length : forall d t, list_text d t -> List.Forall (fun w => w < 10 ^ N.of_nat 3) (d_buf d) ->
  d_count d < 10 ^ N.of_nat 6 -> d_last d < 10 ^ N.of_nat 10 ->
  (length t <= 27 + 4 * length (d_buf d) + 16 /\ 27 + 2 * length (d_buf d) + 1 <= length t)%nat.
Proof.
  intros d t (c & l & b & C & L & B & ->) FB FC FL.
  pose proof (numerals_length _ _ 2 B FB). pose proof (numeral_length _ _ 5 C FC). pose proof (numeral_length _ _ 9 L FL).
  unfold label. repeat rewrite app_length. cbn [length ascii map list_ascii_of_string]. lia.
Qed.

Lemma zeros_le : forall l, zero_count l <= N.of_nat (length l).
Proof. intros l. unfold zero_count. induction l as [|x l IH]; [cbn; lia|]. cbn [filter length]. destruct (0 =? x); cbn [length]; lia. Qed.

Lemma holds_small : forall sz W p H r, reg_size sz -> holds sz W p H r ->
  List.Forall (fun w => w < 10 ^ N.of_nat 10) (r_buf r) /\ r_count r = 2 ^ p /\ r_zeros r <= 2 ^ p /\
  N.of_nat (length (r_buf r)) = (2 ^ p + count_per_word sz - 1) / count_per_word sz.
Proof.
  intros sz W p H r Hs ((L & FW) & C & Z & (LI & _) & _). split; [|split; [exact C|split]].
  - eapply Forall_impl; [|exact FW]. cbv beta. intros w Hw. eapply N.lt_trans; [exact Hw|reflexivity].
  - rewrite Z, <- LI. apply zeros_le.
  - now rewrite L, C.
Qed.

Lemma pf_size : forall (V : Type) e other ser_b (h : hist V), build e -> valid MAX_PF h -> narrow (usize_bits e) h ->
  let words := (2 ^ hist_precision h + 5) / 6 in
  exists s, run_pf e h = Ret s /\
    let n := bytes_of (to_text other (ser_pf ser_b s)) in let b := bytes_of (write (json_of other (ser_b (hist_builder h)))) in
    b + 93 + 2 * words <= n <= b + 107 + 11 * words.
Proof.
  intros V e other ser_b h Hb Hv Hn words. destruct (run_pf_ok V e h Hb Hv Hn) as (s & E & A & B & C & D).
  exists s. split; [exact E|]. cbv zeta.
  assert (Hp : 4 <= hist_precision h <= 16) by exact (hist_prec V MAX_PF h Hv).
  destruct (holds_small 5 32 _ _ _ (or_introl eq_refl) D) as (D1 & D2 & D3 & D4).
  pose proof (pow2_le (hist_precision h) 16 ltac:(lia)) as P. change (2 ^ 16) with 65536 in P.
  destruct (write_pf V other ser_b s) as (c & p & r & Tc & Tp & Tr & T). unfold bytes_of. rewrite T, <- A.
  rewrite C in Tc. rewrite B in Tp.
  apply (numeral_length _ _ 4) in Tc; [|change (10 ^ N.of_nat 5) with 100000; lia].
  apply (numeral_length _ _ 1) in Tp; [|change (10 ^ N.of_nat 2) with 100; lia].
  apply (registers_length _ _ 4) in Tr; [|exact D1|change (10 ^ N.of_nat 5) with 100000; lia|change (10 ^ N.of_nat 5) with 100000; lia].
  change (count_per_word 5) with 6 in D4. replace (2 ^ hist_precision h + 6 - 1) with (2 ^ hist_precision h + 5) in D4 by lia.
  fold words in D4. unfold label. repeat rewrite app_length. cbn [length ascii map list_ascii_of_string]. lia.
Qed.

Lemma plus_size : forall (V : Type) e ord other ser_b (h : hist V), build_std e -> valid MAX_PLUS h -> narrow (usize_bits e) h -> is_order ord ->
  let m := 2 ^ hist_precision h in
  exists s, run_plus e h = Ret s /\
    let n := bytes_of (to_text other (ser_plus ord ser_b s)) in let b := bytes_of (write (json_of other (ser_b (hist_builder h)))) in
    match hp_registers s with
    | None => b + 125 <= n <= b + 163 + 4 * (4 * m / 5) + 11 * (4 * m / 500)
    | Some _ => b + 150 + 2 * ((m + 4) / 5) <= n <= b + 199 + 11 * ((m + 4) / 5)
    end.
Proof.
  intros V e ord other ser_b h Hb Hv Hn Ho m. destruct (run_plus_ok V e h Hb Hv Hn) as (s & E & (A & B & C0 & C1 & C2) & HF & HB).
  destruct (plus_memory V e h Hb Hv Hn) as (s' & E' & M). rewrite E in E'. injection E' as <-.
  exists s. split; [exact E|]. cbv zeta.
  assert (Hp : 4 <= hist_precision h <= 18) by exact (hist_prec V MAX_PLUS h Hv).
  pose proof (pow2_le (hist_precision h) 18 ltac:(lia)) as P. change (2 ^ 18) with 262144 in P. fold m in P, C0, M.
  pose proof (sparse_limit_bounds _ Hp) as SL.
  destruct (write_plus V other ord ser_b s) as (p & c & x & d & r & Tp & Tc & Tx & Td & Tr & T). unfold bytes_of. rewrite T, <- A.
  rewrite B in Tp. rewrite C0, C1, C2 in Tc.
  apply (numeral_length _ _ 1) in Tp; [|change (10 ^ N.of_nat 2) with 100; lia].
  apply (numerals_length _ _ 7) in Tc.
  2:{ change (10 ^ N.of_nat 8) with 100000000. change (2 ^ 24) with 16777216. repeat constructor; lia. }
  cbn [length] in Tc.
  unfold body_ok in HB. destruct (hp_registers s) as [g|].
  - destruct HB as (HT & HS & D & _). destruct M as (M1 & _). rewrite HT in Tx. rewrite HS in Td.
    replace (ord []) with (@nil N) in Tx by (symmetry; apply Permutation_nil, Permutation_sym, Ho).
    assert (X : x = []) by now inversion Tx. subst x.
    apply list_length in Td; [|constructor|reflexivity|reflexivity]. cbn [d_buf dif_new length] in Td.
    destruct (holds_small 6 64 _ _ _ (or_intror eq_refl) D) as (D1 & D2 & D3 & D4). fold m in D2, D3.
    apply (registers_length _ _ 5) in Tr; [|exact D1|change (10 ^ N.of_nat 6) with 1000000; lia|change (10 ^ N.of_nat 6) with 1000000; lia].
    unfold label. repeat rewrite app_length. cbn [length ascii map list_ascii_of_string]. lia.
  - destruct HB as ((L & ND & HD & HS & HE & HG) & HT). destruct M as (M1 & M2). subst r.
    assert (FL : List.Forall (fun y => y < 2 ^ 32) (hp_tmpset s)).
    { apply Forall_forall. intros y Hy. apply (codes_lt (hist_precision h) (hist_hashes h) HF). apply HE. apply in_or_app. now left. }
    apply (numerals_length _ _ 9) in Tx.
    2:{ apply Forall_forall. intros y Hy. rewrite Forall_forall in FL. eapply N.lt_trans; [apply FL|reflexivity].
        eapply Permutation_in; [apply Ho|exact Hy]. }
    rewrite (Permutation_length (Ho (hp_tmpset s))) in Tx.
    pose proof (gap_len_length L 0) as GL.
    assert (DC : d_count (hp_sparse s) < 10 ^ N.of_nat 6).
    { destruct HD as (_ & _ & _ & -> & _). change (10 ^ N.of_nat 6) with 1000000. lia. }
    destruct (dif_repr_fits e _ _ HD) as (F1 & _ & F3).
    { assert (2 ^ 32 <= 2 ^ usize_bits e) by (apply pow2_le; apply Hb). change (2 ^ 32) with 4294967296 in *. lia. }
    apply list_length in Td; [| |exact DC|eapply N.lt_trans; [exact F3|reflexivity]].
    2:{ eapply Forall_impl; [|exact F1]. cbv beta. intros w Hw. eapply N.lt_trans; [exact Hw|reflexivity]. }
    unfold label. repeat rewrite app_length. cbn [length ascii map list_ascii_of_string].
    set (u := 4 * m / 5) in *. set (v := 4 * m / 500) in *. clearbody u v. lia.
Qed.

(** ** Depth *)
Lemma depth_ints : forall other l, list_max (map depth (map (json_of other) (map SInt l))) = O.
Proof. intros other l. induction l as [|x l IH]; [reflexivity|]. cbn [map list_max fold_right] in *. exact IH. Qed.

Lemma pf_depth : forall (V : Type) other ser_b (s : pf V),
  depth (json_of other (ser_pf ser_b s)) = Nat.max 3 (S (depth (json_of other (ser_b (pf_builder s))))).
Proof.
  intros V other ser_b s. cbn -[escape Nat.max]. unfold list_max. cbn [fold_right]. 
  pose proof (depth_ints other (r_buf (pf_registers s))) as H. unfold list_max in H. rewrite H. lia.
Qed.
Lemma plus_depth : forall (V : Type) other ord ser_b (s : plus V),
  depth (json_of other (ser_plus ord ser_b s)) = Nat.max 3 (S (depth (json_of other (ser_b (hp_builder s))))).
Proof.
  intros V other ord ser_b s. cbn -[escape Nat.max list_max]. rewrite !depth_ints. unfold list_max. cbn [fold_right map].
  destruct (hp_registers s) as [r|]; cbn -[escape Nat.max list_max]; rewrite ?depth_ints; unfold list_max; cbn [fold_right]; lia.
Qed.
