(** * What the sparse representation counts *)
From Coq Require Import NArith ZArith Reals Lra Lia List Bool Sorted.
From Flocq Require Import Core BinarySingleNaN.
From Verif Require Import ModelRust ModelF64 ModelEnv ModelConstants ModelHistory Spec SpecReal SpecCount
  SpecBuild BitFacts CodeFacts EncFacts CountFacts PlusInv LinearFacts FloatFacts ClaimFloat.
Import ListNotations.
Local Open Scope N_scope.
Local Notation ln := Rpower.ln.

(** ** Codes and 25-bit prefixes *)
Lemma rank25_le : forall h, rank 64 25 h <= 40.
Proof. intros h. pose proof (rank_bounds 64 25 h ltac:(discriminate)). lia. Qed.

Lemma code_eq_iff : forall p x y, 4 <= p <= 18 ->
  sparse_code p x = sparse_code p y <->
  prefix25 x = prefix25 y /\
    (prefix25 x mod 2 ^ (25 - p) <> 0 \/ rank 64 25 x = rank 64 25 y).
Proof.
  intros p x y Hp. unfold sparse_code. pose proof (rank25_le x). pose proof (rank25_le y).
  change (2 ^ 7) with 128.
  destruct (N.eqb_spec (prefix25 x mod 2 ^ (25 - p)) 0) as [A|A];
    destruct (N.eqb_spec (prefix25 y mod 2 ^ (25 - p)) 0) as [B|B]; split.
  - intros E. split; [lia|right; lia].
  - intros [E [F|F]]; [congruence|rewrite E, F; reflexivity].
  - intros E. exfalso. lia.
  - intros [E _]. congruence.
  - intros E. exfalso. lia.
  - intros [E _]. congruence.
  - intros E. split; [lia|auto].
  - intros [E _]. now rewrite E.
Qed.

Lemma prefixes_size : forall H, exists Q, NoDup Q /\ (forall q, In q Q <-> exists h, In h H /\ prefix25 h = q).
Proof.
  intros H. exists (nodup N.eq_dec (map prefix25 H)). split; [apply NoDup_nodup|].
  intros q. rewrite nodup_In, in_map_iff. split; intros (h & A & B); exists h; auto.
Qed.

(** A code determines its prefix. *)
Definition code_prefix (c : N) : N := if c mod 2 =? 1 then c / 128 else c / 2.
Lemma code_prefix_ok : forall p h, code_prefix (sparse_code p h) = prefix25 h.
Proof.
  intros p h. unfold sparse_code, code_prefix. pose proof (rank25_le h). change (2 ^ 7) with 128.
  destruct (_ =? 0).
  - replace (prefix25 h * 128 + rank 64 25 h * 2 + 1) with
      (1 + (prefix25 h * 64 + rank 64 25 h) * 2) by lia.
    rewrite N.mod_add by discriminate. change (1 mod 2 =? 1) with true. cbv iota.
    symmetry. apply (N.div_unique _ 128 _ (rank 64 25 h * 2 + 1)); lia.
  - rewrite N.mod_mul by discriminate. change (0 =? 1) with false. cbv iota. now apply N.div_mul.
Qed.

Lemma codes_prefixes : forall p H L n, 4 <= p <= 18 -> is_code_list p H L ->
  has_size (fun q => exists h, In h H /\ prefix25 h = q) n ->
  n <= N.of_nat (length L) /\ (n = N.of_nat (length L) <-> one_code p H).
Proof.
  intros p H L n Hp [HS HL] (Q & ND & HQ & HN).
  assert (NL : NoDup L).
  { clear - HS. induction HS as [|a L _ IH F]; constructor; auto.
    intros I. rewrite Forall_forall in F. specialize (F a I). lia. }
  assert (I : incl Q (map code_prefix L)).
  { intros q Hq. apply HQ in Hq. destruct Hq as (h & Hh & <-). apply in_map_iff.
    exists (sparse_code p h). split; [apply code_prefix_ok|]. apply HL. now apply in_map. }
  assert (I' : incl (map code_prefix L) Q).
  { intros q Hq. apply in_map_iff in Hq. destruct Hq as (c & <- & Hc). apply HL in Hc.
    apply in_map_iff in Hc. destruct Hc as (h & <- & Hh). apply HQ. exists h. split; auto.
    symmetry. apply code_prefix_ok. }
  pose proof (NoDup_incl_length ND I) as Le. rewrite map_length in Le. split; [lia|]. split.
  - intros E x y Hx Hy Exy.
    assert (NM : NoDup (map code_prefix L)).
    { apply (NoDup_incl_NoDup (l := Q)); auto. rewrite map_length. lia. }
    assert (CX : In (sparse_code p x) L) by (apply HL; now apply in_map).
    assert (CY : In (sparse_code p y) L) by (apply HL; now apply in_map).
    assert (EC : sparse_code p x = sparse_code p y).
    { assert (P : code_prefix (sparse_code p x) = code_prefix (sparse_code p y))
        by (rewrite !code_prefix_ok; exact Exy).
      revert NM CX CY P. generalize (sparse_code p x) (sparse_code p y). clear.
      induction L as [|c L IH]; intros a b NM CX CY P; [destruct CX|].
      cbn [map] in NM. inversion NM as [|? ? N1 N2]; subst.
      destruct CX as [->|CX], CY as [->|CY]; auto.
      - exfalso. apply N1. rewrite P. now apply in_map.
      - exfalso. apply N1. rewrite <- P. now apply in_map. }
    now apply (code_eq_iff p x y Hp) in EC.
  - intros O. assert (NM : NoDup (map code_prefix L)).
    { assert (INJ : forall a b, In a L -> In b L -> code_prefix a = code_prefix b -> a = b).
      { intros a b Ha Hb E. apply HL in Ha, Hb. apply in_map_iff in Ha, Hb.
        destruct Ha as (x & <- & Hx), Hb as (y & <- & Hy). rewrite !code_prefix_ok in E.
        apply code_eq_iff; auto. }
      clear - NL INJ. induction NL as [|c L N1 N2 IH]; cbn [map]; constructor.
      - intros F. apply in_map_iff in F. destruct F as (d & E & Hd).
        apply N1. rewrite <- (INJ d c); auto; [now right|now left].
      - apply IH. intros a b Ha Hb. apply INJ; now right. }
    pose proof (NoDup_incl_length NM I') as Ge. rewrite map_length in Ge. lia.
Qed.

(** ** 2^24 against 2^25 buckets *)
Local Open Scope R_scope.

Lemma ln_lower : forall u, 0 <= u -> u / (1 + u) <= ln (1 + u).
Proof.
  intros u Hu. pose proof (exp_ineq1_le (ln (/ (1 + u)))) as I.
  rewrite exp_ln, ln_Rinv in I by (try apply Rinv_0_lt_compat; lra).
  replace (u / (1 + u)) with (1 - / (1 + u)) by (field; lra). lra.
Qed.

Lemma linear_half : forall M n, 0 <= n -> n <= M / 2 -> 0 < M ->
  2 * M * ln (2 * M / (2 * M - n)) + n * n / (4 * M) <= M * ln (M / (M - n)).
Proof.
  intros M n Hn HM Mp. set (s := n / M).
  assert (Es : n = s * M) by (unfold s; field; lra).
  assert (Hs : 0 <= s <= / 2).
  { split; [unfold s; apply Rmult_le_pos; [lra|apply Rlt_le, Rinv_0_lt_compat; lra]|].
    apply Rmult_le_reg_r with M; [lra|]. rewrite <- Es. lra. }
  replace (2 * M / (2 * M - n)) with (/ (1 - s / 2)) by (rewrite Es; field; split; lra).
  replace (M / (M - n)) with (/ (1 - s)) by (rewrite Es; field; split; lra).
  rewrite !ln_Rinv by lra.
  set (u := s * s / (4 * (1 - s))).
  assert (Hu : 0 <= u).
  { unfold u. apply Rmult_le_pos; [nra|]. apply Rlt_le, Rinv_0_lt_compat. lra. }
  assert (E : (1 - s / 2) * (1 - s / 2) = (1 - s) * (1 + u)) by (unfold u; field; lra).
  assert (EL : 2 * ln (1 - s / 2) = ln (1 - s) + ln (1 + u)).
  { rewrite <- ln_mult by lra. rewrite <- E, ln_mult by lra. ring. }
  pose proof (ln_lower u Hu) as LU.
  assert (B : s * s / 4 <= u / (1 + u)).
  { apply Rmult_le_reg_r with ((1 + u) * (1 - s)); [apply Rmult_lt_0_compat; lra|].
    replace (u / (1 + u) * ((1 + u) * (1 - s))) with (s * s / 4) by (
      rewrite <- Rmult_assoc; unfold Rdiv at 2; rewrite (Rmult_assoc u), Rinv_l by lra; unfold u; field; lra).
    rewrite (Rmult_comm (1 + u)), <- E. nra. }
  replace (n * n / (4 * M)) with (M * (s * s / 4)) by (rewrite Es; field; lra). nra.
Qed.

Lemma linear_upper : forall M n, 0 <= n -> n <= M / 50 -> 0 < M -> M * ln (M / (M - n)) <= 1.03 * n.
Proof.
  intros M n Hn HM Mp. pose proof (exp_ineq1_le (ln (M / (M - n)))) as I.
  rewrite exp_ln in I by (apply Rdiv_lt_0_compat; lra).
  apply Rle_trans with (M * (M / (M - n) - 1)); [apply Rmult_le_compat_l; lra|].
  replace (M * (M / (M - n) - 1)) with (n * (M / (M - n))) by (field; lra).
  rewrite (Rmult_comm 1.03). apply Rmult_le_compat_l; [lra|].
  apply Rmult_le_reg_r with (M - n); [lra|]. unfold Rdiv. rewrite Rmult_assoc, Rinv_l by lra. lra.
Qed.

Lemma linear_25 : forall n c, (1 <= n <= 209715)%N ->
  approx (/ IZR (2 ^ 28)) c (linear_R (2 ^ 24) (2 ^ 24 - n)) ->
  linear_R (2 ^ 25) (2 ^ 25 - n) + IZR (Z.of_N n) * IZR (Z.of_N n) / IZR (2 ^ 27) <= c.
Proof.
  intros n c Hn A. unfold approx, linear_R in *.
  rewrite !N2Z.inj_sub, !minus_IZR in * by (change (2 ^ 24)%N with 16777216%N; change (2 ^ 25)%N with 33554432%N; lia).
  change (IZR (Z.of_N (2 ^ 24))) with 16777216 in *. change (IZR (Z.of_N (2 ^ 25))) with 33554432 in *.
  change (IZR (2 ^ 27)) with 134217728. change (IZR (2 ^ 28)) with 268435456 in A.
  assert (N1 : 1 <= IZR (Z.of_N n) <= 209715) by (split; apply IZR_le; lia).
  generalize dependent (IZR (Z.of_N n)). intros x A Hx.
  pose proof (linear_half 16777216 x ltac:(lra) ltac:(lra) ltac:(lra)) as L.
  pose proof (linear_upper 16777216 x ltac:(lra) ltac:(lra) ltac:(lra)) as U.
  replace (2 * 16777216) with 33554432 in L by lra.
  assert (P : 0 <= 33554432 * ln (33554432 / (33554432 - x))).
  { apply Rmult_le_pos; [lra|]. rewrite <- ln_1. apply ln_le; [lra|].
    apply Rmult_le_reg_r with (33554432 - x); [lra|]. unfold Rdiv. rewrite Rmult_assoc, Rinv_l by lra. lra. }
  set (a := 16777216 * ln (16777216 / (16777216 - x))) in *.
  set (b := 33554432 * ln (33554432 / (33554432 - x))) in *.
  assert (0 <= a) by nra. rewrite (Rabs_pos_eq a) in A by lra. apply Rabs_le_inv in A. nra.
Qed.

Lemma sparse_is_24 : forall (V : Type) e ord (h : hist V) L,
  build_std e -> accurate e -> valid MAX_PLUS h -> narrow (usize_bits e) h -> is_order ord ->
  is_code_list (hist_precision h) (hist_hashes h) L ->
  (gap_len 0 L <= sparse_limit (hist_precision h))%N ->
  exists c, count_plus e ord h = Ret c /\ is_finite c = true /\
    approx (/ IZR (2 ^ 28)) (B2R c) (linear_R (2 ^ 24) (2 ^ 24 - N.of_nat (length L))) /\
    (hist_hashes h <> [] ->
       linear_R (2 ^ 25) (2 ^ 25 - N.of_nat (length L)) +
         INR (length L) * INR (length L) / IZR (2 ^ 27) <= B2R c).
Proof.
  intros V e ord h L Hb Ha Hv Hn Ho HL HG.
  destruct (plus_value V e ord h Hb Ha Hv Hn Ho) as (c & E & F & L' & HL' & R).
  exists c. split; [exact E|]. split; [exact F|].
  rewrite (code_list_unique _ _ _ _ HL' HL) in R.
  destruct R as [[_ A]|[B _]]; [|lia]. split; [exact A|]. intros NE.
  assert (P : (4 <= hist_precision h <= 18)%N).
  { clear - Hv. induction h; cbn [hist_precision valid] in *; unfold MAX_PLUS in *; tauto. }
  pose proof (sparse_limit_bounds _ P) as SL. pose proof (gap_len_length L 0) as GL.
  rewrite INR_IZR_INZ, <- nat_N_Z. apply linear_25; auto. split; [|lia].
  destruct L as [|a L]; [|cbn [length]; lia]. exfalso.
  destruct (hist_hashes h) as [|x H]; [congruence|].
  destruct (proj2 (proj2 HL (sparse_code (hist_precision h) x)) (or_introl eq_refl)).
Qed.

(** The excess over linear counting with 2^25 buckets, from both sides. *)
Lemma linear_double : forall M n, 0 <= n -> n <= M / 2 -> 0 < M ->
  M * ln (M / (M - n)) <= 2 * M * ln (2 * M / (2 * M - n)) + n * n / (4 * M) * (1 + 2 * (n / M)).
Proof.
  intros M n Hn HM Mp. set (s := n / M).
  assert (Es : n = s * M) by (unfold s; field; lra).
  assert (Hs : 0 <= s <= / 2).
  { split; [unfold s; apply Rmult_le_pos; [lra|apply Rlt_le, Rinv_0_lt_compat; lra]|].
    apply Rmult_le_reg_r with M; [lra|]. rewrite <- Es. lra. }
  replace (2 * M / (2 * M - n)) with (/ (1 - s / 2)) by (rewrite Es; field; split; lra).
  replace (M / (M - n)) with (/ (1 - s)) by (rewrite Es; field; split; lra).
  rewrite !ln_Rinv by lra.
  set (u := s * s / (4 * (1 - s))).
  assert (Hu : 0 <= u).
  { unfold u. apply Rmult_le_pos; [nra|]. apply Rlt_le, Rinv_0_lt_compat. lra. }
  assert (E : (1 - s / 2) * (1 - s / 2) = (1 - s) * (1 + u)) by (unfold u; field; lra).
  assert (EL : 2 * ln (1 - s / 2) = ln (1 - s) + ln (1 + u)).
  { rewrite <- ln_mult by lra. rewrite <- E, ln_mult by lra. ring. }
  assert (LU : ln (1 + u) <= u).
  { pose proof (exp_ineq1_le (ln (1 + u))) as I. rewrite exp_ln in I by lra. lra. }
  assert (B : u <= s * s / 4 * (1 + 2 * s)).
  { apply Rmult_le_reg_r with (1 - s); [lra|]. replace (u * (1 - s)) with (s * s / 4) by (unfold u; field; lra).
    assert (0 <= s * s) by nra. assert (1 <= (1 + 2 * s) * (1 - s)) by nra. nra. }
  replace (n * n / (4 * M)) with (M * (s * s / 4)) by (rewrite Es; field; lra). nra.
Qed.

Lemma linear_25_both : forall n c, (n <= 209715)%N ->
  approx (/ IZR (2 ^ 28)) c (linear_R (2 ^ 24) (2 ^ 24 - n)) ->
  let x := IZR (Z.of_N n) in
  linear_R (2 ^ 25) (2 ^ 25 - n) + x * x / IZR (2 ^ 26) - x / IZR (2 ^ 27) <= c
  <= linear_R (2 ^ 25) (2 ^ 25 - n) + x * x / IZR (2 ^ 26) * (1 + x / IZR (2 ^ 23)) + x / IZR (2 ^ 27).
Proof.
  intros n c Hn A x. unfold approx, linear_R in *.
  rewrite !N2Z.inj_sub, !minus_IZR in * by (change (2 ^ 24)%N with 16777216%N; change (2 ^ 25)%N with 33554432%N; lia).
  change (IZR (Z.of_N (2 ^ 24))) with 16777216 in *. change (IZR (Z.of_N (2 ^ 25))) with 33554432 in *.
  change (IZR (2 ^ 23)) with 8388608. change (IZR (2 ^ 26)) with 67108864. change (IZR (2 ^ 27)) with 134217728. change (IZR (2 ^ 28)) with 268435456 in A.
  assert (N1 : 0 <= x <= 209715) by (unfold x; split; apply IZR_le; lia).
  fold x in A |- *. clearbody x.
  pose proof (linear_half 16777216 x ltac:(lra) ltac:(lra) ltac:(lra)) as L.
  pose proof (linear_double 16777216 x ltac:(lra) ltac:(lra) ltac:(lra)) as D.
  pose proof (linear_upper 16777216 x ltac:(lra) ltac:(lra) ltac:(lra)) as U.
  replace (2 * 16777216) with 33554432 in L, D by lra. replace (4 * 16777216) with 67108864 in L, D by lra.
  assert (P : 0 <= 16777216 * ln (16777216 / (16777216 - x))).
  { apply Rmult_le_pos; [lra|]. rewrite <- ln_1. apply ln_le; [lra|].
    apply Rmult_le_reg_r with (16777216 - x); [lra|]. unfold Rdiv. rewrite Rmult_assoc, Rinv_l by lra. lra. }
  set (a := 16777216 * ln (16777216 / (16777216 - x))) in *.
  set (b := 33554432 * ln (33554432 / (33554432 - x))) in *.
  rewrite (Rabs_pos_eq a) in A by lra. apply Rabs_le_inv in A.
  replace (x / 8388608) with (2 * (x / 16777216)) by field. lra.
Qed.

Lemma sparse_excess : forall (V : Type) e ord (h : hist V) L,
  build_std e -> accurate e -> valid MAX_PLUS h -> narrow (usize_bits e) h -> is_order ord ->
  is_code_list (hist_precision h) (hist_hashes h) L ->
  (gap_len 0 L <= sparse_limit (hist_precision h))%N ->
  exists c, count_plus e ord h = Ret c /\ is_finite c = true /\
    let n := INR (length L) in
    linear_R (2 ^ 25) (2 ^ 25 - N.of_nat (length L)) + n * n / IZR (2 ^ 26) - n / IZR (2 ^ 27) <= B2R c
    <= linear_R (2 ^ 25) (2 ^ 25 - N.of_nat (length L)) + n * n / IZR (2 ^ 26) * (1 + n / IZR (2 ^ 23)) + n / IZR (2 ^ 27).
Proof.
  intros V e ord h L Hb Ha Hv Hn Ho HL HG.
  destruct (sparse_is_24 V e ord h L Hb Ha Hv Hn Ho HL HG) as (c & E & F & A & _).
  exists c. split; [exact E|]. split; [exact F|].
  assert (P : (4 <= hist_precision h <= 18)%N).
  { clear - Hv. induction h; cbn [hist_precision valid] in *; unfold MAX_PLUS in *; tauto. }
  pose proof (sparse_limit_bounds _ P) as SL. pose proof (gap_len_length L 0) as GL.
  rewrite INR_IZR_INZ, <- nat_N_Z. apply linear_25_both; [lia|exact A].
Qed.
