(** * Properties of the estimates as numbers

    [accurate e]: with the [std] feature the platform's [ln] is within a relative error of 2^-50
    between 2^-100 and 2^100 (the crate needs no more); without it nothing is assumed, the
    crate's own [log] is used.  [is_finite], [B2R] are Flocq's: a float is finite, and its real
    value. *)
From Coq Require Import NArith ZArith Reals List Bool Lia Permutation Sorted.
From Flocq Require Import Core BinarySingleNaN.
From Verif Require Import ModelRust ModelF64 ModelEnv ModelLog ModelRegisters ModelEncoding
  ModelCommon ModelPF ModelPlus ModelConstants ModelSerde ModelHistory ModelTests Spec SpecReal
  SpecCount SpecBuild ClaimFacts ClaimFloat LogAccuracy LogConst Witness.
Import ListNotations.
Local Open Scope R_scope.

(** The hypothesis [accurate] can be met: by the crate's own logarithm. *)
Theorem C35_ln_accurate : forall ck,
  ln_accurate (fun x => match log ck x with Ret y => y | _ => B754_nan end).
Proof. exact model_ln_accurate. Qed.
Print Assumptions C35_ln_accurate.

Lemma test_accurate : accurate test_env.
Proof. intros _. exact (C35_ln_accurate true). Qed.
Lemma core_accurate : accurate core_env.
Proof. intros H. discriminate H. Qed.
Lemma tree_narrow : narrow (usize_bits test_env) demo_tree.
Proof. apply wide; [now apply demo_tree_valid|cbn; lia]. Qed.
Lemma sparse_narrow : narrow (usize_bits test_env) demo_sparse.
Proof. apply wide; [now apply demo_sparse_valid|cbn; lia]. Qed.

(** ** C01, C02: new *)
Theorem C01_new : forall (V : Type) e p (b : V -> N), build e ->
  ((4 <= p <= 18)%N /\
     exists s, hp_new e p b = Ret (ROk s) /\ hp_precision s = p /\ hp_builder s = b) \/
  (~ (4 <= p <= 18)%N /\ hp_new e p b = Ret (RErr InvalidPrecision)).
Proof. exact plus_new_cases. Qed.
Print Assumptions C01_new.

Theorem C01_fresh_zero : forall (V : Type) e ord p (b : V -> N),
  build_std e -> accurate e -> (4 <= p <= 18)%N -> is_order ord ->
  exists s s' c, hp_new e p b = Ret (ROk s) /\ hp_count e ord s = Ret (s', c) /\
    is_finite c = true /\ B2R c = 0.
Proof. exact plus_fresh. Qed.
Print Assumptions C01_fresh_zero.

Example C01_example :
  build_std test_env /\ accurate test_env /\ is_order keep /\
  map (fun p => is_ok (let* r := hp_new test_env p mix in
                       match r with ROk _ => Ret tt | RErr _ => @Panic unit end))
    [0; 3; 4; 11; 18; 19; 255]%N = [false; false; true; true; true; false; false] /\
  bits (count_plus test_env keep (HNew 18 mix)) = Ret 0%N.
Proof.
  split; [exact test_build|]. split; [exact test_accurate|]. split; [exact keep_order|].
  split; vm_compute; reflexivity.
Qed.

Theorem C02_new : forall (V : Type) e p (b : V -> N), build e ->
  ((4 <= p <= 16)%N /\
     exists s, pf_new e p b = Ret (ROk s) /\ pf_precision s = p /\ pf_builder s = b) \/
  (~ (4 <= p <= 16)%N /\ pf_new e p b = Ret (RErr InvalidPrecision)).
Proof. exact pf_new_cases. Qed.
Print Assumptions C02_new.

(** Full statement: without the hypothesis on the width of usize; [C02_fresh_refuted] in
    PropertiesRefuted.v shows that it cannot be dropped. *)
Theorem C02_fresh_zero_partial : forall (V : Type) e p (b : V -> N),
  build e -> accurate e -> (4 <= p <= 16)%N -> (2 * p < usize_bits e)%N ->
  exists s c, pf_new e p b = Ret (ROk s) /\ pf_count_est e s = Ret c /\
    is_finite c = true /\ B2R c = 0.
Proof. exact pf_fresh. Qed.
Print Assumptions C02_fresh_zero_partial.

Example C02_example :
  build core_env /\ accurate core_env /\ (2 * 10 < usize_bits core_env)%N /\
  bits (count_pf core_env (HNew 10%N mix)) = Ret 0%N.
Proof.
  split; [exact core_build|]. split; [exact core_accurate|]. split; vm_compute; reflexivity.
Qed.

(** ** C24: small cardinalities *)
Theorem C24_small : forall (V : Type) e ord (h : hist V) L,
  build_std e -> accurate e -> valid MAX_PLUS h -> narrow (usize_bits e) h -> is_order ord ->
  is_code_list (hist_precision h) (hist_hashes h) L ->
  (gap_len 0 L <= sparse_limit (hist_precision h))%N -> (N.of_nat (length L) <= 5791)%N ->
  exists c, count_plus e ord h = Ret c /\ is_finite c = true /\
    Ztrunc (B2R c) = Z.of_nat (length L).
Proof. exact small_exact. Qed.
Print Assumptions C24_small.

(** From precision 15 on the sketch is then always sparse. *)
Theorem C24_small_15 : forall (V : Type) e ord (h : hist V) L,
  build_std e -> accurate e -> valid MAX_PLUS h -> narrow (usize_bits e) h -> is_order ord ->
  (15 <= hist_precision h)%N -> is_code_list (hist_precision h) (hist_hashes h) L ->
  (N.of_nat (length L) <= 5791)%N ->
  exists c, count_plus e ord h = Ret c /\ is_finite c = true /\
    Ztrunc (B2R c) = Z.of_nat (length L).
Proof. exact small_exact_15. Qed.
Print Assumptions C24_small_15.

(** 5791 is sharp. *)
Theorem C24_sharp : forall (V : Type) e ord (h : hist V) L,
  build_std e -> accurate e -> valid MAX_PLUS h -> narrow (usize_bits e) h -> is_order ord ->
  is_code_list (hist_precision h) (hist_hashes h) L ->
  (gap_len 0 L <= sparse_limit (hist_precision h))%N -> (N.of_nat (length L) = 5792)%N ->
  exists c, count_plus e ord h = Ret c /\ is_finite c = true /\ Ztrunc (B2R c) = 5793%Z.
Proof. exact small_sharp. Qed.
Print Assumptions C24_sharp.

Example C24_example :
  build_std test_env /\ accurate test_env /\ valid MAX_PLUS demo_sparse /\
  narrow (usize_bits test_env) demo_sparse /\ is_order keep /\
  (exists L, is_code_list 10 (hist_hashes demo_sparse) L /\
     (gap_len 0 L <= sparse_limit 10)%N /\ length L = 9%nat) /\
  trunc (count_plus test_env keep demo_sparse) = Ret 9%Z.
Proof.
  split; [exact test_build|]. split; [exact test_accurate|].
  split; [now apply demo_sparse_valid|]. split; [exact sparse_narrow|]. split; [exact keep_order|].
  split; [|vm_compute; reflexivity].
  exists (codes 10 (hist_hashes demo_sparse)). split; [apply code_list_b_ok; vm_compute; reflexivity|].
  split; [vm_compute; discriminate|vm_compute; reflexivity].
Qed.

(** ** C25, C43: range of the estimate *)
Theorem C25_finite : forall (V : Type) e ord (h : hist V),
  build_std e -> accurate e -> valid MAX_PLUS h -> narrow (usize_bits e) h -> is_order ord ->
  exists c, count_plus e ord h = Ret c /\ is_finite c = true /\ 0 <= B2R c.
Proof. exact plus_finite. Qed.
Print Assumptions C25_finite.

Theorem C43_range : forall (V : Type) e ord (h : hist V),
  build_std e -> accurate e -> valid MAX_PLUS h -> narrow (usize_bits e) h -> is_order ord ->
  exists c, count_plus e ord h = Ret c /\ is_finite c = true /\
    0 <= B2R c <= IZR (2 ^ 65) /\
    (hist_hashes h = [] -> B2R c = 0) /\ (hist_hashes h <> [] -> 0.2 <= B2R c).
Proof. exact plus_range. Qed.
Print Assumptions C43_range.

(** A program with merges, counts and a round trip; all four branches of count: sparse, linear
    counting, bias-corrected, raw. *)
Example C25_example :
  build_std test_env /\ accurate test_env /\ valid MAX_PLUS demo_tree /\
  narrow (usize_bits test_env) demo_tree /\ is_order keep /\ hist_hashes demo_tree <> [] /\
  map (fun h => trunc (count_plus test_env keep h))
    [demo_tree; demo_sparse; demo_other; raised 1; raised 8; raised 59]
  = map Ret [58; 9; 5; 43; 5513; 12414658761606529024]%Z.
Proof.
  split; [exact test_build|]. split; [exact test_accurate|].
  split; [now apply demo_tree_valid|]. split; [exact tree_narrow|]. split; [exact keep_order|].
  split; [discriminate|vm_compute; reflexivity].
Qed.

(** ** C28: the bias *)
Theorem C28_bias : forall e p raw, build e -> (4 <= p <= 18)%N -> is_finite raw = true ->
  exists f y, estimate_bias e p raw = Ret f /\ is_finite f = true /\
    interpolated (map B2R (nth (N.to_nat (p - 4)) RAW_ESTIMATE_DATA []))
                 (map B2R (nth (N.to_nat (p - 4)) BIAS_DATA [])) (B2R raw) y /\
    Rabs (B2R f - y) <= / IZR (2 ^ 48) * m_R p.
Proof. exact bias_defined. Qed.
Print Assumptions C28_bias.

Theorem C28_between : forall xs ys x y, interpolated xs ys x y ->
  (exists x0 y0, nth_error xs 0 = Some x0 /\ nth_error ys 0 = Some y0 /\ x <= x0 /\ y = y0) \/
  (exists xl yl, nth_error xs (length xs - 1) = Some xl /\
     nth_error ys (length ys - 1) = Some yl /\ xl <= x /\ y = yl) \/
  (exists i x0 y0 x1 y1, nth_error xs i = Some x0 /\ nth_error ys i = Some y0 /\
     nth_error xs (S i) = Some x1 /\ nth_error ys (S i) = Some y1 /\
     Rmin x0 x1 <= x <= Rmax x0 x1 /\ Rmin y0 y1 <= y <= Rmax y0 y1).
Proof. exact interpolated_between. Qed.
Print Assumptions C28_between.

(** Precision 5, where the table is not sorted: [127] and [128] are out of order.  An estimate
    between the two, with both of std's algorithms. *)
Example C28_example :
  let est := nth 1 RAW_ESTIMATE_DATA [] in
  build test_env /\ build core_env /\
  (match nth_error est 127, nth_error est 128 with
   | Some a, Some b => flt b a = true /\ is_finite a = true /\
       is_ok (estimate_bias test_env 5 a) = true /\
       is_ok (estimate_bias core_env 5 b) = true
   | _, _ => False
   end).
Proof.
  cbv zeta. split; [exact (proj1 test_build)|]. split; [exact core_build|].
  vm_compute. repeat split.
Qed.

(** ** C34, C35: the no_std logarithm *)
Theorem C34_special : forall ck b, (b < 2 ^ 64)%N ->
  exists y, log_bits ck b = Ret y /\
    match from_bits b with
    | B754_zero _ => y = B754_infinity true
    | B754_infinity false => y = B754_infinity false
    | B754_infinity true => y = B754_nan
    | B754_nan => y = B754_nan
    | B754_finite true _ _ _ => y = B754_nan
    | B754_finite false _ _ _ =>
        is_finite y = true /\ (b = 0x3ff0000000000000%N -> y = pzero)
    end.
Proof. exact log_special. Qed.
Print Assumptions C34_special.

Example C34_example :
  map (fun b => bits (log_bits true b))
    [0; 0x8000000000000000; 0x7ff0000000000000; 0x3ff0000000000000; 1; 0xbff0000000000000;
     0x7ff0000000000001]%N
  = map Ret [0xfff0000000000000; 0xfff0000000000000; 0x7ff0000000000000; 0; 0xc0874385446d71c3;
             0x7ff8000000000000; 0x7ff8000000000000]%N.
Proof. vm_compute. reflexivity. Qed.

Theorem C35_accurate : forall ck x, is_finite x = true -> 0 < B2R x ->
  exists y, log ck x = Ret y /\ is_finite y = true /\
    Rabs (B2R y - Rpower.ln (B2R x)) <= / IZR (2 ^ 51) * Rabs (Rpower.ln (B2R x)).
Proof. exact log_accurate_51. Qed.
Print Assumptions C35_accurate.

(** ln 10 is 2.302585092994046 (bits 0x40026bb1bbb55516); ln of the least subnormal. *)
Example C35_example :
  is_finite (of_Z 10) = true /\ is_finite (from_bits 1) = true /\
  bits (log true (of_Z 10)) = Ret 0x40026bb1bbb55516%N /\
  bits (log true (from_bits 1)) = Ret 0xc0874385446d71c3%N.
Proof. vm_compute. repeat split. Qed.

(** ** C36: the raw estimate *)
Theorem C36_raw : forall e p l, build e -> (4 <= p <= 18)%N -> (2 * p < usize_bits e)%N ->
  N.of_nat (length l) = (2 ^ p)%N -> Forall (fun v => (v < if feat_std e then 64 else 32)%N) l ->
  exists x, estimate_raw_plus e l (2 ^ p) = Ret x /\ is_finite x = true /\
    approx (/ IZR (2 ^ 33)) (B2R x) (raw_R p l).
Proof. exact raw_plus_accurate. Qed.
Print Assumptions C36_raw.

Theorem C36_raw_pf : forall e p l, build e -> (4 <= p <= 16)%N -> (2 * p < usize_bits e)%N ->
  N.of_nat (length l) = (2 ^ p)%N -> Forall (fun v => (v < 32)%N) l ->
  exists x, estimate_raw_plus e l (2 ^ p) = Ret x /\ is_finite x = true /\
    approx (/ IZR (2 ^ 49)) (B2R x) (raw_R p l).
Proof. exact raw_pf_accurate. Qed.
Print Assumptions C36_raw_pf.

Theorem C36_order : forall e p l l', build e -> (4 <= p <= 16)%N -> (2 * p < usize_bits e)%N ->
  N.of_nat (length l) = (2 ^ p)%N -> Forall (fun v => (v < 32)%N) l -> Permutation l l' ->
  estimate_raw_plus e l (2 ^ p) = estimate_raw_plus e l' (2 ^ p).
Proof. exact raw_pf_order. Qed.
Print Assumptions C36_order.

(** 16 registers with all values from 0 to 30, in two orders. *)
Example C36_example :
  let l := map (fun i => 2 * i)%N (range 16) in
  N.of_nat (length l) = (2 ^ 4)%N /\ Forall (fun v => (v < 32)%N) l /\
  bits (estimate_raw_plus test_env l 16) = bits (estimate_raw_plus core_env (rev l) 16) /\
  trunc (estimate_raw_plus test_env l 16) = Ret 129%Z.
Proof.
  cbv zeta. split; [reflexivity|]. split; [|split; vm_compute; reflexivity].
  apply Forall_forall. intros v Hv. apply in_map_iff in Hv. destruct Hv as (i & <- & Hi).
  apply BitFacts.range_in in Hi. lia.
Qed.

(** ** C37, C38: count computes the published formulas *)
Theorem C37_formula : forall (V : Type) e ord (h : hist V),
  build_std e -> accurate e -> valid MAX_PLUS h -> narrow (usize_bits e) h -> is_order ord ->
  exists c, count_plus e ord h = Ret c /\ is_finite c = true /\
    plus_R (map B2R (nth (N.to_nat (hist_precision h - 4)) RAW_ESTIMATE_DATA []))
           (map B2R (nth (N.to_nat (hist_precision h - 4)) BIAS_DATA []))
           (hist_precision h) (hist_hashes h) (B2R c).
Proof. exact plus_value. Qed.
Print Assumptions C37_formula.

Theorem C38_formula : forall (V : Type) e (h : hist V),
  build e -> accurate e -> valid MAX_PF h -> narrow (usize_bits e) h ->
  below_2_32 (hist_precision h) (hist_hashes h) ->
  exists c, count_pf e h = Ret c /\ is_finite c = true /\
    pf_R (hist_precision h) (hist_hashes h) (B2R c) /\
    0 <= B2R c <= IZR (2 ^ 40) /\
    (hist_hashes h = [] -> B2R c = 0) /\ (hist_hashes h <> [] -> 0.9 <= B2R c).
Proof. exact pf_value_R. Qed.
Print Assumptions C38_formula.

(** [below_2_32] holds when no register is at its maximum. *)
Theorem C38_below : forall p H, (4 <= p <= 16)%N ->
  (forall h, In h H -> (rank 32 p (h mod 2 ^ 32) <= 32 - p)%N) -> below_2_32 p H.
Proof. exact low_ranks_below. Qed.
Print Assumptions C38_below.

(** The four branches of PF's count; the last is above 2^32/30. *)
Example C38_example :
  build core_env /\ accurate core_env /\ valid MAX_PF (raised_pf 24) /\
  narrow (usize_bits core_env) (raised_pf 24) /\
  below_2_32 4 (hist_hashes (raised_pf 24)) /\
  map (fun h => trunc (count_pf core_env h))
    [HNew 4 mix; demo_other; raised_pf 0; raised_pf 9; raised_pf 24]%N
  = map Ret [0; 5; 21; 11026; 377421911]%Z.
Proof.
  split; [exact core_build|]. split; [exact core_accurate|]. split; [now apply raised_pf_valid|].
  split; [apply wide_pf; [now apply raised_pf_valid|cbn; lia]|].
  split; [|vm_compute; reflexivity].
  apply C38_below; [lia|]. apply Forall_forall. vm_compute. repeat constructor; discriminate.
Qed.
