(** * Properties that do not hold as stated, and the parts of them that do

    For each property: the negation of the full statement ([_refuted]), with a concrete
    program; how far the failure goes; and the restricted statement that holds ([_partial]).
    [test_env] is a 64-bit debug build, [small_debug] and [small_env] are 32-bit debug and
    release builds of the same platform, [core_env] is a no_std build. *)
From Coq Require Import NArith ZArith Reals Lra List Bool Lia Permutation Sorted String.
From Flocq Require Import Core BinarySingleNaN.
From Verif Require Import ModelRust ModelF64 ModelEnv ModelLog ModelRegisters ModelEncoding
  ModelCommon ModelPF ModelPlus ModelConstants ModelSerde ModelHistory ModelTests Spec SpecReal
  SpecCount SpecBuild ObsFacts NarrowFacts CountFacts SparseFacts ClaimFacts ClaimFloat PlusMono RefuteFacts
  ClaimRefute Witness.
Import ListNotations.
Local Open Scope N_scope.

(** ** C02: a fresh HyperLogLogPF counts 0 *)
Theorem C02_fresh_refuted : ~ (forall e p (b : N -> N),
  build e -> accurate e -> 4 <= p <= 16 ->
  exists s c, pf_new e p b = Ret (ROk s) /\ pf_count_est e s = Ret c /\
    is_finite c = true /\ B2R c = 0%R).
Proof. exact fresh_false. Qed.
Print Assumptions C02_fresh_refuted.

(** ** C05: the width of usize *)
Theorem C05_plus_refuted : ~ (forall e e' ord (h : hist N), build_std e -> build_std e' ->
  accurate e -> accurate e' -> same_platform e e' -> valid MAX_PLUS h -> is_order ord ->
  exists c, count_plus e ord h = Ret c /\ count_plus e' ord h = Ret c).
Proof. exact width_false. Qed.
Print Assumptions C05_plus_refuted.

Theorem C05_pf_refuted : ~ (forall e e' (h : hist N), build e -> build e' ->
  accurate e -> accurate e' -> same_platform e e' -> valid MAX_PF h ->
  exists c, count_pf e h = Ret c /\ count_pf e' h = Ret c).
Proof. exact width_pf_false. Qed.
Print Assumptions C05_pf_refuted.

(** The same program on 64 bits, on 32 bits with and on 32 bits without overflow checks. *)
Theorem C05_plus_witness : exists h : hist N, valid MAX_PLUS h /\
  (exists c, count_plus test_env keep h = Ret c /\ is_finite c = true /\ (0 <= B2R c)%R) /\
  count_plus small_debug keep h = Panic /\
  (exists c, count_plus small_env keep h = Ret c /\ is_finite c = true /\ (B2R c <= -10000)%R).
Proof. exact plus_width. Qed.
Print Assumptions C05_plus_witness.

Theorem C05_pf_witness : exists h : hist N, valid MAX_PF h /\
  (exists c, count_pf test_env h = Ret c /\ is_finite c = true /\ (0.9 <= B2R c)%R) /\
  count_pf small_debug h = Panic /\
  (exists c, count_pf small_env h = Ret c /\ is_finite c = true /\ B2R c = 0%R).
Proof. exact pf_width. Qed.
Print Assumptions C05_pf_witness.

(** Whenever [2p] reaches the width: HyperLogLogPF always panics in debug builds, and counts 0
    in release builds once every register is set; HyperLogLogPlus does so (or goes negative)
    once it has left sparse mode and linear counting. *)
Theorem C05_pf_debug : forall (V : Type) e (h : hist V), build e -> valid MAX_PF h ->
  countable_pf (usize_bits e) h -> overflow_checks e = true ->
  usize_bits e <= 2 * hist_precision h -> count_pf e h = Panic.
Proof. exact pf_narrow_panics. Qed.
Print Assumptions C05_pf_debug.

Theorem C05_pf_release : forall (V : Type) e (h : hist V), build e -> valid MAX_PF h ->
  countable_pf (usize_bits e) h -> overflow_checks e = false ->
  usize_bits e <= 2 * hist_precision h ->
  (forall i, i < 2 ^ hist_precision h ->
     exists x, In x (hist_hashes h) /\ bucket 32 (hist_precision h) (x mod 2 ^ 32) = i) ->
  exists c, count_pf e h = Ret c /\ is_finite c = true /\ B2R c = 0%R.
Proof. exact pf_narrow_zero. Qed.
Print Assumptions C05_pf_release.

Theorem C05_plus_debug : forall (V : Type) e ord (h : hist V), build_std e -> accurate e ->
  valid MAX_PLUS h -> countable (usize_bits e) h -> is_order ord -> overflow_checks e = true ->
  usize_bits e <= 2 * hist_precision h -> past_linear (hist_precision h) (hist_hashes h) ->
  count_plus e ord h = Panic.
Proof. exact plus_narrow_panics. Qed.
Print Assumptions C05_plus_debug.

Theorem C05_plus_release : forall (V : Type) e ord (h : hist V), build_std e -> accurate e ->
  valid MAX_PLUS h -> countable (usize_bits e) h -> is_order ord -> overflow_checks e = false ->
  usize_bits e <= 2 * hist_precision h -> past_linear (hist_precision h) (hist_hashes h) ->
  exists c, count_plus e ord h = Ret c /\ is_finite c = true /\ (B2R c <= -10000)%R.
Proof. exact plus_narrow_negative. Qed.
Print Assumptions C05_plus_release.

(** What holds: when [2p] is below both widths, and while HyperLogLogPlus is sparse. *)
Theorem C05_plus_partial : forall (V : Type) e e' ord (h : hist V),
  build_std e -> build_std e' -> same_platform e e' -> valid MAX_PLUS h ->
  narrow (usize_bits e) h -> narrow (usize_bits e') h -> is_order ord ->
  exists c, count_plus e ord h = Ret c /\ count_plus e' ord h = Ret c.
Proof. exact plus_builds_agree. Qed.
Print Assumptions C05_plus_partial.

Theorem C05_pf_partial : forall (V : Type) e e' (h : hist V),
  build e -> build e' -> same_platform e e' -> valid MAX_PF h ->
  narrow (usize_bits e) h -> narrow (usize_bits e') h ->
  exists c, count_pf e h = Ret c /\ count_pf e' h = Ret c.
Proof. exact pf_builds_agree. Qed.
Print Assumptions C05_pf_partial.

Theorem C05_sparse_partial : forall (V : Type) e e' ord (h : hist V),
  build_std e -> build_std e' -> same_platform e e' -> valid MAX_PLUS h -> is_order ord ->
  countable 0 (HCount ord h) ->
  exists c, count_plus e ord h = Ret c /\ count_plus e' ord h = Ret c.
Proof. exact sparse_any_width. Qed.
Print Assumptions C05_sparse_partial.

(** Precision 18 on a 32-bit target is fine while sparse; precision 15 always. *)
Example C05_example :
  let h := inserted 18 mix Insert keep (range 20) in
  same_platform test_env small_debug /\ valid MAX_PLUS h /\ countable 0 (HCount keep h) /\
  bits (count_plus test_env keep h) = bits (count_plus small_debug keep h) /\
  narrow (usize_bits small_debug) (inserted 15 mix Insert keep (range 20)) /\
  usize_bits small_debug <= 2 * hist_precision full16 /\ countable (usize_bits small_debug) full16 /\
  past_linear 16 (hist_hashes full16).
Proof.
  cbv zeta. split; [exact debug_same|].
  split; [apply inserted_valid; [exact keep_order|unfold MAX_PLUS; lia]|].
  split; [split; [right|exact (proj1 (inserted_countable N 0 18 mix Insert keep (range 20)))]|].
  { apply sparse_fits_b; vm_compute; [reflexivity|discriminate]. }
  split; [vm_compute; reflexivity|]. split; [apply inserted_narrow; reflexivity|].
  split; [rewrite (proj1 full16_prec); discriminate|].
  split; [exact (proj1 (full16_countable _))|exact full16_past].
Qed.

(** ** C26: HyperLogLogPF::count is finite *)
Theorem C26_refuted : ~ (forall e (h : hist N), build e -> accurate e -> valid MAX_PF h ->
  narrow (usize_bits e) h -> exists c, count_pf e h = Ret c /\ is_finite c = true).
Proof. exact finite_false. Qed.
Print Assumptions C26_refuted.

(** Exactly: it is finite while the raw estimate is below 2^32, and NaN from there on (if [ln]
    of a negative number is NaN, as documented). *)
Theorem C26_finite_iff : forall (V : Type) e (h : hist V), build e -> accurate e -> rejects e ->
  valid MAX_PF h -> narrow (usize_bits e) h ->
  exists c, count_pf e h = Ret c /\
    (is_finite c = true <-> below_2_32 (hist_precision h) (hist_hashes h)) /\
    (is_finite c = false -> is_nan c = true).
Proof. exact pf_finite_iff. Qed.
Print Assumptions C26_finite_iff.

Theorem C26_finite_partial : forall (V : Type) e (h : hist V),
  build e -> accurate e -> valid MAX_PF h -> narrow (usize_bits e) h ->
  below_2_32 (hist_precision h) (hist_hashes h) ->
  exists c, count_pf e h = Ret c /\ is_finite c = true /\
    pf_R (hist_precision h) (hist_hashes h) (B2R c) /\
    (0 <= B2R c <= IZR (2 ^ 40))%R /\
    (hist_hashes h = [] -> B2R c = 0%R) /\ (hist_hashes h <> [] -> (0.9 <= B2R c)%R).
Proof. exact pf_value_R. Qed.
Print Assumptions C26_finite_partial.

Example C26_example :
  build core_env /\ accurate core_env /\ rejects core_env /\ valid MAX_PF (raised_pf 20) /\
  narrow (usize_bits core_env) (raised_pf 20) /\ below_2_32 4 (hist_hashes (raised_pf 20)) /\
  is_ok (count_pf core_env (raised_pf 20)) = true /\
  map (fun r => match count_pf core_env (raised_pf r) with Ret c => is_nan c | _ => true end)
    [0; 20; 27; 28] = [false; false; false; true].
Proof.
  split; [exact core_build|]. split; [exact core_accurate'|]. split; [intros H; discriminate H|].
  split; [apply raised_pf_valid; discriminate|]. split; [apply inserted_narrow; reflexivity|].
  split; [|split; vm_compute; reflexivity].
  apply low_ranks_below; [lia|]. apply Forall_forall.
  repeat (constructor; [vm_compute; discriminate|]). constructor.
Qed.

(** ** C27: monotonicity *)
Theorem C27_plus_refuted : ~ (forall e ord k ord' (h : hist N) v c c', build_std e -> accurate e ->
  valid MAX_PLUS h -> narrow (usize_bits e) h -> is_order ord -> is_order ord' ->
  count_plus e ord h = Ret c -> count_plus e ord (HInsert k ord' h v) = Ret c' ->
  (B2R c <= B2R c')%R).
Proof. exact mono_false. Qed.
Print Assumptions C27_plus_refuted.

Theorem C27_pf_refuted : ~ (forall e k ord (h : hist N) v c c', build e -> accurate e ->
  valid MAX_PF h -> narrow (usize_bits e) h -> is_order ord ->
  count_pf e h = Ret c -> count_pf e (HInsert k ord h v) = Ret c' -> (B2R c <= B2R c')%R).
Proof. exact mono_pf_false. Qed.
Print Assumptions C27_pf_refuted.

(** One insertion makes the count smaller: when the sparse representation is given up, and past
    linear counting (where the raw estimate passes 5m and the last, negative, bias is no longer
    subtracted). *)
Theorem C27_plus_witness : (exists (h : hist N) v c c', valid MAX_PLUS h /\
    fits (hist_precision h) (hist_hashes h) /\
    count_plus test_env keep h = Ret c /\
    count_plus test_env keep (HInsert Insert keep h v) = Ret c' /\
    is_finite c = true /\ is_finite c' = true /\ (B2R c' < B2R c)%R) /\
  (exists (h : hist N) v c c', valid MAX_PLUS h /\
    past_linear (hist_precision h) (hist_hashes h) /\
    count_plus test_env keep h = Ret c /\
    count_plus test_env keep (HInsert Insert keep h v) = Ret c' /\
    is_finite c = true /\ is_finite c' = true /\ (B2R c' < B2R c)%R).
Proof. exact plus_drops. Qed.
Print Assumptions C27_plus_witness.

(** What holds: while sparse; within linear counting; past linear counting below 5m (precisions
    5 and 6, whose bias tables are not monotone, excepted) up to rounding; from 5m on.  The
    missing steps are the ones between these ranges and below 5m at precisions 5 and 6. *)
Theorem C27_plus_partial : forall (V : Type) e ord ord' (h h' : hist V), build_std e -> accurate e ->
  valid MAX_PLUS h -> valid MAX_PLUS h' -> narrow (usize_bits e) h -> narrow (usize_bits e) h' ->
  is_order ord -> is_order ord' ->
  hist_precision h = hist_precision h' -> incl (hist_hashes h) (hist_hashes h') ->
  let p := hist_precision h' in let H := hist_hashes h in let H' := hist_hashes h' in
  exists c c', count_plus e ord h = Ret c /\ count_plus e ord' h' = Ret c' /\
    is_finite c = true /\ is_finite c' = true /\
    (fits p H' -> (B2R c <= B2R c')%R) /\
    (~ fits p H -> in_linear p H' -> (B2R c <= B2R c')%R) /\
    (past_linear p H -> p <> 5 -> p <> 6 -> raw_under p H' -> (B2R c <= B2R c' + / IZR (2 ^ 28))%R) /\
    (past_linear p H -> raw_over p H -> (B2R c <= B2R c')%R).
Proof. exact plus_mono. Qed.
Print Assumptions C27_plus_partial.

(** For HyperLogLogPF: below 2^32, except at the step out of the small range. *)
Theorem C27_pf_partial : forall (V : Type) e (h h' : hist V), build e -> accurate e ->
  valid MAX_PF h -> valid MAX_PF h' -> narrow (usize_bits e) h -> narrow (usize_bits e) h' ->
  hist_precision h = hist_precision h' -> incl (hist_hashes h) (hist_hashes h') ->
  below_2_32 (hist_precision h') (hist_hashes h') ->
  small_range (hist_precision h') (hist_hashes h') \/
    ~ small_range (hist_precision h) (hist_hashes h) ->
  exists c c', count_pf e h = Ret c /\ count_pf e h' = Ret c' /\
    is_finite c = true /\ is_finite c' = true /\ (B2R c <= B2R c')%R.
Proof. exact pf_mono. Qed.
Print Assumptions C27_pf_partial.

Example C27_example :
  let h := inserted 10 mix Insert keep (range 9) in let h' := HInsert Add keep h 9 in
  valid MAX_PLUS h' /\ narrow (usize_bits test_env) h' /\ incl (hist_hashes h) (hist_hashes h') /\
  fits 10 (hist_hashes h') /\
  trunc (count_plus test_env keep h) = Ret 9%Z /\ trunc (count_plus test_env keep h') = Ret 10%Z /\
  (* the witnesses *)
  map (fun h => trunc (count_plus test_env keep h))
    [switch; HInsert Insert keep switch switch_next; cut5m; HInsert Insert keep cut5m cut5m_next]
    = map Ret [12; 1; 81; 80]%Z /\
  map (fun h => trunc (count_pf test_env h))
    [small_raw; HInsert Insert keep small_raw small_raw_next] = map Ret [44; 21]%Z.
Proof.
  cbv zeta. assert (V : valid MAX_PLUS (HInsert Add keep (inserted 10 mix Insert keep (range 9)) 9)).
  { split; [exact keep_order|]. apply inserted_valid; [exact keep_order|unfold MAX_PLUS; lia]. }
  split; [exact V|]. split; [now apply wide|].
  split; [intros x Hx; now right|].
  split; [apply sparse_fits_b; vm_compute; [reflexivity|discriminate]|].
  split; [|split; [|split]]; vm_compute; reflexivity.
Qed.

(** ** C31: deserialized sketches *)
Theorem C31_plus_refuted : ~ (forall e ord de_b v (s : plus N), build_std e -> is_order ord ->
  de_plus e de_b v = Some s -> exists s' c, hp_count e ord s = Ret (s', c)).
Proof. exact safe_false. Qed.
Print Assumptions C31_plus_refuted.

Theorem C31_sparse_witness : exists v (s : plus N), de_plus test_env de_mix v = Some s /\
  is_sparse s = true /\ hp_count test_env keep s = Panic.
Proof. exact safe_sparse_false. Qed.
Print Assumptions C31_sparse_witness.

Theorem C31_pf_refuted : ~ (forall e de_b v (s : pf N), build e ->
  de_pf e de_b v = Some s -> exists c, pf_count_est e s = Ret c).
Proof. exact safe_pf_false. Qed.
Print Assumptions C31_pf_refuted.

(** What holds.  For HyperLogLogPF nothing but the square of the [count] field can panic,
    whatever the state. *)
Theorem C31_pf_partial : forall (V : Type) e (s : pf V), build e ->
  pf_count_est e s = Panic /\ overflow_checks e = true /\
    2 ^ usize_bits e <= pf_count s * pf_count s \/
  (exists c, pf_count_est e s = Ret c) /\
    (overflow_checks e = false \/ pf_count s * pf_count s < 2 ^ usize_bits e).
Proof. exact pf_safe. Qed.
Print Assumptions C31_pf_partial.

(** HyperLogLogPlus with registers: a legal precision and a square that fits are enough,
    whatever the registers, zero counter and other fields are. *)
Theorem C31_plus_normal_partial : forall (V : Type) e ord (s : plus V) r,
  build_std e -> 4 <= hp_precision s <= 18 -> hp_registers s = Some r ->
  overflow_checks e = false \/ hp_counts0 s * hp_counts0 s < 2 ^ usize_bits e ->
  exists c, hp_count e ord s = Ret (s, c).
Proof. exact plus_safe. Qed.
Print Assumptions C31_plus_normal_partial.

(** HyperLogLogPlus without registers: the constants of the precision, codes of that precision
    and a difference vector that was built by pushing. *)
Theorem C31_plus_sparse_partial : forall (V : Type) e ord (s : plus V) p L,
  build_std e -> 4 <= p <= 18 -> 2 * p < usize_bits e -> is_order ord ->
  hp_precision s = p -> hp_counts0 s = 2 ^ p -> hp_counts1 s = 2 ^ 24 ->
  hp_counts2 s = sparse_limit p -> hp_registers s = None ->
  NoDup (hp_tmpset s) -> N.of_nat (List.length (hp_tmpset s)) * 100 <= sparse_limit p ->
  StronglySorted N.lt L -> gap_len 0 L <= sparse_limit p ->
  for_each L (dif_push e) dif_new = Ret (hp_sparse s) ->
  (forall c, In c (hp_tmpset s ++ L) -> exists h, h < 2 ^ 64 /\ sparse_code p h = c) ->
  exists s' c, hp_count e ord s = Ret (s', c).
Proof. exact sparse_safe. Qed.
Print Assumptions C31_plus_sparse_partial.

(** Registers that no history produces (a zero counter of 99 among 16 registers, an empty
    buffer); and a sparse state. *)
Example C31_example :
  let s := {| hp_builder := mix; hp_precision := 7; hp_counts0 := 12345; hp_counts1 := 0;
              hp_counts2 := 0; hp_tmpset := []; hp_sparse := dif_new;
              hp_registers := Some {| r_buf := []; r_count := 16; r_zeros := 99 |} |} in
  is_ok (hp_count test_env keep s) = true /\
  (let c1 := sparse_code 10 (2 ^ 63) in let c2 := sparse_code 10 (2 ^ 63 + 2 ^ 62) in
   exists d, for_each [c1; c2] (dif_push test_env) dif_new = Ret d /\
     is_ok (hp_count test_env keep
       {| hp_builder := mix; hp_precision := 10; hp_counts0 := 2 ^ 10; hp_counts1 := 2 ^ 24;
          hp_counts2 := sparse_limit 10; hp_tmpset := [sparse_code 10 5]; hp_sparse := d;
          hp_registers := None |}) = true).
Proof.
  cbv zeta. split; [vm_compute; reflexivity|].
  eexists. split; [vm_compute; reflexivity|vm_compute; reflexivity].
Qed.

(** ** C39: 25-bit prefixes *)
Theorem C39_refuted : ~ (forall e ord (h h' : hist N) c c', build_std e -> accurate e ->
  valid MAX_PLUS h -> valid MAX_PLUS h' -> narrow (usize_bits e) h -> narrow (usize_bits e) h' ->
  is_order ord -> hist_precision h = hist_precision h' ->
  fits (hist_precision h) (hist_hashes h) -> fits (hist_precision h') (hist_hashes h') ->
  same_set (map prefix25 (hist_hashes h)) (map prefix25 (hist_hashes h')) ->
  count_plus e ord h = Ret c -> count_plus e ord h' = Ret c' -> c = c').
Proof. exact prefix_false. Qed.
Print Assumptions C39_refuted.

(** When two hashes share a code. *)
Theorem C39_codes : forall p x y, 4 <= p <= 18 ->
  sparse_code p x = sparse_code p y <->
  prefix25 x = prefix25 y /\
    (prefix25 x mod 2 ^ (25 - p) <> 0 \/ rank 64 25 x = rank 64 25 y).
Proof. exact code_eq_iff. Qed.
Print Assumptions C39_codes.

(** There are at least as many codes as prefixes; equally many exactly if no prefix has two. *)
Theorem C39_prefixes : forall p H L n, 4 <= p <= 18 -> is_code_list p H L ->
  has_size (fun q => exists h, In h H /\ prefix25 h = q) n ->
  n <= N.of_nat (List.length L) /\ (n = N.of_nat (List.length L) <-> one_code p H).
Proof. exact codes_prefixes. Qed.
Print Assumptions C39_prefixes.

(** What holds: without such prefixes the count depends on the number of prefixes only. *)
Theorem C39_partial : forall (V : Type) e ord ord' (h h' : hist V) n,
  build_std e -> valid MAX_PLUS h -> valid MAX_PLUS h' ->
  narrow (usize_bits e) h -> narrow (usize_bits e) h' -> is_order ord -> is_order ord' ->
  fits (hist_precision h) (hist_hashes h) -> fits (hist_precision h') (hist_hashes h') ->
  one_code (hist_precision h) (hist_hashes h) -> one_code (hist_precision h') (hist_hashes h') ->
  has_size (fun q => exists x, In x (hist_hashes h) /\ prefix25 x = q) n ->
  has_size (fun q => exists x, In x (hist_hashes h') /\ prefix25 x = q) n ->
  exists c, count_plus e ord h = Ret c /\ count_plus e ord' h' = Ret c.
Proof. exact one_code_count. Qed.
Print Assumptions C39_partial.

(** Three hashes with two prefixes at precision 10, against two unrelated ones at precision 12. *)
Example C39_example :
  let h := pass_hist 10 [2 ^ 39; 2 ^ 39 + 7; 2 ^ 60] in let h' := pass_hist 12 [5; 2 ^ 63] in
  fits 10 (hist_hashes h) /\ fits 12 (hist_hashes h') /\
  one_code 10 (hist_hashes h) /\ one_code 12 (hist_hashes h') /\
  has_size (fun q => exists x, In x (hist_hashes h) /\ prefix25 x = q) 2 /\
  has_size (fun q => exists x, In x (hist_hashes h') /\ prefix25 x = q) 2 /\
  bits (count_plus test_env keep h) = bits (count_plus test_env keep h').
Proof.
  cbv zeta.
  split; [apply sparse_fits_b; vm_compute; [reflexivity|discriminate]|].
  split; [apply sparse_fits_b; vm_compute; [reflexivity|discriminate]|].
  assert (O : forall p H, forallb (fun x => forallb (fun y =>
    negb (prefix25 x =? prefix25 y) || negb (prefix25 x mod 2 ^ (25 - p) =? 0)
      || (rank 64 25 x =? rank 64 25 y)) H) H = true -> one_code p H).
  { intros p H E x y Hx Hy Exy. rewrite forallb_forall in E. specialize (E x Hx).
    rewrite forallb_forall in E. specialize (E y Hy). rewrite Exy, N.eqb_refl in E. cbn [negb orb] in E.
    apply orb_true_iff in E. destruct E as [E|E].
    - left. rewrite Exy. intros Z. rewrite Z in E. discriminate.
    - right. now apply N.eqb_eq. }
  split; [apply O; vm_compute; reflexivity|]. split; [apply O; vm_compute; reflexivity|].
  assert (S : forall H, has_size (fun q => exists x, In x H /\ prefix25 x = q)
    (N.of_nat (List.length (nodup N.eq_dec (map prefix25 H))))).
  { intros H. exists (nodup N.eq_dec (map prefix25 H)). split; [apply NoDup_nodup|].
    split; [|reflexivity]. intros q. rewrite nodup_In, in_map_iff.
    split; intros (x & A & B); exists x; auto. }
  split; [exact (S (hist_hashes (pass_hist 10 [2 ^ 39; 2 ^ 39 + 7; 2 ^ 60])))|].
  split; [exact (S (hist_hashes (pass_hist 12 [5; 2 ^ 63])))|]. vm_compute. reflexivity.
Qed.

(** ** C40: 2^25 buckets *)

(** The count of a sparse sketch is linear counting over 2^24 buckets; if it holds [n >= 1]
    codes this exceeds linear counting over 2^25 buckets by at least [n^2 / 2^27] (and the
    exact value is about [n^2 / 2^26] larger). *)
Theorem C40_refuted : forall (V : Type) e ord (h : hist V) L,
  build_std e -> accurate e -> valid MAX_PLUS h -> narrow (usize_bits e) h -> is_order ord ->
  is_code_list (hist_precision h) (hist_hashes h) L ->
  gap_len 0 L <= sparse_limit (hist_precision h) ->
  exists c, count_plus e ord h = Ret c /\ is_finite c = true /\
    approx (/ IZR (2 ^ 28)) (B2R c) (linear_R (2 ^ 24) (2 ^ 24 - N.of_nat (List.length L))) /\
    (hist_hashes h <> [] ->
       linear_R (2 ^ 25) (2 ^ 25 - N.of_nat (List.length L)) +
         INR (List.length L) * INR (List.length L) / IZR (2 ^ 27) <= B2R c)%R.
Proof. exact sparse_is_24. Qed.
Print Assumptions C40_refuted.

(** How much the 2^24 buckets add: n^2/2^26, up to a fraction n/2^23 of it and rounding. *)
Theorem C40_partial : forall (V : Type) e ord (h : hist V) L,
  build_std e -> accurate e -> valid MAX_PLUS h -> narrow (usize_bits e) h -> is_order ord ->
  is_code_list (hist_precision h) (hist_hashes h) L ->
  gap_len 0 L <= sparse_limit (hist_precision h) ->
  exists c, count_plus e ord h = Ret c /\ is_finite c = true /\
    (let n := INR (List.length L) in
     linear_R (2 ^ 25) (2 ^ 25 - N.of_nat (List.length L)) + n * n / IZR (2 ^ 26) - n / IZR (2 ^ 27) <= B2R c
     <= linear_R (2 ^ 25) (2 ^ 25 - N.of_nat (List.length L)) + n * n / IZR (2 ^ 26) * (1 + n / IZR (2 ^ 23)) + n / IZR (2 ^ 27))%R.
Proof. exact sparse_excess. Qed.
Print Assumptions C40_partial.

Example C40_example :
  valid MAX_PLUS demo_sparse /\ narrow (usize_bits test_env) demo_sparse /\
  hist_hashes demo_sparse <> [] /\
  exists L, is_code_list 10 (hist_hashes demo_sparse) L /\ gap_len 0 L <= sparse_limit 10 /\
    List.length L = 9%nat.
Proof.
  split; [now apply demo_sparse_valid|]. split; [apply wide; [now apply demo_sparse_valid|discriminate]|].
  split; [discriminate|].
  exists (codes 10 (hist_hashes demo_sparse)). split; [apply code_list_b_ok; vm_compute; reflexivity|].
  split; [vm_compute; discriminate|vm_compute; reflexivity].
Qed.

(** ** C44: the published thresholds *)
Theorem C44_refuted : exists t, threshold 5 = Ret t /\ is_finite t = true /\ B2R t = 10%R /\
  published_threshold_R 5 = 20%R.
Proof. exact five. Qed.
Print Assumptions C44_refuted.

(** It matters: with 20 of the 32 registers empty, linear counting gives 15 to 20, within the
    published threshold, but the count is below 11. *)
Theorem C44_witness : exists h : hist N, valid MAX_PLUS h /\ hist_precision h = 5 /\
  ~ fits 5 (hist_hashes h) /\
  (forall l, is_register_file 64 5 (hist_hashes h) l -> zero_count l = 20) /\
  (15 <= linear_R (2 ^ 5) 20 <= published_threshold_R 5)%R /\
  exists c, count_plus test_env keep h = Ret c /\ is_finite c = true /\ (B2R c < 11)%R.
Proof. exact twelve_observable. Qed.
Print Assumptions C44_witness.

Theorem C44_partial : forall p, 4 <= p <= 18 -> p <> 5 ->
  exists t, threshold p = Ret t /\ is_finite t = true /\ B2R t = published_threshold_R p.
Proof. exact published. Qed.
Print Assumptions C44_partial.

Example C44_example :
  map (fun p => bits (threshold p)) [4; 5; 6; 18] = map (fun z => bits (Ret (of_Z z))) [10; 10; 40; 350000]%Z.
Proof. vm_compute. reflexivity. Qed.
