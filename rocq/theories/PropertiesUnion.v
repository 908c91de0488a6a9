(** * C83: inclusion and exclusion *)
From Coq Require Import NArith ZArith Reals List Bool Lia Lra.
From Flocq Require Import Core BinarySingleNaN.
From Verif Require Import ModelRust ModelEnv ModelF64 ModelRegisters ModelPF ModelPlus ModelHistory ModelTests
  Spec SpecBuild SpecReal SpecUnion BitFacts RefuteFacts Witness UnionFacts.
Import ListNotations.
Local Open Scope R_scope.

(** [u] absorbed what [a] and [b] absorbed, for example by merging, and is still sparse.  Then
    count(a) + count(b) - count(u) is the number of codes that [a] and [b] have in common, up to
    n^2/2^25 where [u] has n codes.  If they have none in common it is negative: the union counts
    for more than the sum. *)
Theorem C83_sparse : forall (V : Type) e ord (a b u : hist V) La Lb Lu I,
  build_std e -> accurate e -> is_order ord ->
  valid MAX_PLUS a -> narrow (usize_bits e) a -> valid MAX_PLUS b -> narrow (usize_bits e) b ->
  valid MAX_PLUS u -> narrow (usize_bits e) u ->
  hist_precision b = hist_precision a -> hist_precision u = hist_precision a ->
  same_set (hist_hashes u) (hist_hashes a ++ hist_hashes b) ->
  is_code_list (hist_precision a) (hist_hashes a) La -> is_code_list (hist_precision a) (hist_hashes b) Lb ->
  is_code_list (hist_precision a) (hist_hashes u) Lu ->
  (gap_len 0 Lu <= sparse_limit (hist_precision a))%N ->
  common La Lb I ->
  exists ca cb cu, count_plus e ord a = Ret ca /\ count_plus e ord b = Ret cb /\ count_plus e ord u = Ret cu /\
    is_finite ca = true /\ is_finite cb = true /\ is_finite cu = true /\
    (let n := INR (length Lu) in
     Rabs (B2R ca + B2R cb - B2R cu - INR (length I)) <= n * n / IZR (2 ^ 25) * (1 + n / IZR (2 ^ 23)) + n / IZR (2 ^ 26)) /\
    (I = [] -> hist_hashes a <> [] -> hist_hashes b <> [] ->
     B2R ca + B2R cb + INR (length La) * INR (length Lb) / IZR (2 ^ 25) <= B2R cu).
Proof. exact union_sparse. Qed.
Print Assumptions C83_sparse.

(** Two values, one in each sketch: the merged sketch counts more than the two counts together. *)
Definition C83_a : hist N := inserted 10 mix Insert keep [1]%N.
Definition C83_b : hist N := inserted 10 mix Add (@rev N) [2]%N.
Definition C83_u : hist N := HMerge keep C83_a C83_b.
Example C83_sparse_example :
  valid MAX_PLUS C83_a /\ valid MAX_PLUS C83_b /\ valid MAX_PLUS C83_u /\
  (exists La Lb Lu, is_code_list 10 (hist_hashes C83_a) La /\ is_code_list 10 (hist_hashes C83_b) Lb /\
     is_code_list 10 (hist_hashes C83_u) Lu /\ common La Lb [] /\ (gap_len 0 Lu <= sparse_limit 10)%N) /\
  (let* x := count_plus test_env keep C83_a in let* y := count_plus test_env keep C83_b in
   let* z := count_plus test_env keep C83_u in Ret (flt (fadd x y) z)) = Ret true.
Proof.
  assert (VA : valid MAX_PLUS C83_a) by (apply inserted_valid; [apply keep_order|split; discriminate]).
  assert (VB : valid MAX_PLUS C83_b) by (apply inserted_valid; [apply rev_order|split; discriminate]).
  split; [exact VA|]. split; [exact VB|]. split; [cbn [C83_u valid]; auto using keep_order|]. split.
  - exists (codes 10 (hist_hashes C83_a)), (codes 10 (hist_hashes C83_b)), (codes 10 (hist_hashes C83_u)).
    do 3 (split; [apply code_list_b_ok; vm_compute; reflexivity|]). split; [|vm_compute; discriminate].
    split; [constructor|]. intros x. vm_compute. intuition (subst; discriminate).
  - vm_compute. reflexivity.
Qed.

(** A sketch whose values fall into half of the buckets counts at most 2.6m, whatever the hashes are. *)
Theorem C83_half_plus : forall (V : Type) e ord (h : hist V),
  build_std e -> accurate e -> valid MAX_PLUS h -> narrow (usize_bits e) h -> is_order ord ->
  one_half 64 (hist_precision h) (hist_hashes h) ->
  exists c, count_plus e ord h = Ret c /\ is_finite c = true /\ 0 <= B2R c <= 2.6 * m_R (hist_precision h).
Proof. exact half_plus. Qed.
Print Assumptions C83_half_plus.

Theorem C83_half_pf : forall (V : Type) e (h : hist V),
  build e -> accurate e -> valid MAX_PF h -> narrow (usize_bits e) h ->
  one_half 32 (hist_precision h) (map (fun x => x mod 2 ^ 32)%N (hist_hashes h)) ->
  exists c, count_pf e h = Ret c /\ is_finite c = true /\ 0 <= B2R c <= 0.76 * m_R (hist_precision h).
Proof. exact half_pf. Qed.
Print Assumptions C83_half_pf.

(** But the count of a merge is not bounded by the counts of its parts: two such sketches, each
    with the largest ranks in its half, merge into one that counts 2^64 ... *)
Theorem C83_blowup_plus : forall (V : Type) e ord o (a b : hist V),
  build_std e -> accurate e -> is_order ord -> is_order o ->
  valid MAX_PLUS a -> narrow (usize_bits e) a -> valid MAX_PLUS b -> narrow (usize_bits e) b ->
  hist_precision b = hist_precision a ->
  one_half 64 (hist_precision a) (hist_hashes a) -> one_half 64 (hist_precision a) (hist_hashes b) ->
  (forall i, i < 2 ^ hist_precision a -> In (i * 2 ^ (64 - hist_precision a)) (hist_hashes a ++ hist_hashes b))%N ->
  exists ca cb cu, count_plus e ord a = Ret ca /\ count_plus e ord b = Ret cb /\
    count_plus e ord (HMerge o a b) = Ret cu /\
    is_finite ca = true /\ is_finite cb = true /\ is_finite cu = true /\
    0 <= B2R ca <= 2.6 * m_R (hist_precision a) /\ 0 <= B2R cb <= 2.6 * m_R (hist_precision a) /\
    IZR (2 ^ 64) <= B2R cu.
Proof. exact blowup_plus. Qed.
Print Assumptions C83_blowup_plus.

(** ... or, with HyperLogLogPF, is not a number. *)
Theorem C83_blowup_pf : forall (V : Type) e o (a b : hist V),
  build e -> accurate e -> rejects e -> is_order o ->
  valid MAX_PF a -> narrow (usize_bits e) a -> valid MAX_PF b -> narrow (usize_bits e) b ->
  hist_precision b = hist_precision a ->
  one_half 32 (hist_precision a) (map (fun x => x mod 2 ^ 32)%N (hist_hashes a)) ->
  one_half 32 (hist_precision a) (map (fun x => x mod 2 ^ 32)%N (hist_hashes b)) ->
  (forall i, i < 2 ^ hist_precision a ->
     In (i * 2 ^ (32 - hist_precision a)) (map (fun x => x mod 2 ^ 32) (hist_hashes a ++ hist_hashes b)))%N ->
  exists ca cb cu, count_pf e a = Ret ca /\ count_pf e b = Ret cb /\ count_pf e (HMerge o a b) = Ret cu /\
    is_finite ca = true /\ is_finite cb = true /\
    0 <= B2R ca <= 0.76 * m_R (hist_precision a) /\ 0 <= B2R cb <= 0.76 * m_R (hist_precision a) /\
    is_nan cu = true.
Proof. exact blowup_pf. Qed.
Print Assumptions C83_blowup_pf.

(** Eight values each at precision 4: two counts of 18 (HyperLogLogPF: 11), together 2.5e19 (NaN). *)
Definition C83_low (w : N) : hist N := inserted 4 (fun i => i * 2 ^ w)%N Insert keep (range 8).
Definition C83_high (w : N) : hist N := inserted 4 (fun i => (8 + i) * 2 ^ w)%N Insert keep (range 8).
Example C83_blowup_example :
  valid MAX_PLUS (C83_low 60) /\ valid MAX_PLUS (C83_high 60) /\ valid MAX_PF (C83_low 28) /\ valid MAX_PF (C83_high 28) /\
  one_half 64 4 (hist_hashes (C83_low 60)) /\ one_half 64 4 (hist_hashes (C83_high 60)) /\
  forallb (fun i => existsb (N.eqb (i * 2 ^ (64 - 4))) (hist_hashes (C83_low 60) ++ hist_hashes (C83_high 60)))%N (range 16) = true /\
  trunc (count_plus test_env keep (C83_low 60)) = Ret 18%Z /\ trunc (count_plus test_env keep (C83_high 60)) = Ret 18%Z /\
  trunc (count_plus test_env keep (HMerge keep (C83_low 60) (C83_high 60))) = Ret 24829317523213058048%Z /\
  trunc (count_pf test_env (C83_low 28)) = Ret 11%Z /\ trunc (count_pf test_env (C83_high 28)) = Ret 11%Z /\
  (let* c := count_pf test_env (HMerge keep (C83_low 28) (C83_high 28)) in Ret (is_nan c)) = Ret true.
Proof.
  do 4 (split; [apply inserted_valid; [apply keep_order|split; discriminate]|]).
  split; [left; intros h H; vm_compute in H; intuition (subst; reflexivity)|].
  split; [right; intros h H; vm_compute in H; intuition (subst; discriminate)|].
  repeat split; vm_compute; reflexivity.
Qed.
