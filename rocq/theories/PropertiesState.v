(** * Properties of sketches as state machines

    Conventions.  [V] is the type of inserted values, [e] the build, [ord] an iteration order of
    a HashSet.  [run_plus e h = Ret s]: the program [h] ends without a panic in state [s].
    [build_std e]/[build e]: any build, debug or release, any usize width from 32 bits on.
    [narrow (usize_bits e) h]: every precision [p] used satisfies [2p < usize_bits e]; on a
    64-bit target this always holds ([C03_narrow]). *)
From Coq Require Import NArith ZArith List Bool Lia Permutation Sorted.
From Verif Require Import ModelRust ModelF64 ModelEnv ModelRegisters ModelEncoding ModelCommon
  ModelPF ModelPlus ModelSerde ModelHistory ModelTests Spec SpecBuild BitFacts ObsFacts PlusInv ClaimFacts
  Witness.
Import ListNotations.
Local Open Scope N_scope.

(** ** C03, C04: no panic *)
Theorem C03_narrow : forall (V : Type) m w (h : hist V), valid m h -> 2 * m < w -> narrow w h.
Proof. exact valid_narrow. Qed.
Print Assumptions C03_narrow.

Theorem C03_no_panic : forall (V : Type) e ord (h : hist V),
  build_std e -> valid MAX_PLUS h -> narrow (usize_bits e) h -> is_order ord ->
  exists s s' c, run_plus e h = Ret s /\ hp_count e ord s = Ret (s', c).
Proof. exact plus_no_panic. Qed.
Print Assumptions C03_no_panic.

(** Debug and release builds agree, on any two widths that are wide enough. *)
Theorem C03_builds_agree : forall (V : Type) e e' ord (h : hist V),
  build_std e -> build_std e' -> same_platform e e' -> valid MAX_PLUS h ->
  narrow (usize_bits e) h -> narrow (usize_bits e') h -> is_order ord ->
  exists c, count_plus e ord h = Ret c /\ count_plus e' ord h = Ret c.
Proof. exact plus_builds_agree. Qed.
Print Assumptions C03_builds_agree.

Example C03_example :
  build_std test_env /\ valid MAX_PLUS demo_tree /\ narrow (usize_bits test_env) demo_tree /\
  is_order keep /\ is_ok (run_plus test_env demo_tree) = true.
Proof.
  split; [exact test_build|]. split; [now apply demo_tree_valid|].
  split; [apply wide; [now apply demo_tree_valid|cbn; lia]|].
  split; [exact keep_order|]. vm_compute. reflexivity.
Qed.

Theorem C04_no_panic : forall (V : Type) e (h : hist V),
  build e -> valid MAX_PF h -> narrow (usize_bits e) h ->
  exists s c, run_pf e h = Ret s /\ pf_count_est e s = Ret c.
Proof. exact pf_no_panic. Qed.
Print Assumptions C04_no_panic.

Theorem C04_builds_agree : forall (V : Type) e e' (h : hist V),
  build e -> build e' -> same_platform e e' -> valid MAX_PF h ->
  narrow (usize_bits e) h -> narrow (usize_bits e') h ->
  exists c, count_pf e h = Ret c /\ count_pf e' h = Ret c.
Proof. exact pf_builds_agree. Qed.
Print Assumptions C04_builds_agree.

Example C04_example :
  build test_env /\ build core_env /\ valid MAX_PF demo_tree /\
  narrow (usize_bits test_env) demo_tree /\
  is_ok (bits (count_pf test_env demo_tree)) = true /\
  is_ok (bits (count_pf core_env demo_tree)) = true.
Proof.
  split; [exact (proj1 test_build)|]. split; [exact core_build|].
  split; [now apply demo_tree_valid|]. split; [apply wide_pf; [now apply demo_tree_valid|cbn; lia]|].
  split; vm_compute; reflexivity.
Qed.

(** ** C06: re-inserting a value is unobservable, whatever the program does next *)
Theorem C06_plus : forall (V : Type) e ord ord' (c : ctx V) h k o v,
  build_std e -> valid MAX_PLUS (plug c h) -> narrow (usize_bits e) (plug c h) ->
  is_order ord -> is_order ord' -> is_order o ->
  In (hash64 (hist_builder h) v) (hist_hashes h) ->
  exists x, count_plus e ord (plug c (HInsert k o h v)) = Ret x /\
            count_plus e ord' (plug c h) = Ret x.
Proof. exact plus_reinsert. Qed.
Print Assumptions C06_plus.

Theorem C06_pf : forall (V : Type) e (c : ctx V) h k o v,
  build e -> valid MAX_PF (plug c h) -> narrow (usize_bits e) (plug c h) -> is_order o ->
  In (hash64 (hist_builder h) v mod 2 ^ 32) (map (fun x => x mod 2 ^ 32) (hist_hashes h)) ->
  exists x, count_pf e (plug c (HInsert k o h v)) = Ret x /\ count_pf e (plug c h) = Ret x.
Proof. exact pf_reinsert. Qed.
Print Assumptions C06_pf.

(** 17 is among the values of [demo_normal]; it is inserted again, then more follows. *)
Example C06_example :
  let c := CCount keep (CMergeFrom (@rev N) demo_other (CInsert Add keep CHole 99)) in
  valid MAX_PLUS (plug c demo_normal) /\
  In (hash64 (hist_builder demo_normal) 17) (hist_hashes demo_normal) /\
  bits (count_plus test_env keep (plug c (HInsert Insert (@rev N) demo_normal 17)))
  = bits (count_plus test_env keep (plug c demo_normal)).
Proof.
  cbv zeta. split; [|split].
  - cbn [plug valid]. split; [apply keep_order|split; [apply rev_order|split]].
    + now apply demo_other_valid.
    + split; [apply keep_order|now apply demo_normal_valid].
  - apply (proj1 (proj2 (proj2 (inserted_spec _ _ _ _ _ _)))). apply in_map_iff. exists 17.
    split; [reflexivity|]. vm_compute. tauto.
  - vm_compute. reflexivity.
Qed.

(** ** C07, C08: count is a function of the absorbed set *)
Theorem C07_plus : forall (V V' : Type) e e' ord ord' (h : hist V) (h' : hist V'),
  build_std e -> build_std e' -> same_platform e e' ->
  valid MAX_PLUS h -> valid MAX_PLUS h' -> narrow (usize_bits e) h -> narrow (usize_bits e') h' ->
  is_order ord -> is_order ord' ->
  hist_precision h = hist_precision h' -> same_set (hist_hashes h) (hist_hashes h') ->
  exists c, count_plus e ord h = Ret c /\ count_plus e' ord' h' = Ret c.
Proof. exact count_plus_same. Qed.
Print Assumptions C07_plus.

Theorem C08_pf : forall (V V' : Type) e e' (h : hist V) (h' : hist V'),
  build e -> build e' -> same_platform e e' ->
  valid MAX_PF h -> valid MAX_PF h' -> narrow (usize_bits e) h -> narrow (usize_bits e') h' ->
  hist_precision h = hist_precision h' ->
  same_set (map (fun x => x mod 2 ^ 32) (hist_hashes h))
           (map (fun x => x mod 2 ^ 32) (hist_hashes h')) ->
  exists c, count_pf e h = Ret c /\ count_pf e' h' = Ret c.
Proof. exact count_pf_same. Qed.
Print Assumptions C08_pf.

(** The same values in another order, twice, split over two sketches that are merged. *)
Definition C07_h : hist N := inserted 10 mix Insert keep (range 300).
Definition C07_h' : hist N :=
  HMerge (@rev N) (HCount keep (inserted 10 mix Add keep (rev (range 200))))
    (inserted 10 mix InsertAny (@rev N) (range 300 ++ range 20)).
Example C07_example :
  valid MAX_PLUS C07_h /\ valid MAX_PLUS C07_h' /\ hist_precision C07_h = hist_precision C07_h' /\
  same_set (hist_hashes C07_h) (hist_hashes C07_h') /\
  bits (count_plus test_env keep C07_h) = bits (count_plus test_env (@rev N) C07_h').
Proof.
  split; [apply inserted_valid; [apply keep_order|split; discriminate]|].
  split.
  { split; [apply rev_order|split; [split; [apply keep_order|]|]];
      (apply inserted_valid; [apply keep_order || apply rev_order|split; discriminate]). }
  split; [reflexivity|]. split; [|vm_compute; reflexivity].
  apply shuffled_same; discriminate.
Qed.

(** The upper 32 bits of the hash do not matter to HyperLogLogPF. *)
Example C08_example :
  let h := inserted 10 mix Insert keep (range 50) in
  let h' := inserted 10 (fun v => mix v mod 2 ^ 32 + 2 ^ 40) Insert keep (range 50) in
  valid MAX_PF h /\ valid MAX_PF h' /\
  same_set (map (fun x => x mod 2 ^ 32) (hist_hashes h))
           (map (fun x => x mod 2 ^ 32) (hist_hashes h')) /\
  bits (count_pf test_env h) = bits (count_pf test_env h').
Proof.
  cbv zeta. split; [|split; [|split]].
  - apply inserted_valid; [apply keep_order|split; discriminate].
  - apply inserted_valid; [apply keep_order|split; discriminate].
  - apply low_same. intros v. rewrite N.add_mod, N.mod_mod by discriminate.
    now rewrite N.add_0_r, N.mod_mod by discriminate.
  - vm_compute. reflexivity.
Qed.

(** ** C09, C10: merge is union *)
Theorem C09_plus : forall (V : Type) e ord ord' o (c : ctx V) a b w,
  build_std e -> is_order ord -> is_order ord' ->
  hist_precision a = hist_precision b -> hist_precision w = hist_precision a ->
  (forall v, hash64 (hist_builder w) v = hash64 (hist_builder a) v) ->
  same_set (hist_hashes w) (hist_hashes a ++ hist_hashes b) ->
  valid MAX_PLUS (plug c (HMerge o a b)) -> valid MAX_PLUS (plug c w) ->
  narrow (usize_bits e) (plug c (HMerge o a b)) -> narrow (usize_bits e) (plug c w) ->
  (exists sa sb s, run_plus e a = Ret sa /\ run_plus e b = Ret sb /\
     hp_merge e o sa sb = Ret (s, ROk tt)) /\
  exists x, count_plus e ord (plug c (HMerge o a b)) = Ret x /\
            count_plus e ord' (plug c w) = Ret x.
Proof. exact plus_merge_union. Qed.
Print Assumptions C09_plus.

Theorem C10_pf : forall (V : Type) e o (c : ctx V) a b w,
  build e ->
  hist_precision a = hist_precision b -> hist_precision w = hist_precision a ->
  (forall v, hash64 (hist_builder w) v = hash64 (hist_builder a) v) ->
  same_set (hist_hashes w) (hist_hashes a ++ hist_hashes b) ->
  valid MAX_PF (plug c (HMerge o a b)) -> valid MAX_PF (plug c w) ->
  narrow (usize_bits e) (plug c (HMerge o a b)) -> narrow (usize_bits e) (plug c w) ->
  (exists sa sb s, run_pf e a = Ret sa /\ run_pf e b = Ret sb /\
     pf_merge e sa sb = Ret (s, ROk tt)) /\
  exists x, count_pf e (plug c (HMerge o a b)) = Ret x /\ count_pf e (plug c w) = Ret x.
Proof. exact pf_merge_union. Qed.
Print Assumptions C10_pf.

(** A sketch of precision 4 merged into another, in each combination of representations: with
    2 values a sketch is sparse, with 40 it is normal. *)
Definition C09_a (n : N) : hist N := inserted 4 mix Insert keep (range n).
Definition C09_b (n : N) : hist N := inserted 4 mix Add (@rev N) (map (fun v => v + 1000) (range n)).
Definition C09_w (n m : N) : hist N :=
  inserted 4 mix Insert keep (range n ++ map (fun v => v + 1000) (range m)).
Definition C09_c : ctx N := CCount keep (CInsert Add keep (CCount keep CHole) 5000).
Example C09_example : forall n m,
  valid MAX_PLUS (plug C09_c (HMerge keep (C09_a n) (C09_b m))) /\
  valid MAX_PLUS (plug C09_c (C09_w n m)) /\
  same_set (hist_hashes (C09_w n m)) (hist_hashes (C09_a n) ++ hist_hashes (C09_b m)) /\
  hist_builder (C09_w n m) = hist_builder (C09_a n) /\
  hist_precision (C09_w n m) = hist_precision (C09_a n).
Proof.
  intros n m. unfold C09_c, C09_a, C09_b, C09_w.
  pose proof (inserted_spec N 4 mix Insert keep (range n)) as (A1 & A2 & A3 & A4 & _).
  pose proof (inserted_spec N 4 mix Add (@rev N) (map (fun v => v + 1000) (range m)))
    as (B1 & B2 & B3 & B4 & _).
  pose proof (inserted_spec N 4 mix Insert keep (range n ++ map (fun v => v + 1000) (range m)))
    as (W1 & W2 & W3 & W4 & _).
  split; [|split; [|split; [|split]]]; try congruence.
  - cbn [plug valid]. repeat (split; [apply keep_order|]).
    split; [apply A4|apply B4]; (apply keep_order || apply rev_order || (split; discriminate)).
  - cbn [plug valid]. repeat (split; [apply keep_order|]).
    apply W4; [apply keep_order|split; discriminate].
  - intros x. rewrite (W3 x), map_app, !in_app_iff, (A3 x), (B3 x). tauto.
Qed.
Example C09_example_modes :
  map (fun q => (let* s := run_plus test_env (C09_a (fst q)) in Ret (is_sparse s),
                 let* s := run_plus test_env (C09_b (snd q)) in Ret (is_sparse s)))
    [(2, 2); (2, 40); (40, 2); (40, 40)]
  = [(Ret true, Ret true); (Ret true, Ret false); (Ret false, Ret true); (Ret false, Ret false)].
Proof. vm_compute. reflexivity. Qed.

(** ** C11: the algebra of merge *)
Theorem C11_plus : forall (V : Type) e ord ord' o o2 o3 o4 (a b c : hist V),
  build_std e -> valid MAX_PLUS a -> valid MAX_PLUS b -> valid MAX_PLUS c ->
  hist_precision b = hist_precision a -> hist_precision c = hist_precision a ->
  narrow (usize_bits e) a -> narrow (usize_bits e) b -> narrow (usize_bits e) c ->
  is_order ord -> is_order ord' -> is_order o -> is_order o2 -> is_order o3 -> is_order o4 ->
  (* commutative *)
  (exists x, count_plus e ord (HMerge o a b) = Ret x /\ count_plus e ord' (HMerge o2 b a) = Ret x) /\
  (* associative *)
  (exists x, count_plus e ord (HMerge o a (HMerge o2 b c)) = Ret x /\
             count_plus e ord' (HMerge o3 (HMerge o4 a b) c) = Ret x) /\
  (* idempotent *)
  (exists x, count_plus e ord (HMerge o (HMerge o2 a b) b) = Ret x /\
             count_plus e ord' (HMerge o3 a b) = Ret x) /\
  (* merging a clone *)
  (exists x, count_plus e ord (HMerge o a a) = Ret x /\ count_plus e ord' a = Ret x) /\
  (* merging an empty sketch *)
  (hist_hashes b = [] ->
   exists x, count_plus e ord (HMerge o a b) = Ret x /\ count_plus e ord' a = Ret x).
Proof. exact plus_merge_laws. Qed.
Print Assumptions C11_plus.

Theorem C11_pf : forall (V : Type) e o o2 o3 o4 (a b c : hist V),
  build e -> valid MAX_PF a -> valid MAX_PF b -> valid MAX_PF c ->
  hist_precision b = hist_precision a -> hist_precision c = hist_precision a ->
  narrow (usize_bits e) a -> narrow (usize_bits e) b -> narrow (usize_bits e) c ->
  is_order o -> is_order o2 -> is_order o3 -> is_order o4 ->
  (exists x, count_pf e (HMerge o a b) = Ret x /\ count_pf e (HMerge o2 b a) = Ret x) /\
  (exists x, count_pf e (HMerge o a (HMerge o2 b c)) = Ret x /\
             count_pf e (HMerge o3 (HMerge o4 a b) c) = Ret x) /\
  (exists x, count_pf e (HMerge o (HMerge o2 a b) b) = Ret x /\
             count_pf e (HMerge o3 a b) = Ret x) /\
  (exists x, count_pf e (HMerge o a a) = Ret x /\ count_pf e a = Ret x) /\
  (hist_hashes b = [] ->
   exists x, count_pf e (HMerge o a b) = Ret x /\ count_pf e a = Ret x).
Proof. exact pf_merge_laws. Qed.
Print Assumptions C11_pf.

Example C11_example :
  valid MAX_PF (C09_a 40) /\ valid MAX_PF (C09_b 2) /\ valid MAX_PF demo_other /\
  hist_precision (C09_b 2) = hist_precision (C09_a 40) /\
  hist_precision demo_other = hist_precision (C09_a 40) /\
  hist_hashes (inserted 4 mix2 Add keep []) = [] /\
  hist_hashes demo_other <> [] /\
  bits (count_plus test_env keep (HMerge keep (C09_a 40) demo_other))
  <> bits (count_plus test_env keep (C09_a 40)).
Proof.
  split; [apply inserted_valid; [apply keep_order|split; discriminate]|].
  split; [apply inserted_valid; [apply rev_order|split; discriminate]|].
  split; [now apply demo_other_valid|].
  split; [reflexivity|]. split; [reflexivity|]. split; [reflexivity|].
  split; [discriminate|]. vm_compute. discriminate.
Qed.

(** ** C12: merge fails exactly on unequal precisions; precision and builder never change.
    Every state is meant here, reachable or not. *)
Theorem C12_merge_plus : forall (V W : Type) e ord (s s' : plus V) (t : plus W) r,
  (hp_precision s <> hp_precision t -> hp_merge e ord s t = Ret (s, RErr IncompatiblePrecision)) /\
  (hp_merge e ord s t = Ret (s', r) ->
   hp_precision s' = hp_precision s /\ hp_builder s' = hp_builder s /\
   (r = RErr IncompatiblePrecision /\ hp_precision s <> hp_precision t /\ s' = s \/
    r = ROk tt /\ hp_precision s = hp_precision t)).
Proof. exact plus_merge_result. Qed.
Print Assumptions C12_merge_plus.

Theorem C12_merge_pf : forall (V W : Type) e (s s' : pf V) (t : pf W) r,
  (pf_precision s <> pf_precision t -> pf_merge e s t = Ret (s, RErr IncompatiblePrecision)) /\
  (pf_merge e s t = Ret (s', r) ->
   pf_precision s' = pf_precision s /\ pf_builder s' = pf_builder s /\
   (r = RErr IncompatiblePrecision /\ pf_precision s <> pf_precision t /\ s' = s \/
    r = ROk tt /\ pf_precision s = pf_precision t)).
Proof. exact pf_merge_result. Qed.
Print Assumptions C12_merge_pf.

Theorem C12_fixed_plus : forall (V : Type) e ord (s s' : plus V) v x,
  (hp_insert e ord s v = Ret s' ->
   hp_precision s' = hp_precision s /\ hp_builder s' = hp_builder s) /\
  (hp_count e ord s = Ret (s', x) ->
   hp_precision s' = hp_precision s /\ hp_builder s' = hp_builder s).
Proof. exact plus_fixed. Qed.
Print Assumptions C12_fixed_plus.

Theorem C12_fixed_pf : forall (V : Type) e (s s' : pf V) v,
  pf_insert e s v = Ret s' -> pf_precision s' = pf_precision s /\ pf_builder s' = pf_builder s.
Proof. exact pf_fixed. Qed.
Print Assumptions C12_fixed_pf.

Example C12_example :
  (let* s := run_plus test_env demo_normal in
   let* t := run_plus test_env demo_sparse in
   let* (_, r) := hp_merge test_env keep s t in
   let* (_, r') := hp_merge test_env keep t t in
   Ret (hp_precision s, hp_precision t, r, r'))
  = Ret (4, 10, RErr IncompatiblePrecision, ROk tt).
Proof. vm_compute. reflexivity. Qed.

(** ** C13: count is observationally pure *)
Theorem C13_plus : forall (V : Type) e ord ord' o (c : ctx V) h,
  build_std e -> valid MAX_PLUS (plug c h) -> narrow (usize_bits e) (plug c h) ->
  is_order ord -> is_order ord' -> is_order o ->
  exists x, count_plus e ord (plug c (HCount o h)) = Ret x /\ count_plus e ord' (plug c h) = Ret x.
Proof. exact plus_count_pure. Qed.
Print Assumptions C13_plus.

Theorem C13_plus_without : forall (V : Type) e ord ord' (h : hist V),
  build_std e -> valid MAX_PLUS h -> narrow (usize_bits e) h -> is_order ord -> is_order ord' ->
  exists x, count_plus e ord h = Ret x /\ count_plus e ord' (without_counts h) = Ret x.
Proof. exact plus_without_counts. Qed.
Print Assumptions C13_plus_without.

(** Twice in a row: same bits, and the second call changes nothing. *)
Theorem C13_plus_twice : forall (V : Type) e ord ord' (h : hist V),
  build_std e -> valid MAX_PLUS h -> narrow (usize_bits e) h -> is_order ord -> is_order ord' ->
  exists s s' x, run_plus e h = Ret s /\ hp_count e ord s = Ret (s', x) /\
                 hp_count e ord' s' = Ret (s', x).
Proof. exact plus_count_twice. Qed.
Print Assumptions C13_plus_twice.

Theorem C13_pf : forall (V : Type) e o (c : ctx V) h,
  build e -> valid MAX_PF (plug c h) -> narrow (usize_bits e) (plug c h) -> is_order o ->
  (exists s x, run_pf e h = Ret s /\ pf_count_est e s = Ret x /\ run_pf e (HCount o h) = Ret s) /\
  exists x, count_pf e (plug c (HCount o h)) = Ret x /\ count_pf e (plug c h) = Ret x.
Proof. exact pf_count_pure. Qed.
Print Assumptions C13_pf.

(** Here count does change the representation: six pending codes at precision 10 are moved to
    the sparse list. *)
Example C13_example :
  let h := inserted 10 mix Insert keep (range 6) in
  valid MAX_PLUS h /\
  (let* s := run_plus test_env h in
   let* (s', c) := hp_count test_env keep s in
   Ret (length (hp_tmpset s), length (hp_tmpset s'), dif_count (hp_sparse s), dif_count (hp_sparse s')))
  = Ret (6%nat, 0%nat, 0, 6).
Proof.
  cbv zeta. split; [apply inserted_valid; [apply keep_order|split; discriminate]|].
  vm_compute. reflexivity.
Qed.

(** ** C15: when the sketch is sparse *)
Theorem C15_sparse_iff : forall (V : Type) e ord (h : hist V) L,
  build_std e -> valid MAX_PLUS h -> narrow (usize_bits e) h -> is_order ord ->
  is_code_list (hist_precision h) (hist_hashes h) L ->
  exists s s' c, run_plus e h = Ret s /\ hp_count e ord s = Ret (s', c) /\
    (is_sparse s' = true <-> gap_len 0 L <= sparse_limit (hist_precision h)).
Proof. exact plus_sparse_iff. Qed.
Print Assumptions C15_sparse_iff.

(** The code list exists and is unique, so the previous statement always applies. *)
Theorem C15_code_list : forall p H, exists L, is_code_list p H L /\
  forall L', is_code_list p H L' -> L' = L.
Proof. exact code_list_exists_unique. Qed.
Print Assumptions C15_code_list.

(** From a normal state, reachable or not, every operation leads to a normal state. *)
Theorem C15_one_way : forall (V W : Type) e ord (s s' : plus V) (t : plus W) v x r ser_b de_b,
  is_sparse s = false ->
  (hp_insert e ord s v = Ret s' -> is_sparse s' = false) /\
  (hp_merge e ord s t = Ret (s', r) -> is_sparse s' = false) /\
  (hp_count e ord s = Ret (s', x) -> is_sparse s' = false) /\
  (de_plus e de_b (ser_plus ord ser_b s) = Some s' -> is_sparse s' = false).
Proof. exact plus_one_way. Qed.
Print Assumptions C15_one_way.

(** A sketch that has absorbed at least what some normal sketch has is normal when counted. *)
Theorem C15_monotone : forall (V : Type) e ord (h h' : hist V) s,
  build_std e -> valid MAX_PLUS h -> valid MAX_PLUS h' ->
  narrow (usize_bits e) h -> narrow (usize_bits e) h' -> is_order ord ->
  hist_precision h = hist_precision h' -> incl (hist_hashes h) (hist_hashes h') ->
  run_plus e h = Ret s -> is_sparse s = false ->
  exists s', run_plus e (HCount ord h') = Ret s' /\ is_sparse s' = false.
Proof. exact normal_stays. Qed.
Print Assumptions C15_monotone.

Example C15_example :
  (let* s := run_plus test_env (HCount keep demo_sparse) in
   let* s' := run_plus test_env demo_normal in Ret (is_sparse s, is_sparse s')) = Ret (true, false) /\
  incl (hist_hashes demo_normal) (hist_hashes (HInsert Add keep demo_normal 1234)).
Proof. split; [vm_compute; reflexivity|]. intros x H. right. exact H. Qed.

(** ** C16: memory *)
Theorem C16_memory : forall (V : Type) e (h : hist V),
  build_std e -> valid MAX_PLUS h -> narrow (usize_bits e) h ->
  exists s, run_plus e h = Ret s /\
    match hp_registers s with
    | None => N.of_nat (length (d_buf (hp_sparse s))) <= 4 * 2 ^ hist_precision h / 5 /\
              N.of_nat (length (hp_tmpset s)) <= 4 * 2 ^ hist_precision h / 500
    | Some r => N.of_nat (length (r_buf r)) = (2 ^ hist_precision h + 4) / 5 /\
                hp_tmpset s = [] /\ d_buf (hp_sparse s) = []
    end.
Proof. exact plus_memory. Qed.
Print Assumptions C16_memory.

Example C16_example :
  valid MAX_PLUS demo_tree10 /\
  (let* s := run_plus test_env demo_sparse in
   let* s' := run_plus test_env demo_tree10 in
   Ret (N.of_nat (length (d_buf (hp_sparse s))), N.of_nat (length (hp_tmpset s)),
        match hp_registers s' with Some r => N.of_nat (length (r_buf r)) | None => 0 end))
  = Ret (33, 0, 205).
Proof. split; [now apply demo_tree10_valid|]. vm_compute. reflexivity. Qed.

(** ** C17, C18, C19: registers and their zero counter *)
Theorem C17_pf : forall (V : Type) e (h : hist V),
  build e -> valid MAX_PF h -> narrow (usize_bits e) h ->
  exists s, run_pf e h = Ret s /\
    (forall i, i < 2 ^ hist_precision h -> exists v, reg_get SIZE_PF (pf_registers s) i = Ret v /\
       is_register 32 (hist_precision h) (map (fun x => x mod 2 ^ 32) (hist_hashes h)) i v) /\
    is_register_file 32 (hist_precision h) (map (fun x => x mod 2 ^ 32) (hist_hashes h))
      (reg_iter SIZE_PF (pf_registers s)) /\
    (* C19 *)
    reg_zeros (pf_registers s) = zero_count (reg_iter SIZE_PF (pf_registers s)).
Proof. exact pf_registers_max. Qed.
Print Assumptions C17_pf.

Theorem C18_plus : forall (V : Type) e (h : hist V),
  build_std e -> valid MAX_PLUS h -> narrow (usize_bits e) h ->
  exists s, run_plus e h = Ret s /\
    forall r, hp_registers s = Some r ->
    (forall i, i < 2 ^ hist_precision h -> exists v, reg_get SIZE_PLUS r i = Ret v /\
       is_register 64 (hist_precision h) (hist_hashes h) i v) /\
    is_register_file 64 (hist_precision h) (hist_hashes h) (reg_iter SIZE_PLUS r) /\
    (* C19 *)
    reg_zeros r = zero_count (reg_iter SIZE_PLUS r).
Proof. exact plus_registers_max. Qed.
Print Assumptions C18_plus.

(** C19 on its own, for both types. *)
Theorem C19_zeros_pf : forall (V : Type) e (h : hist V) s,
  build e -> valid MAX_PF h -> narrow (usize_bits e) h -> run_pf e h = Ret s ->
  reg_zeros (pf_registers s) = zero_count (reg_iter SIZE_PF (pf_registers s)).
Proof. exact pf_zeros_exact. Qed.
Print Assumptions C19_zeros_pf.

Theorem C19_zeros_plus : forall (V : Type) e (h : hist V) s r,
  build_std e -> valid MAX_PLUS h -> narrow (usize_bits e) h -> run_plus e h = Ret s ->
  hp_registers s = Some r -> reg_zeros r = zero_count (reg_iter SIZE_PLUS r).
Proof. exact plus_zeros_exact. Qed.
Print Assumptions C19_zeros_plus.

Example C17_example :
  valid MAX_PF demo_normal /\
  (let* s := run_pf test_env demo_normal in
   Ret (reg_iter SIZE_PF (pf_registers s), reg_zeros (pf_registers s)))
  = Ret ([29; 0; 0; 0; 0; 0; 2; 4; 0; 0; 0; 0; 0; 0; 2; 6], 11).
Proof. split; [now apply demo_normal_valid|]. vm_compute. reflexivity. Qed.

Example C18_example :
  valid MAX_PLUS demo_normal /\
  (let* s := run_plus test_env demo_normal in
   let* r := unwrap (hp_registers s) in
   Ret (reg_iter SIZE_PLUS r, reg_zeros r)) = Ret ([61; 4; 1; 2; 2; 3; 2; 3; 4; 1; 4; 2; 2; 2; 3; 4], 0).
Proof. split; [now apply demo_normal_valid|]. vm_compute. reflexivity. Qed.

(** ** C29: const-loop *)
Theorem C29_plus : forall (V : Type) e b ord (h : hist V),
  build_std e -> valid MAX_PLUS h -> narrow (usize_bits e) h -> is_order ord ->
  exists c, count_plus e ord h = Ret c /\
    count_plus (Env (usize_bits e) (overflow_checks e) (feat_std e) b (sum_init e) (std_ln e)
                  (std_bsearch e)) ord h = Ret c.
Proof. exact plus_const_loop. Qed.
Print Assumptions C29_plus.

Theorem C29_pf : forall (V : Type) e b (h : hist V),
  build e -> valid MAX_PF h -> narrow (usize_bits e) h ->
  exists c, count_pf e h = Ret c /\
    count_pf (Env (usize_bits e) (overflow_checks e) (feat_std e) b (sum_init e) (std_ln e)
                (std_bsearch e)) h = Ret c.
Proof. exact pf_const_loop. Qed.
Print Assumptions C29_pf.

Example C29_example :
  feat_const_loop test_env = true /\ feat_const_loop small_env = false /\
  is_ok (count_plus test_env keep demo_tree) = true /\
  bits (count_plus test_env keep demo_tree) = bits (count_plus small_env keep demo_tree).
Proof. split; [reflexivity|]. split; [reflexivity|]. split; vm_compute; reflexivity. Qed.

(** ** C30: serialization *)
Theorem C30_plus : forall (V : Type) e ord ord' o ser_b de_b (c : ctx V) h,
  build_std e -> is_order ord -> is_order ord' ->
  valid MAX_PLUS (plug c (HSerde o ser_b de_b h)) -> valid MAX_PLUS (plug c h) ->
  narrow (usize_bits e) (plug c h) ->
  (exists s s', run_plus e h = Ret s /\ de_plus e de_b (ser_plus o ser_b s) = Some s') /\
  exists x, count_plus e ord (plug c (HSerde o ser_b de_b h)) = Ret x /\
            count_plus e ord' (plug c h) = Ret x.
Proof. exact plus_serde_round. Qed.
Print Assumptions C30_plus.

Theorem C30_pf : forall (V : Type) e o ser_b de_b (c : ctx V) h,
  build e ->
  valid MAX_PF (plug c (HSerde o ser_b de_b h)) -> valid MAX_PF (plug c h) ->
  narrow (usize_bits e) (plug c h) ->
  (exists s s', run_pf e h = Ret s /\ de_pf e de_b (ser_pf ser_b s) = Some s' /\
     pf_precision s' = pf_precision s /\ pf_count s' = pf_count s /\
     pf_registers s' = pf_registers s) /\
  exists x, count_pf e (plug c (HSerde o ser_b de_b h)) = Ret x /\
            count_pf e (plug c h) = Ret x.
Proof. exact pf_serde_round. Qed.
Print Assumptions C30_pf.

(** All round trips of a program can be dropped at once. *)
Theorem C30_plus_without : forall (V : Type) e ord ord' (h : hist V),
  build_std e -> valid MAX_PLUS h -> narrow (usize_bits e) h -> is_order ord -> is_order ord' ->
  exists x, count_plus e ord h = Ret x /\ count_plus e ord' (without_serde h) = Ret x.
Proof. exact plus_without_serde. Qed.
Print Assumptions C30_plus_without.

Theorem C30_pf_without : forall (V : Type) e (h : hist V),
  build e -> valid MAX_PF h -> narrow (usize_bits e) h ->
  exists x, count_pf e h = Ret x /\ count_pf e (without_serde h) = Ret x.
Proof. exact pf_without_serde. Qed.
Print Assumptions C30_pf_without.

Example C30_example :
  let c := CInsert Add keep (CCount keep CHole) 123 in
  let h := inserted 10 mix Insert keep (range 12) in
  valid MAX_PLUS (plug c (HSerde (@rev N) ser_unit de_mix h)) /\ valid MAX_PLUS (plug c h) /\
  (let* s := run_plus test_env h in Ret (length (hp_tmpset s))) = Ret 3%nat.
Proof.
  cbv zeta. pose proof (inserted_spec N 10 mix Insert keep (range 12)) as (_ & B & _ & D & _).
  assert (valid MAX_PLUS (inserted 10 mix Insert keep (range 12)))
    by (apply D; [apply keep_order|split; discriminate]).
  cbn [plug valid]. split; [|split; [|vm_compute; reflexivity]].
  - split; [apply keep_order|]. split; [apply keep_order|]. split; [apply rev_order|].
    split; [assumption|]. exists mix. split; [reflexivity|]. rewrite B. reflexivity.
  - split; [apply keep_order|]. split; [apply keep_order|]. assumption.
Qed.

(** ** C32: entry points.  Every state, reachable or not. *)
Theorem C32_plus : forall (V W : Type) e ord (b : V -> N) (b' : W -> N) p c0 c1 c2 t d r v w,
  hash64 b v = hash64 b' w ->
  hp_add e ord (Plus b p c0 c1 c2 t d r) v = hp_insert e ord (Plus b p c0 c1 c2 t d r) v /\
  hp_insert_any e ord (Plus b p c0 c1 c2 t d r) v = hp_insert e ord (Plus b p c0 c1 c2 t d r) v /\
  hp_insert e ord (Plus b' p c0 c1 c2 t d r) w =
    match hp_insert e ord (Plus b p c0 c1 c2 t d r) v with
    | Ret s => Ret (Plus b' (hp_precision s) (hp_counts0 s) (hp_counts1 s) (hp_counts2 s)
                      (hp_tmpset s) (hp_sparse s) (hp_registers s))
    | Panic => Panic
    | OutOfFuel => OutOfFuel
    end.
Proof. exact plus_entry_points. Qed.
Print Assumptions C32_plus.

Theorem C32_pf : forall (V W : Type) e (b : V -> N) (b' : W -> N) c p r v w,
  hash64 b v mod 2 ^ 32 = hash64 b' w mod 2 ^ 32 ->
  pf_add e (PF b c p r) v = pf_insert e (PF b c p r) v /\
  pf_insert_any e (PF b c p r) v = pf_insert e (PF b c p r) v /\
  pf_insert e (PF b' c p r) w =
    match pf_insert e (PF b c p r) v with
    | Ret s => Ret (PF b' (pf_count s) (pf_precision s) (pf_registers s))
    | Panic => Panic
    | OutOfFuel => OutOfFuel
    end.
Proof. exact pf_entry_points. Qed.
Print Assumptions C32_pf.

Example C32_example :
  hash64 mix 5 = hash64 (fun s : bool => if s then mix 5 + 2 ^ 64 else 0) true /\
  is_ok (let* s := run_plus test_env demo_normal in hp_insert test_env keep s 5) = true.
Proof. split; vm_compute; reflexivity. Qed.

(** ** C33: merging sketches with other hashers and item types *)
Theorem C33_plus : forall (V W X : Type) e ord o o1 (a : hist V) (b : hist W) (w : hist X) v,
  build_std e -> valid MAX_PLUS a -> valid MAX_PLUS b -> valid MAX_PLUS w ->
  narrow (usize_bits e) a -> narrow (usize_bits e) b -> narrow (usize_bits e) w ->
  is_order ord -> is_order o -> is_order o1 ->
  hist_precision a = hist_precision b -> hist_precision w = hist_precision a ->
  same_set (hist_hashes w) (hash64 (hist_builder a) v :: hist_hashes a ++ hist_hashes b) ->
  exists sa sb s s1 s2 c, run_plus e a = Ret sa /\ run_plus e b = Ret sb /\
    hp_merge e o sa sb = Ret (s, ROk tt) /\ hp_insert e o1 s v = Ret s1 /\
    hp_count e ord s1 = Ret (s2, c) /\ count_plus e ord w = Ret c.
Proof. exact plus_merge_types. Qed.
Print Assumptions C33_plus.

Theorem C33_pf : forall (V W X : Type) e (a : hist V) (b : hist W) (w : hist X) v,
  build e -> valid MAX_PF a -> valid MAX_PF b -> valid MAX_PF w ->
  narrow (usize_bits e) a -> narrow (usize_bits e) b -> narrow (usize_bits e) w ->
  hist_precision a = hist_precision b -> hist_precision w = hist_precision a ->
  same_set (hist_hashes w) (hash64 (hist_builder a) v :: hist_hashes a ++ hist_hashes b) ->
  exists sa sb s s1 c, run_pf e a = Ret sa /\ run_pf e b = Ret sb /\
    pf_merge e sa sb = Ret (s, ROk tt) /\ pf_insert e s v = Ret s1 /\
    pf_count_est e s1 = Ret c /\ count_pf e w = Ret c.
Proof. exact pf_merge_types. Qed.
Print Assumptions C33_pf.

(** Values of different types and hashers; [w] inserts the hashes themselves. *)
Definition C33_a : hist N := inserted 4 mix Insert keep (range 20).
Definition C33_b : hist bool := inserted 4 (fun s : bool => if s then 7 else 2 ^ 63) Add keep [true; false].
Definition C33_w : hist N :=
  inserted 4 pass Insert keep
    (map (hash64 mix) (20 :: range 20) ++ [7; 2 ^ 63]).
Example C33_example :
  valid MAX_PF C33_a /\ valid MAX_PF C33_b /\ valid MAX_PF C33_w /\
  hist_precision C33_a = hist_precision C33_b /\
  same_set (hist_hashes C33_w) (hash64 (hist_builder C33_a) 20 :: hist_hashes C33_a ++ hist_hashes C33_b).
Proof.
  split; [apply inserted_valid; [apply keep_order|split; discriminate]|].
  split; [apply inserted_valid; [apply keep_order|split; discriminate]|].
  split; [apply inserted_valid; [apply keep_order|split; discriminate]|].
  split; [reflexivity|]. intros x. vm_compute. tauto.
Qed.

(** ** C42: a flushed sketch is canonical *)
Theorem C42_canonical : forall (V : Type) e ord ord' o o' ser_b (h h' : hist V),
  build_std e -> valid MAX_PLUS h -> valid MAX_PLUS h' ->
  narrow (usize_bits e) h -> narrow (usize_bits e) h' ->
  is_order ord -> is_order ord' -> is_order o -> is_order o' ->
  hist_precision h = hist_precision h' -> hist_builder h = hist_builder h' ->
  same_set (hist_hashes h) (hist_hashes h') ->
  exists s, run_plus e (HCount ord h) = Ret s /\ run_plus e (HCount ord' h') = Ret s /\
    ser_plus o ser_b s = ser_plus o' ser_b s.
Proof. exact plus_canonical_serde. Qed.
Print Assumptions C42_canonical.

Example C42_example :
  hist_builder C07_h = hist_builder C07_h' /\
  (let* s := run_plus test_env (HCount keep C07_h) in Ret (is_sparse s)) = Ret false /\
  (let* s := run_plus test_env (inserted 10 mix Add keep [3; 1; 2]) in Ret (hp_tmpset s)) <>
  (let* s := run_plus test_env (inserted 10 mix Add keep [1; 2; 3]) in Ret (hp_tmpset s)).
Proof. split; [reflexivity|]. split; [vm_compute; reflexivity|]. vm_compute. discriminate. Qed.
