(** * Targets of any width

    [count] squares the number of registers in a usize, so on a 32-bit target it can overflow at
    precisions from 16 on.  The statements of the other files exclude these cases by [narrow];
    here nothing is excluded: [usize_bits e] is any width from 32 on. *)
From Coq Require Import NArith ZArith List Bool Lia.
From Verif Require Import ModelRust ModelF64 ModelEnv ModelRegisters ModelEncoding ModelPF ModelPlus ModelHistory ModelTests
  Spec SpecCount SpecBuild SpecWide PFInv PlusInv WideFacts Witness RefuteFacts.
Import ListNotations.
Local Open Scope N_scope.

(** ** C71: every program on every target *)

(** A program panics exactly if overflow checks are on and one of its calls of [count] overflows;
    otherwise it ends in a state. *)
Theorem C71_plus_panics : forall (V : Type) e (h : hist V), build_std e -> accurate e ->
  valid MAX_PLUS h ->
  (run_plus e h = Panic <-> overflow_checks e = true /\ ~ never_overflows (usize_bits e) h) /\
  ((exists s, run_plus e h = Ret s) <-> overflow_checks e = false \/ never_overflows (usize_bits e) h).
Proof. exact plus_panics_iff. Qed.
Print Assumptions C71_plus_panics.

Theorem C71_pf_panics : forall (V : Type) e (h : hist V), build e -> valid MAX_PF h ->
  (run_pf e h = Panic <-> overflow_checks e = true /\ ~ countable_pf (usize_bits e) h) /\
  ((exists s, run_pf e h = Ret s) <-> overflow_checks e = false \/ countable_pf (usize_bits e) h).
Proof. exact pf_panics_iff. Qed.
Print Assumptions C71_pf_panics.

(** Without overflow checks nothing panics, whatever the logarithm returns. *)
Theorem C71_plus_release : forall (V : Type) e ord (h : hist V), build_std e -> valid MAX_PLUS h ->
  is_order ord -> overflow_checks e = false -> exists c, count_plus e ord h = Ret c.
Proof. exact plus_release_total. Qed.
Print Assumptions C71_plus_release.

Theorem C71_pf_release : forall (V : Type) e (h : hist V), build e -> valid MAX_PF h ->
  overflow_checks e = false -> exists c, count_pf e h = Ret c.
Proof. exact pf_release_total. Qed.
Print Assumptions C71_pf_release.

(** Every state reached is as described by C16 to C19. *)
Theorem C71_plus_state : forall (V : Type) e (h : hist V) s,
  build_std e -> valid MAX_PLUS h -> run_plus e h = Ret s ->
  hp_precision s = hist_precision h /\
  match hp_registers s with
  | None => N.of_nat (length (d_buf (hp_sparse s))) <= 4 * 2 ^ hist_precision h / 5 /\
            N.of_nat (length (hp_tmpset s)) <= 4 * 2 ^ hist_precision h / 500
  | Some r => N.of_nat (length (r_buf r)) = (2 ^ hist_precision h + 4) / 5 /\
              hp_tmpset s = [] /\ d_buf (hp_sparse s) = [] /\ ~ fits (hist_precision h) (hist_hashes h) /\
              is_register_file 64 (hist_precision h) (hist_hashes h) (reg_iter SIZE_PLUS r) /\
              reg_zeros r = zero_count (reg_iter SIZE_PLUS r)
  end.
Proof. exact plus_state_wide. Qed.
Print Assumptions C71_plus_state.

Theorem C71_pf_state : forall (V : Type) e (h : hist V) s,
  build e -> valid MAX_PF h -> run_pf e h = Ret s ->
  pf_precision s = hist_precision h /\
  is_register_file 32 (hist_precision h) (map (fun x => x mod 2 ^ 32) (hist_hashes h))
    (reg_iter SIZE_PF (pf_registers s)) /\
  reg_zeros (pf_registers s) = zero_count (reg_iter SIZE_PF (pf_registers s)).
Proof. exact pf_state_wide. Qed.
Print Assumptions C71_pf_state.

(** After a [count] that returns, the sketch is sparse exactly if the codes fit (C15). *)
Theorem C71_plus_sparse : forall (V : Type) e ord (h : hist V) s,
  build_std e -> valid MAX_PLUS h -> is_order ord -> run_plus e (HCount ord h) = Ret s ->
  hp_tmpset s = [] /\ (is_sparse s = true <-> fits (hist_precision h) (hist_hashes h)).
Proof. exact plus_sparse_wide. Qed.
Print Assumptions C71_plus_sparse.

(** Two programs that end, with the same precision and set of hashes, on targets of the same
    width and checks: both counts panic, or both return the same bits. *)
Theorem C71_plus_same : forall (V V' : Type) e e' ord ord' (h : hist V) (h' : hist V') s s',
  build_std e -> build_std e' -> same_platform e e' ->
  usize_bits e = usize_bits e' -> overflow_checks e = overflow_checks e' ->
  valid MAX_PLUS h -> valid MAX_PLUS h' -> is_order ord -> is_order ord' ->
  run_plus e h = Ret s -> run_plus e' h' = Ret s' ->
  hist_precision h = hist_precision h' -> same_set (hist_hashes h) (hist_hashes h') ->
  count_plus e ord h = count_plus e' ord' h'.
Proof. exact count_plus_wide. Qed.
Print Assumptions C71_plus_same.

Theorem C71_pf_same : forall (V V' : Type) e e' (h : hist V) (h' : hist V') s s',
  build e -> build e' -> same_platform e e' ->
  usize_bits e = usize_bits e' -> overflow_checks e = overflow_checks e' ->
  valid MAX_PF h -> valid MAX_PF h' ->
  run_pf e h = Ret s -> run_pf e' h' = Ret s' ->
  hist_precision h = hist_precision h' ->
  same_set (map (fun x => x mod 2 ^ 32) (hist_hashes h)) (map (fun x => x mod 2 ^ 32) (hist_hashes h')) ->
  count_pf e h = count_pf e' h'.
Proof. exact count_pf_wide. Qed.
Print Assumptions C71_pf_same.

(** Where nothing overflows, a count is the same on every target, in debug and release builds: all
    that is proved of 64-bit targets carries over. *)
Theorem C71_plus_transfer : forall (V V' : Type) e e' ord ord' (h : hist V) (h' : hist V'),
  build_std e -> build_std e' -> same_platform e e' -> accurate e -> accurate e' ->
  valid MAX_PLUS h -> valid MAX_PLUS h' -> is_order ord -> is_order ord' ->
  never_overflows (usize_bits e) (HCount ord h) -> never_overflows (usize_bits e') (HCount ord' h') ->
  hist_precision h = hist_precision h' -> same_set (hist_hashes h) (hist_hashes h') ->
  exists c, count_plus e ord h = Ret c /\ count_plus e' ord' h' = Ret c.
Proof. exact count_plus_as_any. Qed.
Print Assumptions C71_plus_transfer.

Theorem C71_pf_transfer : forall (V V' : Type) e e' (h : hist V) (h' : hist V'),
  build e -> build e' -> same_platform e e' -> valid MAX_PF h -> valid MAX_PF h' ->
  (overflow_checks e = false \/ countable_pf (usize_bits e) h) ->
  (overflow_checks e' = false \/ countable_pf (usize_bits e') h') ->
  2 * hist_precision h < usize_bits e -> 2 * hist_precision h < usize_bits e' ->
  hist_precision h = hist_precision h' ->
  same_set (map (fun x => x mod 2 ^ 32) (hist_hashes h)) (map (fun x => x mod 2 ^ 32) (hist_hashes h')) ->
  exists c, count_pf e h = Ret c /\ count_pf e' h' = Ret c.
Proof. exact count_pf_as_any. Qed.
Print Assumptions C71_pf_transfer.

(** A 64-bit target never overflows. *)
Theorem C71_narrow : forall (V : Type) w (h : hist V), narrow w h -> never_overflows w h.
Proof. exact never_overflows_narrow. Qed.
Print Assumptions C71_narrow.

Theorem C71_fits : forall (V : Type) w (h : hist V), countable w h -> never_overflows w h.
Proof. exact never_overflows_countable. Qed.
Print Assumptions C71_fits.

(** On a 32-bit debug target: at precision 16 one value per register overflows HyperLogLogPlus,
    three values do not, and are counted as on a 64-bit one; the HyperLogLogPF does not survive
    its first [count], and is filled as elsewhere if not counted. *)
Example C71_example :
  usize_bits small_debug = 32 /\ overflow_checks small_debug = true /\
  overflows 32 16 (hist_hashes full16) /\
  trunc (count_plus small_debug keep (HCount keep (inserted 16 mix Insert keep [3; 1; 4]))) = Ret 3%Z /\
  trunc (count_plus test_env keep (HCount keep (inserted 16 mix Insert keep [3; 1; 4]))) = Ret 3%Z /\
  countable_pf 32 (inserted 15 mix Insert keep [3; 1; 4]) /\
  ~ countable_pf 32 (HCount keep (HNew 16 mix)) /\
  run_pf small_debug (HCount keep (HNew 16 mix)) = Panic /\
  (exists s, run_pf small_debug (inserted 16 mix Insert keep [3; 1; 4]) = Ret s).
Proof.
  split; [reflexivity|]. split; [reflexivity|]. split; [split; [discriminate|exact full16_past]|].
  split; [vm_compute; reflexivity|]. split; [vm_compute; reflexivity|]. split; [exact I|].
  assert (NC : ~ countable_pf 32 (HCount keep (HNew 16 mix))) by (intros [X _]; discriminate X).
  split; [exact NC|]. split.
  - apply (C71_pf_panics N small_debug (HCount keep (HNew 16 mix)) (proj1 small_debug_build)); [|auto].
    split; [apply keep_order|split; discriminate].
  - apply (C71_pf_panics N small_debug _ (proj1 small_debug_build)); [|right; exact I].
    apply inserted_valid; [apply keep_order|split; discriminate].
Qed.
