(** * Counting deserialized sketches *)
From Coq Require Import NArith ZArith Arith List Bool Lia Permutation Sorted.
From Verif Require Import ModelRust ModelF64 ModelEnv ModelRegisters ModelEncoding ModelCommon ModelPlus ModelSerde
  ModelTests Spec SpecBuild SpecSketch SpecBytes MergeFacts DecodeFacts DecodeState Witness RefuteFacts.
Import ListNotations.

From Coq Require Import String.
Local Open Scope N_scope.

Lemma de_bad : forall (V : Type) e ord de_b v (s : plus V), is_order ord ->
  de_plus e de_b v = Some s -> hp_registers s = None ->
  unreadable (overflow_checks e) (d_buf (hp_sparse s)) -> hp_count e ord s = Panic.
Proof. intros * O D R U. destruct (de_plus_range _ _ _ _ _ D) as (A & B & C). now apply count_bad. Qed.

Lemma de_sparse : forall (V : Type) e ord de_b v (s : plus V) ns K, is_order ord ->
  de_plus e de_b v = Some s -> hp_registers s = None ->
  d_buf (hp_sparse s) = List.concat ns -> Forall is_number ns ->
  Forall (fun n => (List.length n <= 5)%nat) ns -> total (map read32 ns) < 2 ^ 32 ->
  flushes_to (hp_tmpset s) (sums 0 (map read32 ns)) K -> gap_len 0 K <= hp_counts2 s ->
  (hp_count e ord s = Panic /\ overflow_checks e = true /\ hp_counts1 s < N.of_nat (List.length K)) \/
  (exists s' c zeros, hp_count e ord s = Ret (s', c) /\ linear_count e (hp_counts1 s) zeros = Ret c /\
   (zeros + N.of_nat (List.length K) = hp_counts1 s \/
    overflow_checks e = false /\ hp_counts1 s < N.of_nat (List.length K) /\
      zeros = hp_counts1 s + 2 ^ usize_bits e - N.of_nat (List.length K))).
Proof. intros * O D. destruct (de_plus_range _ _ _ _ _ D) as (A & B & C). intros. eapply count_sparse; eauto. Qed.

Lemma de_convert : forall (V : Type) e ord de_b v (s : plus V) ns K, build_std e -> is_order ord ->
  de_plus e de_b v = Some s ->
  4 <= hp_precision s <= 18 -> hp_counts0 s = 2 ^ hp_precision s -> 2 * hp_precision s < usize_bits e ->
  hp_registers s = None ->
  d_buf (hp_sparse s) = List.concat ns -> Forall is_number ns ->
  Forall (fun n => (List.length n <= 5)%nat) ns -> total (map read32 ns) < 2 ^ 32 ->
  flushes_to (hp_tmpset s) (sums 0 (map read32 ns)) K -> hp_counts2 s < gap_len 0 K ->
  Forall (tidy (hp_precision s)) K -> exists s' c, hp_count e ord s = Ret (s', c).
Proof. intros * E O D. destruct (de_plus_range _ _ _ _ _ D) as (A & B & C). intros. eapply count_convert; eauto. Qed.

Lemma de_release : forall (V : Type) e ord de_b v (s : plus V), build_std e -> is_order ord ->
  overflow_checks e = false -> de_plus e de_b v = Some s ->
  4 <= hp_precision s <= 18 -> hp_counts0 s = 2 ^ hp_precision s -> hp_registers s = None ->
  (hp_count e ord s = Panic /\ ends_open (d_buf (hp_sparse s))) \/
  ((exists s' c, hp_count e ord s = Ret (s', c)) /\ ~ ends_open (d_buf (hp_sparse s))).
Proof. intros * E O K D. destruct (de_plus_range _ _ _ _ _ D) as (A & B & C). intros. now apply count_release. Qed.

(** A sparse value of precision 4 with the given limits and buffer. *)
Definition sparse_value (c1 c2 : N) (tmp buf : list N) : sval :=
  SStruct [("builder"%string, SUnit); ("precision"%string, SInt 4);
    ("counts"%string, STuple [SInt 16; SInt c1; SInt c2]);
    ("tmpset"%string, SSeq (map SInt tmp));
    ("sparse"%string, SStruct [("count"%string, SInt 0); ("last"%string, SInt 0);
                               ("buf"%string, SNewtype (SSeq (map SInt buf)))]);
    ("registers"%string, SNone);
    ("phantom"%string, SUnit)].

(** An odd code with rank 64: it is stored as 0 and counted as a fresh register every time. *)
Lemma untidy_false : exists v (s : plus N), de_plus test_env de_mix v = Some s /\
  hp_precision s = 4 /\ hp_counts0 s = 16 /\ hp_registers s = None /\
  (exists ns, d_buf (hp_sparse s) = List.concat ns /\ Forall is_number ns /\
     Forall (fun n => (List.length n <= 5)%nat) ns /\ total (map read32 ns) < 2 ^ 32) /\
  hp_count test_env keep s = Panic.
Proof.
  destruct (plus_panics_spec test_env (sparse_value (2 ^ 24) 0 [] (87 :: repeat 0 16))) as (s & D & P);
    [lazy; reflexivity|].
  exists (sparse_value (2 ^ 24) 0 [] (87 :: repeat 0 16)), s. split; [exact D|].
  assert (exists s0, de_plus test_env de_mix (sparse_value (2 ^ 24) 0 [] (87 :: repeat 0 16)) = Some s0 /\
    hp_precision s0 = 4 /\ hp_counts0 s0 = 16 /\ hp_registers s0 = None /\
    d_buf (hp_sparse s0) = 87 :: repeat 0 16) as (s0 & D0 & A & B & C & F).
  { eexists. repeat split; vm_compute; reflexivity. }
  assert (s0 = s) by congruence. subst s0. repeat (split; [assumption|]). split; [|exact P].
  exists (map (fun b => [b]) (87 :: repeat 0 16)). rewrite F. split; [reflexivity|].
  assert (T : forall b, b < 128 -> is_number [b]) by (intros b L; exists [], b; repeat split; auto).
  split; [repeat constructor; apply T; reflexivity|]. split; [repeat constructor|].
  vm_compute. reflexivity.
Qed.
