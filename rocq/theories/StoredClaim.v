(** * Deserialized sketches: wrappers and values for the examples *)
From Coq Require Import String NArith ZArith Arith List Bool Lia.
From Verif Require Import ModelRust ModelF64 ModelEnv ModelRegisters ModelEncoding ModelCommon ModelPF ModelPlus ModelSerde ModelTests
  Spec SpecBuild SpecSketch SpecBytes SpecStored StoredFacts StoredCodes StoredOps StoredRelease.
Import ListNotations.
Local Open Scope N_scope.

Lemma build_32 : forall e, build e -> 32 <= usize_bits e.
Proof. intros e [H _]. lia. Qed.

Lemma de_pf_insert : forall (V : Type) e de_b v (s : pf V) (x : V), build e -> de_pf e de_b v = Some s ->
  let p := pf_precision s in
  let b := r_buf (pf_registers s) in
  let i := slot_of 32 p (pf_builder s x mod 2 ^ 32) in
  let bad := overflow_checks e = true /\ (p = 0 \/ 32 <= p) \/ slots 5 b <= i \/
    overflow_checks e = true /\ reg_at 5 b i = 0 /\ r_zeros (pf_registers s) = 0 in
  (pf_insert e s x = Panic /\ bad) \/ ((exists s', pf_insert e s x = Ret s') /\ ~ bad).
Proof. intros * B D. apply pf_insert_stored; [now apply build_32|eapply de_pf_ok; eauto]. Qed.

Lemma de_plus_insert : forall (V : Type) e ord de_b v (s : plus V) (x : V) r, de_plus e de_b v = Some s ->
  hp_registers s = Some r ->
  let p := hp_precision s in
  let i := slot_of 64 p (hp_builder s x mod 2 ^ 64) mod 2 ^ usize_bits e in
  let bad := overflow_checks e = true /\ (p = 0 \/ 64 <= p) \/ slots 6 (r_buf r) <= i \/
    overflow_checks e = true /\ reg_at 6 (r_buf r) i = 0 /\ r_zeros r = 0 in
  (hp_insert e ord s x = Panic /\ bad) \/ ((exists s', hp_insert e ord s x = Ret s') /\ ~ bad).
Proof. intros * D. apply plus_insert_stored. destruct (de_plus_ok _ _ _ _ _ D) as [(A & _) _]. exact A. Qed.

Lemma de_plus_insert_sparse : forall (V : Type) e ord de_b v (s : plus V) (x : V), build e -> is_order ord ->
  overflow_checks e = true -> de_plus e de_b v = Some s -> hp_registers s = None ->
  100 * (N.of_nat (length (hp_tmpset s)) + 1) < 2 ^ usize_bits e ->
  let p := hp_precision s in
  let T := with_code (hp_tmpset s) (sparse_code p (hp_builder s x mod 2 ^ 64)) in
  let bad := 25 <= p \/ hp_counts2 s < 100 * N.of_nat (length T) /\
    flush_fails (usize_bits e) p (hp_counts0 s) (hp_counts2 s) T (d_buf (hp_sparse s)) in
  (hp_insert e ord s x = Panic /\ bad) \/ ((exists s', hp_insert e ord s x = Ret s') /\ ~ bad).
Proof.
  intros * B O C D E H. apply plus_insert_sparse_stored; auto; [now apply build_32|].
  now destruct (de_plus_ok _ _ _ _ _ D).
Qed.

Lemma de_plus_insert_free : forall (V : Type) e ord de_b v (s : plus V) (x : V) L K, build e -> is_order ord ->
  overflow_checks e = false -> de_plus e de_b v = Some s -> hp_registers s = None -> hp_precision s < 25 ->
  hp_counts0 s + 5 < 2 ^ usize_bits e ->
  100 * (N.of_nat (length (hp_tmpset s)) + 1) < 2 ^ usize_bits e ->
  let p := hp_precision s in
  let T := with_code (hp_tmpset s) (sparse_code p (hp_builder s x mod 2 ^ 64)) in
  reads_as (d_buf (hp_sparse s)) L -> flushes_to T L K ->
  let bad := hp_counts2 s < 100 * N.of_nat (length T) /\ hp_counts2 s < gap_len 0 K /\
    codes_out p (slots_for (hp_counts0 s)) K in
  (hp_insert e ord s x = Panic /\ bad) \/ ((exists s', hp_insert e ord s x = Ret s') /\ ~ bad).
Proof.
  intros * B O C D. intros. eapply plus_insert_free; eauto; [now apply build_32|]. now destruct (de_plus_ok _ _ _ _ _ D).
Qed.

Lemma de_pf_merge : forall (V W : Type) e de_b de_b' v v' (s : pf V) (o : pf W),
  de_pf e de_b v = Some s -> de_pf e de_b' v' = Some o ->
  let r := pf_registers s in let b := r_buf (pf_registers o) in
  let n := listed 5 (r_count (pf_registers o)) b in
  let bad := pf_precision s = pf_precision o /\ (slots 5 (r_buf r) < n \/
    overflow_checks e = true /\ r_zeros r < newly 5 (r_buf r) b n) in
  (pf_merge e s o = Panic /\ bad) \/
  (~ bad /\
   (pf_precision s <> pf_precision o /\ pf_merge e s o = Ret (s, RErr IncompatiblePrecision) \/
    pf_precision s = pf_precision o /\
    exists s', pf_merge e s o = Ret (s', ROk tt) /\
      (overflow_checks e = true -> r_zeros (pf_registers s') + newly 5 (r_buf r) b n = r_zeros r) /\
      forall j, reg_at 5 (r_buf (pf_registers s')) j =
        if j <? n then N.max (reg_at 5 (r_buf r) j) (reg_at 5 b j) else reg_at 5 (r_buf r) j)).
Proof. intros * D D'. apply pf_merge_stored; eapply de_pf_ok; eauto. Qed.

Lemma de_plus_merge : forall (V W : Type) e ord de_b de_b' v v' (s : plus V) (o : plus W) r ro,
  de_plus e de_b v = Some s -> de_plus e de_b' v' = Some o ->
  hp_registers s = Some r -> hp_registers o = Some ro -> hp_precision s = hp_precision o ->
  let n := listed 6 (r_count ro) (r_buf ro) in
  let bad := slots 6 (r_buf r) < n \/ overflow_checks e = true /\ r_zeros r < newly 6 (r_buf r) (r_buf ro) n in
  (hp_merge e ord s o = Panic /\ bad) \/
  (~ bad /\ exists s' r', hp_merge e ord s o = Ret (s', ROk tt) /\ hp_registers s' = Some r' /\
      (overflow_checks e = true -> r_zeros r' + newly 6 (r_buf r) (r_buf ro) n = r_zeros r) /\
      forall j, reg_at 6 (r_buf r') j =
        if j <? n then N.max (reg_at 6 (r_buf r) j) (reg_at 6 (r_buf ro) j) else reg_at 6 (r_buf r) j).
Proof.
  intros * D D' E E' P. destruct (de_plus_ok _ _ _ _ _ D) as [_ A]. destruct (de_plus_ok _ _ _ _ _ D') as [_ A'].
  apply plus_merge_normal_stored; auto.
Qed.

Lemma de_plus_merge_sparse : forall (V W : Type) e ord de_b de_b' v v' (s : plus V) (o : plus W), build e -> is_order ord ->
  overflow_checks e = true -> de_plus e de_b v = Some s -> de_plus e de_b' v' = Some o ->
  hp_registers s = None -> hp_registers o = None -> hp_precision s = hp_precision o ->
  (unreadable true (d_buf (hp_sparse o)) -> hp_merge e ord s o = Panic) /\
  forall L T, reads_as (d_buf (hp_sparse o)) L -> union_of (hp_tmpset s) (hp_tmpset o) L T ->
    100 * N.of_nat (length T) < 2 ^ usize_bits e ->
    let bad := hp_counts2 s < 100 * N.of_nat (length T) /\
      flush_fails (usize_bits e) (hp_precision s) (hp_counts0 s) (hp_counts2 s) T (d_buf (hp_sparse s)) in
    (hp_merge e ord s o = Panic /\ bad) \/ ((exists s', hp_merge e ord s o = Ret (s', ROk tt)) /\ ~ bad).
Proof.
  intros * B O C D D' E E' P. destruct (de_plus_ok _ _ _ _ _ D) as [A _]. destruct (de_plus_ok _ _ _ _ _ D') as [A' _].
  apply plus_merge_sparse_stored; auto. now apply build_32.
Qed.

Lemma de_plus_merge_free : forall (V W : Type) e ord de_b de_b' v v' (s : plus V) (o : plus W) L T L' K, build e -> is_order ord ->
  overflow_checks e = false -> de_plus e de_b v = Some s -> de_plus e de_b' v' = Some o ->
  hp_registers s = None -> hp_registers o = None ->
  hp_precision s = hp_precision o -> hp_counts0 s + 5 < 2 ^ usize_bits e ->
  reads_as (d_buf (hp_sparse o)) L -> union_of (hp_tmpset s) (hp_tmpset o) L T ->
  100 * N.of_nat (length T) < 2 ^ usize_bits e ->
  reads_as (d_buf (hp_sparse s)) L' -> flushes_to T L' K ->
  let bad := hp_counts2 s < 100 * N.of_nat (length T) /\ hp_counts2 s < gap_len 0 K /\
    codes_out (hp_precision s) (slots_for (hp_counts0 s)) K in
  (hp_merge e ord s o = Panic /\ bad) \/ ((exists s', hp_merge e ord s o = Ret (s', ROk tt)) /\ ~ bad).
Proof.
  intros * B O C D D' E E' P. destruct (de_plus_ok _ _ _ _ _ D) as [A _]. destruct (de_plus_ok _ _ _ _ _ D') as [A' _].
  apply plus_merge_free; auto. now apply build_32.
Qed.

Lemma de_plus_merge_codes : forall (V W : Type) e ord de_b de_b' v v' (s : plus V) (o : plus W) r, build e -> is_order ord ->
  overflow_checks e = true -> de_plus e de_b v = Some s -> de_plus e de_b' v' = Some o ->
  hp_registers s = Some r -> hp_registers o = None -> hp_precision s = hp_precision o ->
  let bad := unreadable true (d_buf (hp_sparse o)) \/
    exists L, reads_as (d_buf (hp_sparse o)) L /\
      codes_fail (zero_in (r_buf r)) (hp_precision s) (slots 6 (r_buf r)) (r_zeros r) (ord (hp_tmpset o) ++ L) in
  (hp_merge e ord s o = Panic /\ bad) \/ ((exists s', hp_merge e ord s o = Ret (s', ROk tt)) /\ ~ bad).
Proof.
  intros * B O C D D' E E' P. destruct (de_plus_ok _ _ _ _ _ D) as [_ A]. destruct (de_plus_ok _ _ _ _ _ D') as [A' _].
  apply plus_merge_codes_stored; auto. now apply build_32.
Qed.

Lemma de_plus_merge_codes_free : forall (V W : Type) e ord de_b de_b' v v' (s : plus V) (o : plus W) r L, build e -> is_order ord ->
  overflow_checks e = false -> de_plus e de_b v = Some s -> de_plus e de_b' v' = Some o ->
  hp_registers s = Some r -> hp_registers o = None ->
  hp_precision s = hp_precision o -> reads_as (d_buf (hp_sparse o)) L ->
  let bad := codes_out (hp_precision s) (slots 6 (r_buf r)) (hp_tmpset o ++ L) in
  (hp_merge e ord s o = Panic /\ bad) \/ ((exists s', hp_merge e ord s o = Ret (s', ROk tt)) /\ ~ bad).
Proof.
  intros * B O C D D' E E' P. destruct (de_plus_ok _ _ _ _ _ D') as [A' _].
  apply plus_merge_codes_free; auto. now apply build_32.
Qed.

Lemma de_plus_merge_into : forall (V W : Type) e ord de_b de_b' v v' (s : plus V) (o : plus W) ro, build e -> is_order ord ->
  overflow_checks e = true -> de_plus e de_b v = Some s -> de_plus e de_b' v' = Some o ->
  hp_registers s = None -> hp_registers o = Some ro -> hp_precision s = hp_precision o ->
  let p := hp_precision s in let m := hp_counts0 s in
  let n := listed 6 (r_count ro) (r_buf ro) in
  let bad := unreadable true (d_buf (hp_sparse s)) \/
    exists L K, reads_as (d_buf (hp_sparse s)) L /\ flushes_to (hp_tmpset s) L K /\
      (conversion_fails (usize_bits e) p m K \/ slots_for m < n \/
       m < zeros_taken all_zero p [] K + fills (fun i => zero_now all_zero p i (rev K)) (r_buf ro) n) in
  (hp_merge e ord s o = Panic /\ bad) \/ ((exists s', hp_merge e ord s o = Ret (s', ROk tt)) /\ ~ bad).
Proof.
  intros * B O C D D' E E' P. destruct (de_plus_ok _ _ _ _ _ D) as [A _]. destruct (de_plus_ok _ _ _ _ _ D') as [_ A'].
  apply plus_merge_into_sparse_stored; auto. now apply build_32.
Qed.

Lemma de_plus_merge_into_free : forall (V W : Type) e ord de_b de_b' v v' (s : plus V) (o : plus W) ro L K, build e -> is_order ord ->
  overflow_checks e = false -> de_plus e de_b v = Some s -> de_plus e de_b' v' = Some o ->
  hp_registers s = None -> hp_registers o = Some ro ->
  hp_precision s = hp_precision o -> hp_counts0 s + 5 < 2 ^ usize_bits e ->
  reads_as (d_buf (hp_sparse s)) L -> flushes_to (hp_tmpset s) L K ->
  let m := hp_counts0 s in
  let bad := codes_out (hp_precision s) (slots_for m) K \/ slots_for m < listed 6 (r_count ro) (r_buf ro) in
  (hp_merge e ord s o = Panic /\ bad) \/ ((exists s', hp_merge e ord s o = Ret (s', ROk tt)) /\ ~ bad).
Proof.
  intros * B O C D D' E E' P. destruct (de_plus_ok _ _ _ _ _ D) as [A _]. destruct (de_plus_ok _ _ _ _ _ D') as [_ A'].
  intros. eapply plus_merge_into_free; eauto. now apply build_32.
Qed.

(** ** Values for the examples: precision 4, hashes passed through *)
Definition stored_regs (buf : list N) (count zeros : N) : sval :=
  SStruct [("buf"%string, SSeq (map SInt buf)); ("count"%string, SInt count); ("zeros"%string, SInt zeros)].
Definition stored_pf (p : N) (buf : list N) (zeros : N) : sval :=
  SStruct [("builder"%string, SUnit); ("count"%string, SInt 16); ("precision"%string, SInt p);
    ("registers"%string, stored_regs buf 16 zeros); ("phantom"%string, SUnit)].
Definition stored_plus (p m limit : N) (tmp buf : list N) (regs : sval) : sval :=
  SStruct [("builder"%string, SUnit); ("precision"%string, SInt p);
    ("counts"%string, STuple [SInt m; SInt (2 ^ 24); SInt limit]);
    ("tmpset"%string, SSeq (map SInt tmp));
    ("sparse"%string, SStruct [("count"%string, SInt 0); ("last"%string, SInt 0);
                               ("buf"%string, SNewtype (SSeq (map SInt buf)))]);
    ("registers"%string, regs);
    ("phantom"%string, SUnit)].
Definition stored_normal (p : N) (buf : list N) (zeros : N) : sval :=
  stored_plus p 16 12 [] [] (SSome (stored_regs buf 16 zeros)).
Definition de_pass (_ : sval) : option (N -> N) := Some pass.

Definition verdict {A : Type} (m : M A) : bool := match m with Ret _ => true | _ => false end.
Definition try_pf (e : env) (v : sval) (x : N) : bool :=
  match de_pf e de_pass v with Some s => verdict (pf_insert e s x) | None => false end.
Definition try_insert (e : env) (v : sval) (x : N) : bool :=
  match de_plus e de_pass v with Some s => verdict (hp_insert e keep s x) | None => false end.
Definition try_pf_merge (e : env) (v v' : sval) : bool :=
  match de_pf e de_pass v, de_pf e de_pass v' with Some s, Some o => verdict (pf_merge e s o) | _, _ => false end.
Definition try_merge (e : env) (v v' : sval) : bool :=
  match de_plus e de_pass v, de_plus e de_pass v' with Some s, Some o => verdict (hp_merge e keep s o) | _, _ => false end.
Definition try_count (e : env) (v : sval) : bool :=
  match de_plus e de_pass v with Some s => verdict (hp_count e keep s) | None => false end.
