(** * The benchmark of the merge of sparse codes *)
From Coq Require Import String.
From Coq Require Import NArith ZArith List Bool Lia Permutation Sorted.
From Verif Require Import ModelRust ModelF64 ModelEnv ModelRegisters ModelEncoding ModelCommon ModelPF ModelPlus ModelHistory ModelEval ModelFiles ModelTests ModelBench
  Spec SpecBuild SpecFiles BitFacts RegFacts AbsorbFacts EncFacts CodeFacts MergeFacts PFInv PlusInv TextFacts Witness ClaimFloat BenchFacts.
Import ListNotations.
Local Open Scope N_scope.

Lemma insert_le : forall t c, len (hset_insert t c) <= len t + 1.
Proof. intros t c. unfold hset_insert. rewrite !len_length. destruct (existsb _ _); cbn [length]; lia. Qed.

(** Codes that find room are only buffered. *)
Lemma buffered : forall (V : Type) e ords p (b : V -> N) l s, 32 <= usize_bits e -> 4 <= p <= 18 -> header p b s -> hp_registers s = None ->
  (len (hp_tmpset s) + len l) * 100 <= sparse_limit p ->
  fill_plus e ords l s = Ret (set_tmpset s (fold_left hset_insert (map (fun v => sparse_code p (hash64 b v)) l) (hp_tmpset s))).
Proof.
  intros V e ords p b l. unfold fill_plus. generalize 0 as i.
  induction l as [|v l IH]; intros i s He Hp Hd Hr Hl; cbn [for_each_enum map fold_left].
  - destruct s. reflexivity.
  - pose proof Hd as (A & B & _ & _ & C2). unfold hp_insert at 1, hp_insert_impl. rewrite A. change (cast 64 (b v)) with (hash64 b v).
    unfold hp_insert_hash. rewrite Hr, B, encode_hash_ok, bind_ret by (try lia; apply hash64_lt).
    set (c := sparse_code p (hash64 b v)).
    pose proof (insert_le (hp_tmpset s) c) as Li. rewrite !len_length in Hl. cbn [length] in Hl. rewrite Nat2N.inj_succ in Hl.
    pose proof (sparse_limit_bounds p Hp) as SB.
    unfold flush_if_full, hset_len. cbn [hp_tmpset set_tmpset]. rewrite !len_length in *.
    rewrite umul_ok, bind_ret.
    2:{ eapply N.lt_le_trans; [|apply (pow2_le 32); auto]. change (2 ^ 32) with 4294967296. lia. }
    change (hp_counts2 (set_tmpset s (hset_insert (hp_tmpset s) c))) with (hp_counts2 s). rewrite C2.
    rewrite (proj2 (N.ltb_ge _ _)) by lia. rewrite bind_ret, IH; auto.
    cbn [hp_tmpset set_tmpset]. rewrite !len_length. lia.
Qed.

Definition shifted : list N := map (fun i => N.shiftl i 39) (range 500).
Definition shifted_hashes : list N := map (hash64 (fun x : N => x)) shifted.
Definition shifted_codes : hset := fold_left hset_insert (map (sparse_code 16) shifted_hashes) [].

Lemma shifted_codes_len : length shifted_codes = 500%nat.
Proof. vm_compute. reflexivity. Qed.

Lemma inserted_codes : forall L T, NoDup T -> NoDup (fold_left hset_insert L T) /\
  forall c, In c (fold_left hset_insert L T) <-> In c L \/ In c T.
Proof.
  induction L as [|x L IH]; intros T ND; cbn [fold_left]; [split; [exact ND|]; simpl; tauto|].
  destruct (IH _ (hset_insert_NoDup T x ND)) as [A B]. split; [exact A|]. intros c. rewrite B, hset_insert_in. simpl. intuition.
Qed.

Lemma shifted_small : Forall (fun h => h < 2 ^ 64) shifted_hashes.
Proof.
  apply Forall_forall. unfold shifted_hashes. intros h Hh. apply in_map_iff in Hh. destruct Hh as (v & <- & _). apply hash64_lt.
Qed.

Lemma shifted_length : length shifted = 500%nat.
Proof. unfold shifted. rewrite map_length, range_length. reflexivity. Qed.

Lemma shifted_fold : fold_left hset_insert (map (fun v => sparse_code 16 (hash64 (fun x : N => x) v)) shifted) [] = shifted_codes.
Proof. unfold shifted_codes, shifted_hashes. now rewrite map_map. Qed.

Lemma folded_ok : forall H, NoDup (fold_left hset_insert (map (sparse_code 16) H) []) /\
  same_set (fold_left hset_insert (map (sparse_code 16) H) []) (PlusInv.codes 16 H).
Proof.
  intros H. destruct (inserted_codes (map (sparse_code 16) H) [] (NoDup_nil _)) as [A B]. split; [exact A|].
  intros x. rewrite B. split; [intros [K|[]]; exact K|auto].
Qed.

Lemma shifted_codes_ok : NoDup shifted_codes /\ same_set shifted_codes (PlusInv.codes 16 shifted_hashes).
Proof. exact (folded_ok shifted_hashes). Qed.

Lemma listed : forall H T L, NoDup T -> same_set T (PlusInv.codes 16 H) -> length T = 500%nat -> Forall (fun h => h < 2 ^ 64) H ->
  is_code_list 16 H L -> N.of_nat (length L) = 500 /\ gap_len 0 L <= sparse_limit 16.
Proof.
  intros H T L ND SS LT HF HL. pose proof HL as [HS HI].
  assert (P : Permutation L T).
  { apply NoDup_Permutation; [|exact ND|].
    - clear - HS. induction HS as [|a L HS IH HF]; constructor; [|exact IH]. intros Hi. rewrite Forall_forall in HF. specialize (HF a Hi). lia.
    - intros x. unfold PlusInv.codes in SS. rewrite (SS x). exact (HI x). }
  assert (E : N.of_nat (length L) = 500) by (rewrite (Permutation_length P), LT; reflexivity).
  split; [exact E|]. apply (small_fits 16 H); auto; lia.
Qed.

Lemma shifted_list : forall L, is_code_list 16 shifted_hashes L -> N.of_nat (length L) = 500 /\ gap_len 0 L <= sparse_limit 16.
Proof.
  intros L. destruct shifted_codes_ok as [ND SS].
  exact (listed shifted_hashes shifted_codes L ND SS shifted_codes_len shifted_small).
Qed.

Lemma merge_sparse_bench : forall e ords ords' iters, 32 <= usize_bits e -> (forall k, is_order (ords' k)) ->
  (0 < iters -> exists s, bench_plus_merge_sparse e ords ords' iters = Ret s /\ hp_registers s = None /\ hp_tmpset s = [] /\ dif_count (hp_sparse s) = 500) /\
  bench_plus_merge_sparse e ords ords' 0 = Panic.
Proof.
  intros e ords ords' iters He Ho.
  destruct (hp_new_ok N e 16 (fun x => x) He ltac:(lia)) as (s0 & E0 & (Hd & _ & Hb) & HT & Hf).
  assert (R0 : hp_registers s0 = None /\ hp_sparse s0 = dif_new).
  { clear - E0. unfold hp_new in E0. cbn [orb N.ltb] in E0.
    repeat (apply bind_inv in E0; destruct E0 as (? & _ & E0)).
    inversion E0. cbn. auto. }
  destruct R0 as [R0 S0].
  assert (SL : sparse_limit 16 = 52428) by reflexivity.
  assert (F : fill_plus e ords shifted s0 = Ret (set_tmpset s0 shifted_codes)).
  { rewrite (buffered N e ords 16 (fun x => x) shifted s0 He ltac:(lia) Hd R0).
    - rewrite HT, shifted_fold. reflexivity.
    - rewrite HT, SL, !len_length, shifted_length. cbn [length]. lia. }
  assert (LC : hset_len shifted_codes = 500) by (unfold hset_len; rewrite len_length, shifted_codes_len; reflexivity).
  assert (HF : Forall (fun h => h < 2 ^ 64) shifted_hashes).
  { exact shifted_small. }
  destruct shifted_codes_ok as [ND SS]. pose proof shifted_list as SLi.
  change (map (fun i => N.shiftl i 39) (range 500)) with shifted in *.
  unfold bench_plus_merge_sparse. change (map (fun i => N.shiftl i 39) (range 500)) with shifted.
  generalize dependent shifted_codes. generalize dependent shifted_hashes. generalize shifted. intros sh H HF SLi T F LC ND SS.
  split.
  - intros Hi. rewrite E0, bind_ret. cbn [unwrap_res]. rewrite bind_ret.
    rewrite F, bind_ret. cbn [hp_tmpset set_tmpset]. rewrite LC. cbn [N.eqb Pos.eqb assert]. rewrite bind_ret.
    destruct (iter_inv1 _ (fun s => header 16 (fun x : N => x) s /\ hp_registers s = None /\
        exists L, dif_repr (hp_sparse s) L /\ (L = [] \/ is_code_list 16 H L))
      (fun s => header 16 (fun x : N => x) s /\ hp_registers s = None /\ hp_tmpset s = [] /\
        exists L, dif_repr (hp_sparse s) L /\ is_code_list 16 H L) iters
      (fun s i => merge_sparse e (ords' i) (set_tmpset s T)) (set_tmpset s0 T) Hi)
      as (s & E & _ & Rs & Ts & L & Dr & HL).
    + split; [exact Hd|]. split; [exact R0|]. exists []. split; [|now left]. cbn [hp_sparse set_tmpset]. rewrite S0. apply dif_repr_new.
    + intros s k (Hs & Rs & L & Dr & HL).
      assert (HL' : StronglySorted N.lt L /\ incl L (PlusInv.codes 16 H) /\ gap_len 0 L <= sparse_limit 16).
      { destruct HL as [->|HL]; [split; [constructor|split; [intros x []|cbn; lia]]|].
        split; [apply HL|]. split; [intros x Hx; now apply HL|now apply SLi]. }
      destruct HL' as (Sd & Inc & Gp).
      destruct (merge_sparse_ok N e (ords' k) 16 (fun x => x) H (set_tmpset s T) He ltac:(lia) (Ho k) Hs HF Rs)
        as (s' & E & Hs' & T' & F').
      { exists L. split; [exact ND|]. split; [exact Dr|]. split; [exact Sd|]. split; [|exact Gp].
        intros x. rewrite in_app_iff. cbn [hp_tmpset set_tmpset]. rewrite (SS x). split; [intros [HH|HH]; auto|auto]. }
      exists s'. split; [exact E|]. split; [exact Hs'|].
      destruct (hp_registers s') as [r|].
      * destruct F' as (_ & _ & L' & HL2 & Gt). pose proof (proj2 (SLi L' HL2)). lia.
      * split; [reflexivity|]. split; [exact T'|]. destruct F' as (L' & HL2 & D' & _). exists L'. auto.
    + intros s (Hs & Rs & _ & L & Dr & HL). split; [exact Hs|]. split; [exact Rs|]. exists L. auto.
    + rewrite E, bind_ret. unfold is_sparse. rewrite Rs. cbn [assert]. rewrite bind_ret, Ts. cbn. exists s. split; [reflexivity|].
      split; [exact Rs|]. split; [exact Ts|]. unfold dif_count. destruct Dr as (_ & _ & _ & C & _). rewrite C. apply (SLi L HL).
  - rewrite E0, bind_ret. cbn [unwrap_res]. rewrite bind_ret.
    rewrite F, bind_ret. cbn [hp_tmpset set_tmpset]. rewrite LC. cbn [N.eqb Pos.eqb assert]. rewrite bind_ret.
    change (range 0) with (@nil N). unfold iter. cbn [range]. change (range 0) with (@nil N). cbn [for_each]. rewrite bind_ret.
    unfold is_sparse. cbn [hp_registers set_tmpset]. rewrite R0. cbn [assert]. rewrite bind_ret. cbn [hp_tmpset set_tmpset]. rewrite LC. reflexivity.
Qed.
