(** * Properties of codes, registers and encodings *)
From Coq Require Import NArith ZArith List Bool Lia Permutation Sorted.
From Verif Require Import ModelRust ModelF64 ModelEnv ModelRegisters ModelEncoding ModelCommon
  ModelPF ModelPlus ModelHistory ModelTests Spec SpecBuild BitFacts ClaimFacts CountFacts Witness.
Import ListNotations.
Local Open Scope N_scope.

(** ** C14: the sparse code of a hash determines its register update *)
Theorem C14_code : forall e p h, build e -> 4 <= p <= 18 -> h < 2 ^ 64 ->
  exists c, encode_hash e p h = Ret c /\ c < 2 ^ 32 /\
    decode_hash e p c = Ret (rank 64 p h, bucket 64 p h).
Proof. exact sparse_code_roundtrip. Qed.
Print Assumptions C14_code.

(** Both forms of a code: with the rank (first hash) and without (second). *)
Example C14_example :
  let h1 := 0x0003000000000001 in let h2 := 0xff03700000000000 in
  h1 < 2 ^ 64 /\ h2 < 2 ^ 64 /\
  (let* c1 := encode_hash test_env 16 h1 in let* c2 := encode_hash test_env 16 h2 in
   let* d1 := decode_hash test_env 16 c1 in let* d2 := decode_hash test_env 16 c2 in
   Ret (c1 mod 2, c2 mod 2, d1, d2)) = Ret (1, 0, (48, 3), (2, 0xff03)).
Proof. split; [reflexivity|]. split; [reflexivity|]. vm_compute. reflexivity. Qed.

(** ** C20: registers do not interfere *)
Theorem C20_update : forall e sz buf count zeros i v, sz = 5 \/ sz = 6 ->
  N.of_nat (length buf) = (count + 32 / sz - 1) / (32 / sz) ->
  Forall (fun w => w < 2 ^ 32) buf -> i < count -> v < 2 ^ sz ->
  (packed sz buf i 0 -> 1 <= zeros) ->
  exists r', set_greater e sz (Registers buf count zeros) i v = Ret r' /\
    r_count r' = count /\ length (r_buf r') = length buf /\
    Forall (fun w => w < 2 ^ 32) (r_buf r') /\
    (forall j old, packed sz buf j old ->
       packed sz (r_buf r') j (if j =? i then N.max old v else old)) /\
    (forall k w w', nth_error buf k = Some w -> nth_error (r_buf r') k = Some w' ->
       w' / 2 ^ 30 = w / 2 ^ 30) /\
    (forall old, packed sz buf i old ->
       r_zeros r' = if (old =? 0) && (0 <? v) then zeros - 1 else zeros).
Proof. exact registers_independent. Qed.
Print Assumptions C20_update.

Theorem C20_iterate : forall sz buf count zeros, sz = 5 \/ sz = 6 ->
  N.of_nat (length buf) = (count + 32 / sz - 1) / (32 / sz) ->
  Forall (fun w => w < 2 ^ 32) buf ->
  N.of_nat (length (reg_iter sz (Registers buf count zeros))) = count /\
  forall i, i < count -> exists v, v < 2 ^ sz /\ packed sz buf i v /\
    reg_get sz (Registers buf count zeros) i = Ret v /\
    nth_error (reg_iter sz (Registers buf count zeros)) (N.to_nat i) = Some v.
Proof. exact registers_iterate. Qed.
Print Assumptions C20_iterate.

(** Eight 6-bit registers in two words, with junk in the padding; register 6 is raised. *)
Example C20_example :
  let buf := [0xC0FFEE11; 0x8badf00d] in
  N.of_nat (length buf) = (8 + 32 / 6 - 1) / (32 / 6) /\
  Forall (fun w => w < 2 ^ 32) buf /\ packed 6 buf 6 0 /\
  (let* r := set_greater test_env 6 (Registers buf 8 2) 6 61 in
   Ret (reg_iter 6 (Registers buf 8 2), reg_iter 6 r, map (fun w => w / 2 ^ 30) (r_buf r), reg_zeros r))
  = Ret ([17; 56; 62; 63; 0; 13; 0; 31], [17; 56; 62; 63; 0; 13; 61; 31], [3; 2], 1).
Proof.
  cbv zeta. split; [reflexivity|]. split; [repeat constructor|].
  split; [exists 0x8badf00d; split; reflexivity|]. vm_compute. reflexivity.
Qed.

(** ** C21: varints *)
Theorem C21_varint : forall e l, Forall (fun x => x < 2 ^ 32) l ->
  exists v, for_each l varint_push [] = Ret v /\ varint_collect e v = Ret l /\
    N.of_nat (length v) = fold_right (fun x s => varint_len x + s) 0 l.
Proof. exact varint_roundtrip. Qed.
Print Assumptions C21_varint.

(** [varint_len v] is max(1, ceil(bits(v)/7)). *)
Theorem C21_length : forall v, varint_len v = N.max 1 ((N.size v + 6) / 7).
Proof. exact varint_len_size. Qed.
Print Assumptions C21_length.

Example C21_example :
  Forall (fun x => x < 2 ^ 32) [0; 127; 128; 16383; 16384; 2 ^ 32 - 1] /\
  map varint_len [0; 127; 128; 16383; 16384; 2 ^ 32 - 1] = [1; 1; 2; 2; 3; 5].
Proof. split; [repeat constructor|reflexivity]. Qed.

(** ** C22: difference vectors *)
Theorem C22_difference : forall e l, Forall (fun x => x < 2 ^ 32) l -> StronglySorted N.le l ->
  exists d, for_each l (dif_push e) dif_new = Ret d /\
    dif_for e d (fun acc x => Ret (acc ++ [x])) [] = Ret l /\
    dif_count d = N.of_nat (length l) /\ dif_len d = gap_len 0 l.
Proof. exact dif_roundtrip. Qed.
Print Assumptions C22_difference.

Theorem C22_overflow : forall e l d x, Forall (fun y => y < 2 ^ 32) l -> StronglySorted N.le l ->
  for_each l (dif_push e) dif_new = Ret d -> x < 2 ^ 32 ->
  (overflow_checks e = true -> (dif_push e d x = Panic <-> x < last l 0)) /\
  (last l 0 <= x -> exists d', dif_push e d x = Ret d').
Proof. exact dif_overflow_iff. Qed.
Print Assumptions C22_overflow.

Example C22_example :
  let l := [3; 3; 200; 70000; 2 ^ 32 - 1] in
  Forall (fun x => x < 2 ^ 32) l /\ StronglySorted N.le l /\
  (let* d := for_each [3; 3; 200; 70000] (dif_push test_env) dif_new in dif_push test_env d 69999)
  = Panic.
Proof.
  cbv zeta. split; [repeat constructor|]. split; [|reflexivity].
  repeat constructor; discriminate.
Qed.

(** ** C23: flushing *)
Theorem C23_flush : forall (V : Type) e ord (s : plus V) d L U,
  is_order ord -> StronglySorted N.lt L -> Forall (fun x => x < 2 ^ 32) L ->
  for_each L (dif_push e) dif_new = Ret d -> hp_sparse s = d ->
  NoDup (hp_tmpset s) -> Forall (fun x => x < 2 ^ 32) (hp_tmpset s) ->
  StronglySorted N.lt U -> same_set U (hp_tmpset s ++ L) -> gap_len 0 U <= hp_counts2 s ->
  exists s', merge_sparse e ord s = Ret s' /\ hp_tmpset s' = [] /\
    hp_registers s' = hp_registers s /\
    for_each U (dif_push e) dif_new = Ret (hp_sparse s') /\
    dif_for e (hp_sparse s') (fun acc x => Ret (acc ++ [x])) [] = Ret U.
Proof. exact merge_sparse_union. Qed.
Print Assumptions C23_flush.

(** A list and a pending set that overlap. *)
Example C23_example :
  let L := [5; 9; 300] in let T := [300; 2; 9; 7000] in let U := [2; 5; 9; 300; 7000] in
  StronglySorted N.lt L /\ NoDup T /\ StronglySorted N.lt U /\ same_set U (T ++ L) /\
  gap_len 0 U = 7.
Proof.
  cbv zeta. split; [repeat constructor|]. split.
  { repeat constructor; cbn [In]; intuition discriminate. }
  split; [repeat constructor|]. split; [|reflexivity].
  intros x. cbn [In app]. tauto.
Qed.

(** ** C41: bucket and rank of a uniform hash *)
Theorem C41_distribution : forall W p i, p < W -> i < 2 ^ p ->
  (forall k, 1 <= k <= W - p ->
     has_size (fun h => h < 2 ^ W /\ bucket W p h = i /\ rank W p h = k) (2 ^ (W - p - k))) /\
  has_size (fun h => h < 2 ^ W /\ bucket W p h = i /\ rank W p h = W - p + 1) 1 /\
  has_size (fun h => h < 2 ^ W /\ bucket W p h = i) (2 ^ (W - p)) /\
  (forall h, h < 2 ^ W -> bucket W p h < 2 ^ p /\ 1 <= rank W p h <= W - p + 1).
Proof. exact rank_distribution. Qed.
Print Assumptions C41_distribution.

(** What insertion does with the hash: it is [bucket] and [rank] (C17, C18 for the effect). *)
Theorem C41_sizes_unique : forall P n n', has_size P n -> has_size P n' -> n = n'.
Proof. exact has_size_unique. Qed.
Print Assumptions C41_sizes_unique.

Example C41_example : 14 < 64 /\ 100 < 2 ^ 14 /\ 2 ^ (64 - 14 - 3) = 140737488355328 /\
  map (fun h => (bucket 6 2 h, rank 6 2 h)) [0; 1; 2; 5; 31; 32; 63]
  = [(0, 5); (0, 4); (0, 3); (0, 2); (1, 1); (2, 5); (3, 1)].
Proof. repeat split. Qed.
