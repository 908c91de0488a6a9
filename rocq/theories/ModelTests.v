(** * The crate's unit tests replayed on the model (tests, not proofs)

    These check the transcription: each example is a test of /repo/src.  Where the test uses
    precision 16 and the evaluation in Coq would be slow, precision 10 is used instead with the
    hashes shifted left by 6, which keeps index and leading bits. *)
From Coq Require Import NArith ZArith List Bool.
From Flocq Require Import Core BinarySingleNaN.
From Verif Require Import ModelRust ModelF64 ModelEnv ModelRegisters ModelEncoding ModelLog
  ModelCommon ModelPF ModelPlus ModelConstants ModelSerde ModelHistory.
Import ListNotations.
Local Open Scope N_scope.

(** A 64-bit debug build whose libm is the crate's own [log]. *)
Definition model_ln (x : f64) : f64 := match log true x with Ret y => y | _ => B754_nan end.
Definition test_env : env :=
  {| usize_bits := 64; overflow_checks := true; feat_std := true; feat_const_loop := true;
     sum_init := nzero; std_ln := model_ln; std_bsearch := bsearch_halving |}.
Definition keep (l : list N) : list N := l.
(** PassThroughHasherBuilder (hyperloglogplus.rs:537-563). *)
Definition pass (v : N) : N := v.

Definition trunc (x : M f64) : M Z := let* y := x in Ret (Btrunc y).
Definition inserts (e : env) (s : plus N) (l : list N) : M (plus N) :=
  for_each l (fun s v => hp_insert e keep s v) s.
Definition pf_inserts (e : env) (s : pf N) (l : list N) : M (pf N) :=
  for_each l (fun s v => pf_insert e s v) s.
Definition new_plus (p : N) : M (plus N) := let* r := hp_new test_env p pass in unwrap_res r.
Definition new_normal (p : N) : M (plus N) := let* s := new_plus p in sparse_to_normal test_env s.
Definition new_pf (p : N) : M (pf N) := let* r := pf_new test_env p pass in unwrap_res r.
Definition plus_get (s : plus N) (i : N) : M N :=
  let* r := unwrap (hp_registers s) in reg_get SIZE_PLUS r i.
Definition plus_count (s : plus N) : M Z := trunc (let* (_, c) := hp_count test_env keep s in Ret c).
(** [(a - b).abs() <= n * 10^-k]. *)
Definition near (a b : f64) (n : Z) (k : N) : bool := fle (Babs (fsub a b)) (lit n k).

Definition at10 (l : list N) : list N := map (fun h => N.shiftl h 6) l.
Definition list_eqb (l1 l2 : list N) : bool :=
  if list_eq_dec N.eq_dec l1 l2 then true else false.

(** common.rs:254-266, 284-316 *)
Example test_registers :
  (let* r := with_count test_env SIZE_PF 10 in
   let* r0 := set_greater test_env SIZE_PF r 1 0 in
   let* r1 := set_greater test_env SIZE_PF r0 1 3 in
   let* r2 := set_greater test_env SIZE_PF r1 9 7 in
   let* r3 := set_greater test_env SIZE_PF r2 1 2 in
   let* r4 := set_greater test_env SIZE_PF r3 9 9 in
   Ret (map (fun r => (r_buf r, reg_zeros r)) [r0; r1; r2; r3; r4]))
  = Ret [([0; 0], 10); ([0x60; 0], 9); ([0x60; 0x38000], 8); ([0x60; 0x38000], 8);
         ([0x60; 0x48000], 8)].
Proof. reflexivity. Qed.

(** common.rs:270-282, 320-351 *)
Example test_registers_plus :
  (let* r := with_count test_env SIZE_PLUS 10 in
   let* r0 := set_greater test_env SIZE_PLUS r 1 0 in
   let* r1 := set_greater test_env SIZE_PLUS r0 1 3 in
   let* r2 := set_greater test_env SIZE_PLUS r1 9 7 in
   let* r3 := set_greater test_env SIZE_PLUS r2 1 2 in
   let* r4 := set_greater test_env SIZE_PLUS r3 9 9 in
   Ret (map (fun r => (r_buf r, reg_zeros r)) [r0; r1; r2; r3; r4]))
  = Ret [([0; 0], 10); ([0xc0; 0], 9); ([0xc0; 0x07000000], 8); ([0xc0; 0x07000000], 8);
         ([0xc0; 0x09000000], 8)].
Proof. reflexivity. Qed.

(** common.rs:354-368 *)
Example test_extract :
  map (fun q => extract test_env (fst q) 0x2bad (fst (snd q)) (snd (snd q)))
    [(64, (7, 3)); (32, (7, 3)); (64, (8, 3)); (32, (8, 3)); (64, (15, 14)); (32, (15, 14));
     (64, (15, 13)); (32, (15, 13))]
  = map Ret [5; 5; 21; 21; 0; 0; 1; 1].
Proof. reflexivity. Qed.

(** encoding.rs:186-209 *)
Example test_varint_encode :
  for_each [7; 128; 300; 127; 255; 0xffffffff] varint_push []
  = Ret [7; 128; 1; 172; 2; 127; 255; 1; 255; 255; 255; 255; 15].
Proof. reflexivity. Qed.

(** encoding.rs:212-224 *)
Definition numbers : list N :=
  map (fun i => i + 1) (range 255) ++ map (fun i => i + 16400) (range 100).
Example test_varint_decode :
  (let* v := for_each numbers varint_push [] in varint_collect test_env v) = Ret numbers.
Proof. vm_compute. reflexivity. Qed.

(** encoding.rs:227-248 *)
Example test_difvarint_encode :
  (let* d := for_each [7; 128; 300; 555; 556] (dif_push test_env) dif_new in Ret (d_buf d))
  = Ret [7; 121; 172; 1; 255; 1; 1].
Proof. reflexivity. Qed.

(** encoding.rs:251-263 *)
Example test_difvarint_decode :
  (let* d := for_each numbers (dif_push test_env) dif_new in
   dif_for test_env d (fun l x => Ret (l ++ [x])) []) = Ret numbers.
Proof. vm_compute. reflexivity. Qed.

(** hyperloglog.rs:247-292 *)
Example test_pf_insert :
  (let* s := new_pf 16 in
   let* s := pf_inserts test_env s
     [0x10fff; 0x2ffff; 0x30000; 0x30001; 0xff037000; 0xff030800] in
   let* a := reg_get SIZE_PF (pf_registers s) 1 in
   let* b := reg_get SIZE_PF (pf_registers s) 2 in
   let* c := reg_get SIZE_PF (pf_registers s) 3 in
   let* d := reg_get SIZE_PF (pf_registers s) 0xff03 in
   Ret [a; b; c; d]) = Ret [5; 1; 17; 5].
Proof. vm_compute. reflexivity. Qed.

(** hyperloglog.rs:295-313 *)
Example test_pf_count :
  (let* s := new_pf 10 in
   let* c0 := pf_count_est test_env s in
   let* s := pf_inserts test_env s (at10 [0x10fff; 0x20fff; 0x30fff; 0x40fff; 0x50fff; 0x50fff]) in
   let* c := trunc (pf_count_est test_env s) in
   Ret (c0, c)) = Ret (pzero, 5%Z).
Proof. vm_compute. reflexivity. Qed.

(** hyperloglog.rs:316-369 *)
Example test_pf_merge :
  (let* s := new_pf 10 in
   let* s := pf_inserts test_env s (at10 [0x101ff; 0x202ff; 0x304ff; 0x40fff; 0x50fff; 0x60fff]) in
   let* err := new_pf 9 in
   let* (s, r1) := pf_merge test_env s err in
   let* o := new_pf 10 in
   let* s := pf_inserts test_env s (at10 [0x404ff; 0x502ff; 0x601ff]) in
   let* (o, r2) := pf_merge test_env o s in
   let* c := trunc (pf_count_est test_env o) in
   Ret (r1, r2, c, firstn 7 (reg_iter SIZE_PF (pf_registers s))))
  = Ret (RErr IncompatiblePrecision, ROk tt, 6%Z, [0; 8; 7; 6; 6; 7; 8]).
Proof. vm_compute. reflexivity. Qed.

(** hyperloglog.rs:372-397 *)
Example test_pf_serialization :
  (let* s := new_pf 10 in
   let* s := pf_inserts test_env s (at10 [0x10fff; 0x20fff; 0x30fff; 0x40fff; 0x50fff; 0x50fff]) in
   let* d := unwrap (de_pf test_env (fun _ => Some pass) (ser_pf (fun _ => SUnit) s)) in
   let* c := trunc (pf_count_est test_env d) in
   let* d := pf_insert test_env d (N.shiftl 0x60fff 6) in
   let* c' := trunc (pf_count_est test_env d) in
   Ret (c, c')) = Ret (5%Z, 6%Z).
Proof. vm_compute. reflexivity. Qed.

(** hyperloglogplus.rs:577-626 *)
Example test_normal_insert :
  (let* s := new_normal 16 in
   let* s := inserts test_env s
     [0x00010fffffffffff; 0x0002ffffffffffff; 0x0003000000000000; 0x0003000000000001;
      0xff03700000000000; 0xff03080000000000] in
   let* a := plus_get s 1 in let* b := plus_get s 2 in
   let* c := plus_get s 3 in let* d := plus_get s 0xff03 in
   Ret [a; b; c; d]) = Ret [5; 1; 49; 5].
Proof. vm_compute. reflexivity. Qed.
Example test_normal_insert4 :
  (let* s := new_normal 4 in
   let* s := inserts test_env s [0x1fffffffffffffff; 0xffffffffffffffff; 0x00ffffffffffffff] in
   Ret (registers_iter s)) = Ret (Some [5; 1; 0; 0; 0; 0; 0; 0; 0; 0; 0; 0; 0; 0; 0; 1]).
Proof. vm_compute. reflexivity. Qed.

(** hyperloglogplus.rs:629-654 *)
Example test_sparse_encode_hash :
  let i1 := 0x7000 in let i2 := 0x7002 in
  (encode_hash test_env 14 (N.lor (N.shiftl i1 39) 13),
   encode_hash test_env 14 (N.lor (N.shiftl i2 39) 13))
  = (Ret (N.lor (N.lor (N.shiftl i1 7) 72) 1), Ret (N.shiftl i2 1)).
Proof. reflexivity. Qed.

(** hyperloglogplus.rs:657-688 *)
Example test_sparse_decode_hash :
  map (fun h => let* c := encode_hash test_env 8 h in decode_hash test_env 8 c)
    [0xffffff8000000000; 0xff00000000000000; 0xff30000000000000; 0xaa10000000000000;
     0xaa0f000000000000]
  = map Ret [(1, 0xff); (57, 0xff); (3, 0xff); (4, 0xaa); (5, 0xaa)].
Proof. reflexivity. Qed.

(** hyperloglogplus.rs:691-748 *)
Example test_sparse_merge_sparse :
  (let hashes := [0xf000017000000000; 0x000fff8f00000000; 0x0f00017000000000] in
   let* s := new_plus 16 in
   let* s := inserts test_env s (firstn 2 hashes) in
   let n1 := (hset_len (hp_tmpset s), dif_len (hp_sparse s)) in
   let* s := merge_sparse test_env keep s in
   let* l1 := dif_for test_env (hp_sparse s) (fun l x => Ret (l ++ [x])) [] in
   let* s := inserts test_env s (skipn 2 hashes) in
   let* s := merge_sparse test_env keep s in
   let* l2 := dif_for test_env (hp_sparse s) (fun l x => Ret (l ++ [x])) [] in
   let* c0 := encode_hash test_env 16 0xf000017000000000 in
   let* c1 := encode_hash test_env 16 0x000fff8f00000000 in
   let* c2 := encode_hash test_env 16 0x0f00017000000000 in
   Ret (n1, list_eqb l1 [c1; c0], list_eqb l2 [c1; c2; c0], hset_len (hp_tmpset s)))
  = Ret ((2, 0), true, true, 0).
Proof. vm_compute. reflexivity. Qed.

(** hyperloglogplus.rs:751-778 *)
Example test_sparse_merge_to_normal :
  (let* s := new_plus 7 in
   let* s := for_each (range 102)
     (fun s i => let* s := hp_insert test_env keep s (N.shiftl i 39) in
                 let* (s, _) := hp_count test_env keep s in Ret s) s in
   let* s := hp_insert test_env keep s 1 in
   let sp1 := is_sparse s in
   let* (s, _) := hp_count test_env keep s in
   Ret (sp1, is_sparse s, hset_len (hp_tmpset s), dif_len (hp_sparse s)))
  = Ret (true, false, 0, 0).
Proof. vm_compute. reflexivity. Qed.

(** hyperloglogplus.rs:781-803 *)
Example test_sparse_trigger_sparse_to_normal :
  (let* s := new_plus 4 in
   let* s := for_each (range 12) (fun s i => hp_insert test_env keep s (N.shiftl 1 i)) s in
   let sp1 := is_sparse s in
   let* s := hp_insert test_env keep s (N.shiftl 1 13) in
   Ret (sp1, is_sparse s, hset_len (hp_tmpset s), dif_len (hp_sparse s)))
  = Ret (true, false, 0, 0).
Proof. vm_compute. reflexivity. Qed.

(** hyperloglogplus.rs:806-852 *)
Example test_sparse_sparse_to_normal :
  (let* s := new_plus 16 in
   let* s := inserts test_env s
     [0x00010fffffffffff; 0x0002ffffffffffff; 0x0003000000000000; 0x0003000000000001;
      0xff03700000000000; 0xff03080000000000] in
   let* s := merge_sparse test_env keep s in
   let* s := sparse_to_normal test_env s in
   let* n := plus_count s in
   let* a := plus_get s 1 in let* b := plus_get s 2 in
   let* c := plus_get s 3 in let* d := plus_get s 0xff03 in
   Ret (n, [a; b; c; d])) = Ret (4%Z, [5; 1; 49; 5]).
Proof. vm_compute. reflexivity. Qed.

(** hyperloglogplus.rs:855-885 *)
Definition five : list N :=
  [0x00010fffffffffff; 0x00020fffffffffff; 0x00030fffffffffff; 0x00040fffffffffff;
   0x00050fffffffffff; 0x00050fffffffffff].
Definition five_more : list N :=
  [0x00060fffffffffff; 0x00070fffffffffff; 0x00080fffffffffff; 0x00090fffffffffff;
   0x000a0fffffffffff].
Example test_sparse_count :
  (let* s := new_plus 16 in
   let* s := inserts test_env s five in
   let* n := plus_count s in
   Ret n) = Ret 5%Z.
Proof. vm_compute. reflexivity. Qed.

(** hyperloglogplus.rs:888-923 *)
Definition bias_near (p : N) (n : Z) (k : N) (m : Z) (j : N) (tol : N) : M bool :=
  let* b := estimate_bias test_env p (lit n k) in Ret (near b (lit m j) 1 tol).
Example test_estimate_bias :
  [bias_near 4 140988 4 75988 4 5; bias_near 4 10 0 10 0 5; bias_near 4 80 0 (-17606) 4 5;
   bias_near 16 553914373 4 394169373 4 5;
   bias_near 18 275468768 3 118181769 3 3; bias_near 18 587532522 3 23922523 3 3;
   bias_near 18 1205430993 3 (-434006000000052) 12 3;
   bias_near 18 1251260649 3 (-479351000000024) 12 3]
  = repeat (Ret true) 8.
Proof. vm_compute. reflexivity. Qed.

(** hyperloglogplus.rs:926-940 *)
Example test_estimate_bias_count :
  (let* s := new_normal 4 in
   let* s := for_each (range 10)
     (fun s i => hp_insert test_env keep s (N.shiftl i 60 + 0xfffffffffffffff)) s in
   let* (_, c) := hp_count test_env keep s in
   Ret (near (of_Z 10) c 1 0)) = Ret true.
Proof. vm_compute. reflexivity. Qed.

(** hyperloglogplus.rs:943-1125: merges in the four combinations. *)
Definition merge_test (hll other : M (plus N)) : M (list Z * list bool) :=
  let* hll := hll in
  let* other := other in
  let* other := inserts test_env other (at10 five) in
  let* n1 := plus_count other in
  let* (other, _) := hp_count test_env keep other in
  let* (hll, _) := hp_merge test_env keep hll other in
  let* n2 := plus_count hll in
  let* (hll, _) := hp_merge test_env keep hll other in
  let* n3 := plus_count hll in
  let* other := inserts test_env other (at10 five_more) in
  let* n4 := plus_count other in
  let* (hll, _) := hp_merge test_env keep hll other in
  let* n5 := plus_count hll in
  Ret ([n1; n2; n3; n4; n5], [is_sparse hll; is_sparse other]).
Example test_merge_both_sparse :
  merge_test (new_plus 10) (new_plus 10) = Ret ([5; 5; 5; 10; 10]%Z, [true; true]).
Proof. vm_compute. reflexivity. Qed.
Example test_merge_both_normal :
  merge_test (new_normal 10) (new_normal 10) = Ret ([5; 5; 5; 10; 10]%Z, [false; false]).
Proof. vm_compute. reflexivity. Qed.
Example test_merge_sparse_to_normal :
  merge_test (new_normal 10) (new_plus 10) = Ret ([5; 5; 5; 10; 10]%Z, [false; true]).
Proof. vm_compute. reflexivity. Qed.
Example test_merge_normal_to_sparse :
  merge_test (new_plus 10) (new_normal 10) = Ret ([5; 5; 5; 10; 10]%Z, [false; false]).
Proof. vm_compute. reflexivity. Qed.

(** hyperloglogplus.rs:1128-1172 *)
Definition serde_test (s : plus N) : M (list Z) :=
  let* d := unwrap (de_plus test_env (fun _ => Some pass) (ser_plus (@rev N) (fun _ => SUnit) s)) in
  let* n1 := plus_count d in
  let* d := hp_insert test_env keep d (N.shiftl 0x00060fffffffffff 6) in
  let* n2 := plus_count d in
  Ret [n1; n2].
Example test_plus_serialization :
  (let* s := new_plus 10 in
   let* s := inserts test_env s (at10 five) in
   let* a := serde_test s in
   let* (s, _) := hp_count test_env keep s in
   let* b := serde_test s in
   let* s := sparse_to_normal test_env s in
   let* c := serde_test s in
   Ret (a ++ b ++ c)) = Ret [5; 6; 5; 6; 5; 6]%Z.
Proof. vm_compute. reflexivity. Qed.

(** The two zeros a float sum can start from. *)
Example test_zeros :
  fdiv (of_Z 1) pzero = B754_infinity false /\ fdiv (of_Z 1) nzero = B754_infinity true.
Proof. split; reflexivity. Qed.
