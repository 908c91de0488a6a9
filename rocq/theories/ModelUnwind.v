(** * What a call that panics leaves behind

    The methods of ModelRegisters, ModelPF and ModelPlus that take [&mut self], written again as
    the sequence of their writes: the result is the receiver at the moment control leaves the
    method, and how it leaves.  When the panic is caught ([std::panic::catch_unwind]) the program
    goes on with that receiver.  Where nothing panics the functions are those of ModelPF and
    ModelPlus (C81_same_pf, C81_same_plus).

    Simplifications: as in the files above; dropping the locals during the unwinding does not
    touch the receiver.  The user's [Hash], [Hasher] and [BuildHasher] may panic: the hash is
    given as an outcome. *)
From Coq Require Import NArith List Bool.
From Verif Require Import ModelRust ModelF64 ModelEnv ModelRegisters ModelEncoding ModelCommon ModelPF ModelPlus ModelSerde ModelHistory.
Import ListNotations.
Local Open Scope N_scope.

(** The receiver and the outcome. *)
Definition exit (S A : Type) : Type := (S * M A)%type.
Definition then_do {S A B : Type} (u : exit S A) (k : S -> A -> exit S B) : exit S B :=
  match snd u with
  | Ret a => k (fst u) a
  | Panic => (fst u, Panic)
  | OutOfFuel => (fst u, OutOfFuel)
  end.
Notation "'do' s , x := u 'in' k" := (then_do u (fun s x => k))
  (at level 200, s name, x pattern, u at level 200, k at level 200, right associativity).

(** Code that does not write to the receiver. *)
Definition pure {S A : Type} (s : S) (m : M A) : exit S A := (s, m).

(** A method of a field of the receiver. *)
Definition field {S F A : Type} (set : F -> S) (u : exit F A) : exit S A := (set (fst u), snd u).

(** common.rs:63-82: [set_greater].  Line 73 is written before the word is. *)
Definition set_greater_x (e : env) (sz : N) (r : registers) (i value : N) : exit registers unit :=
  let qu := i / count_per_word sz in
  let rm := i mod count_per_word sz in
  do r, w := pure r (index (r_buf r) qu) in
  let cur := N.land (N.shiftr w (rm * sz)) (mask sz) in
  if cur <? value then
    if cur =? 0 then
      do r, z := pure r (usub (overflow_checks e) (usize_bits e) (r_zeros r) 1) in
      let r := {| r_buf := r_buf r; r_count := r_count r; r_zeros := z |} in
      do r, w := pure r (index (r_buf r) qu) in
      let w' := N.lor w (cast 32 (N.shiftl value (rm * sz))) in
      ({| r_buf := update (r_buf r) qu w'; r_count := r_count r; r_zeros := r_zeros r |}, Ret tt)
    else
      let msk := cast 32 (N.shiftl (mask sz) (rm * sz)) in
      do r, w := pure r (index (r_buf r) qu) in
      let w' := N.lor (N.land w (unot 32 msk)) (cast 32 (N.shiftl value (rm * sz))) in
      ({| r_buf := update (r_buf r) qu w'; r_count := r_count r; r_zeros := r_zeros r |}, Ret tt)
  else (r, Ret tt).

(** [for] loops over a list, with the position, and over a difference vector. *)
Fixpoint for_x {A S : Type} (l : list A) (body : S -> A -> exit S unit) (s : S) : exit S unit :=
  match l with
  | [] => (s, Ret tt)
  | x :: l' => do s, _ := body s x in for_x l' body s
  end.
Fixpoint for_enum_x {A S : Type} (i : N) (l : list A) (body : S -> N -> A -> exit S unit) (s : S) : exit S unit :=
  match l with
  | [] => (s, Ret tt)
  | x :: l' => do s, _ := body s i x in for_enum_x (i + 1) l' body s
  end.
Fixpoint dif_loop_x {S : Type} (fuel : nat) (e : env) (it : difiter) (body : S -> N -> exit S unit) (s : S)
  : exit S unit :=
  match fuel with
  | O => (s, OutOfFuel)
  | Datatypes.S fuel' =>
      do s, (x, it') := pure s (dif_next e it) in
      match x with
      | None => (s, Ret tt)
      | Some c => do s, _ := body s c in dif_loop_x fuel' e it' body s
      end
  end.
Definition dif_for_x {S : Type} (e : env) (d : difintvec) (body : S -> N -> exit S unit) (s : S) : exit S unit :=
  dif_loop_x (Datatypes.S (length (d_buf d))) e (dif_into_iter d) body s.

(** ** HyperLogLogPF *)

(** hyperloglog.rs:89-106: [merge]. *)
Definition pf_merge_x {V W : Type} (e : env) (s : pf V) (other : pf W) : exit (pf V) (result unit) :=
  if negb (pf_precision s =? pf_precision other) then (s, Ret (RErr IncompatiblePrecision))
  else
    do s, _ := field (pf_set_registers s)
                 (for_enum_x 0 (reg_iter SIZE_PF (pf_registers other))
                    (fun r i val => set_greater_x e SIZE_PF r i val) (pf_registers s)) in
    (s, Ret (ROk tt)).

(** hyperloglog.rs:117-139: [insert_impl]; [hash] is what lines 122-126 give. *)
Definition pf_insert_x {V : Type} (e : env) (s : pf V) (hash : M N) : exit (pf V) unit :=
  let ck := overflow_checks e in
  let p := pf_precision s in
  do s, hash := pure s hash in
  let hash := cast 32 (cast 64 hash) in
  do s, sh := pure s (usub ck 8 32 p) in
  do s, i := pure s (ushr ck 32 hash sh) in
  do s, h1 := pure s (ushl ck 32 hash p) in
  do s, pm1 := pure s (usub ck 8 p 1) in
  do s, one := pure s (ushl ck 32 1 pm1) in
  do s, zeros := pure s (uadd ck 32 1 (leading_zeros 32 (N.lor h1 one))) in
  field (pf_set_registers s) (set_greater_x e SIZE_PF (pf_registers s) (cast (usize_bits e) i) zeros).

(** hyperloglog.rs:179-197: [count] writes nothing. *)
Definition pf_count_x {V : Type} (e : env) (s : pf V) : exit (pf V) f64 := pure s (pf_count_est e s).

(** ** HyperLogLogPlus *)

(** The loop bodies at hyperloglogplus.rs:148-150 and 154-156. *)
Definition absorb_x (e : env) (p : N) (r : registers) (code : N) : exit registers unit :=
  do r, (zeros, i) := pure r (decode_hash e p code) in
  set_greater_x e SIZE_PLUS r i zeros.

(** hyperloglogplus.rs:308-323: [sparse_to_normal]; the registers are a local until line 318. *)
Definition sparse_to_normal_x {V : Type} (e : env) (s : plus V) : exit (plus V) unit :=
  do s, r0 := pure s (with_count e SIZE_PLUS (hp_counts0 s)) in
  do s, r := pure s (dif_for e (hp_sparse s) (absorb_code e (hp_precision s)) r0) in
  (* line 318 *)
  let s := set_registers s (Some r) in
  (* line 320 *)
  let s := set_tmpset s [] in
  (* line 322 *)
  let s := set_sparse s (dif_clear (hp_sparse s)) in
  (s, Ret tt).

(** hyperloglogplus.rs:327-382: [merge_sparse]; [buf] is a local until line 375. *)
Definition merge_sparse_x {V : Type} (e : env) (ord : list N -> list N) (s : plus V) : exit (plus V) unit :=
  let set_codes := sort (ord (hp_tmpset s)) in
  let (set_opt, set_it) := set_next set_codes in
  do s, (buf_opt, buf_it) := pure s (dif_next e (dif_into_iter (hp_sparse s))) in
  do s, buf := pure s (merge_loop (S (length set_codes + length (d_buf (hp_sparse s)))) e
                         set_opt set_it buf_opt buf_it dif_new) in
  (* line 375 *)
  let s := set_sparse s buf in
  (* line 377 *)
  let s := set_tmpset s [] in
  (* lines 379-381 *)
  if hp_counts2 s <? dif_len (hp_sparse s) then sparse_to_normal_x e s else (s, Ret tt).

(** hyperloglogplus.rs:137-139 and 230-232. *)
Definition flush_if_full_x {V : Type} (e : env) (ord : list N -> list N) (s : plus V) : exit (plus V) unit :=
  do s, n100 := pure s (umul (overflow_checks e) (usize_bits e) (hset_len (hp_tmpset s)) 100) in
  if hp_counts2 s <? n100 then merge_sparse_x e ord s else (s, Ret tt).

(** hyperloglogplus.rs:193-235: [insert_impl]; [hash] is what lines 198-202 give. *)
Definition hp_insert_x {V : Type} (e : env) (ord : list N -> list N) (s : plus V) (hash : M N) : exit (plus V) unit :=
  let ck := overflow_checks e in
  let p := hp_precision s in
  do s, hash := pure s hash in
  let hash := cast 64 hash in
  match hp_registers s with
  | Some r =>
      do s, sh := pure s (usub ck 8 64 p) in
      do s, i := pure s (ushr ck 64 hash sh) in
      do s, h1 := pure s (ushl ck 64 hash p) in
      do s, pm1 := pure s (usub ck 8 p 1) in
      do s, one := pure s (ushl ck 64 1 pm1) in
      do s, zeros := pure s (uadd ck 32 1 (leading_zeros 64 (N.lor h1 one))) in
      field (fun r => set_registers s (Some r)) (set_greater_x e SIZE_PLUS r (cast (usize_bits e) i) zeros)
  | None =>
      do s, code := pure s (encode_hash e p hash) in
      (* line 227 *)
      let s := set_tmpset s (hset_insert (hp_tmpset s) code) in
      flush_if_full_x e ord s
  end.

(** [self.tmpset.insert(code)]. *)
Definition pend_x {V : Type} (s : plus V) (c : N) : exit (plus V) unit :=
  (set_tmpset s (hset_insert (hp_tmpset s) c), Ret tt).

(** [registers.set_greater(index, zeros)] on the registers of [self]; [as_mut().unwrap()] is
    taken before the loops, and nothing in them takes the registers away. *)
Definition on_registers {V : Type} (s : plus V) (body : registers -> exit registers unit) : exit (plus V) unit :=
  match hp_registers s with
  | Some r => field (fun r => set_registers s (Some r)) (body r)
  | None => (s, Panic)
  end.

(** hyperloglogplus.rs:112-182: [merge]. *)
Definition hp_merge_x {V W : Type} (e : env) (ord : list N -> list N) (s : plus V) (other : plus W)
  : exit (plus V) (result unit) :=
  if negb (hp_precision s =? hp_precision other) then (s, Ret (RErr IncompatiblePrecision))
  else
    do s, _ :=
      (if is_sparse other then
        if is_sparse s then
          (* lines 129-134 *)
          do s, _ := for_x (ord (hp_tmpset other)) pend_x s in
          do s, _ := dif_for_x e (hp_sparse other) pend_x s in
          (* lines 137-139 *)
          flush_if_full_x e ord s
        else
          (* lines 145-157 *)
          do s, _ := on_registers s (for_x (ord (hp_tmpset other)) (absorb_x e (hp_precision other))) in
          on_registers s (dif_for_x e (hp_sparse other) (absorb_x e (hp_precision other)))
      else
        (* lines 160-170 *)
        do s, _ :=
          (if is_sparse s then
            do s, _ := merge_sparse_x e ord s in
            if is_sparse s then sparse_to_normal_x e s else (s, Ret tt)
          else (s, Ret tt)) in
        (* lines 173-178 *)
        do s, _ := pure s (unwrap (hp_registers s)) in
        do s, others := pure s (unwrap (registers_iter other)) in
        on_registers s (for_enum_x 0 others (fun r i val => set_greater_x e SIZE_PLUS r i val))) in
    (s, Ret (ROk tt)).

(** hyperloglogplus.rs:476-526: the rest of [count] after the flush; it writes nothing. *)
Definition hp_value_x {V : Type} (e : env) (s : plus V) : exit (plus V) f64 :=
  match hp_registers s with
  | Some r =>
      let zeros := reg_zeros r in
      if negb (zeros =? 0) then
        do s, correction := pure s (linear_count e (hp_counts0 s) zeros) in
        do s, t := pure s (threshold (hp_precision s)) in
        if fle correction t then (s, Ret correction)
        else pure s (estimate_corrected e (hp_precision s) (reg_iter SIZE_PLUS r) (hp_counts0 s))
      else pure s (estimate_corrected e (hp_precision s) (reg_iter SIZE_PLUS r) (hp_counts0 s))
  | None =>
      do s, zeros := pure s (usub (overflow_checks e) (usize_bits e) (hp_counts1 s) (dif_count (hp_sparse s))) in
      pure s (linear_count e (hp_counts1 s) zeros)
  end.

(** hyperloglogplus.rs:470-527: [count]. *)
Definition hp_count_x {V : Type} (e : env) (ord : list N -> list N) (s : plus V) : exit (plus V) f64 :=
  do s, _ := (if is_sparse s then merge_sparse_x e ord s else (s, Ret tt)) in
  hp_value_x e s.

(** ** Programs whose panics are caught

    A program as in ModelHistory, with one more call: an [add], [insert] or [insert_any] whose
    hashing panics (hyperloglog.rs:122-126, hyperloglogplus.rs:198-202).  Every call of [add],
    [insert], [insert_any], [merge] and [count] is wrapped in [catch_unwind] and the program goes
    on with the receiver.  [new] and the round trip give a new sketch and are unwrapped. *)
Inductive wild (V : Type) : Type :=
| WNew (precision : N) (builder : V -> N)
| WInsert (k : entry) (ord : list N -> list N) (w : wild V) (v : V)
| WFail (k : entry) (ord : list N -> list N) (w : wild V)
| WMerge (ord : list N -> list N) (w1 w2 : wild V)
| WCount (ord : list N -> list N) (w : wild V)
| WSerde (ord : list N -> list N) (ser_b : (V -> N) -> sval) (de_b : sval -> option (V -> N)) (w : wild V).
Arguments WNew {V}. Arguments WInsert {V}. Arguments WFail {V}.
Arguments WMerge {V}. Arguments WCount {V}. Arguments WSerde {V}.

Fixpoint caught_plus {V : Type} (e : env) (w : wild V) : M (plus V) :=
  match w with
  | WNew p b => let* r := hp_new e p b in unwrap_res r
  | WInsert _ ord w v => let* s := caught_plus e w in Ret (fst (hp_insert_x e ord s (Ret (hp_builder s v))))
  | WFail _ ord w => let* s := caught_plus e w in Ret (fst (hp_insert_x e ord s Panic))
  | WMerge ord w1 w2 =>
      let* s1 := caught_plus e w1 in
      let* s2 := caught_plus e w2 in
      Ret (fst (hp_merge_x e ord s1 s2))
  | WCount ord w => let* s := caught_plus e w in Ret (fst (hp_count_x e ord s))
  | WSerde ord ser_b de_b w =>
      let* s := caught_plus e w in
      unwrap (de_plus e de_b (ser_plus ord ser_b s))
  end.
Fixpoint caught_pf {V : Type} (e : env) (w : wild V) : M (pf V) :=
  match w with
  | WNew p b => let* r := pf_new e p b in unwrap_res r
  | WInsert _ _ w v => let* s := caught_pf e w in Ret (fst (pf_insert_x e s (Ret (pf_builder s v))))
  | WFail _ _ w => let* s := caught_pf e w in Ret (fst (pf_insert_x e s Panic))
  | WMerge _ w1 w2 =>
      let* s1 := caught_pf e w1 in
      let* s2 := caught_pf e w2 in
      Ret (fst (pf_merge_x e s1 s2))
  | WCount _ w => let* s := caught_pf e w in Ret (fst (pf_count_x e s))
  | WSerde _ ser_b de_b w =>
      let* s := caught_pf e w in
      unwrap (de_pf e de_b (ser_pf ser_b s))
  end.
