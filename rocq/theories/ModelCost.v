(** * How many steps the operations take

    The functions of ModelEncoding, ModelPF and ModelPlus that contain loops, written again with a counter.  A step is
    one call of a public function or one iteration of a loop of the source; for the loops of std that the source calls
    for, a step is one element ([collect], [vec!], the elements that serde writes and reads) and [slice::sort] of n
    elements takes n times the number of binary digits of n.  Erasing the counter gives back the functions
    (C79_same_calls, C79_same_plus, C79_same_pf).

    Simplifications.  What happens between the loops (arithmetic, hashing a value, one operation on a HashSet, the
    binary search among at most 201 estimates) is not counted.  The registers are summed by [estimate_raw_plus]; its
    loop is counted as one step for each register. *)
From Coq Require Import NArith List Bool.
From Verif Require Import ModelRust ModelF64 ModelEnv ModelRegisters ModelEncoding ModelCommon ModelPF ModelPlus ModelSerde ModelHistory.
Import ListNotations.
Local Open Scope N_scope.

(** An outcome and the number of steps. *)
Definition T (A : Type) : Type := M (A * N).
Definition tbind {A B : Type} (m : T A) (k : A -> T B) : T B :=
  let* (a, n) := m in let* (b, n') := k a in Ret (b, n + n').
Notation "'let!' x := m 'in' k" := (tbind m (fun x => k))
  (at level 200, x pattern, m at level 200, k at level 200, right associativity).
Definition free {A : Type} (m : M A) : T A := let* a := m in Ret (a, 0).
Definition after {A : Type} (n : N) (m : T A) : T A := let* (a, n') := m in Ret (a, n + n').
Definition erase {A : Type} (m : T A) : M A := let* (a, _) := m in Ret a.

(** for loops *)
Fixpoint t_for_each {A S : Type} (l : list A) (body : S -> A -> M S) (s : S) : T S :=
  match l with
  | [] => free (Ret s)
  | x :: l' => after 1 (let! s' := free (body s x) in t_for_each l' body s')
  end.
Fixpoint t_for_each_enum {A S : Type} (i : N) (l : list A) (body : S -> N -> A -> M S) (s : S) : T S :=
  match l with
  | [] => free (Ret s)
  | x :: l' => after 1 (let! s' := free (body s i x) in t_for_each_enum (i + 1) l' body s')
  end.

(** encoding.rs:49-58: the bytes written. *)
Fixpoint t_varint_push_loop (fuel : nat) (v : varintvec) (val : N) : T varintvec :=
  match fuel with
  | O => OutOfFuel
  | S fuel' =>
      after 1
        (if negb (N.land val VAR_INT_MASK =? 0) then
           t_varint_push_loop fuel' (v ++ [N.lor (cast 8 (N.land val SEVEN_LSB_MASK)) MSB_MASK]) (N.shiftr val 7)
         else free (Ret (v ++ [cast 8 (N.land val SEVEN_LSB_MASK)])))
  end.
Definition t_varint_push (v : varintvec) (val : N) : T varintvec := t_varint_push_loop (S (N.size_nat val)) v val.

(** encoding.rs:64-77: the bytes read. *)
Fixpoint t_varint_decode_loop (fuel : nat) (e : env) (v : varintvec) (idx i val : N) : T (N * N) :=
  match fuel with
  | O => OutOfFuel
  | S fuel' =>
      after 1
        (let! b := free (index v (idx + i)) in
         if negb (N.land b MSB_MASK =? 0) then
           let! x := free (ushl (overflow_checks e) 32 (N.land b SEVEN_LSB_MASK) (i * 7)) in
           t_varint_decode_loop fuel' e v idx (i + 1) (N.lor val x)
         else
           let! x := free (ushl (overflow_checks e) 32 b (i * 7)) in
           free (Ret (N.lor val x, idx + i + 1)))
  end.
Definition t_varint_decode (e : env) (v : varintvec) (idx : N) : T (N * N) :=
  t_varint_decode_loop (S (length v)) e v idx 0 0.

(** encoding.rs:98-102 and 166-178. *)
Definition t_dif_push (e : env) (d : difintvec) (val : N) : T difintvec :=
  let! dif := free (usub (overflow_checks e) 32 val (d_last d)) in
  let! b := t_varint_push (d_buf d) dif in
  free (Ret {| d_count := d_count d + 1; d_last := val; d_buf := b |}).
Definition t_dif_next (e : env) (it : difiter) : T (option N * difiter) :=
  if len (d_buf (di_inner it)) <=? di_index it then free (Ret (None, it))
  else
    let! (dif, idx) := t_varint_decode e (d_buf (di_inner it)) (di_index it) in
    let! last := free (uadd (overflow_checks e) 32 (di_last it) dif) in
    free (Ret (Some last, {| di_index := idx; di_last := last; di_inner := di_inner it |})).
Fixpoint t_dif_for_loop {S : Type} (fuel : nat) (e : env) (it : difiter) (body : S -> N -> M S) (s : S) : T S :=
  match fuel with
  | O => OutOfFuel
  | Datatypes.S fuel' =>
      let! (x, it') := t_dif_next e it in
      match x with
      | None => free (Ret s)
      | Some c =>
          after 1 (let! s' := free (body s c) in t_dif_for_loop fuel' e it' body s')
      end
  end.
Definition t_dif_for {S : Type} (e : env) (d : difintvec) (body : S -> N -> M S) (s : S) : T S :=
  t_dif_for_loop (Datatypes.S (length (d_buf d))) e (dif_into_iter d) body s.

(** common.rs:29-35: the words of the new vector. *)
Definition t_with_count (e : env) (sz count : N) : T registers :=
  let! r := free (with_count e sz count) in after (len (r_buf r)) (free (Ret r)).

(** hyperloglogplus.rs:308-323. *)
Definition t_sparse_to_normal {V : Type} (e : env) (s : plus V) : T (plus V) :=
  let! r0 := t_with_count e SIZE_PLUS (hp_counts0 s) in
  let! r := t_dif_for e (hp_sparse s) (absorb_code e (hp_precision s)) r0 in
  free (Ret (set_sparse (set_tmpset (set_registers s (Some r)) []) (dif_clear (hp_sparse s)))).

(** hyperloglogplus.rs:340-373. *)
Fixpoint t_merge_loop (fuel : nat) (e : env) (set_opt : option N) (set_it : list N)
    (buf_opt : option N) (buf_it : difiter) (out : difintvec) : T difintvec :=
  match fuel with
  | O => OutOfFuel
  | S fuel' =>
      match set_opt, buf_opt with
      | None, None => free (Ret out)
      | None, Some b =>
          after 1
            (let! out' := t_dif_push e out b in
             let! (buf_opt', buf_it') := t_dif_next e buf_it in
             t_merge_loop fuel' e set_opt set_it buf_opt' buf_it' out')
      | Some a, None =>
          after 1
            (let! out' := t_dif_push e out a in
             let (set_opt', set_it') := set_next set_it in
             t_merge_loop fuel' e set_opt' set_it' buf_opt buf_it out')
      | Some a, Some b =>
          after 1
            (if a =? b then
               let! out' := t_dif_push e out a in
               let (set_opt', set_it') := set_next set_it in
               let! (buf_opt', buf_it') := t_dif_next e buf_it in
               t_merge_loop fuel' e set_opt' set_it' buf_opt' buf_it' out'
             else if b <? a then
               let! out' := t_dif_push e out b in
               let! (buf_opt', buf_it') := t_dif_next e buf_it in
               t_merge_loop fuel' e set_opt set_it buf_opt' buf_it' out'
             else
               let! out' := t_dif_push e out a in
               let (set_opt', set_it') := set_next set_it in
               t_merge_loop fuel' e set_opt' set_it' buf_opt buf_it out')
      end
  end.

(** hyperloglogplus.rs:327-382: the codes of the set are collected (line 328) and sorted (line 330). *)
Definition sort_steps (n : N) : N := n * N.size n.
Definition t_merge_sparse {V : Type} (e : env) (ord : list N -> list N) (s : plus V) : T (plus V) :=
  let set_codes := sort (ord (hp_tmpset s)) in
  after (len set_codes + sort_steps (len set_codes))
    (let (set_opt, set_it) := set_next set_codes in
     let! (buf_opt, buf_it) := t_dif_next e (dif_into_iter (hp_sparse s)) in
     let! buf := t_merge_loop (S (length set_codes + length (d_buf (hp_sparse s)))) e
                   set_opt set_it buf_opt buf_it dif_new in
     let s' := set_tmpset (set_sparse s buf) [] in
     if hp_counts2 s' <? dif_len (hp_sparse s') then t_sparse_to_normal e s' else free (Ret s')).

(** hyperloglogplus.rs:137-139 and 230-232. *)
Definition t_flush_if_full {V : Type} (e : env) (ord : list N -> list N) (s : plus V) : T (plus V) :=
  let! n100 := free (umul (overflow_checks e) (usize_bits e) (hset_len (hp_tmpset s)) 100) in
  if hp_counts2 s <? n100 then t_merge_sparse e ord s else free (Ret s).

(** hyperloglogplus.rs:193-235: [insert_impl]; there is no loop if the sketch is not sparse. *)
Definition t_hp_insert {V : Type} (e : env) (ord : list N -> list N) (s : plus V) (v : V) : T (plus V) :=
  after 1
    match hp_registers s with
    | Some _ => free (hp_insert_impl e ord s v)
    | None =>
        let! code := free (encode_hash e (hp_precision s) (cast 64 (hp_builder s v))) in
        t_flush_if_full e ord (set_tmpset s (hset_insert (hp_tmpset s) code))
    end.

(** hyperloglogplus.rs:112-182: [merge]. *)
Definition t_hp_merge {V W : Type} (e : env) (ord : list N -> list N) (self : plus V) (other : plus W)
  : T (plus V * result unit) :=
  after 1
    (if negb (hp_precision self =? hp_precision other)
     then free (Ret (self, RErr IncompatiblePrecision))
     else if is_sparse other then
       if is_sparse self then
         let! t1 := t_for_each (ord (hp_tmpset other)) (fun t c => Ret (hset_insert t c)) (hp_tmpset self) in
         let! t2 := t_dif_for e (hp_sparse other) (fun t c => Ret (hset_insert t c)) t1 in
         let! s' := t_flush_if_full e ord (set_tmpset self t2) in
         free (Ret (s', ROk tt))
       else
         let! r := free (unwrap (hp_registers self)) in
         let! r1 := t_for_each (ord (hp_tmpset other)) (absorb_code e (hp_precision other)) r in
         let! r2 := t_dif_for e (hp_sparse other) (absorb_code e (hp_precision other)) r1 in
         free (Ret (set_registers self (Some r2), ROk tt))
     else
       let! self1 :=
         if is_sparse self then
           let! s1 := t_merge_sparse e ord self in
           if is_sparse s1 then t_sparse_to_normal e s1 else free (Ret s1)
         else free (Ret self) in
       let! r := free (unwrap (hp_registers self1)) in
       let! others := free (unwrap (registers_iter other)) in
       let! r' := t_for_each_enum 0 others (fun r i val => set_greater e SIZE_PLUS r i val) r in
       free (Ret (set_registers self1 (Some r'), ROk tt))).

(** hyperloglogplus.rs:470-527: [count]. *)
Definition t_hp_count {V : Type} (e : env) (ord : list N -> list N) (s : plus V) : T (plus V * f64) :=
  after 1
    (let! s := if is_sparse s then t_merge_sparse e ord s else free (Ret s) in
     match hp_registers s with
     | Some r =>
         let zeros := reg_zeros r in
         let corrected :=
           after (len (reg_iter SIZE_PLUS r)) (free (estimate_corrected e (hp_precision s) (reg_iter SIZE_PLUS r) (hp_counts0 s))) in
         if negb (zeros =? 0) then
           let! correction := free (linear_count e (hp_counts0 s) zeros) in
           let! t := free (threshold (hp_precision s)) in
           if fle correction t then free (Ret (s, correction))
           else let! raw := corrected in free (Ret (s, raw))
         else let! raw := corrected in free (Ret (s, raw))
     | None =>
         let! zeros := free (usub (overflow_checks e) (usize_bits e) (hp_counts1 s) (dif_count (hp_sparse s))) in
         let! c := free (linear_count e (hp_counts1 s) zeros) in
         free (Ret (s, c))
     end).

(** The integers that are written, or read, with a sketch. *)
Definition plus_elements {V : Type} (s : plus V) : N :=
  len (hp_tmpset s) + len (d_buf (hp_sparse s)) + match hp_registers s with Some r => len (r_buf r) | None => 0 end.

(** A program. *)
Fixpoint t_run_plus {V : Type} (e : env) (h : hist V) : T (plus V) :=
  match h with
  | HNew p b => after 1 (free (let* r := hp_new e p b in unwrap_res r))
  | HInsert _ ord h v => let! s := t_run_plus e h in t_hp_insert e ord s v
  | HMerge ord h1 h2 =>
      let! s1 := t_run_plus e h1 in
      let! s2 := t_run_plus e h2 in
      let! (s, _) := t_hp_merge e ord s1 s2 in
      free (Ret s)
  | HCount ord h =>
      let! s := t_run_plus e h in
      let! (s', _) := t_hp_count e ord s in
      free (Ret s')
  | HSerde ord ser_b de_b h =>
      let! s := t_run_plus e h in
      let! s' := free (unwrap (de_plus e de_b (ser_plus ord ser_b s))) in
      after (1 + plus_elements s + plus_elements s') (free (Ret s'))
  end.

(** hyperloglog.rs:68-197: HyperLogLogPF. *)
Definition t_pf_new {V : Type} (e : env) (p : N) (b : V -> N) : T (pf V) :=
  after 1 (let! s := free (let* r := pf_new e p b in unwrap_res r) in after (len (r_buf (pf_registers s))) (free (Ret s))).
Definition t_pf_insert {V : Type} (e : env) (s : pf V) (v : V) : T (pf V) := after 1 (free (pf_insert_impl e s v)).
Definition t_pf_merge {V W : Type} (e : env) (self : pf V) (other : pf W) : T (pf V * result unit) :=
  after 1
    (if negb (pf_precision self =? pf_precision other)
     then free (Ret (self, RErr IncompatiblePrecision))
     else
       let! r := t_for_each_enum 0 (reg_iter SIZE_PF (pf_registers other))
                   (fun r i val => set_greater e SIZE_PF r i val) (pf_registers self) in
       free (Ret (pf_set_registers self r, ROk tt))).
Definition t_pf_count {V : Type} (e : env) (s : pf V) : T f64 :=
  after (1 + len (reg_iter SIZE_PF (pf_registers s))) (free (pf_count_est e s)).
Fixpoint t_run_pf {V : Type} (e : env) (h : hist V) : T (pf V) :=
  match h with
  | HNew p b => t_pf_new e p b
  | HInsert _ _ h v => let! s := t_run_pf e h in t_pf_insert e s v
  | HMerge _ h1 h2 =>
      let! s1 := t_run_pf e h1 in
      let! s2 := t_run_pf e h2 in
      let! (s, _) := t_pf_merge e s1 s2 in
      free (Ret s)
  | HCount _ h =>
      let! s := t_run_pf e h in
      let! _ := t_pf_count e s in
      free (Ret s)
  | HSerde _ ser_b de_b h =>
      let! s := t_run_pf e h in
      let! s' := free (unwrap (de_pf e de_b (ser_pf ser_b s))) in
      after (1 + len (r_buf (pf_registers s)) + len (r_buf (pf_registers s'))) (free (Ret s'))
  end.
