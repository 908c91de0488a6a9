(** * /repo/src/hyperloglogplus.rs: HyperLogLogPlus *)
From Coq Require Import NArith ZArith List Bool.
From Verif Require Import ModelRust ModelF64 ModelEnv ModelRegisters ModelCommon ModelEncoding
  ModelConstants.
Import ListNotations.
Local Open Scope N_scope.

(** hyperloglogplus.rs:57-69: [struct HyperLogLogPlus].  As for HyperLogLogPF, the builder is
    the hash function it induces and [phantom] carries no data.  [counts] is the triple
    [(hp_counts0, hp_counts1, hp_counts2)]. *)
Record plus (V : Type) := Plus {
  hp_builder : V -> N;
  hp_precision : N;
  hp_counts0 : N;
  hp_counts1 : N;
  hp_counts2 : N;
  hp_tmpset : hset;
  hp_sparse : difintvec;
  hp_registers : option registers
}.
Arguments Plus {V}.
Arguments hp_builder {V}.
Arguments hp_precision {V}.
Arguments hp_counts0 {V}.
Arguments hp_counts1 {V}.
Arguments hp_counts2 {V}.
Arguments hp_tmpset {V}.
Arguments hp_sparse {V}.
Arguments hp_registers {V}.

(** hyperloglogplus.rs:77, 79, 81. *)
Definition MIN_PRECISION : N := 4.
Definition MAX_PRECISION : N := 18.
Definition PRIME_PRECISION : N := 25.

(** hyperloglogplus.rs:84-106: [new]. *)
Definition hp_new {V : Type} (e : env) (precision : N) (builder : V -> N)
  : M (result (plus V)) :=
  if (precision <? MIN_PRECISION) || (MAX_PRECISION <? precision)
  then Ret (RErr InvalidPrecision)
  else
    let* count := register_count e precision in
    let* count1 := register_count e (PRIME_PRECISION - 1) in
    let* count2 := size_in_bytes e SIZE_PLUS count in
    Ret (ROk {| hp_builder := builder; hp_precision := precision;
                hp_counts0 := count; hp_counts1 := count1; hp_counts2 := count2;
                hp_tmpset := []; hp_sparse := dif_new; hp_registers := None |}).

(** Field updates of [&mut self]. *)
Definition set_tmpset {V : Type} (s : plus V) (t : hset) : plus V :=
  {| hp_builder := hp_builder s; hp_precision := hp_precision s;
     hp_counts0 := hp_counts0 s; hp_counts1 := hp_counts1 s; hp_counts2 := hp_counts2 s;
     hp_tmpset := t; hp_sparse := hp_sparse s; hp_registers := hp_registers s |}.
Definition set_sparse {V : Type} (s : plus V) (d : difintvec) : plus V :=
  {| hp_builder := hp_builder s; hp_precision := hp_precision s;
     hp_counts0 := hp_counts0 s; hp_counts1 := hp_counts1 s; hp_counts2 := hp_counts2 s;
     hp_tmpset := hp_tmpset s; hp_sparse := d; hp_registers := hp_registers s |}.
Definition set_registers {V : Type} (s : plus V) (r : option registers) : plus V :=
  {| hp_builder := hp_builder s; hp_precision := hp_precision s;
     hp_counts0 := hp_counts0 s; hp_counts1 := hp_counts1 s; hp_counts2 := hp_counts2 s;
     hp_tmpset := hp_tmpset s; hp_sparse := hp_sparse s; hp_registers := r |}.

(** hyperloglogplus.rs:251-253: [is_sparse]. *)
Definition is_sparse {V : Type} (s : plus V) : bool :=
  match hp_registers s with None => true | Some _ => false end.

(** hyperloglogplus.rs:256-274: [encode_hash]; only the precision of self is used. *)
Definition encode_hash (e : env) (p hash : N) : M N :=
  let ck := overflow_checks e in
  (* line 257 *)
  let* idx := extract e 64 hash 64 (64 - PRIME_PRECISION) in
  (* lines 259-260 *)
  let* hi := usub ck 8 64 p in
  let* dif := extract e 64 hash hi (64 - PRIME_PRECISION) in
  if dif =? 0 then
    (* lines 264-265 *)
    let* h1 := ushl ck 64 hash PRIME_PRECISION in
    let* one := ushl ck 64 1 (PRIME_PRECISION - 1) in
    let hash' := N.lor h1 one in
    (* line 268 *)
    let* zeros := uadd ck 32 1 (leading_zeros 64 hash') in
    (* line 270 *)
    let* a := ushl ck 32 (cast 32 idx) 7 in
    let* b := ushl ck 32 zeros 1 in
    Ret (N.lor (N.lor a b) 1)
  else
    (* line 273 *)
    let* a := ushl ck 64 idx 1 in
    Ret (cast 32 a).

(** hyperloglogplus.rs:277-287: [index]. *)
Definition code_index (e : env) (p hash_code : N) : M N :=
  let ck := overflow_checks e in
  if N.land hash_code 1 =? 1 then
    let* lo := usub ck 8 32 p in
    let* x := extract e 32 hash_code 32 lo in
    Ret (cast (usize_bits e) x)
  else
    let* d := usub ck 8 PRIME_PRECISION p in
    let* lo := uadd ck 8 d 1 in
    let* x := extract e 32 hash_code (PRIME_PRECISION + 1) lo in
    Ret (cast (usize_bits e) x).

(** hyperloglogplus.rs:291-304: [decode_hash], returning (zeros, index). *)
Definition decode_hash (e : env) (p hash_code : N) : M (N * N) :=
  let ck := overflow_checks e in
  if N.land hash_code 1 =? 1 then
    let* z := extract e 32 hash_code 7 1 in
    let* d := usub ck 8 PRIME_PRECISION p in
    let* zeros := uadd ck 32 z d in
    let* i := code_index e p hash_code in
    Ret (zeros, i)
  else
    (* lines 300-301: 32 - PRIME_PRECISION + precision - 1, in u8 *)
    let* a := uadd ck 8 (32 - PRIME_PRECISION) p in
    let* b := usub ck 8 a 1 in
    let* h := ushl ck 32 hash_code b in
    let* zeros := uadd ck 32 (leading_zeros 32 h) 1 in
    let* i := code_index e p hash_code in
    Ret (zeros, i).

(** Decode a code and raise its register: the loop bodies at hyperloglogplus.rs:148-150,
    154-156 and 313-315. *)
Definition absorb_code (e : env) (p : N) (r : registers) (code : N) : M registers :=
  let* (zeros, i) := decode_hash e p code in
  set_greater e SIZE_PLUS r i zeros.

(** hyperloglogplus.rs:308-323: [sparse_to_normal]. *)
Definition sparse_to_normal {V : Type} (e : env) (s : plus V) : M (plus V) :=
  let* r0 := with_count e SIZE_PLUS (hp_counts0 s) in
  let* r := dif_for e (hp_sparse s) (absorb_code e (hp_precision s)) r0 in
  Ret (set_sparse (set_tmpset (set_registers s (Some r)) []) (dif_clear (hp_sparse s))).

(** hyperloglogplus.rs:340-373: the loop of [merge_sparse].  [set_opt]/[set_it] are
    [set_hash_option] and the rest of [set_iter], [buf_opt]/[buf_it] are [buf_hash_option] and
    [buf_iter], [out] is [buf]. *)
Definition set_next (l : list N) : option N * list N :=
  match l with
  | [] => (None, [])
  | x :: l' => (Some x, l')
  end.

Fixpoint merge_loop (fuel : nat) (e : env) (set_opt : option N) (set_it : list N)
    (buf_opt : option N) (buf_it : difiter) (out : difintvec) : M difintvec :=
  match fuel with
  | O => OutOfFuel
  | S fuel' =>
      match set_opt, buf_opt with
      | None, None => Ret out
      | None, Some b =>
          let* out' := dif_push e out b in
          let* (buf_opt', buf_it') := dif_next e buf_it in
          merge_loop fuel' e set_opt set_it buf_opt' buf_it' out'
      | Some a, None =>
          let* out' := dif_push e out a in
          let (set_opt', set_it') := set_next set_it in
          merge_loop fuel' e set_opt' set_it' buf_opt buf_it out'
      | Some a, Some b =>
          if a =? b then
            let* out' := dif_push e out a in
            let (set_opt', set_it') := set_next set_it in
            let* (buf_opt', buf_it') := dif_next e buf_it in
            merge_loop fuel' e set_opt' set_it' buf_opt' buf_it' out'
          else if b <? a then
            let* out' := dif_push e out b in
            let* (buf_opt', buf_it') := dif_next e buf_it in
            merge_loop fuel' e set_opt set_it buf_opt' buf_it' out'
          else
            let* out' := dif_push e out a in
            let (set_opt', set_it') := set_next set_it in
            merge_loop fuel' e set_opt' set_it' buf_opt buf_it out'
      end
  end.

(** hyperloglogplus.rs:327-382: [merge_sparse].  [ord] is the iteration order of the
    [HashSet] at line 328. *)
Definition merge_sparse {V : Type} (e : env) (ord : list N -> list N) (s : plus V)
  : M (plus V) :=
  let set_codes := sort (ord (hp_tmpset s)) in
  let (set_opt, set_it) := set_next set_codes in
  let* (buf_opt, buf_it) := dif_next e (dif_into_iter (hp_sparse s)) in
  let* buf := merge_loop (S (length set_codes + length (d_buf (hp_sparse s)))) e
                set_opt set_it buf_opt buf_it dif_new in
  let s' := set_tmpset (set_sparse s buf) [] in
  if hp_counts2 s' <? dif_len (hp_sparse s') then sparse_to_normal e s' else Ret s'.

(** hyperloglogplus.rs:137-139 and 230-232: flush the pending set when it is large. *)
Definition flush_if_full {V : Type} (e : env) (ord : list N -> list N) (s : plus V)
  : M (plus V) :=
  let* n100 := umul (overflow_checks e) (usize_bits e) (hset_len (hp_tmpset s)) 100 in
  if hp_counts2 s <? n100 then merge_sparse e ord s else Ret s.

(** hyperloglogplus.rs:193-235: [insert_impl] after the hash has been computed. *)
Definition hp_insert_hash {V : Type} (e : env) (ord : list N -> list N) (s : plus V) (hash : N)
  : M (plus V) :=
  let ck := overflow_checks e in
  let p := hp_precision s in
  match hp_registers s with
  | Some r =>
      (* line 209 *)
      let* sh := usub ck 8 64 p in
      let* i := ushr ck 64 hash sh in
      let i := cast (usize_bits e) i in
      (* line 212 *)
      let* h1 := ushl ck 64 hash p in
      let* pm1 := usub ck 8 p 1 in
      let* one := ushl ck 64 1 pm1 in
      let hash' := N.lor h1 one in
      (* line 215 *)
      let* zeros := uadd ck 32 1 (leading_zeros 64 hash') in
      (* line 218 *)
      let* r' := set_greater e SIZE_PLUS r i zeros in
      Ret (set_registers s (Some r'))
  | None =>
      (* lines 224-232 *)
      let* code := encode_hash e p hash in
      flush_if_full e ord (set_tmpset s (hset_insert (hp_tmpset s) code))
  end.

Definition hp_insert_impl {V : Type} (e : env) (ord : list N -> list N) (s : plus V) (v : V)
  : M (plus V) :=
  hp_insert_hash e ord s (cast 64 (hp_builder s v)).

(** hyperloglogplus.rs:185-190, 456-467: [insert_any], [add], [insert]. *)
Definition hp_insert_any {V : Type} (e : env) (ord : list N -> list N) (s : plus V) (v : V) :=
  hp_insert_impl e ord s v.
Definition hp_add {V : Type} (e : env) (ord : list N -> list N) (s : plus V) (v : V) :=
  hp_insert_impl e ord s v.
Definition hp_insert {V : Type} (e : env) (ord : list N -> list N) (s : plus V) (v : V) :=
  hp_insert_impl e ord s v.

(** hyperloglogplus.rs:243-247: [registers_iter]. *)
Definition registers_iter {V : Type} (s : plus V) : option (list N) :=
  match hp_registers s with
  | Some r => Some (reg_iter SIZE_PLUS r)
  | None => None
  end.

(** [Option::unwrap]. *)
Definition unwrap {A : Type} (o : option A) : M A :=
  match o with Some a => Ret a | None => Panic end.

(** hyperloglogplus.rs:112-182: [merge].  [ord] is used for the iteration over
    [other.tmpset] and, where it happens, over [self.tmpset] in [merge_sparse]. *)
Definition hp_merge {V W : Type} (e : env) (ord : list N -> list N) (self : plus V)
    (other : plus W) : M (plus V * result unit) :=
  if negb (hp_precision self =? hp_precision other)
  then Ret (self, RErr IncompatiblePrecision)
  else if is_sparse other then
    if is_sparse self then
      (* lines 129-139 *)
      let* t1 := for_each (ord (hp_tmpset other)) (fun t c => Ret (hset_insert t c))
                   (hp_tmpset self) in
      let* t2 := dif_for e (hp_sparse other) (fun t c => Ret (hset_insert t c)) t1 in
      let* s' := flush_if_full e ord (set_tmpset self t2) in
      Ret (s', ROk tt)
    else
      (* lines 145-157 *)
      let* r := unwrap (hp_registers self) in
      let* r1 := for_each (ord (hp_tmpset other)) (absorb_code e (hp_precision other)) r in
      let* r2 := dif_for e (hp_sparse other) (absorb_code e (hp_precision other)) r1 in
      Ret (set_registers self (Some r2), ROk tt)
  else
    (* lines 160-170 *)
    let* self1 :=
      if is_sparse self then
        let* s1 := merge_sparse e ord self in
        if is_sparse s1 then sparse_to_normal e s1 else Ret s1
      else Ret self in
    (* lines 173-178 *)
    let* r := unwrap (hp_registers self1) in
    let* others := unwrap (registers_iter other) in
    let* r' := for_each_enum 0 others (fun r i val => set_greater e SIZE_PLUS r i val) r in
    Ret (set_registers self1 (Some r'), ROk tt).

(** hyperloglogplus.rs:421-440: [threshold]; other precisions hit [unreachable!()]. *)
Definition threshold (precision : N) : M f64 :=
  match precision with
  | 4 => Ret (of_Z 10)
  | 5 => Ret (of_Z 10)
  | 6 => Ret (of_Z 40)
  | 7 => Ret (of_Z 80)
  | 8 => Ret (of_Z 220)
  | 9 => Ret (of_Z 400)
  | 10 => Ret (of_Z 900)
  | 11 => Ret (of_Z 1800)
  | 12 => Ret (of_Z 3100)
  | 13 => Ret (of_Z 6500)
  | 14 => Ret (of_Z 11500)
  | 15 => Ret (of_Z 20000)
  | 16 => Ret (of_Z 50000)
  | 17 => Ret (of_Z 120000)
  | 18 => Ret (of_Z 350000)
  | _ => Panic
  end.

(** hyperloglogplus.rs:404-417: interpolation between the neighbours found by the binary
    search; the comparator's [unwrap] panics on NaN. *)
Definition interpolate (e : env) (estimates biases : list f64) (raw : f64) : M f64 :=
  let* res := std_bsearch e (len estimates)
                (fun i => let* est := index estimates i in unwrap (fcmp est raw)) in
  let i := match res with BsOk i => i | BsErr i => i end in
  let* prv := usub (overflow_checks e) (usize_bits e) i 1 in
  let* ep := index estimates prv in
  let* ei := index estimates i in
  let* bp := index biases prv in
  let* bi := index biases i in
  let ratio := fdiv (fsub raw ep) (fsub ei ep) in
  Ret (fadd bp (fmul ratio (fsub bi bp))).

(** hyperloglogplus.rs:385-417: [estimate_bias]; only the precision of self is used. *)
Definition estimate_bias (e : env) (p : N) (raw : f64) : M f64 :=
  let* t := usub (overflow_checks e) 8 p MIN_PRECISION in
  let* biases := index BIAS_DATA t in
  let* estimates := index RAW_ESTIMATE_DATA t in
  let* e0 := index estimates 0 in
  if fle raw e0 then index biases 0
  else
    let* ln := usub (overflow_checks e) (usize_bits e) (len estimates) 1 in
    let* elast := index estimates ln in
    if fle elast raw then
      let* lb := usub (overflow_checks e) (usize_bits e) (len biases) 1 in
      index biases lb
    else interpolate e estimates biases raw.

(** hyperloglogplus.rs:490-500 and 504-514: raw estimate with bias correction. *)
Definition estimate_corrected (e : env) (p : N) (regs : list N) (count : N) : M f64 :=
  let* raw := estimate_raw_plus e regs count in
  if fle raw (fmul (of_Z 5) (of_N count)) then
    let* bias := estimate_bias e p raw in
    Ret (fsub raw bias)
  else Ret raw.

(** hyperloglogplus.rs:470-527: [count]; returns the modified self and the estimate. *)
Definition hp_count {V : Type} (e : env) (ord : list N -> list N) (s : plus V)
  : M (plus V * f64) :=
  let* s := if is_sparse s then merge_sparse e ord s else Ret s in
  match hp_registers s with
  | Some r =>
      let zeros := reg_zeros r in
      if negb (zeros =? 0) then
        let* correction := linear_count e (hp_counts0 s) zeros in
        let* t := threshold (hp_precision s) in
        if fle correction t then Ret (s, correction)
        else
          let* raw := estimate_corrected e (hp_precision s) (reg_iter SIZE_PLUS r) (hp_counts0 s) in
          Ret (s, raw)
      else
        let* raw := estimate_corrected e (hp_precision s) (reg_iter SIZE_PLUS r) (hp_counts0 s) in
        Ret (s, raw)
  | None =>
      let* zeros := usub (overflow_checks e) (usize_bits e) (hp_counts1 s)
                      (dif_count (hp_sparse s)) in
      let* c := linear_count e (hp_counts1 s) zeros in
      Ret (s, c)
  end.
