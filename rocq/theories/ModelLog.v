(** * /repo/src/log.rs: the natural logarithm used without std *)
From Coq Require Import NArith ZArith List Bool.
From Flocq Require Import Core BinarySingleNaN.
From Flocq Require Binary Bits.
From Verif Require Import ModelRust ModelF64.
Local Open Scope N_scope.

(** [f64::from_bits], [f64::to_bits].  All NaN patterns map to the one NaN of the model, and
    [to_bits] gives the quiet NaN pattern; [log_bits] below works on the pattern itself, so
    every NaN pattern is covered. *)
Definition from_bits (b : N) : f64 := Binary.B2BSN 53 1024 (Bits.b64_of_bits (Z.of_N b)).
Definition to_bits (x : f64) : N :=
  Z.to_N (Bits.bits_of_b64 (Binary.BSN2B 53 1024 Bits.default_nan_pl64 x)).

(** [i32] arithmetic (only [k] in [log]): panic or wrap when out of range. *)
Definition i32 (ck : bool) (z : Z) : M Z :=
  if ((- 2 ^ 31 <=? z) && (z <? 2 ^ 31))%Z then Ret z
  else if ck then Panic else Ret ((z + 2 ^ 31) mod 2 ^ 32 - 2 ^ 31)%Z.

(** log.rs:66-74.  The source gives decimal literals and, in comments, the binary64 patterns
    they denote; the patterns are used here, and [LogConst.log_constants] proves that each is
    the correctly rounded value of its decimal literal. *)
Definition LN2_HI : f64 := from_bits 0x3fe62e42fee00000.
Definition LN2_LO : f64 := from_bits 0x3dea39ef35793c76.
Definition LG1 : f64 := from_bits 0x3FE5555555555593.
Definition LG2 : f64 := from_bits 0x3FD999999997FA04.
Definition LG3 : f64 := from_bits 0x3FD2492494229359.
Definition LG4 : f64 := from_bits 0x3FCC71C51D8E78AF.
Definition LG5 : f64 := from_bits 0x3FC7466496CB03DE.
Definition LG6 : f64 := from_bits 0x3FC39A09D078C69F.
Definition LG7 : f64 := from_bits 0x3FC2F112DF3E5244.

(** log.rs:110-119: the polynomial part, from the reduced [x] and [k]. *)
Definition log_poly (x : f64) (k : Z) : f64 :=
  let f := fsub x (of_Z 1) in
  let hfsq := fmul (fmul (lit 5 1) f) f in
  let s := fdiv f (fadd (of_Z 2) f) in
  let z := fmul s s in
  let w := fmul z z in
  let t1 := fmul w (fadd LG2 (fmul w (fadd LG4 (fmul w LG6)))) in
  let t2 := fmul z (fadd LG1 (fmul w (fadd LG3 (fmul w (fadd LG5 (fmul w LG7)))))) in
  let r := fadd t2 t1 in
  let dk := of_Z k in
  fadd (fadd (fsub (fadd (fmul s (fadd hfsq r)) (fmul dk LN2_LO)) hfsq) f) (fmul dk LN2_HI).

(** log.rs:103-108: reduction of the pattern [ui] (with [hx] its upper half) into
    [sqrt(2)/2, sqrt(2)], and the rest of the function. *)
Definition log_reduce (ck : bool) (ui : N) (k : Z) : M f64 :=
  let hx := N.shiftr ui 32 in
  let* hx1 := uadd ck 32 hx (0x3ff00000 - 0x3fe6a09e) in
  let* k1 := i32 ck (Z.of_N (N.shiftr hx1 20) - 0x3ff) in
  let* k2 := i32 ck (k + k1) in
  let* hx2 := uadd ck 32 (N.land hx1 0x000fffff) 0x3fe6a09e in
  let ui' := N.lor (N.shiftl hx2 32) (N.land ui 0xffffffff) in
  Ret (log_poly (from_bits ui') k2).

(** log.rs:77-120: [log], on the bit pattern [ui] of its argument. *)
Definition log_bits (ck : bool) (ui : N) : M f64 :=
  let x1p54 := from_bits 0x4350000000000000 in
  let x := from_bits ui in
  let hx := cast 32 (N.shiftr ui 32) in
  if (hx <? 0x00100000) || negb (N.shiftr hx 31 =? 0) then
    (* log.rs:84-96 *)
    if cast 64 (N.shiftl ui 1) =? 0 then Ret (fdiv (of_Z (-1)) (fmul x x))
    else if negb (N.shiftr hx 31 =? 0) then Ret (fdiv (fsub x x) pzero)
    else
      let* k := i32 ck (0 - 54) in
      log_reduce ck (to_bits (fmul x x1p54)) k
  else if 0x7ff00000 <=? hx then Ret x
  else if (hx =? 0x3ff00000) && (cast 64 (N.shiftl ui 32) =? 0) then Ret pzero
  else log_reduce ck ui 0.

(** log.rs:77: [log(x)]. *)
Definition log (ck : bool) (x : f64) : M f64 := log_bits ck (to_bits x).
