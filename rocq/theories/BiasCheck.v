(** * The bias tables against the theory, by computation

    For each cell of the grid of cardinalities and each precision: the raw estimate expected there,
    corrected by the interpolated bias, is the cardinality up to 1%.  Estimates are in units of
    [m / 2^56]. *)
From Coq Require Import NArith ZArith Reals List Bool Lia Lra.
From Flocq Require Import Core BinarySingleNaN.
From Verif Require Import ModelRust ModelF64 ModelEnv ModelCommon ModelConstants ModelPlus
  SpecReal SpecBuild BitFacts F64Facts RawFacts BiasTables BiasFacts BiasMono HarmonicNum MeanTable MeanRows.
Import ListNotations.

(** ** The points *)
Local Open Scope Z_scope.
Definition U : Z := 2 ^ 56.

(** The raw estimates are multiples of the unit, the biases are rounded down. *)
Definition fix_ (p : N) (x : f64) : option Z :=
  match x with
  | B754_zero _ => Some 0
  | B754_finite s m e _ => if 0 <=? e + 56 - Z.of_N p then Some (cond_Zopp s (Zpos m) * 2 ^ (e + 56 - Z.of_N p)) else None
  | _ => None
  end.
Definition floor_ (p : N) (x : f64) : option Z :=
  match x with
  | B754_zero _ => Some 0
  | B754_finite s m e _ =>
      Some (if 0 <=? e + 56 - Z.of_N p then cond_Zopp s (Zpos m) * 2 ^ (e + 56 - Z.of_N p)
            else cond_Zopp s (Zpos m) / 2 ^ (- (e + 56 - Z.of_N p)))
  | _ => None
  end.

(** A raw estimate and what remains after the correction, rounded up. *)
Fixpoint points (p : N) (E B : list f64) : option (list (Z * Z)) :=
  match E, B with
  | e :: E, b :: B =>
      match fix_ p e, floor_ p b, points p E B with
      | Some u, Some w, Some l => Some ((u, u - w) :: l)
      | _, _, _ => None
      end
  | [], [] => Some []
  | _, _ => None
  end.

Fixpoint consec (l : list (Z * Z)) : list ((Z * Z) * (Z * Z)) :=
  match l with a :: ((b :: _) as t) => (a, b) :: consec t | _ => [] end.

Definition seg_ok (s : (Z * Z) * (Z * Z)) : bool := let '((u0, _), (u1, _)) := s in u0 <? u1.

(** The segments from left to right; to the left and right of the table the bias is constant. *)
Definition track (l : list (Z * Z)) : list ((Z * Z) * (Z * Z)) :=
  let a := nth 0 l (0, 0) in let b := nth (length l - 1) l (0, 0) in
  ((0, snd a - fst a), a) :: consec l ++ [(b, (8 * U, snd b + (8 * U - fst b)))].

Fixpoint drop (w : Z) (ss : list ((Z * Z) * (Z * Z))) : list ((Z * Z) * (Z * Z)) :=
  match ss with s :: t => if fst (snd s) <? w then drop w t else ss | [] => [] end.

(** ** A cell *)
(** [2^92 alpha], and [2^56 alpha] over a mean [a / 2^36] with a margin for rounding. *)
Definition c_al (p : N) : Z := 7213 * 2 ^ Z.of_N p * 2 ^ 92 / (10000 * 2 ^ Z.of_N p + 10790).
Definition r_hi (al a : Z) : Z := let r := (al + 1) / a + 1 in r + (Z.shiftr r 33 + 1).
Definition r_lo (al a : Z) : Z := let r := al / a in r - (Z.shiftr r 33 + 1).

(** The correction at [w] is at most 1.01 i/2^18, at least 0.99 j/2^18. *)
Definition up_at (i w : Z) (s : (Z * Z) * (Z * Z)) : bool :=
  let '((u0, v0), (u1, v1)) := s in
  (u0 <=? w) && (w <=? u1) && (100 * (v0 * (u1 - w) + v1 * (w - u0)) <=? 101 * (i * 2 ^ 38) * (u1 - u0)).
Definition lo_at (j w : Z) (s : (Z * Z) * (Z * Z)) : bool :=
  let '((u0, v0), (u1, v1)) := s in
  (u0 <=? w) && (w <=? u1) && (99 * (j * 2 ^ 38) * (u1 - u0) <=? 100 * ((v0 - 1) * (u1 - w) + (v1 - 1) * (w - u0))).

(** Up to [n/m = 4.695] and 17.25% more the estimate is below 5m. *)
Definition under (i w : Z) : bool := (w <? 5 * U) || (1230800 <? i).

Fixpoint walk (al i a1 : Z) (rs : list (Z * Z * Z)) (su sl : list ((Z * Z) * (Z * Z))) : bool :=
  match rs with
  | [] => true
  | (j, a0, b1) :: rs =>
      let hi := r_hi al a0 in let lo := r_lo al a1 in
      match drop hi su, drop lo sl with
      | (s :: _) as su', (s' :: _) as sl' =>
          if (0 <? lo) && (hi <? 8 * U) && under i hi && up_at i hi s && lo_at j lo s' then walk al j b1 rs su' sl' else false
      | _, _ => false
      end
  end.

(** The correction at 5m; at the end of the grid the estimate is above 5m. *)
Definition top_at (s : (Z * Z) * (Z * Z)) : bool :=
  let '((u0, v0), (u1, v1)) := s in let w := 5 * U in
  if (u0 <=? w) && (w <=? u1) then 100 * (v0 * (u1 - w) + v1 * (w - u0)) <=? 502 * U * (u1 - u0) else false.

Definition table_check (p : N) : bool :=
  match points p (est_table p) (bias_table p), rows with
  | Some l, (i, _, a1) :: rs => let ss := track l in let al := c_al p in
      forallb seg_ok ss && existsb top_at ss && (5 * U <? r_lo al (snd (last rows (0, 0, 0)))) && walk al i a1 rs ss ss
  | _, _ => false
  end.
