(** * The bias tables: what is checked by computation *)
From Coq Require Import NArith ZArith Reals Lra Lia List Bool.
From Flocq Require Import Core BinarySingleNaN.
From Verif Require Import ModelRust ModelF64 ModelEnv ModelCommon ModelConstants ModelPlus
  SpecReal SpecBuild BitFacts F64Facts RawFacts.
Import ListNotations.
Local Open Scope R_scope.

(** ** Checked facts about the tables *)

(** Every literal of the tables is converted without double rounding. *)
Definition dec_ok (nk : Z * N) : bool := (Z.abs (fst nk) <=? 2 ^ 53)%Z && (snd nk <=? 22)%N.

Lemma tables_decimal :
  forallb (forallb dec_ok) raw_dec && forallb (forallb dec_ok) bias_dec = true.
Proof. vm_compute. reflexivity. Qed.

Lemma decimals_correct : forall l i n k, forallb dec_ok l = true ->
  nth_error l i = Some (n, k) ->
  exists x, nth_error (decimals l) i = Some x /\ is x (rnd (IZR n / 10 ^ N.to_nat k)).
Proof.
  intros l i n k Hl Hi. rewrite forallb_forall in Hl.
  specialize (Hl _ (nth_error_In _ _ Hi)). unfold dec_ok in Hl. simpl in Hl.
  apply andb_true_iff in Hl. destruct Hl as [Hn Hk].
  apply Z.leb_le in Hn. apply N.leb_le in Hk.
  exists (lit n k). split; [unfold decimals; now rewrite nth_error_map, Hi|].
  now apply lit_correct.
Qed.

(** Checks on one pair of tables, in f64 arithmetic. *)
Definition entry_ok (m : f64) (eb : f64 * f64) : bool :=
  let (e, b) := eb in
  is_finite e && is_finite b && fle pzero e && fle e (fmul (of_Z 5) m) &&
  fle (fsub pzero m) b && fle b m && fle b (fsub e (lit 99 2)).

Fixpoint distinct_ok (l : list f64) : bool :=
  match l with
  | x :: (y :: _) as l' => (flt x y || flt y x) && distinct_ok l'
  | _ => true
  end.

Definition table_ok (p : N) (E B : list f64) : bool :=
  let m := of_N (2 ^ p) in
  Nat.eqb (length E) (length B) && Nat.leb 2 (length E) &&
  forallb (entry_ok m) (combine E B) && distinct_ok E &&
  match B with
  | b0 :: _ => fle b0 (fsub (fmul (alpha (2 ^ p)) m) (lit 25 2))
  | [] => false
  end.

Definition precisions : list N := map N.of_nat (seq 4 15).

Lemma tables_ok :
  forallb (fun p => table_ok p (nth (N.to_nat (p - 4)) RAW_ESTIMATE_DATA [])
                                (nth (N.to_nat (p - 4)) BIAS_DATA [])) precisions = true.
Proof. vm_compute. reflexivity. Qed.

