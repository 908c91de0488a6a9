(** * Interval arithmetic over unbounded integers

    The [interval] tactic as shipped computes with the machine's floats and 63-bit integers,
    whose behaviour Coq takes as axioms.  Here the same library's interval operations are
    applied to floats over Coq's own [Z], with a small evaluator for expressions. *)
From Coq Require Import Reals ZArith Lra Lia List Bool.
From Interval Require Import Xreal Interval Specific_stdz Specific_ops Float_full.
Module FloatZ := SpecificFloat StdZRadix2.
Module IZ := FloatIntervalFull FloatZ.
Local Open Scope R_scope.

Inductive expr :=
| EZ (z : Z)
| EV (i : nat)
| EAdd (a b : expr)
| ESub (a b : expr)
| EMul (a b : expr)
| EDiv (a b : expr)
| EInv (a : expr)
| ENeg (a : expr)
| EAbs (a : expr)
| ELn (a : expr).

Fixpoint reval (env : list R) (e : expr) : R :=
  match e with
  | EZ z => IZR z
  | EV i => nth i env 0
  | EAdd a b => reval env a + reval env b
  | ESub a b => reval env a - reval env b
  | EMul a b => reval env a * reval env b
  | EDiv a b => reval env a / reval env b
  | EInv a => / reval env a
  | ENeg a => - reval env a
  | EAbs a => Rabs (reval env a)
  | ELn a => ln (reval env a)
  end.

Fixpoint xeval (env : list R) (e : expr) : ExtendedR :=
  match e with
  | EZ z => Xreal (IZR z)
  | EV i => Xreal (nth i env 0)
  | EAdd a b => Xadd (xeval env a) (xeval env b)
  | ESub a b => Xsub (xeval env a) (xeval env b)
  | EMul a b => Xmul (xeval env a) (xeval env b)
  | EDiv a b => Xdiv (xeval env a) (xeval env b)
  | EInv a => Xinv (xeval env a)
  | ENeg a => Xneg (xeval env a)
  | EAbs a => Xabs (xeval env a)
  | ELn a => Xln (xeval env a)
  end.

Fixpoint ieval (prec : Z) (env : list IZ.type) (e : expr) : IZ.type :=
  match e with
  | EZ z => IZ.fromZ prec z
  | EV i => nth i env IZ.nai
  | EAdd a b => IZ.add prec (ieval prec env a) (ieval prec env b)
  | ESub a b => IZ.sub prec (ieval prec env a) (ieval prec env b)
  | EMul a b => IZ.mul prec (ieval prec env a) (ieval prec env b)
  | EDiv a b => IZ.div prec (ieval prec env a) (ieval prec env b)
  | EInv a => IZ.inv prec (ieval prec env a)
  | ENeg a => IZ.neg (ieval prec env a)
  | EAbs a => IZ.abs (ieval prec env a)
  | ELn a => IZ.ln prec (ieval prec env a)
  end.

Lemma xeval_reval : forall env e r, xeval env e = Xreal r -> reval env e = r.
Proof.
  intros env. induction e; cbn [xeval reval]; intros r E;
    try (injection E as <-; reflexivity);
    try (destruct (xeval env e1) as [|r1]; [discriminate|]; destruct (xeval env e2) as [|r2];
         [discriminate|]; rewrite (IHe1 r1), (IHe2 r2) by reflexivity);
    try (destruct (xeval env e) as [|r1]; [discriminate|]; rewrite (IHe r1) by reflexivity);
    try (injection E as <-; reflexivity).
  - cbn in E. unfold Xdiv' in E. destruct (is_zero r2); [discriminate|]. now injection E.
  - cbn in E. unfold Xinv' in E. destruct (is_zero r1); [discriminate|]. now injection E.
  - cbn in E. unfold Xln' in E. destruct (is_positive r1); [|discriminate]. now injection E.
Qed.

Definition within (env : list R) (ienv : list IZ.type) : Prop :=
  Forall2 (fun r i => contains (IZ.convert i) (Xreal r)) env ienv.

Lemma ieval_xeval : forall prec env ienv e, within env ienv ->
  contains (IZ.convert (ieval prec ienv e)) (xeval env e).
Proof.
  intros prec env ienv e W. induction e; cbn [xeval ieval].
  - apply IZ.fromZ_correct.
  - revert i. induction W as [|r x env ienv C W IH]; intros [|i]; cbn [nth];
      try (rewrite IZ.nai_correct; exact I); auto.
  - now apply IZ.add_correct.
  - now apply IZ.sub_correct.
  - now apply IZ.mul_correct.
  - now apply IZ.div_correct.
  - now apply IZ.inv_correct.
  - now apply IZ.neg_correct.
  - now apply IZ.abs_correct.
  - now apply IZ.ln_correct.
Qed.

Definition nonneg (prec : Z) (ienv : list IZ.type) (e : expr) : bool :=
  match IZ.sign_large (ieval prec ienv e) with Xeq | Xgt => true | _ => false end.

Lemma nonneg_ok : forall prec env ienv e, within env ienv -> nonneg prec ienv e = true ->
  0 <= reval env e.
Proof.
  intros prec env ienv e W H. unfold nonneg in H.
  pose proof (IZ.sign_large_correct (ieval prec ienv e)) as S.
  pose proof (ieval_xeval prec env ienv e W) as C.
  destruct (IZ.sign_large _); try discriminate.
  - apply S in C. apply xeval_reval in C. rewrite C. lra.
  - apply S in C. destruct C as [E L]. apply xeval_reval in E. rewrite E. exact L.
Qed.

(** The interval between two rationals, cut in [n] pieces. *)
Definition piece (prec : Z) (a b : Z) (d : Z) (n i : Z) : IZ.type :=
  IZ.join
    (IZ.div prec (IZ.fromZ prec (a * n + (b - a) * i)) (IZ.fromZ prec (d * n)))
    (IZ.div prec (IZ.fromZ prec (a * n + (b - a) * (i + 1))) (IZ.fromZ prec (d * n))).

Lemma ratio_in : forall prec x y, (0 < y)%Z ->
  contains (IZ.convert (IZ.div prec (IZ.fromZ prec x) (IZ.fromZ prec y))) (Xreal (IZR x / IZR y)).
Proof.
  intros prec x y Hy.
  pose proof (IZ.div_correct prec _ _ _ _ (IZ.fromZ_correct prec x) (IZ.fromZ_correct prec y)) as H.
  unfold Xdiv, Xbind2, Xdiv' in H. rewrite is_zero_false in H; [exact H|].
  apply IZR_lt in Hy. lra.
Qed.

Lemma piece_in : forall prec a b d n i x, (0 < d)%Z -> (0 < n)%Z ->
  IZR (a * n + (b - a) * i) / IZR (d * n) <= x <= IZR (a * n + (b - a) * (i + 1)) / IZR (d * n) ->
  contains (IZ.convert (piece prec a b d n i)) (Xreal x).
Proof.
  intros prec a b d n i x Hd Hn Hx.
  apply (contains_connected (IZ.convert (piece prec a b d n i)) _ _
    (IZ.join_correct _ _ _ (or_introl (ratio_in prec (a * n + (b - a) * i) (d * n) ltac:(lia))))
    (IZ.join_correct _ _ _ (or_intror (ratio_in prec (a * n + (b - a) * (i + 1)) (d * n) ltac:(lia))))).
  exact Hx.
Qed.

Fixpoint pieces_ok (f : Z -> bool) (k : nat) : bool :=
  match k with
  | O => true
  | S k => f (Z.of_nat k) && pieces_ok f k
  end.

Lemma pieces_first : forall f k, pieces_ok f (S k) = true -> f 0%Z = true.
Proof.
  intros f. induction k as [|k IH]; intros H; apply andb_true_iff in H.
  - exact (proj1 H).
  - apply IH. exact (proj2 H).
Qed.

Lemma pieces_cover : forall f k a b d n (x : R) (P : Prop), (0 < d)%Z -> (0 < n)%Z -> (a <= b)%Z ->
  pieces_ok f k = true ->
  (forall i, f i = true ->
    IZR (a * n + (b - a) * i) / IZR (d * n) <= x <= IZR (a * n + (b - a) * (i + 1)) / IZR (d * n) ->
    P) ->
  IZR (a * n) / IZR (d * n) <= x -> x <= IZR (a * n + (b - a) * Z.of_nat k) / IZR (d * n) ->
  P \/ x <= IZR (a * n) / IZR (d * n).
Proof.
  intros f k a b d n x P Hd Hn Hab. induction k as [|k IH]; intros H HP L U.
  - right. rewrite Z.mul_0_r, Z.add_0_r in U. exact U.
  - cbn [pieces_ok] in H. apply andb_true_iff in H. destruct H as [Hf H].
    destruct (Rle_dec x (IZR (a * n + (b - a) * Z.of_nat k) / IZR (d * n))) as [G|G].
    + apply IH; auto.
    + left. apply (HP _ Hf). split; [lra|]. replace (Z.of_nat k + 1)%Z with (Z.of_nat (S k)) by lia.
      exact U.
Qed.

Lemma cut_ok : forall prec e a b d k x, (0 < d)%Z -> (a <= b)%Z -> (0 < k)%nat ->
  pieces_ok (fun i => nonneg prec (piece prec a b d (Z.of_nat k) i :: nil) e) k = true ->
  IZR a / IZR d <= x <= IZR b / IZR d -> 0 <= reval (x :: nil) e.
Proof.
  intros prec e a b d k x Hd Hab Hk H [L U]. set (n := Z.of_nat k) in *.
  assert (Hn : (0 < n)%Z) by (unfold n; lia).
  assert (Dp : 0 < IZR d) by (now apply IZR_lt). assert (Np : 0 < IZR n) by (now apply IZR_lt).
  assert (S : forall y, IZR (y * n) / IZR (d * n) = IZR y / IZR d).
  { intros y. rewrite !mult_IZR. field. lra. }
  assert (K : forall i, nonneg prec (piece prec a b d n i :: nil) e = true ->
    IZR (a * n + (b - a) * i) / IZR (d * n) <= x <=
      IZR (a * n + (b - a) * (i + 1)) / IZR (d * n) -> 0 <= reval (x :: nil) e).
  { intros i Hi Hx. eapply nonneg_ok; [|exact Hi]. constructor; [|constructor].
    now apply piece_in. }
  destruct (pieces_cover _ k a b d n x _ Hd Hn Hab H K) as [G|G]; auto.
  - rewrite S. exact L.
  - fold n. replace (a * n + (b - a) * n)%Z with (b * n)%Z by ring. rewrite S. exact U.
  - destruct k as [|k]; [lia|].
    assert (F : nonneg prec (piece prec a b d n 0 :: nil) e = true).
    { exact (pieces_first _ k H). }
    apply (K 0%Z F). rewrite Z.mul_0_r, Z.add_0_r. rewrite S in *. split; [lra|].
    apply Rle_trans with (IZR a / IZR d); [lra|]. rewrite <- (S a).
    apply Rmult_le_compat_r.
    + apply Rlt_le, Rinv_0_lt_compat. rewrite mult_IZR. apply Rmult_lt_0_compat; lra.
    + apply IZR_le. lia.
Qed.

(** ** Tactics *)
Lemma le_diff : forall a b, 0 <= b - a -> a <= b.
Proof. intros a b H. lra. Qed.

Ltac reify_nat_pow x n :=
  lazymatch n with O => constr:(1) | S ?k => let r := reify_nat_pow x k in constr:(x * r) end.

Ltac reify x t :=
  lazymatch t with
  | x => constr:(EV 0)
  | IZR ?z => constr:(EZ z)
  | Q2R (QArith_base.Qmake ?n ?d) => constr:(EDiv (EZ n) (EZ (Zpos d)))
  | ?a + ?b => let a := reify x a in let b := reify x b in constr:(EAdd a b)
  | ?a - ?b => let a := reify x a in let b := reify x b in constr:(ESub a b)
  | ?a * ?b => let a := reify x a in let b := reify x b in constr:(EMul a b)
  | ?a / ?b => let a := reify x a in let b := reify x b in constr:(EDiv a b)
  | / ?a => let a := reify x a in constr:(EInv a)
  | - ?a => let a := reify x a in constr:(ENeg a)
  | Rabs ?a => let a := reify x a in constr:(EAbs a)
  | ln ?a => let a := reify x a in constr:(ELn a)
  end.

(* a <= b without variables *)
Ltac bound_const prec :=
  apply le_diff;
  lazymatch goal with |- 0 <= ?t =>
    let e := reify 0%nat t in
    refine (nonneg_ok prec nil nil e (Forall2_nil _) _); vm_compute; reflexivity
  end.

(* a <= b for x between the rationals [a / d] and [b / d], cut in [k] pieces *)
Ltac bound_cut prec x a b d k :=
  apply le_diff;
  lazymatch goal with |- 0 <= ?t =>
    let e := reify x t in
    refine (cut_ok prec e a b d k x _ _ _ _ _);
    [reflexivity|discriminate|repeat constructor|vm_compute; reflexivity|try lra]
  end.
