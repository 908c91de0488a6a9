(** * Facts about formatting *)
From Coq Require Import String.
From Coq Require Import NArith Arith List Bool Ascii Lia.
From Verif Require Import ModelCommon ModelError ModelFormat SpecFormat.
Import ListNotations.
Local Open Scope N_scope.

Lemma size_app : forall a b, size (a ++ b) = size a + size b.
Proof. intros. unfold size. rewrite app_length. lia. Qed.

Lemma concat_fill : forall f n, concat (write_fill f n) = repeat (f_fill f) (N.to_nat n).
Proof. intros f n. unfold write_fill. induction (N.to_nat n) as [|k IH]; [reflexivity|]. cbn. now rewrite IH. Qed.

Lemma repeat_all : forall (l : list N) c, Forall (fun x => x = c) l <-> l = repeat c (length l).
Proof.
  induction l as [|x l IH]; intros c; [split; [reflexivity|constructor]|]. cbn. split.
  - intros H. inversion H; subst. f_equal. now apply IH.
  - intros E. injection E as -> E. constructor; [reflexivity|]. now apply IH.
Qed.

Definition trunc (precision : option N) (s : list N) : list N := match precision with Some max => firstn (N.to_nat max) s | None => s end.

Lemma cut_spec : forall precision s t, cut precision s t <-> t = trunc precision s.
Proof.
  intros precision s t. split.
  - intros ((rest & ->) & H). rewrite size_app in H. unfold size in H. destruct precision as [max|]; cbn [trunc].
    + rewrite firstn_app. destruct (N.le_gt_cases max (N.of_nat (length t))) as [L|L].
      * replace (N.to_nat max - length t)%nat with O by lia. rewrite app_nil_r. rewrite firstn_all2; [reflexivity|]. lia.
      * assert (rest = []) by (destruct rest; [reflexivity|cbn [length] in H; lia]). subst rest. rewrite firstn_nil, app_nil_r, firstn_all2; [reflexivity|lia].
    + assert (rest = []) by (destruct rest; [reflexivity|cbn [length] in H; lia]). subst rest. now rewrite app_nil_r.
  - intros ->. destruct precision as [max|]; cbn [trunc]; split.
    + exists (skipn (N.to_nat max) s). symmetry. apply firstn_skipn.
    + unfold size. rewrite firstn_length. lia.
    + exists []. now rewrite app_nil_r.
    + reflexivity.
Qed.

Lemma pad_text : forall f s, concat (pad f s) =
  let t := trunc (f_precision f) s in
  match f_width f with
  | None => t
  | Some w => if w <=? size t then t else
      let (pre, post) := padding f (w - size t) Left in repeat (f_fill f) (N.to_nat pre) ++ t ++ repeat (f_fill f) (N.to_nat post)
  end.
Proof.
  intros f s. unfold pad.
  assert (T : (match f_precision f with Some max => if max <? N.of_nat (length s) then firstn (N.to_nat max) s else s | None => s end) = trunc (f_precision f) s).
  { destruct (f_precision f) as [max|]; [|reflexivity]. cbn. destruct (N.ltb_spec max (N.of_nat (length s))); [reflexivity|]. rewrite firstn_all2; [reflexivity|lia]. }
  destruct (f_width f) as [w|].
  - rewrite T. cbv zeta. fold (size (trunc (f_precision f) s)). set (t := trunc (f_precision f) s).
    assert (X : concat (if w <=? size t then [t] else let (pre, post) := padding f (w - size t) Left in write_fill f pre ++ [t] ++ write_fill f post) =
      if w <=? size t then t else let (pre, post) := padding f (w - size t) Left in repeat (f_fill f) (N.to_nat pre) ++ t ++ repeat (f_fill f) (N.to_nat post)).
    { destruct (w <=? size t); [apply app_nil_r|]. destruct (padding f (w - size t) Left) as (pre, post).
      rewrite !concat_app, !concat_fill. cbn [concat]. now rewrite app_nil_r. }
    destruct (f_precision f); exact X.
  - destruct (f_precision f) as [max|]; cbn [concat]; rewrite app_nil_r; [cbv zeta in *; exact T|reflexivity].
Qed.

Lemma half : forall k, k / 2 + (k + 1) / 2 = k /\ k / 2 <= (k + 1) / 2 <= k / 2 + 1.
Proof.
  intros k. pose proof (N.div_mod k 2 ltac:(discriminate)) as A. pose proof (N.mod_lt k 2 ltac:(discriminate)) as B.
  pose proof (N.div_mod (k + 1) 2 ltac:(discriminate)) as C. pose proof (N.mod_lt (k + 1) 2 ltac:(discriminate)) as D.
  generalize dependent (k mod 2). generalize dependent ((k + 1) mod 2). generalize dependent (k / 2). generalize dependent ((k + 1) / 2). intros. lia.
Qed.

Lemma pad_spec : forall f s out, formatted f s out <-> out = concat (pad f s).
Proof.
  intros f s out. rewrite pad_text. cbv zeta. set (t := trunc (f_precision f) s). split.
  - intros (t' & C & (a & b & -> & F & Z & A)). apply cut_spec in C. fold t in C. subst t'. rewrite !size_app in Z. apply Forall_app in F as (FA & FB). apply repeat_all in FA, FB.
    destruct (f_width f) as [w|].
    + destruct (N.leb_spec w (size t)) as [L|L].
      * assert (a = []) by (destruct a; [reflexivity|unfold size in *; cbn [length] in *; lia]).
        assert (b = []) by (destruct b; [reflexivity|unfold size in *; cbn [length] in *; lia]). subst. apply app_nil_r.
      * assert (E : size a + size b = w - size t) by lia. clear Z L. unfold padding. generalize dependent (w - size t). intros k E.
        destruct (f_align f) as [[| |]|]; [subst a|subst b| |subst a]; unfold size in *; cbn [length app] in *.
        -- change (N.to_nat 0) with O. cbn [repeat app]. rewrite FB at 1. do 2 f_equal. lia.
        -- change (N.to_nat 0) with O. cbn [repeat]. rewrite !app_nil_r. rewrite FA at 1. do 2 f_equal. lia.
        -- destruct (half k) as (HA & HB). generalize dependent (k / 2). generalize dependent ((k + 1) / 2). intros q' q HA HB.
           assert (EA : length a = N.to_nat q) by lia. assert (EB : length b = N.to_nat q') by lia.
           rewrite EA in FA. rewrite EB in FB. now rewrite <- FA, <- FB.
        -- change (N.to_nat 0) with O. cbn [repeat app]. rewrite FB at 1. do 2 f_equal. lia.
    + assert (a = []) by (destruct a; [reflexivity|unfold size in *; cbn [length] in *; lia]).
      assert (b = []) by (destruct b; [reflexivity|unfold size in *; cbn [length] in *; lia]). subst. apply app_nil_r.
  - intros ->. exists t. split; [now apply cut_spec|]. unfold padded.
    assert (R : forall c n, Forall (fun x => x = c) (repeat c n)) by (intros c n; apply repeat_all; now rewrite repeat_length).
    destruct (f_width f) as [w|].
    + destruct (N.leb_spec w (size t)) as [L|L].
      * exists [], []. rewrite app_nil_r. repeat split; [constructor|lia|]. destruct (f_align f) as [[| |]|]; try reflexivity. unfold size. cbn. lia.
      * unfold padding. assert (E : (w - size t) + size t = w) by lia. generalize dependent (w - size t). intros k E.
        assert (S : forall n, size (repeat (f_fill f) (N.to_nat n)) = n) by (intros; unfold size; rewrite repeat_length; lia).
        destruct (f_align f) as [[| |]|]; [exists [], (repeat (f_fill f) (N.to_nat k))|exists (repeat (f_fill f) (N.to_nat k)), []
          |exists (repeat (f_fill f) (N.to_nat (k / 2))), (repeat (f_fill f) (N.to_nat ((k + 1) / 2)))|exists [], (repeat (f_fill f) (N.to_nat k))];
          (split; [reflexivity|split; [|split]]); cbn [app]; rewrite ?app_nil_r, ?size_app, ?S.
        -- apply R.
        -- lia.
        -- reflexivity.
        -- apply R.
        -- cbn. lia.
        -- reflexivity.
        -- apply Forall_app. split; apply R.
        -- pose proof (half k). lia.
        -- pose proof (half k). lia.
        -- apply R.
        -- lia.
        -- reflexivity.
    + exists [], []. rewrite app_nil_r. repeat split; [constructor|]. destruct (f_align f) as [[| |]|]; try reflexivity. unfold size. cbn. lia.
Qed.

Definition want (f : format) (t : list N) : N := match f_width f with None => 0 | Some w => w - size t end.

Lemma pad_shape : forall f s, let t := trunc (f_precision f) s in
  concat (pad f s) = repeat (f_fill f) (N.to_nat (fst (padding f (want f t) Left))) ++ t ++ repeat (f_fill f) (N.to_nat (snd (padding f (want f t) Left))).
Proof.
  intros f s t. rewrite pad_text. cbv zeta. fold t. unfold want.
  assert (Z : padding f 0 Left = (0, 0)) by (unfold padding; destruct (f_align f) as [[| |]|]; reflexivity).
  destruct (f_width f) as [w|].
  - destruct (N.leb_spec w (size t)) as [L|L].
    + replace (w - size t) with 0 by lia. rewrite Z. cbn. now rewrite app_nil_r.
    + now destruct (padding f (w - size t) Left).
  - rewrite Z. cbn. now rewrite app_nil_r.
Qed.

Definition text_invalid : list N := chars "precision is out of bounds".
Definition text_incompatible : list N := chars "precisions must be equal".

Lemma tenth : forall (a b x y : list N), (10 <= length a)%nat -> (10 <= length b)%nat -> nth_error a 9 <> nth_error b 9 -> a ++ x <> b ++ y.
Proof. intros a b x y A B H E. apply H. rewrite <- (nth_error_app1 a x), <- (nth_error_app1 b y) by lia. now rewrite E. Qed.

Lemma trunc_nth : forall k s i, (N.of_nat i < k) -> nth_error (trunc (Some k) s) i = nth_error s i.
Proof.
  intros k s i H. cbn [trunc]. rewrite <- (firstn_skipn (N.to_nat k) s) at 2. destruct (Nat.lt_ge_cases i (length (firstn (N.to_nat k) s))) as [L|L].
  - now rewrite nth_error_app1.
  - rewrite (proj2 (nth_error_None _ _) L). rewrite firstn_length in L. symmetry. apply nth_error_None. rewrite firstn_skipn. lia.
Qed.

Lemma shapes_differ : forall f a b, (10 <= length a)%nat -> (10 <= length b)%nat -> nth_error a 9 <> nth_error b 9 ->
  (length a = length b \/ (length b = 24%nat /\ (length a = 25 \/ length a = 26)%nat /\ nth_error a 24 <> nth_error b 23 /\
    exists a' b' u v, a = a' ++ [u] /\ b = b' ++ [v] /\ u <> v)) ->
  let shape t := repeat (f_fill f) (N.to_nat (fst (padding f (want f t) Left))) ++ t ++ repeat (f_fill f) (N.to_nat (snd (padding f (want f t) Left))) in
  shape a <> shape b.
Proof.
  intros f a b A B H C shape E. unfold shape in E. clear shape. destruct C as [C|(LB & LA & D & (a' & b' & u & v & EA & EB & NE))].
  - assert (W : want f a = want f b) by (unfold want, size; now rewrite C). rewrite W in E. apply app_inv_head in E. revert E. now apply tenth.
  - assert (W : want f a <= want f b <= want f a + 2).
    { unfold want, size. destruct (f_width f); lia. }
    unfold padding in E. destruct (f_align f) as [[| |]|]; cbn [fst snd] in E.
    + change (N.to_nat 0) with O in E. cbn [repeat app] in E. revert E. now apply tenth.
    + change (N.to_nat 0) with O in E. cbn [repeat] in E. rewrite !app_nil_r in E. subst a b. rewrite !app_assoc in E. apply app_inj_tail in E. now destruct E.
    + pose proof (half (want f a)) as HA. pose proof (half (want f b)) as HB. set (qa := want f a / 2) in *. set (qb := want f b / 2) in *.
      assert (Q : qb = qa \/ qb = qa + 1).
      { generalize dependent ((want f a + 1) / 2). generalize dependent ((want f b + 1) / 2). intros. lia. }
      destruct Q as [-> | ->].
      * apply app_inv_head in E. revert E. now apply tenth.
      * replace (N.to_nat (qa + 1)) with (N.to_nat qa + 1)%nat in E by lia. rewrite repeat_app, <- app_assoc in E. apply app_inv_head in E.
        cbn [repeat app] in E. apply D.
        rewrite <- (nth_error_app1 b (repeat (f_fill f) (N.to_nat ((want f b + 1) / 2)))) by lia.
        change (nth_error (b ++ repeat (f_fill f) (N.to_nat ((want f b + 1) / 2))) 23) with (nth_error (f_fill f :: b ++ repeat (f_fill f) (N.to_nat ((want f b + 1) / 2))) 24).
        rewrite <- E. symmetry. apply nth_error_app1. lia.
    + change (N.to_nat 0) with O in E. cbn [repeat app] in E. revert E. now apply tenth.
Qed.

Lemma differ_iff : forall f, concat (pad f text_invalid) = concat (pad f text_incompatible) <-> exists k, f_precision f = Some k /\ k <= 9.
Proof.
  intros f. rewrite !pad_shape. split.
  - intros E. destruct (f_precision f) as [k|] eqn:P.
    + destruct (N.le_gt_cases k 9) as [L|L]; [now exists k|exfalso]. revert E.
      assert (LI : forall s, length (trunc (Some k) s) = Nat.min (N.to_nat k) (length s)) by (intros; apply firstn_length).
      assert (X : forall s, (26 <= N.to_nat k)%nat -> (length s <= 26)%nat -> trunc (Some k) s = s) by (intros; apply firstn_all2; lia).
      apply shapes_differ.
      * rewrite LI. cbn [text_invalid]. change (length text_invalid) with 26%nat. lia.
      * rewrite LI. change (length text_incompatible) with 24%nat. lia.
      * rewrite !trunc_nth by (cbn; lia). discriminate.
      * rewrite !LI. change (length text_incompatible) with 24%nat. change (length text_invalid) with 26%nat.
        destruct (N.le_gt_cases k 24) as [L1|L1]; [left; lia|right]. split; [lia|]. split; [lia|]. split; [rewrite !trunc_nth by (cbn; lia); discriminate|].
        destruct (N.eq_dec k 25) as [->|K].
        -- exists (firstn 24 text_invalid), (firstn 23 text_incompatible), 100, 108. repeat split; discriminate.
        -- rewrite !X by (cbn; lia). exists (firstn 25 text_invalid), (firstn 23 text_incompatible), 115, 108. repeat split; discriminate.
    + exfalso. revert E. cbn [trunc]. apply shapes_differ; [cbn; lia|cbn; lia|discriminate|right].
      split; [reflexivity|]. split; [now right|]. split; [discriminate|]. exists (firstn 25 text_invalid), (firstn 23 text_incompatible), 115, 108. repeat split; discriminate.
  - intros (k & -> & L). assert (T : trunc (Some k) text_invalid = trunc (Some k) text_incompatible); [|now rewrite T].
    cbn [trunc]. assert (K : (N.to_nat k <= 9)%nat) by lia. revert K. generalize (N.to_nat k). intros n K. do 10 (destruct n as [|n]; [reflexivity|]). lia.
Qed.

Lemma error_fmt_spec : forall f err out, out = concat (error_fmt f err) <->
  formatted f (chars match err with InvalidPrecision => "precision is out of bounds" | IncompatiblePrecision => "precisions must be equal" end) out.
Proof. intros f err out. symmetry. destruct err; apply pad_spec. Qed.

Lemma error_fmt_plain : forall f err, f_width f = None -> f_precision f = None -> concat (error_fmt f err) = chars (error_display err).
Proof. intros f err W P. unfold error_fmt. rewrite pad_text, W, P. reflexivity. Qed.

Lemma error_fmt_distinct : forall f, concat (error_fmt f InvalidPrecision) = concat (error_fmt f IncompatiblePrecision) <-> exists k, f_precision f = Some k /\ k <= 9.
Proof. exact differ_iff. Qed.

Lemma error_debug_spec : forall f err,
  concat (error_debug f err) = chars match err with InvalidPrecision => "InvalidPrecision" | IncompatiblePrecision => "IncompatiblePrecision" end.
Proof. intros f [|]; reflexivity. Qed.

Lemma error_eq_spec : forall a b, error_eq a b = true <-> a = b.
Proof. intros [|] [|]; split; try reflexivity; discriminate. Qed.

Lemma format_example :
  concat (error_fmt (Format 42 (Some Center) (Some 15) (Some 10)) IncompatiblePrecision) = chars "**precisions***" /\
  formatted (Format 42 (Some Center) (Some 15) (Some 10)) (chars "precisions must be equal") (chars "**precisions***") /\
  concat (error_fmt (Format 32 None (Some 28) None) InvalidPrecision) = chars "precision is out of bounds  " /\
  concat (error_fmt (Format 32 None (Some 3) (Some 9)) InvalidPrecision) = chars "precision".
Proof. repeat split; try reflexivity. now apply pad_spec. Qed.
