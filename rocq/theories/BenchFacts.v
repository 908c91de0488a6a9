(** * The benchmarks: what they leave and what they measure *)
From Coq Require Import String.
From Coq Require Import NArith ZArith List Bool Lia Permutation Sorted.
From Verif Require Import ModelRust ModelF64 ModelEnv ModelRegisters ModelEncoding ModelCommon ModelPF ModelPlus ModelHistory ModelEval ModelFiles ModelTests ModelBench
  Spec SpecBuild SpecFiles SpecBench BitFacts RegFacts AbsorbFacts EncFacts PFInv PlusInv TextFacts Witness ClaimFloat.
Import ListNotations.
Local Open Scope N_scope.

(** ** Iterations *)
Lemma iter_inv : forall (S : Type) (P : S -> Prop) iters (body : S -> N -> M S) s, P s ->
  (forall s k, P s -> exists s', body s k = Ret s' /\ P s') ->
  exists s', iter iters body s = Ret s' /\ P s'.
Proof.
  intros S P iters body s H0 Hb. unfold iter. generalize (range iters) as l. intros l. revert s H0.
  induction l as [|k l IH]; intros s H0; cbn [for_each].
  - exists s. auto.
  - destruct (Hb s k H0) as (s' & E & H'). rewrite E, bind_ret. auto.
Qed.

Lemma range_cons : forall n, exists l, range (N.succ n) = 0 :: l /\ length l = N.to_nat n.
Proof.
  intros n. destruct (range (N.succ n)) as [|a l] eqn:E.
  - apply (f_equal (@length N)) in E. rewrite range_length in E. cbn in E. lia.
  - exists l. pose proof (range_nth (N.succ n) 0 ltac:(lia)) as Z. rewrite E in Z. cbn in Z.
    apply (f_equal (@length N)) in E. rewrite range_length in E. cbn in E.
    split; [congruence|lia].
Qed.

(** At least one iteration. *)
Lemma iter_inv1 : forall (S : Type) (P Q : S -> Prop) iters (body : S -> N -> M S) s, 0 < iters -> P s ->
  (forall s k, P s -> exists s', body s k = Ret s' /\ Q s') -> (forall s, Q s -> P s) ->
  exists s', iter iters body s = Ret s' /\ Q s'.
Proof.
  intros S P Q iters body s Hi H0 Hb HQ. unfold iter.
  replace iters with (N.succ (N.pred iters)) by lia.
  destruct (range_cons (N.pred iters)) as (l & -> & _). cbn [for_each].
  destruct (Hb s 0 H0) as (s1 & E & H1). rewrite E, bind_ret. clear E H0 s. revert s1 H1.
  induction l as [|k l IH]; intros s H0; cbn [for_each].
  - exists s. auto.
  - destruct (Hb s k (HQ _ H0)) as (s' & E & H'). rewrite E, bind_ret. auto.
Qed.

Lemma iter_seen_inv : forall (S A : Type) (P : S -> Prop) (a : A) iters (body : S -> N -> M (S * A)) s, P s ->
  (forall s k, P s -> exists s', body s k = Ret (s', a) /\ P s') ->
  exists s', iter_seen iters body s = Ret (s', repeat a (N.to_nat iters)) /\ P s'.
Proof.
  intros S A P a iters body s H0 Hb. unfold iter_seen. rewrite <- (range_length iters).
  set (f := fun (sa : S * list A) k => _).
  assert (G : forall l s acc, P s -> exists s', for_each l f (s, acc) = Ret (s', acc ++ repeat a (length l)) /\ P s').
  { clear s H0. induction l as [|k l IH]; intros s acc H0; cbn [for_each length repeat].
    - exists s. rewrite app_nil_r. auto.
    - unfold f at 1. cbn [fst snd]. destruct (Hb s k H0) as (s' & E & H'). rewrite E, !bind_ret.
      destruct (IH s' (acc ++ [a]) H') as (s2 & E2 & H2). exists s2. rewrite E2, <- app_assoc. auto. }
  exact (G (range iters) s [] H0).
Qed.

(** ** Registers *)
Lemma registers_get : forall e iters, 32 <= usize_bits e ->
  exists r, bench_registers_get e iters = Ret (r, repeat (repeat 0 1000) (N.to_nat iters)).
Proof.
  intros e iters He. unfold bench_registers_get, with_count, ceil.
  pose proof (pow2_le _ _ He). change (2 ^ 32) with 4294967296 in *.
  rewrite uadd_ok, bind_ret by (cbn; lia). rewrite usub_ok, bind_ret by (cbn; lia). rewrite bind_ret.
  set (r := Registers _ _ _).
  assert (E : for_each (range 1000) (fun vals i => let* v := reg_get SIZE_PLUS r i in Ret (vals ++ [v])) [] = Ret (repeat 0 1000)).
  { vm_compute. reflexivity. }
  rewrite bind_ret.
  destruct (iter_seen_inv _ _ (eq r) (repeat 0 1000) iters (fun r _ =>
    let* vals := for_each (range 1000) (fun vals i => let* v := reg_get SIZE_PLUS r i in Ret (vals ++ [v])) [] in
    Ret (r, vals)) r eq_refl) as (s' & E' & _).
  { intros s k <-. exists r. rewrite E. auto. }
  exists s'. exact E'.
Qed.

(** 123 does not fit in 6 bits: its top bit falls into the next register. *)
Definition spilled (w : N) : registers := {| r_buf := repeat w 200; r_count := 1000; r_zeros := 800 |}.

Lemma registers_set : forall e iters, 32 <= usize_bits e -> 0 < iters ->
  exists r, bench_registers_set e iters = Ret r /\ reg_zeros r = 800 /\ forall i, i < 1000 -> reg_get SIZE_PLUS r i = Ret 59.
Proof.
  intros e iters He Hi. unfold bench_registers_set, with_count, ceil.
  pose proof (pow2_le _ _ He). change (2 ^ 32) with 4294967296 in *.
  rewrite uadd_ok, bind_ret by (cbn; lia). rewrite usub_ok, bind_ret by (cbn; lia). rewrite !bind_ret.
  set (w := 59 * (1 + 2 ^ 6 + 2 ^ 12 + 2 ^ 18 + 2 ^ 24) + 2 ^ 30).
  destruct (iter_inv1 _ (fun r => r = Registers (repeat 0 200) 1000 1000 \/ r = spilled w) (eq (spilled w)) iters
    (fun r _ => for_each (range 1000) (fun r i => set_greater e SIZE_PLUS r i 123) r)
    (Registers (repeat 0 200) 1000 1000) Hi (or_introl eq_refl)) as (r & E & Hr).
  - intros s _ [->| ->]; exists (spilled w); (split; [vm_compute; reflexivity|reflexivity]).
  - intros s <-. now right.
  - exists r. split; [exact E|]. subst r. split; [reflexivity|].
    assert (F : forallb (fun i => match reg_get SIZE_PLUS (spilled w) i with Ret v => v =? 59 | _ => false end) (range 1000) = true)
      by (vm_compute; reflexivity).
    intros i Hlt. rewrite forallb_forall in F. specialize (F i (proj2 (range_in _ _) Hlt)).
    destruct (reg_get _ _ i); try discriminate. f_equal. now apply N.eqb_eq.
Qed.

(** ** Variable-length integers *)
Lemma varint_push_bench : forall iters val, val < 2 ^ 32 ->
  bench_varint_push iters val = Ret (concat (repeat (venc val) (N.to_nat iters))).
Proof.
  intros iters val Hv. unfold bench_varint_push, iter. rewrite <- (range_length iters).
  change (concat (repeat (venc val) (length (range iters)))) with ([] ++ concat (repeat (venc val) (length (range iters)))).
  generalize (@nil N) as acc. generalize (range iters) as l. induction l as [|k l IH]; intros acc; cbn [for_each length repeat concat].
  - now rewrite app_nil_r.
  - rewrite varint_push_ok, bind_ret, IH, app_assoc by auto. reflexivity.
Qed.

Lemma varint_decode_bench : forall e iters val, val < 2 ^ 32 ->
  exists v, bench_varint_decode e iters val = Ret (v, repeat (val, N.of_nat (length (venc val))) (N.to_nat iters)).
Proof.
  intros e iters val Hv. unfold bench_varint_decode.
  pose proof (varint_push_bench 10 val Hv) as E. unfold bench_varint_push, iter in E. rewrite E, bind_ret.
  destruct (iter_seen_inv _ _ (eq (concat (repeat (venc val) (N.to_nat 10)))) (val, N.of_nat (length (venc val))) iters
    (fun v _ => let* x := varint_decode e v 0 in Ret (v, x)) _ eq_refl) as (v & E' & _).
  - intros s _ <-. eexists.
    assert (D : varint_decode e (concat (repeat (venc val) (N.to_nat 10))) 0 = Ret (val, N.of_nat (length (venc val))))
      by exact (varint_decode_ok e [] (concat (repeat (venc val) 9)) val 0 Hv eq_refl).
    rewrite D, bind_ret. split; reflexivity.
  - exists v. exact E'.
Qed.

(** ** Strings *)
Lemma display_split : forall a b x y c, ~ In c (display_uint a) -> ~ In c (display_uint b) ->
  display_uint a ++ c :: x = display_uint b ++ c :: y -> a = b /\ x = y.
Proof.
  intros a b x y c Ha Hb E.
  assert (G : forall l l' : bytes, ~ In c l -> ~ In c l' -> l ++ c :: x = l' ++ c :: y -> l = l' /\ x = y).
  { clear. induction l as [|u l IH]; intros [|u' l'] H H' E; cbn in *.
    - now inversion E.
    - inversion E. subst. tauto.
    - inversion E. subst. tauto.
    - inversion E. subst. destruct (IH l') as [-> ->]; tauto. }
  destruct (G _ _ Ha Hb E) as [E' ->]. split; [|reflexivity].
  apply (numeral_inj a b (display_uint a)); [apply display_numeral|]. rewrite E'. apply display_numeral.
Qed.

Lemma digits_only : forall n c, c < 48 -> ~ In c (display_uint n).
Proof. intros n c Hc Hi. pose proof (numeral_chars n _ c (display_numeral n) Hi). lia. Qed.

Lemma bench_string_inj : forall a b a' b', bench_string a b = bench_string a' b' -> a = a' /\ b = b'.
Proof.
  intros a b a' b' E. unfold bench_string in E.
  change (str "- ") with [45; 32] in E. change (str " - ") with [32; 45; 32] in E. change (str " -") with [32; 45] in E.
  cbn [app] in E. injection E as E.
  apply display_split in E; [|apply digits_only; lia|apply digits_only; lia]. destruct E as [-> E]. injection E as E.
  apply display_split in E; [|apply digits_only; lia|apply digits_only; lia]. destruct E as [-> _]. auto.
Qed.

Lemma strings_length : forall draws n, length (strings draws n) = N.to_nat n.
Proof. intros. unfold strings. now rewrite map_length, range_length. Qed.

(** ** HyperLogLogPF *)
Lemma fill_pf_ok : forall (V : Type) e p (b : V -> N) l H s, 32 <= usize_bits e -> 4 <= p <= 16 -> pf_ok p b H s ->
  exists s', fill_pf e l s = Ret s' /\ pf_ok p b (rev (map (hash64 b) l) ++ H) s'.
Proof.
  intros V e p b l. unfold fill_pf. induction l as [|v l IH]; intros H s He Hp Hs; cbn [for_each map rev].
  - exists s. auto.
  - destruct (pf_insert_hash_ok V e p b H s (hash64 b v) He Hp Hs) as (s1 & E1 & H1).
    unfold pf_insert at 1, pf_insert_impl. pose proof Hs as (HB & _). rewrite HB, hash64_low, E1, bind_ret.
    destruct (IH _ _ He Hp H1) as (s' & E' & H'). exists s'. rewrite <- app_assoc. auto.
Qed.

Lemma new_pf_ok : forall (V : Type) e p (b : V -> N), 32 <= usize_bits e -> 4 <= p <= 16 ->
  exists s, (let* r := pf_new e p b in unwrap_res r) = Ret s /\ pf_ok p b [] s.
Proof.
  intros V e p b He Hp. destruct (pf_new_ok V e p b He Hp) as (s & E & Hs). exists s. rewrite E. auto.
Qed.

(** The sketch is that of the plain history; its estimate too. *)
Lemma pf_is_inserted : forall (V : Type) e p (b : V -> N) l l' s, build e -> 4 <= p <= 16 -> 2 * p < usize_bits e ->
  (forall x, In x l <-> In x l') -> pf_ok p b (rev (map (hash64 b) l)) s ->
  run_pf e (inserted p b Insert keep l') = Ret s.
Proof.
  intros V e p b l l' s He Hp Hu Hl Hs.
  destruct (inserted_spec V p b Insert keep l') as (Ep & Eb & ES & Hv & Hn).
  destruct (run_pf_ok V e (inserted p b Insert keep l') He (Hv _ keep_order Hp) (Hn _ Hu)) as (s2 & E & H2).
  rewrite Ep, Eb in H2. rewrite E. f_equal. apply (pf_ok_inj V p b (rev (map (hash64 b) l))); [lia| |auto].
  eapply pf_ok_set; [|exact H2]. unfold low32. intros x. rewrite !in_map_iff. split; intros (y & Ey & Hy); exists y; (split; [auto|]).
  - apply -> in_rev. apply in_map_iff. apply ES in Hy. apply in_map_iff in Hy. destruct Hy as (v & Ev & Hv'). exists v. split; [auto|]. now apply Hl.
  - apply ES. apply in_rev in Hy. apply in_map_iff in Hy. destruct Hy as (v & Ev & Hv'). apply in_map_iff. exists v. split; [auto|]. now apply Hl.
Qed.

Lemma pf_counts : forall (V : Type) e p (b : V -> N) H s, 2 * p < usize_bits e -> pf_ok p b H s -> exists c, pf_count_est e s = Ret c.
Proof. intros V e p b H s Hu Hs. rewrite (pf_count_value V e p b H s Hu Hs). apply pf_value_total. Qed.

Lemma bench_insert_pf_ok : forall e workload builders p iters, 32 <= usize_bits e -> 4 <= p <= 16 ->
  bench_insert_pf e workload builders p iters = Ret tt.
Proof.
  intros e workload builders p iters He Hp. unfold bench_insert_pf.
  destruct (iter_inv unit (fun _ => True) iters (fun _ i =>
    let* r := pf_new e p (builders i) in
    let* s := unwrap_res r in
    let* _ := fill_pf e workload s in
    Ret tt) tt I) as ([] & E & _); [|exact E].
  intros [] k _. exists tt. destruct (pf_new_ok bytes e p (builders k) He Hp) as (s & E & Hs). rewrite E, bind_ret. cbn [unwrap_res]. rewrite bind_ret.
  destruct (fill_pf_ok bytes e p (builders k) workload [] s He Hp Hs) as (s' & -> & _). rewrite bind_ret. auto.
Qed.

Lemma bench_count_pf_ok : forall e draws shuffle b p count iters, build e -> 4 <= p <= 16 -> 2 * p < usize_bits e ->
  (forall l, Permutation (shuffle l) l) ->
  exists s c, bench_count_pf e draws shuffle b p count iters = Ret (s, repeat c (N.to_nat iters)) /\
    run_pf e (inserted p b Insert keep (strings draws count)) = Ret s /\
    count_pf e (inserted p b Insert keep (strings draws count)) = Ret c.
Proof.
  intros e draws shuffle b p count iters He Hp Hu Hsh. pose proof (proj1 He) as He'. unfold bench_count_pf.
  destruct (pf_new_ok bytes e p b He' Hp) as (s0 & -> & H0). rewrite bind_ret. cbn [unwrap_res]. rewrite bind_ret.
  destruct (fill_pf_ok bytes e p b (generate_strings draws shuffle count) [] s0 He' Hp H0) as (s & -> & Hs). rewrite bind_ret.
  rewrite app_nil_r in Hs. destruct (pf_counts bytes e p b _ s Hu Hs) as (c & Ec).
  destruct (iter_seen_inv _ _ (eq s) c iters (fun s _ => let* c := pf_count_est e s in Ret (s, c)) s eq_refl) as (s' & E & <-).
  { intros ? _ <-. exists s. rewrite Ec. auto. }
  assert (R : run_pf e (inserted p b Insert keep (strings draws count)) = Ret s).
  { eapply pf_is_inserted; eauto. intros x. unfold generate_strings.
    split; apply Permutation_in; [apply Hsh|apply Permutation_sym, Hsh]. }
  exists s, c. split; [exact E|]. split; [exact R|]. unfold count_pf. rewrite R, bind_ret. exact Ec.
Qed.

Lemma pf_with_hash_ok : forall e draws b iters, build e -> 32 < usize_bits e ->
  exists c, bench_pf_insert_with_hash e draws b iters = Ret (tt, repeat c (N.to_nat iters)) /\
    count_pf e (inserted 16 b Insert keep (strings draws 2000)) = Ret c.
Proof.
  intros e draws b iters He Hu. pose proof (proj1 He) as He'. unfold bench_pf_insert_with_hash.
  destruct (pf_new_ok bytes e 16 b He' ltac:(lia)) as (s0 & E0 & H0).
  destruct (fill_pf_ok bytes e 16 b (strings draws 2000) [] s0 He' ltac:(lia) H0) as (s & E & Hs).
  rewrite app_nil_r in Hs. destruct (pf_counts bytes e 16 b _ s ltac:(lia) Hs) as (c & Ec).
  destruct (iter_seen_inv unit _ (fun _ => True) c iters (fun u _ =>
    let* r := pf_new e 16 b in
    let* s := unwrap_res r in
    let* s := fill_pf e (strings draws 2000) s in
    let* c := pf_count_est e s in
    Ret (u, c)) tt I) as ([] & E' & _).
  { intros [] k _. exists tt. rewrite E0, bind_ret. cbn [unwrap_res]. rewrite bind_ret, E, bind_ret, Ec, bind_ret. auto. }
  exists c. split; [exact E'|]. unfold count_pf.
  rewrite (pf_is_inserted bytes e 16 b (strings draws 2000) (strings draws 2000) s), bind_ret; auto; try lia. tauto.
Qed.

(** The values of the benchmarks all fall into the last register, with rank 1. *)
Lemma downwards_bucket : forall W n h, 32 <= W -> n <= 10000 -> In h (map (fun x => x mod 2 ^ W) (downwards n)) -> W <= 64 ->
  bucket W 16 h = 65535 /\ rank W 16 h = 1.
Proof.
  intros W n h HW Hn Hi HW'. apply in_map_iff in Hi. destruct Hi as (x & <- & Hx). unfold downwards in Hx. apply in_map_iff in Hx.
  destruct Hx as (i & <- & Hi). apply range_in in Hi.
  assert (P64 : 2 ^ 64 = 2 ^ (64 - W) * 2 ^ W) by (rewrite <- N.pow_add_r; f_equal; lia).
  assert (PW : 2 ^ W = 65536 * 2 ^ (W - 16)) by (change 65536 with (2 ^ 16); rewrite <- N.pow_add_r; f_equal; lia).
  assert (PV : 2 ^ (W - 16) = 2 * 2 ^ (W - 17)) by (change 2 with (2 ^ 1) at 2; rewrite <- N.pow_add_r; f_equal; lia).
  assert (PU : 2 ^ 15 <= 2 ^ (W - 17)) by (apply pow2_le; lia). change (2 ^ 15) with 32768 in PU.
  assert (PP : 1 <= 2 ^ (64 - W)) by (change 1 with (2 ^ 0); apply pow2_le; lia).
  set (u := 2 ^ (W - 17)) in *.
  assert (E : (2 ^ 64 - 1 - i) mod 2 ^ W = 2 ^ W - 1 - i).
  { symmetry. apply (N.mod_unique _ _ (2 ^ (64 - W) - 1)); [lia|]. rewrite P64. replace (2 ^ (64 - W)) with ((2 ^ (64 - W) - 1) + 1) at 1 by lia. lia. }
  rewrite E. unfold bucket, rank. rewrite PV.
  assert (Q : (2 ^ W - 1 - i) mod (2 * u) = 2 * u - 1 - i) by (symmetry; apply (N.mod_unique _ _ 65535); lia).
  split; [symmetry; apply (N.div_unique _ _ 65535 (2 * u - 1 - i)); lia|].
  rewrite Q. destruct (N.eqb_spec (2 * u - 1 - i) 0) as [Z|_]; [lia|].
  assert (L : N.log2 (2 * u - 1 - i) = W - 17).
  { apply N.log2_unique; [lia|]. replace (N.succ (W - 17)) with (W - 16) by lia. rewrite PV. fold u. lia. }
  rewrite L. lia.
Qed.

Lemma one_register_ok : forall sz W n H r, reg_size sz -> 32 <= W <= 64 -> 0 < n <= 10000 ->
  same_set H (map (fun x => x mod 2 ^ W) (downwards n)) -> holds sz W 16 H r -> one_register sz r.
Proof.
  intros sz W n H r Hsz HW Hn HS (Hwf & Hc & _ & RF & _) i Hi.
  destruct (reg_get_spec sz r i Hsz Hwf ltac:(rewrite Hc; exact Hi)) as (v & -> & Hv & _). f_equal.
  destruct (proj2 RF i v Hv) as [A B].
  destruct (N.eqb_spec i 65535) as [->|Hne].
  - assert (Hin : In ((2 ^ 64 - 1) mod 2 ^ W) H).
    { apply HS. apply in_map_iff. exists (2 ^ 64 - 1). split; [auto|]. unfold downwards. apply in_map_iff. exists 0.
      split; [now rewrite N.sub_0_r|]. apply range_in. lia. }
    destruct (downwards_bucket W n _ (proj1 HW) (proj2 Hn) (proj1 (HS _) Hin) (proj2 HW)) as [Bu Ra].
    specialize (A _ Hin Bu). destruct B as [B|(h & Hh & _ & <-)]; [lia|].
    now destruct (downwards_bucket W n h (proj1 HW) (proj2 Hn) (proj1 (HS _) Hh) (proj2 HW)).
  - destruct B as [B|(h & Hh & Bu & _)]; [auto|].
    destruct (downwards_bucket W n h (proj1 HW) (proj2 Hn) (proj1 (HS _) Hh) (proj2 HW)). lia.
Qed.

Lemma one_register_zeros : forall sz r, reg_size sz -> wf_regs sz r -> r_count r = 2 ^ 16 -> exact_zeros sz r -> N.of_nat (length (reg_iter sz r)) = 2 ^ 16 ->
  one_register sz r -> reg_zeros r = 65535.
Proof.
  intros sz r Hsz Hwf Hc Hz Hlen H. unfold reg_zeros. unfold exact_zeros in Hz. rewrite Hz.
  assert (E : reg_iter sz r = repeat 0 (N.to_nat 65535) ++ [1]).
  { apply (nth_ext _ _ 0 0).
    - rewrite app_length, repeat_length. cbn [length]. lia.
    - intros j Hj. set (i := N.of_nat j). assert (Hi : i < 2 ^ 16) by (unfold i; lia).
      destruct (reg_get_spec sz r i Hsz Hwf ltac:(rewrite Hc; exact Hi)) as (v & Ev & Hv & _).
      rewrite (H i Hi) in Ev. injection Ev as <-. unfold i in Hv at 1. rewrite Nat2N.id in Hv. rewrite (nth_error_nth _ _ 0 Hv).
      destruct (N.eqb_spec i 65535) as [Ei|Hne].
      + rewrite app_nth2; rewrite repeat_length; [|lia]. replace (j - N.to_nat 65535)%nat with O by lia. reflexivity.
      + rewrite app_nth1 by (rewrite repeat_length; change (2 ^ 16) with 65536 in Hi; lia). symmetry. apply nth_repeat. }
  rewrite E. unfold zero_count. rewrite filter_app, app_length, Nat2N.inj_add. fold (zero_count (repeat 0 (N.to_nat 65535))).
  rewrite zero_count_repeat, N2Nat.id. reflexivity.
Qed.

Definition pass_all (n : N) (H : list N) : Prop := same_set H (map (fun x => x mod 2 ^ 64) (downwards n)).

Lemma pass_more : forall n H, H = [] \/ pass_all n H -> pass_all n (rev (map (hash64 (fun x : N => x)) (downwards n)) ++ H).
Proof.
  intros n H HH x. rewrite in_app_iff, <- in_rev.
  change (map (hash64 (fun x : N => x)) (downwards n)) with (map (fun x => x mod 2 ^ 64) (downwards n)).
  destruct HH as [->|HH]; [cbn; tauto|]. rewrite (HH x). tauto.
Qed.

Lemma pass_low : forall n H, pass_all n H -> same_set (low32 H) (map (fun x => x mod 2 ^ 32) (downwards n)).
Proof.
  intros n H HS x. unfold low32. rewrite !in_map_iff. split; intros (y & <- & Hy).
  - apply HS in Hy. apply in_map_iff in Hy. destruct Hy as (z & <- & Hz). exists z. split; [|auto].
    change (2 ^ 64) with (2 ^ 32 * 2 ^ 32). rewrite N.mod_mul_r, N.mul_comm, N.mod_add, N.mod_mod by discriminate. reflexivity.
  - exists (y mod 2 ^ 64). split.
    + change (2 ^ 64) with (2 ^ 32 * 2 ^ 32). rewrite N.mod_mul_r, N.mul_comm, N.mod_add, N.mod_mod by discriminate. reflexivity.
    + apply HS. apply in_map_iff. eauto.
Qed.

Lemma pf_one : forall n H s, 0 < n <= 10000 -> pf_ok 16 (fun x : N => x) H s -> pass_all n H ->
  one_register SIZE_PF (pf_registers s) /\ reg_zeros (pf_registers s) = 65535.
Proof.
  intros n H s Hn (_ & _ & _ & Hold) HP.
  assert (O : one_register SIZE_PF (pf_registers s)).
  { apply (one_register_ok SIZE_PF 32 n (low32 H)); auto; [now left|lia|now apply pass_low]. }
  split; [exact O|]. destruct Hold as (A & B & C & D & _). eapply one_register_zeros; eauto; [now left|apply D].
Qed.

Lemma pf_insert_bench : forall e iters, 32 <= usize_bits e -> 0 < iters ->
  exists s, bench_pf_insert e iters = Ret s /\ one_register SIZE_PF (pf_registers s) /\ reg_zeros (pf_registers s) = 65535.
Proof.
  intros e iters He Hi. unfold bench_pf_insert.
  destruct (pf_new_ok N e 16 (fun x => x) He ltac:(lia)) as (s0 & -> & H0). rewrite bind_ret. cbn [unwrap_res]. rewrite bind_ret.
  destruct (iter_inv1 _ (fun s => exists H, pf_ok 16 (fun x : N => x) H s /\ (H = [] \/ pass_all 1000 H))
    (fun s => exists H, pf_ok 16 (fun x : N => x) H s /\ pass_all 1000 H) iters
    (fun s _ => fill_pf e (downwards 1000) s) s0 Hi) as (s & E & H & Hs & HP).
  - exists []. auto.
  - intros s _ (H & Hs & HP). destruct (fill_pf_ok N e 16 (fun x => x) (downwards 1000) H s He ltac:(lia) Hs) as (s' & E & Hs').
    exists s'. split; [exact E|]. eexists. split; [exact Hs'|]. now apply pass_more.
  - intros s (H & Hs & HP). exists H. auto.
  - exists s. split; [exact E|]. eapply pf_one; [| |exact HP]; [|exact Hs]. lia.
Qed.

Lemma pf_count_bench : forall e iters, 32 < usize_bits e ->
  exists s c, bench_pf_count e iters = Ret (s, repeat c (N.to_nat iters)) /\ pf_count_est e s = Ret c /\
    one_register SIZE_PF (pf_registers s) /\ reg_zeros (pf_registers s) = 65535.
Proof.
  intros e iters Hu. assert (He : 32 <= usize_bits e) by lia. unfold bench_pf_count.
  destruct (pf_new_ok N e 16 (fun x => x) He ltac:(lia)) as (s0 & -> & H0). rewrite bind_ret. cbn [unwrap_res]. rewrite bind_ret.
  destruct (fill_pf_ok N e 16 (fun x => x) (downwards 10000) [] s0 He ltac:(lia) H0) as (s & -> & Hs). rewrite bind_ret.
  destruct (pf_counts N e 16 _ _ s ltac:(lia) Hs) as (c & Ec).
  destruct (iter_seen_inv _ _ (eq s) c iters (fun s _ => let* c := pf_count_est e s in Ret (s, c)) s eq_refl) as (s' & E & <-).
  { intros ? _ <-. exists s. rewrite Ec. auto. }
  exists s, c. split; [exact E|]. split; [exact Ec|]. eapply pf_one; [|exact Hs|apply pass_more; now left]. lia.
Qed.

(** ** HyperLogLogPlus *)
Lemma fill_plus_ok : forall (V : Type) e p (b : V -> N) ords l H s, 32 <= usize_bits e -> 4 <= p <= 18 ->
  (forall k, is_order (ords k)) -> plus_ok p b H s ->
  exists s', fill_plus e ords l s = Ret s' /\ plus_ok p b (rev (map (hash64 b) l) ++ H) s'.
Proof.
  intros V e p b ords l. unfold fill_plus. generalize 0 as i. induction l as [|v l IH]; intros i H s He Hp Ho Hs; cbn [for_each_enum map rev].
  - exists s. auto.
  - destruct (hp_insert_hash_ok V e (ords i) p b H s (hash64 b v) He Hp (Ho i) (hash64_lt _ _ _) Hs) as (s1 & E1 & H1).
    unfold hp_insert at 1, hp_insert_impl. pose proof Hs as ((HB & _) & _). rewrite HB. unfold hash64 in E1. unfold cast at 1. rewrite E1, bind_ret.
    destruct (IH (i + 1) _ _ He Hp Ho H1) as (s' & E' & H'). exists s'. rewrite <- app_assoc. auto.
Qed.

Lemma plus_counts : forall (V : Type) e ord p (b : V -> N) l l' s, build_std e -> 4 <= p <= 18 -> 2 * p < usize_bits e -> is_order ord ->
  (forall x, In x l <-> In x l') -> plus_ok p b (rev (map (hash64 b) l)) s ->
  exists s' c, hp_count e ord s = Ret (s', c) /\ plus_ok p b (rev (map (hash64 b) l)) s' /\
    forall ord', is_order ord' -> count_plus e ord' (inserted p b Insert keep l') = Ret c.
Proof.
  intros V e ord p b l l' s He Hp Hu Ho Hl Hs.
  destruct (hp_count_ok V e ord p b _ s He Hp (or_introl Hu) Ho Hs) as (s' & c & E & Hd & Hf & Hval).
  exists s', c. split; [exact E|]. split.
  { split; [auto|]. split; [apply Hs|]. apply flushed_body; auto. lia. }
  intros ord' Ho'. destruct (inserted_spec V p b Insert keep l') as (Ep & Eb & ES & Hv & Hn).
  destruct (count_plus_ok V e ord' (inserted p b Insert keep l') He (Hv _ keep_order Hp) (Hn _ Hu) Ho') as (_ & _ & c' & _ & _ & E' & _ & _ & Hval').
  rewrite Ep in Hval'. rewrite E'. f_equal. apply (value_unique e p (rev (map (hash64 b) l))); [lia| |exact Hval].
  eapply value_ext; [|exact Hval']. intros x. rewrite (ES x), <- in_rev, !in_map_iff.
  split; intros (y & Ey & Hy); exists y; (split; [auto|]); now apply Hl.
Qed.

Lemma bench_insert_plus_ok : forall e ords workload builders p iters, 32 <= usize_bits e -> 4 <= p <= 18 ->
  (forall i k, is_order (ords i k)) -> bench_insert_plus e ords workload builders p iters = Ret tt.
Proof.
  intros e ords workload builders p iters He Hp Ho. unfold bench_insert_plus.
  destruct (iter_inv unit (fun _ => True) iters (fun _ i =>
    let* r := hp_new e p (builders i) in
    let* s := unwrap_res r in
    let* _ := fill_plus e (ords i) workload s in
    Ret tt) tt I) as ([] & E & _); [|exact E].
  intros [] k _. exists tt. destruct (hp_new_ok bytes e p (builders k) He Hp) as (s & E & Hs & _). rewrite E, bind_ret. cbn [unwrap_res]. rewrite bind_ret.
  destruct (fill_plus_ok bytes e p (builders k) (ords k) workload [] s He Hp (Ho k) Hs) as (s' & -> & _). rewrite bind_ret. auto.
Qed.

Lemma bench_count_plus_ok : forall e ords ords' draws shuffle b p count iters, build_std e -> 4 <= p <= 18 -> 2 * p < usize_bits e ->
  (forall k, is_order (ords k)) -> (forall k, is_order (ords' k)) -> (forall l, Permutation (shuffle l) l) ->
  exists s c, bench_count_plus e ords ords' draws shuffle b p count iters = Ret (s, repeat c (N.to_nat iters)) /\
    forall ord, is_order ord -> count_plus e ord (inserted p b Insert keep (strings draws count)) = Ret c.
Proof.
  intros e ords ords' draws shuffle b p count iters He Hp Hu Ho Ho' Hsh. pose proof (proj1 (proj1 He)) as He'. unfold bench_count_plus.
  destruct (hp_new_ok bytes e p b He' Hp) as (s0 & -> & H0 & _). rewrite bind_ret. cbn [unwrap_res]. rewrite bind_ret.
  destruct (fill_plus_ok bytes e p b ords (generate_strings draws shuffle count) [] s0 He' Hp Ho H0) as (s & -> & Hs). rewrite bind_ret.
  rewrite app_nil_r in Hs.
  assert (HI : forall x, In x (generate_strings draws shuffle count) <-> In x (strings draws count)).
  { intros x. unfold generate_strings. split; apply Permutation_in; [apply Hsh|apply Permutation_sym, Hsh]. }
  destruct (plus_counts bytes e keep p b _ _ s He Hp Hu keep_order HI Hs) as (_ & c & _ & _ & Hc).
  destruct (iter_seen_inv _ _ (plus_ok p b (rev (map (hash64 b) (generate_strings draws shuffle count)))) c iters
    (fun s i => hp_count e (ords' i) s) s Hs) as (s' & E & _).
  { intros s1 k H1. destruct (plus_counts bytes e (ords' k) p b _ _ s1 He Hp Hu (Ho' k) HI H1) as (s2 & c2 & E2 & H2 & Hc2).
    exists s2. split; [|exact H2]. rewrite E2. specialize (Hc keep keep_order). specialize (Hc2 keep keep_order). congruence. }
  exists s', c. auto.
Qed.

(** ** A sketch forced into the normal representation *)
Definition normal_ok {V : Type} (p : N) (b : V -> N) (H : list N) (s : plus V) : Prop :=
  header p b s /\ exists r, hp_registers s = Some r /\ hp_tmpset s = [] /\ hp_sparse s = dif_new /\ holds 6 64 p H r.

Lemma forced_normal_ok : forall (V : Type) e p (b : V -> N), 32 <= usize_bits e -> 4 <= p <= 18 ->
  exists s, forced_normal e p b = Ret s /\ normal_ok p b [] s.
Proof.
  intros V e p b He Hp. unfold forced_normal. destruct (hp_new_ok V e p b He Hp) as (s & -> & (Hd & HF & _) & HT & Hf).
  rewrite bind_ret. cbn [unwrap_res]. rewrite bind_ret.
  assert (D : dif_repr (hp_sparse s) [] /\ is_code_list p [] []).
  { split; [|split; [constructor|intros x; tauto]]. destruct (hp_registers s); [destruct Hf as (-> & _); apply dif_repr_new|].
    destruct Hf as (L & [_ HL] & HD & _). destruct L as [|a L]; [exact HD|]. destruct (proj1 (HL a) (or_introl eq_refl)). }
  destruct (sparse_to_normal_ok V e p b [] [] s He Hp Hd HF (proj2 D) (proj1 D)) as (s' & r & E & Hd' & T & S & R & Ho).
  exists s'. split; [exact E|]. split; [exact Hd'|]. exists r. auto.
Qed.

Lemma normal_insert : forall (V : Type) e ord p (b : V -> N) H s v, 32 <= usize_bits e -> 4 <= p <= 18 -> normal_ok p b H s ->
  exists s', hp_insert e ord s v = Ret s' /\ normal_ok p b (hash64 b v :: H) s'.
Proof.
  intros V e ord p b H s v He Hp (Hd & r & Er & T & S & Hr).
  pose proof Hd as (A & B & C & D & F).
  unfold hp_insert, hp_insert_impl. rewrite A. change (cast 64 (b v)) with (hash64 b v).
  pose proof (hash64_lt V b v) as Hh. set (h := hash64 b v) in *.
  unfold hp_insert_hash. rewrite B, Er.
  rewrite usub_ok, bind_ret by lia. rewrite ushr_ok, bind_ret by lia.
  rewrite ushl_ok, bind_ret by lia. rewrite usub_ok, bind_ret by lia.
  rewrite ushl_ok, bind_ret by lia. rewrite N.mul_1_l.
  rewrite (N.mod_small (2 ^ (p - 1))) by (apply pow2_lt; lia).
  pose proof (leading_zeros_rank 64 p h ltac:(lia) ltac:(lia) Hh) as LZ.
  pose proof (rank_bounds 64 p h ltac:(lia)) as RB.
  rewrite uadd_ok, bind_ret.
  2:{ rewrite LZ. change (2 ^ 32) with 4294967296. lia. }
  rewrite LZ. change (h / 2 ^ (64 - p)) with (bucket 64 p h).
  pose proof (bucket_lt 64 p h ltac:(lia) Hh) as Bk.
  unfold cast. rewrite (N.mod_small (bucket 64 p h)).
  2:{ eapply N.lt_le_trans; [exact Bk|]. apply pow2_le. lia. }
  destruct (holds_insert e 6 64 p H r h) as (r' & E & Hr'); auto; [now right|lia| |].
  { change (2 ^ 6) with 64. lia. }
  unfold SIZE_PLUS. rewrite E, bind_ret. eexists. split; [reflexivity|].
  split; [split; [exact A|split; [exact B|split; [exact C|split; [exact D|exact F]]]]|].
  exists r'. auto.
Qed.

Lemma normal_fill : forall (V : Type) e p (b : V -> N) ords l H s, 32 <= usize_bits e -> 4 <= p <= 18 -> normal_ok p b H s ->
  exists s', fill_plus e ords l s = Ret s' /\ normal_ok p b (rev (map (hash64 b) l) ++ H) s'.
Proof.
  intros V e p b ords l. unfold fill_plus. generalize 0 as i. induction l as [|v l IH]; intros i H s He Hp Hs; cbn [for_each_enum map rev].
  - exists s. auto.
  - destruct (normal_insert V e (ords i) p b H s v He Hp Hs) as (s1 & E1 & H1). rewrite E1, bind_ret.
    destruct (IH (i + 1) _ _ He Hp H1) as (s' & E' & H'). exists s'. rewrite <- app_assoc. auto.
Qed.

Lemma normal_count : forall (V : Type) e ord p (b : V -> N) H s, build_std e -> 4 <= p <= 18 -> 2 * p < usize_bits e -> normal_ok p b H s ->
  exists l c, is_register_file 64 p H l /\ normal_value e p l = Ret c /\ hp_count e ord s = Ret (s, c).
Proof.
  intros V e ord p b H s Hb Hp Hu ((A & B & C0 & C1 & C2) & r & Er & T & S & Hr).
  pose proof Hr as (_ & _ & Z & RF & _).
  assert (Fl : Forall (fun v => v < 64) (reg_iter 6 r)) by (apply (reg_iter_lt 6); now right).
  destruct (normal_value_total e p (reg_iter 6 r) Hb Hp Hu (proj1 RF) Fl) as [c Ec].
  exists (reg_iter 6 r), c. split; [exact RF|]. split; [exact Ec|].
  unfold hp_count, is_sparse. rewrite Er, bind_ret, Er. unfold normal_value in Ec. unfold reg_zeros. cbv zeta. unfold exact_zeros in Z.
  rewrite !Z, C0, B. unfold SIZE_PLUS.
  destruct (negb _).
  - apply bind_inv in Ec. destruct Ec as (y & E1 & Ec). rewrite E1, bind_ret.
    apply bind_inv in Ec. destruct Ec as (t & E2 & Ec). rewrite E2, bind_ret.
    destruct (fle y t); [now inv Ec|]. rewrite Ec, bind_ret. reflexivity.
  - rewrite Ec, bind_ret. reflexivity.
Qed.

Lemma plus_insert_normal_bench : forall e ords iters, 32 <= usize_bits e -> 0 < iters ->
  exists s r, bench_plus_insert_normal e ords iters = Ret s /\ hp_registers s = Some r /\ one_register SIZE_PLUS r /\ reg_zeros r = 65535.
Proof.
  intros e ords iters He Hi. unfold bench_plus_insert_normal.
  destruct (forced_normal_ok N e 16 (fun x => x) He ltac:(lia)) as (s0 & -> & H0). rewrite bind_ret.
  destruct (iter_inv1 _ (fun s => exists H, normal_ok 16 (fun x : N => x) H s /\ (H = [] \/ pass_all 1000 H))
    (fun s => exists H, normal_ok 16 (fun x : N => x) H s /\ pass_all 1000 H) iters
    (fun s i => fill_plus e (ords i) (downwards 1000) s) s0 Hi) as (s & E & H & (_ & r & Er & _ & _ & Hr) & HP).
  - exists []. auto.
  - intros s k (H & Hs & HP). destruct (normal_fill N e 16 (fun x => x) (ords k) (downwards 1000) H s He ltac:(lia) Hs) as (s' & E & Hs').
    exists s'. split; [exact E|]. eexists. split; [exact Hs'|]. now apply pass_more.
  - intros s (H & Hs & HP). exists H. auto.
  - exists s, r. split; [exact E|]. split; [exact Er|].
    assert (O : one_register SIZE_PLUS r) by (apply (one_register_ok SIZE_PLUS 64 1000 H); auto; [now right|lia|lia]).
    split; [exact O|]. destruct Hr as (A & B & C & D & _). eapply one_register_zeros; eauto; [now right|apply D].
Qed.

Lemma bench_cases : Forall (fun p => 4 <= p <= 16) insert_precisions /\
  Forall (fun '(p, n) => 4 <= p <= 16 /\ 0 < n) count_pf_cases /\ Forall (fun '(p, n) => 4 <= p <= 16 /\ 0 < n) count_plus_cases.
Proof. split; [|split]; repeat (constructor; [lia|]); constructor. Qed.

Lemma varint_push_cases : forall iters,
  bench_varint_push iters 0 = Ret (repeat 0 (N.to_nat iters)) /\
  bench_varint_push iters (2 ^ 32 - 1) = Ret (concat (repeat [255; 255; 255; 255; 15] (N.to_nat iters))).
Proof.
  intros iters. split; [|apply (varint_push_bench iters (2 ^ 32 - 1)); reflexivity].
  rewrite (varint_push_bench iters 0) by reflexivity. f_equal. change (venc 0) with [0].
  induction (N.to_nat iters) as [|n IH]; [reflexivity|]. cbn [repeat concat app]. now rewrite IH.
Qed.

Lemma varint_decode_cases : forall e iters,
  (exists v, bench_varint_decode e iters 0 = Ret (v, repeat (0, 1) (N.to_nat iters))) /\
  (exists v, bench_varint_decode e iters (2 ^ 32 - 1) = Ret (v, repeat (2 ^ 32 - 1, 5) (N.to_nat iters))).
Proof. intros e iters. split; [apply (varint_decode_bench e iters 0)|apply (varint_decode_bench e iters (2 ^ 32 - 1))]; reflexivity. Qed.
