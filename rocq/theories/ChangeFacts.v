(** * How often a sketch changes *)
From Coq Require Import NArith List Bool Lia Sorted.
From Verif Require Import ModelRust ModelEnv ModelRegisters ModelEncoding ModelPF ModelPlus ModelHistory
  Spec SpecBuild SpecCount SpecDist SpecFresh BitFacts CountFacts DistFacts RegFacts EncFacts AbsorbFacts MergeFacts
  PFInv PlusInv ClaimFacts FreshFacts.
Import ListNotations.
Local Open Scope N_scope.

(** ** Potentials *)

Section Moves.
  Context {S : Type} (step : S -> N -> M S) (inv : S -> Prop) (pot : S -> N) (ok : N -> Prop) (cap : N).
  Hypothesis cap_ok : forall s, inv s -> pot s <= cap.
  Hypothesis step_ok : forall s x, inv s -> ok x ->
    exists s1, step s x = Ret s1 /\ inv s1 /\ (s1 = s \/ s1 <> s /\ pot s < pot s1).

  Lemma moves_total : forall xs s, inv s -> Forall ok xs -> exists s' k, moves step s xs s' k.
  Proof.
    induction xs as [|x xs IH]; intros s Hs F; [exists s, 0; constructor|].
    inversion F as [|? ? Hx F']; subst. destruct (step_ok s x Hs Hx) as (s1 & E & H1 & D).
    destruct (IH s1 H1 F') as (s' & k & A). destruct D as [->|[D _]].
    - exists s', k. now apply moves_same.
    - exists s', (k + 1). now apply (moves_step _ s x xs s1).
  Qed.

  Lemma moves_pot : forall s xs s' k, moves step s xs s' k -> inv s -> Forall ok xs -> inv s' /\ pot s + k <= pot s'.
  Proof.
    induction 1 as [s|s x xs s' k E A IH|s x xs s1 s' k E D A IH]; intros Hs F.
    - split; [exact Hs|lia].
    - inversion F; subst. now apply IH.
    - inversion F as [|? ? Hx F']; subst. destruct (step_ok s x Hs Hx) as (s2 & E2 & H2 & D2).
      rewrite E in E2. injection E2 as <-. destruct D2 as [->|[_ P]]; [now destruct D|].
      destruct (IH H2 F') as [I L]. split; [exact I|lia].
  Qed.

  Lemma moves_bound : forall s xs, inv s -> Forall ok xs ->
    (exists s' k, moves step s xs s' k) /\ forall s' k, moves step s xs s' k -> k <= cap - pot s.
  Proof.
    intros s xs Hs F. split; [now apply moves_total|]. intros s' k A.
    destruct (moves_pot s xs s' k A Hs F) as [I L]. specialize (cap_ok s' I). lia.
  Qed.

  Hypothesis more : forall s, inv s -> pot s < cap ->
    exists x s1, ok x /\ step s x = Ret s1 /\ inv s1 /\ s1 <> s /\ pot s1 = pot s + 1.

  Lemma moves_reached : forall s, inv s -> exists xs s', Forall ok xs /\ moves step s xs s' (cap - pot s).
  Proof.
    assert (G : forall n s, inv s -> cap - pot s = n -> exists xs s', Forall ok xs /\ moves step s xs s' n).
    { induction n as [|n IH] using N.peano_ind; intros s Hs E.
      - exists [], s. split; constructor.
      - destruct (more s Hs ltac:(lia)) as (x & s1 & Hx & E1 & H1 & D & P).
        destruct (IH s1 H1 ltac:(lia)) as (xs & s' & F & A). exists (x :: xs), s'. split; [now constructor|].
        rewrite <- N.add_1_r. now apply (moves_step _ s x xs s1). }
    intros s Hs. now apply G.
  Qed.
End Moves.

(** ** Sums of registers *)

Lemma sum_update : forall l i v old, nth_error l i = Some old -> sum (update_nat l i v) + old = sum l + v.
Proof.
  induction l as [|a l IH]; intros [|i] v old E; cbn [nth_error] in E; try discriminate.
  - injection E as ->. cbn [update_nat]. unfold sum. cbn [fold_right]. lia.
  - specialize (IH i v old E). cbn [update_nat]. unfold sum in *. cbn [fold_right]. lia.
Qed.

Lemma sum_cap : forall l c, Forall (fun v => v <= c) l -> sum l <= N.of_nat (length l) * c.
Proof.
  induction 1 as [|v l Hv F IH]; [cbn; lia|]. unfold sum in *. cbn [fold_right length]. rewrite Nnat.Nat2N.inj_succ. lia.
Qed.

Lemma sum_below : forall l c, sum l < N.of_nat (length l) * c -> exists i v, nth_error l i = Some v /\ v < c.
Proof.
  induction l as [|a l IH]; intros c L; [cbn in L; lia|].
  destruct (N.lt_ge_cases a c) as [A|A]; [exists O, a; auto|].
  destruct (IH c) as (i & v & E & Lv).
  { unfold sum in *. cbn [fold_right length] in L. rewrite Nnat.Nat2N.inj_succ in L. lia. }
  exists (S i), v. auto.
Qed.

Lemma file_raise : forall W p H l x, is_register_file W p H l -> raises W p l x -> bucket W p x < 2 ^ p ->
  is_register_file W p (x :: H) (update_nat l (N.to_nat (bucket W p x)) (rank W p x)).
Proof.
  intros W p H l x [HL F] R Hx. split; [now rewrite update_nat_length|]. intros i v E.
  destruct (N.eq_dec (bucket W p x) i) as [<-|D].
  - rewrite update_nat_same in E by lia. injection E as <-. split.
    + intros h [<-|Hh] Hi; [lia|].
      destruct (F (bucket W p x) (nth (N.to_nat (bucket W p x)) l 0)) as [U _]; [apply nth_error_nth'; lia|].
      specialize (U h Hh Hi). unfold raises in R. lia.
    + right. exists x. split; [now left|auto].
  - rewrite update_nat_other in E by (intros X; apply D; lia). destruct (F i v E) as [U X]. split.
    + intros h [<-|Hh] Hi; [tauto|now apply U].
    + destruct X as [->|(h & Hh & A)]; [now left|right]. exists h. split; [now right|exact A].
Qed.

Lemma file_max : forall W p H l, p < W -> Forall (fun h => h < 2 ^ W) H -> is_register_file W p H l ->
  Forall (fun v => v <= W - p + 1) l.
Proof.
  intros W p H l Hp HF [HL F]. apply Forall_forall. intros v Hv. apply In_nth_error in Hv. destruct Hv as [i E].
  destruct (F (N.of_nat i) v) as [_ X]; [now rewrite Nnat.Nat2N.id|].
  destruct X as [->|(h & Hh & _ & <-)]; [lia|]. rewrite Forall_forall in HF. apply rank_max; auto.
Qed.

(** The register file after one more hash. *)
Lemma file_step : forall W p H l l' x, p < W -> x < 2 ^ W -> is_register_file W p H l ->
  is_register_file W p (x :: H) l' ->
  (~ raises W p l x /\ l' = l) \/
  (raises W p l x /\ sum l' + nth (N.to_nat (bucket W p x)) l 0 = sum l + rank W p x).
Proof.
  intros W p H l l' x Hp Hx F F'. pose proof (bucket_lt W p x Hp Hx) as HB.
  destruct (N.lt_ge_cases (nth (N.to_nat (bucket W p x)) l 0) (rank W p x)) as [L|L].
  - right. split; [exact L|].
    rewrite (is_register_file_unique W p (x :: H) l' (update_nat l (N.to_nat (bucket W p x)) (rank W p x)));
      [|lia|exact F'|now apply file_raise].
    apply sum_update. apply nth_error_nth'. destruct F as [HL _]. lia.
  - left. assert (N : ~ raises W p l x) by (unfold raises; lia). split; [exact N|].
    apply (is_register_file_unique W p (x :: H)); [lia|exact F'|now apply file_cons].
Qed.

(** A hash of a given bucket and rank. *)
Lemma hash_of : forall W p i k, p < W -> i < 2 ^ p -> 1 <= k <= W - p + 1 ->
  exists x, x < 2 ^ W /\ bucket W p x = i /\ rank W p x = k.
Proof.
  intros W p i k Hp Hi Hk. destruct (rank_distribution W p i Hp Hi) as (A & B & _).
  assert (X : exists n, n <> 0 /\ has_size (fun h => h < 2 ^ W /\ bucket W p h = i /\ rank W p h = k) n).
  { destruct (N.eq_dec k (W - p + 1)) as [->|D]; [exists 1; split; [discriminate|exact B]|].
    exists (2 ^ (W - p - k)). split; [apply N.pow_nonzero; discriminate|]. apply A. lia. }
  destruct X as (n & Hn & l & _ & E & L). destruct l as [|x l]; [cbn in L; lia|].
  exists x. apply E. now left.
Qed.

(** Unless every register is full, some hash raises one of them by one. *)
Lemma file_more : forall W p H l, p < W -> is_register_file W p H l ->
  sum l < 2 ^ p * (W - p + 1) ->
  exists x, x < 2 ^ W /\ raises W p l x /\ rank W p x = nth (N.to_nat (bucket W p x)) l 0 + 1.
Proof.
  intros W p H l Hp [HL F] L. rewrite <- HL in L. destruct (sum_below l _ L) as (i & v & E & Hv).
  assert (Hi : N.of_nat i < 2 ^ p).
  { rewrite <- HL. assert (i < length l)%nat; [|lia]. apply nth_error_Some. congruence. }
  destruct (hash_of W p (N.of_nat i) (v + 1) Hp Hi ltac:(lia)) as (x & Hx & B & R).
  exists x. unfold raises. rewrite B, R, Nnat.Nat2N.id, (nth_error_nth _ _ _ E). split; [exact Hx|]. split; lia.
Qed.

(** ** HyperLogLogPF *)

Section PF.
  Context {V : Type} (e : env) (p : N) (b : V -> N).
  Hypothesis Hu : 32 <= usize_bits e.
  Hypothesis Hp : 4 <= p <= 16.

  Definition pf_inv (s : pf V) : Prop := exists H, pf_ok p b H s.
  Definition pf_pot (s : pf V) : N := sum (reg_iter 5 (pf_registers s)).

  Lemma low32_lt : forall H, Forall (fun h => h < 2 ^ 32) (low32 H).
  Proof.
    intros H. apply Forall_forall. intros x Hx. apply in_map_iff in Hx. destruct Hx as (y & <- & _).
    apply N.mod_lt. discriminate.
  Qed.

  Lemma pf_cap : forall s, pf_inv s -> pf_pot s <= 2 ^ p * (33 - p).
  Proof.
    intros s (H & _ & _ & _ & _ & _ & _ & F & _). unfold pf_pot. rewrite <- (proj1 F).
    apply sum_cap. replace (33 - p) with (32 - p + 1) by lia.
    apply (file_max 32 p (low32 H)); [lia|apply low32_lt|exact F].
  Qed.

  Lemma pf_move : forall s x, pf_inv s -> x < 2 ^ 32 ->
    exists s1, pf_insert_hash e s x = Ret s1 /\ pf_inv s1 /\
      ((s1 = s /\ ~ raises 32 p (reg_iter 5 (pf_registers s)) x) \/
       (s1 <> s /\ raises 32 p (reg_iter 5 (pf_registers s)) x /\
        pf_pot s1 + nth (N.to_nat (bucket 32 p x)) (reg_iter 5 (pf_registers s)) 0 = pf_pot s + rank 32 p x)).
  Proof.
    intros s x (H & Hs) Hx. pose proof (bucket_lt 32 p x ltac:(lia) Hx) as HB.
    destruct (pf_insert_hash_ok V e p b H s x Hu Hp Hs) as (s1 & E1 & H1).
    rewrite N.mod_small in E1 by exact Hx. exists s1. split; [exact E1|]. split; [now exists (x :: H)|].
    pose proof Hs as (S1 & S2 & S3 & S4). pose proof S4 as (_ & _ & _ & F & _).
    pose proof H1 as (_ & _ & _ & _ & _ & _ & F1 & _). unfold low32 in F1. cbn [map] in F1.
    rewrite N.mod_small in F1 by exact Hx.
    destruct (file_step 32 p _ _ _ x ltac:(lia) Hx F F1) as [[R E]|[R E]].
    - left. split; [|exact R].
      apply (pf_ok_inj V p b (x :: H)); [lia|exact H1|].
      split; [exact S1|]. split; [exact S2|]. split; [exact S3|].
      unfold low32. cbn [map]. rewrite N.mod_small by exact Hx. now apply holds_cons.
    - right. split; [|split; [exact R|exact E]]. intros ->. unfold raises in R. lia.
  Qed.

  Lemma pf_step_ok : forall s x, pf_inv s -> x < 2 ^ 32 ->
    exists s1, pf_insert_hash e s x = Ret s1 /\ pf_inv s1 /\ (s1 = s \/ s1 <> s /\ pf_pot s < pf_pot s1).
  Proof.
    intros s x Hs Hx. destruct (pf_move s x Hs Hx) as (s1 & E & H1 & [[D _]|(D & R & P)]); exists s1;
      (split; [exact E|split; [exact H1|]]); [now left|right]. split; [exact D|]. unfold raises in R. lia.
  Qed.

  Lemma pf_more : forall s, pf_inv s -> pf_pot s < 2 ^ p * (33 - p) ->
    exists x s1, x < 2 ^ 32 /\ pf_insert_hash e s x = Ret s1 /\ pf_inv s1 /\ s1 <> s /\ pf_pot s1 = pf_pot s + 1.
  Proof.
    intros s Hs L. pose proof Hs as (H & _ & _ & _ & _ & _ & _ & F & _).
    replace (33 - p) with (32 - p + 1) in L by lia.
    destruct (file_more 32 p _ _ ltac:(lia) F L) as (x & Hx & R & K).
    destruct (pf_move s x Hs Hx) as (s1 & E & H1 & [[_ X]|(D & _ & P)]); [tauto|].
    exists x, s1. repeat (split; [assumption|]). lia.
  Qed.
End PF.

Theorem pf_moves : forall (V : Type) e (h : hist V) s xs, build e -> valid MAX_PF h -> narrow (usize_bits e) h ->
  run_pf e h = Ret s -> Forall (fun x => x < 2 ^ 32) xs ->
  let p := hist_precision h in
  let left := 2 ^ p * (33 - p) - sum (reg_iter 5 (pf_registers s)) in
  (exists s' k, moves (pf_insert_hash e) s xs s' k) /\
  (forall s' k, moves (pf_insert_hash e) s xs s' k -> k <= left) /\
  (exists ys s', Forall (fun x => x < 2 ^ 32) ys /\ moves (pf_insert_hash e) s ys s' left).
Proof.
  intros V e h s xs Hb Hv Hn E F p left.
  destruct (run_pf_ok V e h Hb Hv Hn) as (s' & E' & Hs). rewrite E in E'. injection E' as <-.
  pose proof (hist_prec V _ h Hv) as Hp. unfold MAX_PF in Hp.
  assert (Hu : 32 <= usize_bits e) by apply Hb.
  assert (I : pf_inv p (hist_builder h) s) by now exists (hist_hashes h).
  pose proof (moves_bound (pf_insert_hash e) (pf_inv p (hist_builder h)) pf_pot _ _
    (pf_cap e p (hist_builder h) Hu Hp) (pf_step_ok e p (hist_builder h) Hu Hp) s xs I F) as [A B].
  split; [exact A|]. split; [exact B|].
  exact (moves_reached (pf_insert_hash e) (pf_inv p (hist_builder h)) pf_pot (fun x => x < 2 ^ 32) _
    (pf_more e p (hist_builder h) Hu Hp) s I).
Qed.

(** ** HyperLogLogPlus *)

Section Plus.
  Context {V : Type} (e : env) (ord : list N -> list N) (p : N) (b : V -> N).
  Hypothesis Hb : build_std e.
  Hypothesis Hp : 4 <= p <= 18.
  Hypothesis Hw : 2 * p < usize_bits e.
  Hypothesis Ho : is_order ord.

  Definition hp_inv (s : plus V) : Prop :=
    exists H, plus_ok p b H s /\ flushed p H s.
  Definition hp_pot (s : plus V) : N :=
    match hp_registers s with
    | Some r => sparse_limit p + sum (reg_iter 6 r)
    | None => d_count (hp_sparse s)
    end.

  Lemma hp_cap : forall s, hp_inv s -> hp_pot s <= sparse_limit p + 2 ^ p * (65 - p).
  Proof.
    intros s (H & (Hd & HF & _) & _ & HB). unfold hp_pot. destruct (hp_registers s) as [r|].
    - destruct HB as (_ & (_ & _ & _ & F & _) & _). rewrite <- (proj1 F). apply N.add_le_mono_l.
      apply sum_cap. replace (65 - p) with (64 - p + 1) by lia.
      apply (file_max 64 p H); [lia|exact HF|exact F].
    - destruct HB as (L & _ & R & G). pose proof (gap_len_length L 0).
      destruct R as (_ & _ & _ & E & _). transitivity (sparse_limit p); [lia|apply N.le_add_r].
  Qed.

  Lemma hp_step_ok : forall s x, hp_inv s -> x < 2 ^ 64 ->
    exists s1, insert_count e ord s x = Ret s1 /\ hp_inv s1 /\ (s1 = s \/ s1 <> s /\ hp_pot s < hp_pot s1).
  Proof.
    intros s x (H & Hs & Fl) Hx. pose proof (bucket_lt 64 p x ltac:(lia) Hx) as HB.
    destruct (hp_insert_hash_ok V e ord p b H s x ltac:(apply Hb) Hp Ho Hx Hs) as (s1 & E1 & H1).
    destruct (hp_count_ok V e ord p b (x :: H) s1 Hb Hp (or_introl Hw) Ho H1) as (s2 & c & E2 & D2 & F2 & _).
    exists s2. unfold insert_count. rewrite E1, bind_ret, E2, bind_ret. split; [reflexivity|].
    assert (HF : Forall (fun h => h < 2 ^ 64) (x :: H)) by apply H1.
    split.
    { exists (x :: H). split; [|exact F2]. split; [exact D2|]. split; [exact HF|]. apply flushed_body; [lia|exact F2]. }
    pose proof Hs as (Hd & _ & _).
    assert (U : flushed p (x :: H) s -> s2 = s).
    { intros X. apply (flushed_unique V p b (x :: H)); auto. lia. }
    pose proof Fl as [T B]. pose proof F2 as [T2 B2]. unfold hp_pot in *.
    destruct (hp_registers s) as [r|] eqn:Er.
    - destruct B as (D & S4 & BC).
      pose proof (big_codes_incl p H (x :: H) ltac:(intros y Hy; now right) BC) as BC'.
      destruct (hp_registers s2) as [r2|] eqn:Er2.
      + destruct B2 as (_ & S2 & _). pose proof S4 as (_ & _ & _ & F & _). pose proof S2 as (_ & _ & _ & F' & _).
        destruct (file_step 64 p _ _ _ x ltac:(lia) Hx F F') as [[R E]|[R E]].
        * left. apply U. split; [exact T|]. rewrite Er. split; [exact D|]. split; [|exact BC']. now apply holds_cons.
        * right. unfold raises in R. split; [|lia]. intros ->. rewrite Er in Er2. injection Er2 as ->. lia.
      + exfalso. destruct B2 as (L & HL & _ & G). destruct BC' as (L' & HL' & G').
        rewrite (code_list_unique _ _ _ _ HL HL') in G. lia.
    - destruct B as (L & HL & R & G). destruct R as (R1 & R2 & R3 & R4 & R5).
      destruct (hp_registers s2) as [r2|] eqn:Er2.
      + right. split; [congruence|]. pose proof (gap_len_length L 0). destruct B2 as (_ & (_ & _ & _ & F & _) & _).
        assert (0 < sum (reg_iter 6 r2)); [|lia].
        destruct (file_nth 64 p _ _ _ F HB) as [Ux _]. specialize (Ux x (or_introl eq_refl) eq_refl).
        pose proof (proj2 (proj2 (proj2 (rank_distribution 64 p (bucket 64 p x) ltac:(lia) HB))) x Hx) as [_ Rk].
        set (v := nth (N.to_nat (bucket 64 p x)) (reg_iter 6 r2) 0) in *.
        assert (Iv : In v (reg_iter 6 r2)) by (apply nth_In; destruct F as [FL _]; lia).
        apply in_split in Iv. destruct Iv as (l1 & l2 & ->). rewrite sum_app. unfold sum at 2. cbn [fold_right]. lia.
      + destruct B2 as (L2 & HL2 & (Q1 & Q2 & Q3 & Q4 & Q5) & G2).
        destruct (in_dec N.eq_dec (sparse_code p x) L) as [I|I].
        * left. apply U. split; [exact T|]. rewrite Er. exists L. split; [now apply code_list_cons|].
          split; [|exact G]. repeat split; auto.
        * right.
          assert (LT : N.of_nat (length L) < N.of_nat (length L2)).
          { assert (In2 : incl (sparse_code p x :: L) L2).
            { intros y [<-|Hy]; [apply HL2; now left|]. apply HL2. cbn [map]. right. now apply HL. }
            assert (ND : NoDup (sparse_code p x :: L)) by (constructor; [exact I|apply strong_NoDup; apply HL]).
            pose proof (NoDup_incl_length ND In2) as LL. cbn [length] in LL. lia. }
          split; [|lia]. intros ->. lia.
  Qed.
End Plus.

Theorem plus_moves : forall (V : Type) e ord (h : hist V) s xs, build_std e -> valid MAX_PLUS h ->
  narrow (usize_bits e) h -> is_order ord -> run_plus e (HCount ord h) = Ret s -> Forall (fun x => x < 2 ^ 64) xs ->
  let p := hist_precision h in
  (exists s' k, moves (insert_count e ord) s xs s' k) /\
  (forall s' k, moves (insert_count e ord) s xs s' k -> k <= sparse_limit p + 2 ^ p * (65 - p)).
Proof.
  intros V e ord h s xs Hb Hv Hn Ho E F p.
  destruct (count_plus_ok V e ord h Hb Hv Hn Ho) as (t & s' & c & Er & Ec & _ & Hd & Hf & _).
  cbn [run_plus] in E. rewrite Er, bind_ret, Ec, bind_ret in E. injection E as <-.
  pose proof (hist_prec V _ h Hv) as Hp. unfold MAX_PLUS in Hp. pose proof (narrow_prec V _ h Hn) as Hw.
  destruct (run_plus_ok V e h Hb Hv Hn) as (t' & Et' & _ & HF & _).
  assert (I : hp_inv p (hist_builder h) s').
  { exists (hist_hashes h). split; [|exact Hf]. split; [exact Hd|]. split; [exact HF|]. apply flushed_body; [lia|exact Hf]. }
  pose proof (moves_bound (insert_count e ord) (hp_inv p (hist_builder h)) (hp_pot p) _ _
    (hp_cap e p (hist_builder h) Hp Hw) (hp_step_ok e ord p (hist_builder h) Hb Hp Hw Ho) s' xs I F) as [A B].
  split; [exact A|]. intros s2 k X. specialize (B s2 k X). eapply N.le_trans; [exact B|apply N.le_sub_l].
Qed.
