(** * Bounds that hold for every hash function *)
From Coq Require Import NArith ZArith Reals List Bool Lia Lra.
From Flocq Require Import Core BinarySingleNaN.
From Verif Require Import ModelRust ModelF64 ModelEnv ModelHistory ModelTests Spec SpecReal SpecCount SpecBuild
  SandwichFacts Witness RefuteFacts ClaimRefute.
Import ListNotations.
Local Open Scope R_scope.

(** ** C62: few values are not overcounted, whatever their hashes *)

(** [D]: all hashes absorbed are among these; [B]: different buckets that were hit.  The count is
    at least the number of buckets, and at most what [D] can fill. *)
Theorem C62_plus : forall (V : Type) e ord (h : hist V) D B,
  build_std e -> accurate e -> valid MAX_PLUS h -> narrow (usize_bits e) h -> is_order ord ->
  incl (hist_hashes h) D -> (4 * N.of_nat (length D) <= 2 ^ hist_precision h)%N ->
  NoDup B -> (forall b, In b B -> exists x, In x (hist_hashes h) /\ bucket 64 (hist_precision h) x = b) ->
  exists c, count_plus e ord h = Ret c /\ is_finite c = true /\
    INR (length B) * (1 - / IZR (2 ^ 28)) <= B2R c <=
    INR (length D) * (1 + INR (length D) / m_R (hist_precision h)) * (1 + / IZR (2 ^ 28)).
Proof. exact plus_sandwich. Qed.
Print Assumptions C62_plus.

Theorem C62_pf : forall (V : Type) e (h : hist V) D B,
  build e -> accurate e -> valid MAX_PF h -> narrow (usize_bits e) h ->
  incl (map (fun x => x mod 2 ^ 32)%N (hist_hashes h)) D -> (5 * N.of_nat (length D) <= 2 * 2 ^ hist_precision h)%N ->
  NoDup B -> (forall b, In b B -> exists x, In x (map (fun x => x mod 2 ^ 32)%N (hist_hashes h)) /\
    bucket 32 (hist_precision h) x = b) ->
  exists c, count_pf e h = Ret c /\ is_finite c = true /\
    INR (length B) * (1 - / IZR (2 ^ 28)) <= B2R c <=
    INR (length D) * (1 + INR (length D) / m_R (hist_precision h)) * (1 + / IZR (2 ^ 28)).
Proof. exact pf_sandwich. Qed.
Print Assumptions C62_pf.

(** Four and six values with the highest ranks there are. *)
Example C62_example :
  let h := inserted 4 (fun v => v * 2 ^ 61)%N Insert keep (range 4) in
  let g := inserted 4 (fun v => v * 2 ^ 28)%N Insert keep (range 6) in
  build_std test_env /\ accurate test_env /\ valid MAX_PLUS h /\ narrow (usize_bits test_env) h /\ is_order keep /\
  incl (hist_hashes h) (hist_hashes h) /\ (4 * N.of_nat (length (hist_hashes h)) <= 2 ^ hist_precision h)%N /\
  NoDup [0; 2; 4; 6]%N /\
  (forall b, In b [0; 2; 4; 6]%N -> exists x, In x (hist_hashes h) /\ bucket 64 (hist_precision h) x = b) /\
  map (rank 64 4) (hist_hashes h) = [61; 61; 61; 61]%N /\ trunc (count_plus test_env keep h) = Ret 4%Z /\
  build core_env /\ accurate core_env /\ valid MAX_PF g /\ narrow (usize_bits core_env) g /\
  (5 * N.of_nat (length (map (fun x => x mod 2 ^ 32)%N (hist_hashes g))) <= 2 * 2 ^ hist_precision g)%N /\
  NoDup [0; 1; 2; 3; 4; 5]%N /\
  (forall b, In b [0; 1; 2; 3; 4; 5]%N -> exists x, In x (map (fun x => x mod 2 ^ 32)%N (hist_hashes g)) /\
    bucket 32 (hist_precision g) x = b) /\ trunc (count_pf core_env g) = Ret 7%Z.
Proof.
  cbv zeta. split; [exact test_build|]. split; [exact test_accurate'|].
  split; [apply inserted_valid; [apply keep_order|unfold MAX_PLUS, MAX_PF; lia]|]. split; [vm_compute; intuition discriminate|]. split; [exact keep_order|].
  split; [intros x Hx; exact Hx|]. split; [vm_compute; discriminate|].
  split; [repeat constructor; cbn; intuition discriminate|].
  split.
  { intros b Hb. exists (b * 2 ^ 60)%N. cbn [In] in Hb. vm_compute.
    destruct Hb as [<-|[<-|[<-|[<-|[]]]]]; intuition. }
  split; [vm_compute; reflexivity|]. split; [lazy; reflexivity|].
  split; [exact core_build|]. split; [exact core_accurate'|].
  split; [apply inserted_valid; [apply keep_order|unfold MAX_PLUS, MAX_PF; lia]|]. split; [vm_compute; intuition discriminate|].
  split; [vm_compute; discriminate|].
  split; [repeat constructor; cbn; intuition discriminate|].
  split; [|lazy; reflexivity].
  intros b Hb. exists (b * 2 ^ 28)%N. cbn [In] in Hb.
  destruct Hb as [<-|[<-|[<-|[<-|[<-|[<-|[]]]]]]]; vm_compute; intuition.
Qed.
