(** * The order in which exp.py finds the files *)
From Coq Require Import NArith ZArith List Permutation.
From Flocq Require Import Core BinarySingleNaN.
From Verif Require Import ModelRust ModelF64 ModelFiles ModelExp ModelStats ModelPlot Spec SpecRust SpecFiles SpecExp OrderFacts.
Import ListNotations.

(** ** C93: "plot" on files of estimates that [glob] finds in another order *)
(** The statistics are of the same errors. *)
Theorem C93_rows : forall files contents contents', Forall2 estimate_file files contents ->
  List.Forall (List.Forall (fun est => (1 <= fst est <= 2 ^ 53)%N /\ (snd est < 2 ^ 64)%N)) files -> Permutation contents contents' ->
  exists rows rows', calculate_statistics contents = Ret rows /\ calculate_statistics contents' = Ret rows' /\
  Forall2 (fun r r' => Permutation (snd r) (snd r')) rows rows'.
Proof. exact order_rows. Qed.
Print Assumptions C93_rows.

(** Where the files agree about the cardinality of each line, as those of an experiment do, the possible plots are the same. *)
Theorem C93_plot : forall hll hashes files contents contents' r, Forall2 estimate_file files contents ->
  List.Forall (List.Forall (fun est => (1 <= fst est <= 2 ^ 53)%N /\ (snd est < 2 ^ 64)%N)) files ->
  (forall f g j a b, In f files -> In g files -> nth_error f j = Some a -> nth_error g j = Some b -> fst a = fst b) ->
  Permutation contents contents' -> (plot hll hashes contents r <-> plot hll hashes contents' r).
Proof. exact order_plot. Qed.
Print Assumptions C93_plot.

(** An empty file makes no difference, whatever the others contain. *)
Theorem C93_empty : forall hll hashes l1 l2 r, plot hll hashes (l1 ++ [] :: l2) r <-> plot hll hashes (l1 ++ l2) r.
Proof. exact empty_plot. Qed.
Print Assumptions C93_empty.

(** Computed: two files of different lengths in the two orders; and two that disagree about the cardinality of their line,
    where the order shows. *)
Example C93_example :
  let a := [49; 32; 49; 10; 50; 32; 51; 10]%N in let b := [49; 32; 50; 10]%N in let c := [51; 32; 51; 10]%N in
  Forall2 estimate_file [[(1, 1); (2, 3)]; [(1, 2)]]%N [a; b] /\ Permutation [a; b] [b; a] /\
  (exists g, plot true true [a; b] (Ret g) /\ plot true true [b; a] (Ret g) /\ g_x g = [1; 2]%Z) /\
  (exists rows rows', calculate_statistics [b; c] = Ret rows /\ calculate_statistics [c; b] = Ret rows' /\ map fst rows = [1]%Z /\ map fst rows' = [3]%Z).
Proof. exact order_example. Qed.
