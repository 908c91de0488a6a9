(** * The commands of exp.py *)
From Coq Require Import String.
From Coq Require Import NArith ZArith List Bool Lia.
From Verif Require Import ModelRust ModelEnv ModelFiles ModelArgs ModelExp ModelCommand SpecFiles SpecCommand TextFacts FilesFacts FilesArgs FilesExample.
Import ListNotations.
Local Open Scope N_scope.

(** ** Hyphens *)
Lemma dashed_spec : forall s, dashed s = true <-> hyphen s.
Proof.
  intros s. split; [|now intros (c & t & ->)].
  intros H. destruct s as [|c s]; [discriminate|].
  destruct (N.eq_dec c 45) as [->|K].
  - destruct s as [|b s]; [discriminate|]. now exists b, s.
  - exfalso. revert H. cbn. destruct c as [|p]; [discriminate|].
    repeat (destruct p as [p|p|]; try discriminate). now intros _; apply K.
Qed.

Lemma undashed : forall s, ~ hyphen s -> dashed s = false.
Proof. intros s H. destruct (dashed s) eqn:E; [|reflexivity]. exfalso. now apply H, dashed_spec. Qed.

Lemma numeral_undashed : forall n s, numeral n s -> dashed s = false.
Proof.
  intros n s (ds & [Hn Hd] & -> & _). apply undashed. intros (c & t & E). destruct ds as [|x ds]; [easy|].
  unfold digit_text in E. cbn [map] in E. assert (X : 48 + x = 45) by congruence. lia.
Qed.

Lemma int_pos : forall z, (0 <= z)%Z -> numeral (Z.to_N z) (str_int z).
Proof. intros z H. unfold str_int. replace (z <? 0)%Z with false by (symmetry; apply Z.ltb_ge; lia). apply display_numeral. Qed.

Lemma numeral_ne : forall n s, numeral n s -> s <> [].
Proof. intros n s (ds & [Hn _] & -> & _). unfold digit_text. destruct ds; [easy|discriminate]. Qed.

Lemma int_neg : forall z, (z < 0)%Z -> dashed (str_int z) = true.
Proof.
  intros z H. unfold str_int. replace (z <? 0)%Z with true by (symmetry; apply Z.ltb_lt; lia).
  pose proof (numeral_ne _ _ (display_numeral (Z.to_N (- z)))) as K. destruct (display_uint (Z.to_N (- z))) as [|c t]; easy.
Qed.

Lemma int_dashed : forall z, dashed (str_int z) = (z <? 0)%Z.
Proof.
  intros z. destruct (Z.ltb_spec z 0); [now apply int_neg|]. apply (numeral_undashed _ _ (int_pos z H)).
Qed.

(** ** Options *)
Definition ends (l : list bytes) : Prop := match l with [] => True | s :: _ => dashed s = true end.

Lemma values_one : forall v l, dashed v = false -> ends l -> values (v :: l) = ([v], l).
Proof. intros v [|s l] H E; cbn [values]; rewrite H; [reflexivity|]. cbn in E. cbn [values]. now rewrite E. Qed.

Lemma options_step : forall fuel single multiple name v l, existsb (eqb_bytes name) single = true -> dashed v = false -> ends l ->
  options (S fuel) single multiple (name :: v :: l) =
  match options fuel single multiple l with
  | Some os => if given (found name os) then None else Some ((name, [v]) :: os)
  | None => None
  end.
Proof. intros fuel single multiple name v l K D E. cbn [options]. rewrite values_one by auto. rewrite K. reflexivity. Qed.

Lemma options_bad : forall fuel single multiple name v l, dashed v = true -> options fuel single multiple (name :: v :: l) = None.
Proof.
  intros [|fuel] single multiple name v l D; [reflexivity|]. cbn [options]. unfold values. rewrite D. cbn [length Nat.eqb Nat.leb].
  destruct (existsb (eqb_bytes name) single); [reflexivity|]. now destruct (existsb (eqb_bytes name) multiple).
Qed.

Lemma options_any : forall fuel single multiple name v l, existsb (eqb_bytes name) single = true -> ends l ->
  options (S fuel) single multiple (name :: v :: l) =
  if dashed v then None else
  match options fuel single multiple l with
  | Some os => if given (found name os) then None else Some ((name, [v]) :: os)
  | None => None
  end.
Proof. intros. destruct (dashed v) eqn:D; [now apply options_bad|now apply options_step]. Qed.

Lemma values_all : forall l, Forall (fun f => dashed f = false) l -> values l = (l, []).
Proof. induction 1 as [|f l H _ IH]; [reflexivity|]. cbn [values]. now rewrite H, IH. Qed.

(** ** "prepare" *)
Lemma prepare_read : forall a, a_size a = ascii "32" \/ a_size a = ascii "64" ->
  read_command (prepare_command a) =
  if (a_jobs a <? 0)%Z || (a_count a <? 0)%Z || (a_runs a <? 0)%Z || dashed (a_output a) then None
  else Some (Some (str_int (a_jobs a)), Gen (GenArgs (Some (a_size a)) (Some (str_int (a_count a))) (Some (str_int (a_runs a))) (Some (a_output a)))).
Proof.
  intros [j size c n o] H. cbn [a_jobs a_size a_count a_runs a_output] in *. unfold prepare_command. cbn [a_jobs a_size a_count a_runs a_output].
  unfold read_command. rewrite int_dashed. change (eqb_bytes (str "--jobs") (str "--jobs")) with true. cbn [andb].
  destruct (j <? 0)%Z; [reflexivity|]. cbn [negb orb]. change (eqb_bytes (str "gen") (str "gen")) with true. cbn iota.
  cbn [length].
  assert (S : dashed size = false) by (destruct H as [->| ->]; reflexivity).
  rewrite !options_any by (try reflexivity; exact I). rewrite S, !int_dashed.
  destruct (c <? 0)%Z; [reflexivity|]. destruct (n <? 0)%Z; [reflexivity|]. destruct (dashed o); [reflexivity|]. cbn [orb options].
  destruct H as [->| ->]; reflexivity.
Qed.

Lemma prepare_exact : forall e resolve draws ords a d r, a_size a = ascii "32" \/ a_size a = ascii "64" ->
  ((0 <= a_jobs a)%Z /\ (0 <= a_count a)%Z /\ (0 <= a_runs a)%Z /\ ~ hyphen (a_output a) ->
     exists j c n, numeral (Z.to_N (a_jobs a)) j /\ numeral (Z.to_N (a_count a)) c /\ numeral (Z.to_N (a_runs a)) n /\
       (exp_prepare e resolve draws ords a d r <->
        main e resolve draws ords (Some j) (Gen (GenArgs (Some (a_size a)) (Some c) (Some n) (Some (a_output a)))) d r)) /\
  (~ ((0 <= a_jobs a)%Z /\ (0 <= a_count a)%Z /\ (0 <= a_runs a)%Z /\ ~ hyphen (a_output a)) ->
     (exp_prepare e resolve draws ords a d r <-> r = Panic)).
Proof.
  intros e resolve draws ords a d r H. unfold exp_prepare, start. rewrite (prepare_read a H). split.
  - intros (J & C & N0 & O). exists (str_int (a_jobs a)), (str_int (a_count a)), (str_int (a_runs a)).
    split; [now apply int_pos|]. split; [now apply int_pos|]. split; [now apply int_pos|].
    rewrite (undashed _ O). replace (a_jobs a <? 0)%Z with false by (symmetry; apply Z.ltb_ge; lia).
    replace (a_count a <? 0)%Z with false by (symmetry; apply Z.ltb_ge; lia).
    replace (a_runs a <? 0)%Z with false by (symmetry; apply Z.ltb_ge; lia). cbn [orb]. tauto.
  - intros K. destruct (Z.ltb_spec (a_jobs a) 0); [cbn; tauto|]. destruct (Z.ltb_spec (a_count a) 0); [cbn; tauto|].
    destruct (Z.ltb_spec (a_runs a) 0); [cbn; tauto|]. destruct (dashed (a_output a)) eqn:D; [cbn; tauto|].
    exfalso. apply K. repeat split; try assumption. intros X. apply dashed_spec in X. congruence.
Qed.

(** ** "run" *)
Lemma strings_map : forall l, strings (map Some l) = Some l.
Proof. induction l as [|s l IH]; [reflexivity|]. cbn. now rewrite IH. Qed.

Lemma strings_app : forall a b, strings (map Some a ++ b) = match strings b with Some ss => Some (a ++ ss) | None => None end.
Proof.
  induction a as [|s a IH]; intros b; cbn; [now destruct (strings b)|]. rewrite IH. now destruct (strings b).
Qed.

Definition run_front (a : exp_run_args) : list bytes :=
  [str "--jobs"; str_int (x_jobs a); str "run"; str "--type"; x_type a; str "--mode"; x_mode a;
   str "--precision"; str_int (x_precision a); str "--output"; x_output a].

Definition run_single : list bytes := [str "--type"; str "--mode"; str "--precision"; str "--runs"; str "--cardinalities"; str "--output"].

Definition is_type (t : bytes) : Prop := t = ascii "hll" \/ t = ascii "hllp".

(** The options of "run", in front of the rest. *)
Lemma run_options : forall fuel t m p o l, is_type t -> m = ascii "hashes" \/ m = ascii "cardinalities" -> ends l ->
  options (S (S (S (S fuel)))) run_single [str "--input"]
    (str "--type" :: t :: str "--mode" :: m :: str "--precision" :: str_int p :: str "--output" :: o :: l) =
  if (p <? 0)%Z || dashed o then None else
  match options fuel run_single [str "--input"] l with
  | Some os =>
      if given (found (str "--output") os) then None
      else if given (found (str "--precision") os) then None else if given (found (str "--mode") os) then None
      else if given (found (str "--type") os) then None
      else Some ((str "--type", [t]) :: (str "--mode", [m]) :: (str "--precision", [str_int p]) :: (str "--output", [o]) :: os)
  | None => None
  end.
Proof.
  intros fuel t m p o l T M L.
  assert (DT : dashed t = false) by (destruct T as [->| ->]; reflexivity).
  assert (DM : dashed m = false) by (destruct M as [->| ->]; reflexivity).
  rewrite !options_any by (try reflexivity; exact L). rewrite DT, DM, int_dashed.
  destruct (p <? 0)%Z; [reflexivity|]. destruct (dashed o); [reflexivity|]. cbn [orb].
  destruct (options fuel run_single [str "--input"] l) as [os|]; [|reflexivity].
  destruct (given (found (str "--output") os)); [reflexivity|].
  assert (F : forall n n' v (k : list (bytes * list bytes)), eqb_bytes n' n = false -> found n ((n', v) :: k) = found n k).
  { intros n n' v k E. unfold found. cbn [find fst]. now rewrite E. }
  rewrite (F (str "--precision")) by reflexivity. destruct (given (found (str "--precision") os)); [reflexivity|].
  rewrite !(F (str "--mode")) by reflexivity. destruct (given (found (str "--mode") os)); [reflexivity|].
  rewrite !(F (str "--type")) by reflexivity. destruct (given (found (str "--type") os)); reflexivity.
Qed.

Lemma run_read : forall a l, is_type (x_type a) -> x_mode a = ascii "hashes" \/ x_mode a = ascii "cardinalities" -> ends l ->
  read_command (run_front a ++ l) =
  if (x_jobs a <? 0)%Z || (x_precision a <? 0)%Z || dashed (x_output a) then None else
  match options (4 + length l) run_single [str "--input"] l with
  | Some os =>
      if given (found (str "--output") os) || given (found (str "--precision") os) || given (found (str "--mode") os) || given (found (str "--type") os) then None
      else let args := RunArgs (Some (x_type a)) (Some (x_mode a)) (Some (str_int (x_precision a))) (found (str "--input") os)
             (value (str "--runs") os) (value (str "--cardinalities") os) (Some (x_output a)) in
           if accepts_run args then Some (Some (str_int (x_jobs a)), Run args) else None
  | None => None
  end.
Proof.
  intros [j t m p i n c o] l T M L. cbn [x_jobs x_type x_mode x_precision x_output] in *. unfold run_front.
  cbn [x_jobs x_type x_mode x_precision x_output app]. unfold read_command. rewrite int_dashed.
  change (eqb_bytes (str "--jobs") (str "--jobs")) with true. cbn [andb].
  destruct (j <? 0)%Z; [reflexivity|]. cbn [negb orb]. change (eqb_bytes (str "run") (str "gen")) with false.
  change (eqb_bytes (str "run") (str "run")) with true. cbn iota. cbn [length]. fold run_single.
  rewrite run_options by assumption.
  destruct ((p <? 0)%Z || dashed o); [reflexivity|]. change (4 + length l)%nat with (S (S (S (S (length l))))).
  destruct (options (S (S (S (S (length l))))) run_single [str "--input"] l) as [os|]; [|reflexivity].
  destruct (given (found (str "--output") os)); [reflexivity|]. destruct (given (found (str "--precision") os)); [reflexivity|].
  destruct (given (found (str "--mode") os)); [reflexivity|]. destruct (given (found (str "--type") os)); [reflexivity|].
  cbn [orb]. unfold value, found. cbn [find fst]. reflexivity.
Qed.

Lemma hashes_exact : forall glob e resolve draws ords a d r, is_type (x_type a) -> x_mode a = ascii "hashes" ->
  let dir := match x_input a with Some i => i | None => ascii "None" end in
  let files := glob (dir ++ ascii "/*.dat") in
  Forall (fun f => exists name, f = dir ++ ascii "/" ++ name) files ->
  let good := (0 <= x_jobs a)%Z /\ (0 <= x_precision a)%Z /\ ~ hyphen (x_output a) /\ files <> [] /\ (forall t, dir <> 45 :: t) in
  (good -> exists j p, numeral (Z.to_N (x_jobs a)) j /\ numeral (Z.to_N (x_precision a)) p /\
     (exp_run glob e resolve draws ords a d r <->
      main e resolve draws ords (Some j) (Run (RunArgs (Some (x_type a)) (Some (ascii "hashes")) (Some p) (Some files) None None (Some (x_output a)))) d r)) /\
  (~ good -> (exp_run glob e resolve draws ords a d r <-> r = Panic)).
Proof.
  intros glob e resolve draws ords a d r T M dir files F good.
  assert (R : strings (run_command glob a) = Some (run_front a ++ str "--input" :: files)).
  { unfold run_command. rewrite M. change (eqb_bytes (ascii "hashes") (str "cardinalities")) with false. cbn iota.
    rewrite <- M. change [Some (str "--input")] with (map Some [str "--input"]). rewrite <- !map_app, strings_map. reflexivity. }
  assert (E : read_command (run_front a ++ str "--input" :: files) =
    if (x_jobs a <? 0)%Z || (x_precision a <? 0)%Z || dashed (x_output a) then None else
    if existsb dashed files || match files with [] => true | _ => false end then None else
    Some (Some (str_int (x_jobs a)), Run (RunArgs (Some (x_type a)) (Some (ascii "hashes")) (Some (str_int (x_precision a))) (Some files) None None (Some (x_output a))))).
  { rewrite run_read; [|exact T|now left|reflexivity]. rewrite M.
    destruct ((x_jobs a <? 0)%Z || (x_precision a <? 0)%Z || dashed (x_output a)); [reflexivity|].
    assert (O : options (4 + length (str "--input" :: files)) run_single [str "--input"] (str "--input" :: files) =
      if existsb dashed files || match files with [] => true | _ => false end then None else Some [(str "--input", files)]).
    { destruct files as [|f fs] eqn:EF; [reflexivity|].
      destruct (existsb dashed (f :: fs)) eqn:X.
      - (* all of them are dashed *)
        apply options_bad. apply existsb_exists in X as (g & Hg & Dg). rewrite Forall_forall in F.
        destruct (F g Hg) as (name & ->). destruct (F f (or_introl eq_refl)) as (name' & ->).
        apply dashed_spec in Dg as (c & t & Eg). apply dashed_spec. destruct dir as [|x [|y dir]].
        + discriminate Eg.
        + injection Eg as -> _. eexists _, _. reflexivity.
        + injection Eg as -> _. eexists _, _. reflexivity.
      - change (4 + length (str "--input" :: f :: fs))%nat with (S (4 + length (f :: fs))). cbn [options].
        rewrite values_all.
        2:{ apply Forall_forall. intros g Hg. destruct (dashed g) eqn:Dg; [|reflexivity].
            assert (existsb dashed (f :: fs) = true) by (apply existsb_exists; now exists g). congruence. }
        change (existsb (eqb_bytes (str "--input")) run_single) with false. change (existsb (eqb_bytes (str "--input")) [str "--input"]) with true.
        cbn iota. cbn [length Nat.leb]. reflexivity. }
    rewrite O. destruct (existsb dashed files); [reflexivity|]. destruct files as [|f fs]; [reflexivity|]. cbn [orb].
    unfold is_type in T. destruct T as [-> | ->]; reflexivity. }
  assert (X : (forall t, dir <> 45 :: t) -> existsb dashed files = false).
  { intros H. destruct (existsb dashed files) eqn:X; [|reflexivity]. exfalso. apply existsb_exists in X as (g & Hg & Dg).
    rewrite Forall_forall in F. destruct (F g Hg) as (name & ->). apply dashed_spec in Dg as (c & t & Eg).
    destruct dir as [|x dir']; [discriminate|]. injection Eg as -> _. now apply (H dir'). }
  unfold exp_run. rewrite R. unfold start. rewrite E. split.
  - intros (J & P & O & N0 & D). exists (str_int (x_jobs a)), (str_int (x_precision a)).
    split; [now apply int_pos|]. split; [now apply int_pos|].
    rewrite (undashed _ O), (X D). replace (x_jobs a <? 0)%Z with false by (symmetry; apply Z.ltb_ge; lia).
    replace (x_precision a <? 0)%Z with false by (symmetry; apply Z.ltb_ge; lia). destruct files; [easy|]. cbn [orb]. tauto.
  - intros K. destruct (Z.ltb_spec (x_jobs a) 0); [cbn; tauto|]. destruct (Z.ltb_spec (x_precision a) 0); [cbn; tauto|].
    destruct (dashed (x_output a)) eqn:D; [cbn; tauto|]. cbn [orb]. destruct (existsb dashed files) eqn:EX; [cbn; tauto|].
    destruct files as [|f fs] eqn:EF; [cbn; tauto|]. exfalso. apply K. split; [assumption|]. split; [assumption|].
    split; [intros Z0; apply dashed_spec in Z0; congruence|]. split; [discriminate|].
    intros t Et. cbn in EX. apply orb_false_iff in EX as [EX _]. apply Forall_inv in F. destruct F as (name & Ef).
    assert (dashed f = true); [|congruence]. apply dashed_spec. rewrite Ef, Et. destruct t as [|c t]; eexists _, _; reflexivity.
Qed.

Lemma cards_exact : forall glob e resolve draws ords a d r, is_type (x_type a) -> x_mode a = ascii "cardinalities" -> 0 < usize_bits e ->
  let good n c := (0 <= x_jobs a)%Z /\ (0 <= x_precision a)%Z /\ (0 <= n)%Z /\ ~ hyphen (x_output a) /\ ~ hyphen c in
  (forall n c, x_runs a = Some n -> x_cardinalities a = Some c ->
   (good n c -> exists j p k, numeral (Z.to_N (x_jobs a)) j /\ numeral (Z.to_N (x_precision a)) p /\ numeral (Z.to_N n) k /\
     (exp_run glob e resolve draws ords a d r <->
      main e resolve draws ords (Some j) (Run (RunArgs (Some (x_type a)) (Some (ascii "cardinalities")) (Some p) None (Some k) (Some c) (Some (x_output a)))) d r)) /\
   (~ good n c -> (exp_run glob e resolve draws ords a d r <-> r = Panic))) /\
  (x_runs a = None \/ x_cardinalities a = None -> (exp_run glob e resolve draws ords a d r <-> r = Panic)).
Proof.
  intros glob e resolve draws ords a d r T M U good.
  assert (R : strings (run_command glob a) = match x_cardinalities a with
    Some c => Some (run_front a ++ [str "--runs"; str_or_none (x_runs a); str "--cardinalities"; c]) | None => None end).
  { unfold run_command. rewrite M. change (eqb_bytes (ascii "cardinalities") (str "cardinalities")) with true. cbn iota.
    rewrite <- M, strings_app. cbn [strings]. destruct (x_cardinalities a); reflexivity. }
  assert (E : forall c, read_command (run_front a ++ [str "--runs"; str_or_none (x_runs a); str "--cardinalities"; c]) =
    if (x_jobs a <? 0)%Z || (x_precision a <? 0)%Z || dashed (x_output a) then None else
    if dashed (str_or_none (x_runs a)) || dashed c then None else
    Some (Some (str_int (x_jobs a)), Run (RunArgs (Some (x_type a)) (Some (ascii "cardinalities")) (Some (str_int (x_precision a))) None
      (Some (str_or_none (x_runs a))) (Some c) (Some (x_output a))))).
  { intros c. rewrite run_read; [|exact T|now right|reflexivity]. rewrite M.
    destruct ((x_jobs a <? 0)%Z || (x_precision a <? 0)%Z || dashed (x_output a)); [reflexivity|]. cbn [length plus].
    rewrite !options_any by (try reflexivity; exact I). destruct (dashed (str_or_none (x_runs a))); [reflexivity|].
    destruct (dashed c); [reflexivity|]. cbn [orb options]. destruct T as [-> | ->]; reflexivity. }
  unfold exp_run. rewrite R. unfold start. split.
  - intros n c Hn Hc. rewrite Hc, E, Hn. cbn [str_or_none]. rewrite int_dashed. split.
    + intros (J & P & N0 & O & C). exists (str_int (x_jobs a)), (str_int (x_precision a)), (str_int n).
      split; [now apply int_pos|]. split; [now apply int_pos|]. split; [now apply int_pos|].
      rewrite (undashed _ O), (undashed _ C). replace (x_jobs a <? 0)%Z with false by (symmetry; apply Z.ltb_ge; lia).
      replace (x_precision a <? 0)%Z with false by (symmetry; apply Z.ltb_ge; lia).
      replace (n <? 0)%Z with false by (symmetry; apply Z.ltb_ge; lia). cbn [orb]. tauto.
    + intros K. destruct (Z.ltb_spec (x_jobs a) 0); [cbn; tauto|]. destruct (Z.ltb_spec (x_precision a) 0); [cbn; tauto|].
      destruct (dashed (x_output a)) eqn:D; [cbn; tauto|]. cbn [orb]. destruct (Z.ltb_spec n 0); [cbn; tauto|].
      destruct (dashed c) eqn:DC; [cbn; tauto|]. exfalso. apply K. split; [assumption|]. split; [assumption|]. split; [assumption|].
      split; intros Z0; apply dashed_spec in Z0; congruence.
  - intros H. destruct (x_cardinalities a) as [c|]; [|tauto]. destruct H as [H|H]; [|discriminate]. rewrite E, H. cbn [str_or_none].
    destruct (Z.ltb_spec (x_jobs a) 0); [cbn; tauto|]. destruct (Z.ltb_spec (x_precision a) 0); [cbn; tauto|].
    destruct (dashed (x_output a)); [cbn; tauto|]. destruct (dashed (str "None") || dashed c); [cbn; tauto|]. cbn [orb].
    destruct (parse_uint (usize_bits e) (str_int (x_jobs a))) as [k|] eqn:PJ.
    + apply (cards_unreadable e resolve draws ords U); [exists k; now apply parse_uint_spec|exact T|].
      right. intros k' (ds & [Hd Hl] & [Es|Es] & _); exfalso.
      * destruct ds as [|x [|y ds]]; try discriminate Es. unfold digit_text in Es. cbn [map] in Es.
        apply Forall_inv in Hl. assert (X : 48 + x = 78) by (symmetry; now injection Es). lia.
      * discriminate Es.
    + apply bad_jobs. intros k' Rk Bk. apply (parse_reads _ _ _ Rk) in Bk. congruence.
Qed.

(** ** Computed *)
Lemma command_example :
  prepare_command (PrepareArgs 1 (ascii "64") 100 2 (ascii "h")) =
    [ascii "--jobs"; ascii "1"; ascii "gen"; ascii "--size"; ascii "64"; ascii "--count"; ascii "100"; ascii "--runs"; ascii "2"; ascii "--output"; ascii "h"] /\
  read_command (prepare_command (PrepareArgs 1 (ascii "64") 100 2 (ascii "h"))) =
    Some (Some (ascii "1"), Gen (GenArgs (Some (ascii "64")) (Some (ascii "100")) (Some (ascii "2")) (Some (ascii "h")))) /\
  read_command (prepare_command (PrepareArgs (-1) (ascii "64") 100 2 (ascii "h"))) = None /\
  strings (run_command (fun p => if eqb_bytes p (ascii "None/*.dat") then [ascii "None/a.dat"; ascii "None/b.dat"] else [])
    (ExpRunArgs 4 (ascii "hllp") (ascii "hashes") 14 None None None (ascii "o"))) =
    Some [ascii "--jobs"; ascii "4"; ascii "run"; ascii "--type"; ascii "hllp"; ascii "--mode"; ascii "hashes"; ascii "--precision"; ascii "14";
          ascii "--output"; ascii "o"; ascii "--input"; ascii "None/a.dat"; ascii "None/b.dat"] /\
  strings (run_command (fun _ => []) (ExpRunArgs 4 (ascii "hll") (ascii "cardinalities") 14 None None (Some (ascii "c")) (ascii "o"))) =
    Some [ascii "--jobs"; ascii "4"; ascii "run"; ascii "--type"; ascii "hll"; ascii "--mode"; ascii "cardinalities"; ascii "--precision"; ascii "14";
          ascii "--output"; ascii "o"; ascii "--runs"; ascii "None"; ascii "--cardinalities"; ascii "c"] /\
  strings (run_command (fun _ => []) (ExpRunArgs 4 (ascii "hll") (ascii "cardinalities") 14 None (Some 3%Z) None (ascii "o"))) = None.
Proof. vm_compute. repeat split; reflexivity. Qed.

Lemma numeral_reads : forall n s, numeral n s -> reads s n.
Proof. intros n s (ds & D & E & V & _). exists ds. split; [exact D|]. split; [now left|exact V]. Qed.
