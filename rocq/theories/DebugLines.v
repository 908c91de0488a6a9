(** * Texts of many lines *)
From Coq Require Import String.
From Coq Require Import NArith Arith List Bool Lia Ascii.
From Verif Require Import ModelRegisters ModelEncoding ModelPF ModelPlus ModelFormat ModelFiles ModelDebug SpecFiles SpecFormat SpecDebug
  FormatFacts TextFacts DebugFacts.
Import ListNotations.
Local Open Scope N_scope.

Definition nl (l : list N) : Prop := ~ In 10 l.
Definition ended (ls : list (list N)) : list N := concat (map (fun l => l ++ [10]) ls).

Lemma nl_app : forall a b, nl (a ++ b) <-> nl a /\ nl b.
Proof. intros a b. unfold nl. rewrite in_app_iff. tauto. Qed.
Lemma nl_spaces : forall k, nl (repeat 32 k).
Proof. intros k I. apply repeat_spec in I. discriminate. Qed.
Lemma nl_line : forall k l, nl (line k l) <-> nl l.
Proof. intros k l. unfold line. rewrite nl_app. pose proof (nl_spaces k). tauto. Qed.
Lemma nl_str : forall s, forallb (fun c => negb (c =? 10)) (ascii s) = true -> nl (ascii s).
Proof. intros s H I. rewrite forallb_forall in H. specialize (H 10 I). discriminate. Qed.

Lemma ended_app : forall a b, ended (a ++ b) = ended a ++ ended b.
Proof. intros a b. unfold ended. now rewrite map_app, concat_app. Qed.

Lemma indent_rest : forall l r, nl l -> indent false (l ++ 10 :: r) = l ++ 10 :: indent true r.
Proof.
  induction l as [|c l IH]; intros r H; [reflexivity|]. cbn [app indent]. destruct (N.eqb_spec c 10) as [->|_]; [destruct H; left; reflexivity|].
  rewrite IH; [reflexivity|]. intros I. apply H. now right.
Qed.
Lemma indent_line : forall l r, nl l -> indent true (l ++ 10 :: r) = line 4 l ++ 10 :: indent true r.
Proof.
  intros [|c l] r H; [reflexivity|]. cbn [app indent]. destruct (N.eqb_spec c 10) as [->|_]; [destruct H; left; reflexivity|].
  rewrite indent_rest by (intros I; apply H; now right). reflexivity.
Qed.

Lemma hanging_cons : forall k before l m ls, hanging k before (l :: m :: ls) = line k (before ++ l) :: hanging k [] (m :: ls).
Proof. reflexivity. Qed.
Lemma hanging_mid : forall k before a mid z,
  hanging k before (a :: mid ++ [z]) = line k (before ++ a) :: map (line k) mid ++ [line k (z ++ ascii ",")].
Proof.
  intros k before a mid z. revert before a. induction mid as [|m mid IH]; intros before a; [reflexivity|].
  cbn [app map]. rewrite hanging_cons, IH. reflexivity.
Qed.
Lemma line_line : forall k j l, line k (line j l) = line (k + j) l.
Proof. intros k j l. unfold line. now rewrite app_assoc, <- repeat_app. Qed.
Lemma lined_cons : forall l m ls, lined (l :: m :: ls) = l ++ [10] ++ lined (m :: ls).
Proof. reflexivity. Qed.

Lemma entry_lines : forall ls before, nl before -> ls <> [] -> Forall nl ls ->
  indent true (before ++ lined ls ++ ascii "," ++ [10]) = ended (hanging 4 before ls).
Proof.
  induction ls as [|l [|m ls] IH]; intros before B N F; [congruence| |].
  - inversion F; subst. cbn [lined hanging]. unfold ended. cbn [map concat]. rewrite app_nil_r.
    replace (before ++ l ++ ascii "," ++ [10]) with ((before ++ l ++ ascii ",") ++ 10 :: []) by (rewrite <- !app_assoc; reflexivity).
    rewrite indent_line; [reflexivity|]. rewrite !nl_app. split; [exact B|]. split; [assumption|now apply nl_str].
  - inversion F; subst. rewrite lined_cons, hanging_cons. unfold ended. cbn [map concat].
    fold (ended (hanging 4 [] (m :: ls))). rewrite <- (IH []) by (try discriminate; try assumption; intros []).
    replace (before ++ (l ++ [10] ++ lined (m :: ls)) ++ ascii "," ++ [10]) with ((before ++ l) ++ 10 :: ([] ++ lined (m :: ls) ++ ascii "," ++ [10]))
      by (rewrite <- !app_assoc; reflexivity).
    rewrite indent_line by (apply nl_app; split; assumption). rewrite <- app_assoc. reflexivity.
Qed.

Lemma hanging_nl : forall k ls before, nl before -> Forall nl ls -> Forall nl (hanging k before ls).
Proof.
  intros k. induction ls as [|l [|m ls] IH]; intros before B F; [constructor| |].
  - inversion F; subst. cbn [hanging]. constructor; [|constructor]. rewrite nl_line, !nl_app. split; [exact B|]. split; [assumption|now apply nl_str].
  - inversion F; subst. rewrite hanging_cons. constructor; [rewrite nl_line, nl_app; split; assumption|]. apply IH; [intros []|assumption].
Qed.

Lemma lined_block : forall a mid z, lined (a :: mid ++ [z]) = a ++ [10] ++ ended mid ++ z.
Proof.
  intros a mid z. revert a. induction mid as [|m mid IH]; intros a; [reflexivity|]. cbn [app]. rewrite lined_cons, IH.
  unfold ended. cbn [map concat]. rewrite <- !app_assoc. reflexivity.
Qed.

(** ** Values as lines *)
Definition writes (o : options) (d : dbg) (ls : list (list N)) : Prop := show o d = lined ls /\ ls <> [] /\ Forall nl ls.

Lemma entries_lines : forall (l : list (list N * list (list N))), Forall (fun p => nl (fst p) /\ snd p <> [] /\ Forall nl (snd p)) l ->
  entries (map (fun p => fst p ++ lined (snd p)) l) = ended (concat (map (fun p => hanging 4 (fst p) (snd p)) l)) /\
  Forall nl (concat (map (fun p => hanging 4 (fst p) (snd p)) l)).
Proof.
  induction l as [|(b, ls) l IH]; intros F; [split; [reflexivity|constructor]|]. inversion F as [|? ? (B & N & FL) F']; subst. cbn [fst snd] in *.
  destruct (IH F') as (E & FF). unfold entries in *. cbn [map concat fst snd]. rewrite E, ended_app. split.
  - rewrite <- app_assoc, entry_lines by assumption. reflexivity.
  - apply Forall_app. split; [now apply hanging_nl|exact FF].
Qed.

Lemma writes_struct : forall o name fields lss, o_alternate o = true -> nl (ascii name) -> fields <> [] ->
  Forall (fun f => nl (ascii (fst f))) fields -> Forall2 (fun f ls => writes o (snd f) ls) fields lss ->
  writes o (DStruct name fields)
    ((ascii name ++ ascii " {") :: concat (map (fun p => hanging 4 (fst p) (snd p)) (combine (map (fun f => ascii (fst f) ++ ascii ": ") fields) lss)) ++ [ascii "}"]).
Proof.
  intros o name fields lss A NN NE F W. unfold writes at 1. cbn [show]. rewrite A.
  assert (X : Forall (fun p : list N * list (list N) => nl (fst p) /\ snd p <> [] /\ Forall nl (snd p))
                (combine (map (fun f => ascii (fst f) ++ ascii ": ") fields) lss) /\
              map (fun f : string * dbg => str (fst f) ++ str ": " ++ show o (snd f)) fields =
              map (fun p => fst p ++ lined (snd p)) (combine (map (fun f => ascii (fst f) ++ ascii ": ") fields) lss)).
  { clear NE. induction W as [|f ls fields lss (E & NL & FL) W IH]; [split; [constructor|reflexivity]|]. inversion F; subst.
    destruct (IH H2) as (IA & IB). cbn [map combine fst snd]. split.
    - constructor; [|exact IA]. cbn [fst snd]. split; [apply nl_app; split; [assumption|now apply nl_str]|]. tauto.
    - f_equal; [|exact IB]. rewrite E, <- app_assoc. reflexivity. }
  destruct X as (X & E). rewrite E. destruct (entries_lines _ X) as (EE & FF). split.
  - unfold show_struct. destruct fields as [|f fields]; [congruence|]. destruct lss as [|ls lss]; [inversion W|].
    cbn [map combine] in *. rewrite EE, lined_block, <- app_assoc. reflexivity.
  - split; [discriminate|]. constructor; [apply nl_app; split; [exact NN|now apply nl_str]|]. apply Forall_app. split; [exact FF|].
    constructor; [now apply nl_str|constructor].
Qed.

Lemma writes_tuple : forall o name l lss, o_alternate o = true -> nl (ascii name) -> l <> [] -> Forall2 (writes o) l lss ->
  writes o (DTuple name l) ((ascii name ++ ascii "(") :: concat (map (hanging 4 []) lss) ++ [ascii ")"]).
Proof.
  intros o name l lss A NN NE W. unfold writes at 1. cbn [show]. rewrite A.
  assert (X : Forall (fun p : list N * list (list N) => nl (fst p) /\ snd p <> [] /\ Forall nl (snd p)) (map (fun ls => ([], ls)) lss) /\
              map (show o) l = map (fun p => fst p ++ lined (snd p)) (map (fun ls => ([], ls)) lss)).
  { clear NE. induction W as [|d ls l lss (E & NL & FL) W IH]; [split; [constructor|reflexivity]|]. destruct IH as (IA & IB). cbn [map fst snd app]. split.
    - constructor; [|exact IA]. cbn [fst snd]. split; [intros []|]. tauto.
    - f_equal; [exact E|exact IB]. }
  destruct X as (X & E). destruct (entries_lines _ X) as (EE & FF).
  rewrite map_map in E, FF. do 2 rewrite map_map in EE. cbn [fst snd] in EE, FF, E. rewrite E. split.
  - unfold show_tuple. destruct l as [|f l]; [congruence|]. destruct lss as [|ls lss]; [inversion W|].
    cbn [map] in *. rewrite EE. rewrite lined_block, <- app_assoc. reflexivity.
  - split; [discriminate|]. constructor; [apply nl_app; split; [exact NN|now apply nl_str]|]. apply Forall_app. split; [exact FF|].
    constructor; [now apply nl_str|constructor].
Qed.

Section Numbers.
Variable o : options.
Hypothesis alternate : o_alternate o = true.
Hypothesis numbers : forall n, nl (debug_uint o n).

Lemma writes_num : forall n, writes o (DNum n) [debug_uint o n].
Proof. intros n. split; [reflexivity|]. split; [discriminate|]. constructor; [apply numbers|constructor]. Qed.

Lemma writes_text : forall ls, ls <> [] -> Forall nl ls -> writes o (DText (lined ls)) ls.
Proof. intros ls A B. split; [reflexivity|]. split; assumption. Qed.

Definition list_lines (opening closing : list N) (l : list N) : list (list N) :=
  match l with
  | [] => [opening ++ closing]
  | _ => opening :: map (fun n => line 4 (debug_uint o n ++ ascii ",")) l ++ [closing]
  end.
Lemma show_list_lines : forall opening closing l, nl opening -> nl closing ->
  show_list (o_alternate o) opening closing (map (show o) (map DNum l)) = lined (list_lines opening closing l) /\
  list_lines opening closing l <> [] /\ Forall nl (list_lines opening closing l).
Proof.
  intros opening closing l A B. unfold list_lines.
  assert (X : Forall (fun p : list N * list (list N) => nl (fst p) /\ snd p <> [] /\ Forall nl (snd p)) (map (fun n => ([], [debug_uint o n])) l)).
  { apply Forall_map, Forall_forall. intros n _. cbn [fst snd]. split; [intros []|]. split; [discriminate|]. constructor; [apply numbers|constructor]. }
  destruct (entries_lines _ X) as (EE & FF). rewrite map_map in EE, FF. cbn [fst snd lined app hanging] in EE, FF.
  assert (Y : forall l, concat (map (fun n => [line 4 (debug_uint o n ++ ascii ",")]) l) = map (fun n => line 4 (debug_uint o n ++ ascii ",")) l).
  { clear. induction l as [|n l IH]; [reflexivity|]. cbn. now f_equal. }
  rewrite map_map in EE. cbn [fst snd lined app hanging] in EE. rewrite Y in EE, FF.
  destruct l as [|n l].
  - split; [reflexivity|]. split; [discriminate|]. constructor; [now apply nl_app|constructor].
  - split.
    + rewrite alternate. unfold show_list. cbn [map] in *. rewrite map_map. cbn [show]. rewrite EE.
      rewrite lined_block. reflexivity.
    + split; [discriminate|]. constructor; [exact A|]. apply Forall_app. split; [exact FF|]. constructor; [exact B|constructor].
Qed.
Lemma writes_list : forall l, writes o (DList (map DNum l)) (list_lines (ascii "[") (ascii "]") l).
Proof. intros l. apply show_list_lines; now apply nl_str. Qed.
Lemma writes_set : forall l, writes o (DSet (map DNum l)) (list_lines (ascii "{") (ascii "}") l).
Proof. intros l. apply show_list_lines; now apply nl_str. Qed.

Lemma hanging_list : forall k before opening closing l, block o k (before ++ opening) closing l (hanging k before (list_lines opening closing l)).
Proof.
  intros k before opening closing l. unfold list_lines, block. destruct l as [|n l].
  - cbn [hanging]. rewrite <- !app_assoc. reflexivity.
  - rewrite hanging_mid. exists (map (debug_uint o) (n :: l)). split.
    + clear. induction (n :: l) as [|m ms IH]; constructor; [apply shown_uint|exact IH].
    + rewrite !map_map. cbn [app]. f_equal. f_equal. apply map_ext. intros m. apply line_line.
Qed.
Lemma block_line : forall k j opening closing l ls, block o j opening closing l ls -> block o (k + j) opening closing l (map (line k) ls).
Proof.
  intros k j opening closing l ls. unfold block. destruct l as [|n l].
  - intros ->. cbn [map]. now rewrite line_line.
  - intros (ts & F & ->). exists ts. split; [exact F|]. cbn [app map]. rewrite map_app, map_map. cbn [map]. rewrite !line_line.
    f_equal. f_equal. apply map_ext. intros m. rewrite line_line. f_equal. lia.
Qed.

Definition registers_lines (r : registers) : list (list N) :=
  hanging 4 (ascii "buf: ") (list_lines (ascii "[") (ascii "]") (r_buf r)) ++
  [line 4 (ascii "count: " ++ debug_uint o (r_count r) ++ ascii ","); line 4 (ascii "zeros: " ++ debug_uint o (r_zeros r) ++ ascii ",")].
Lemma writes_registers : forall name r, nl (ascii name) ->
  writes o (debug_registers name r) ((ascii name ++ ascii " {") :: registers_lines r ++ [ascii "}"]).
Proof.
  intros name r N. unfold debug_registers.
  refine (eq_ind _ (writes o _) (writes_struct o name _ [list_lines (ascii "[") (ascii "]") (r_buf r); [debug_uint o (r_count r)]; [debug_uint o (r_zeros r)]]
    alternate N _ _ _) _ _); [discriminate| | |].
  - do 3 (constructor; [now apply nl_str|]). constructor.
  - do 3 (constructor; [first [apply writes_list|apply writes_num]|]). constructor.
  - cbn [map combine fst snd concat]. unfold registers_lines. rewrite app_nil_r, <- !app_assoc. reflexivity.
Qed.
Lemma registers_long : forall k r, long_registers o k r (map (line k) (registers_lines r) ++ [line k (ascii "},")]).
Proof.
  intros k r. unfold registers_lines. rewrite map_app. cbn [map]. rewrite !line_line.
  exists (map (line k) (hanging 4 (ascii "buf: ") (list_lines (ascii "[") (ascii "]") (r_buf r)))), (debug_uint o (r_count r)), (debug_uint o (r_zeros r)).
  split; [apply block_line, (hanging_list 4 (ascii "buf: ") (ascii "[") (ascii "]"))|]. split; [apply shown_uint|]. split; [apply shown_uint|].
  rewrite <- app_assoc. reflexivity.
Qed.

Lemma lines_pf : forall (V : Type) builder phantom (s : pf V), builder <> [] -> phantom <> [] -> Forall nl builder -> Forall nl phantom ->
  exists ls, Forall nl ls /\ pf_debug o (lined builder) (lined phantom) s = lined ls /\ ls <> [] /\ long_pf o builder phantom s (lined ls).
Proof.
  intros V builder phantom s NB NP FB FP. unfold pf_debug.
  pose proof (writes_struct o "HyperLogLogPF" [("builder", DText (lined builder)); ("count", DNum (pf_count s)); ("precision", DNum (pf_precision s));
       ("registers", debug_registers "Registers" (pf_registers s)); ("phantom", DText (lined phantom))]%string [builder; [debug_uint o (pf_count s)]; [debug_uint o (pf_precision s)];
     (ascii "Registers" ++ ascii " {") :: registers_lines (pf_registers s) ++ [ascii "}"]; phantom]
     alternate (nl_str "HyperLogLogPF" eq_refl) ltac:(discriminate)
     ltac:(repeat (constructor; [now apply nl_str|]); constructor)
     ltac:(repeat (constructor; [solve [apply writes_text; assumption|apply writes_num|apply writes_registers; now apply nl_str]|]); constructor)) as (E & N & F).
  cbn [map combine fst snd concat] in E, N, F. rewrite hanging_mid in E, N, F.
  eexists. split; [exact F|]. split; [exact E|]. split; [exact N|].
  exists (debug_uint o (pf_count s)), (debug_uint o (pf_precision s)), (map (line 4) (registers_lines (pf_registers s)) ++ [line 4 (ascii "},")]).
  split; [apply shown_uint|]. split; [apply shown_uint|]. split; [apply registers_long|].
  rewrite app_nil_r. cbn [hanging]. rewrite <- !app_assoc. cbn [app]. rewrite <- !app_assoc. reflexivity.
Qed.

Lemma writes_dif : forall d, writes o (debug_dif d)
  ((ascii "DifIntVec" ++ ascii " {") :: ([line 4 (ascii "count: " ++ debug_uint o (d_count d) ++ ascii ","); line 4 (ascii "last: " ++ debug_uint o (d_last d) ++ ascii ",");
     line 4 (ascii "buf: VarIntVec(")] ++ map (line 4) (hanging 4 [] (list_lines (ascii "[") (ascii "]") (d_buf d))) ++ [line 4 (ascii "),")]) ++ [ascii "}"]).
Proof.
  intros d. unfold debug_dif.
  assert (W : writes o (DTuple "VarIntVec" [DList (map DNum (d_buf d))])
    ((ascii "VarIntVec" ++ ascii "(") :: hanging 4 [] (list_lines (ascii "[") (ascii "]") (d_buf d)) ++ [ascii ")"])).
  { refine (eq_ind _ (writes o _) (writes_tuple o "VarIntVec" _ [list_lines (ascii "[") (ascii "]") (d_buf d)] alternate (nl_str "VarIntVec" eq_refl) _ _) _ _).
    - discriminate.
    - constructor; [apply writes_list|constructor].
    - cbn [map concat]. now rewrite app_nil_r. }
  refine (eq_ind _ (writes o _) (writes_struct o "DifIntVec" _ [[debug_uint o (d_count d)]; [debug_uint o (d_last d)]; _]
    alternate (nl_str "DifIntVec" eq_refl) _ _ _) _ _); [discriminate| | |].
  - do 3 (constructor; [now apply nl_str|]). constructor.
  - do 2 (constructor; [apply writes_num|]). constructor; [exact W|constructor].
  - cbn [map combine fst snd concat]. rewrite hanging_mid, app_nil_r. cbn [hanging app]. rewrite <- !app_assoc. reflexivity.
Qed.

Lemma writes_option : forall r, exists ls, writes o (debug_option (option_map (debug_registers "RegistersPlus") r)) ls /\
  match r with
  | None => hanging 4 (ascii "registers: ") ls = [line 4 (ascii "registers: None,")]
  | Some g => exists u, long_registers o 8 g u /\
      hanging 4 (ascii "registers: ") ls = [line 4 (ascii "registers: Some("); line 8 (ascii "RegistersPlus {")] ++ u ++ [line 4 (ascii "),")]
  end.
Proof.
  intros [g|]; cbn [option_map debug_option].
  - eexists. split.
    + apply (writes_tuple o "Some" [debug_registers "RegistersPlus" g] [(ascii "RegistersPlus" ++ ascii " {") :: registers_lines g ++ [ascii "}"]] alternate (nl_str "Some" eq_refl) ltac:(discriminate)). constructor; [|constructor].
      apply writes_registers. now apply nl_str.
    + exists (map (line 8) (registers_lines g) ++ [line 8 (ascii "},")]). split; [apply registers_long|].
      cbn [map concat]. rewrite app_nil_r. rewrite (hanging_mid 4 [] _ (registers_lines g)). rewrite hanging_mid. cbn [map app].
      rewrite map_app, map_map. cbn [map]. rewrite !line_line. rewrite <- !app_assoc. cbn [app].
      rewrite (map_ext (fun x => line 4 (line 4 x)) (line 8)) by (intros; now rewrite line_line). reflexivity.
  - exists [ascii "None"]. split; [|reflexivity]. split; [reflexivity|]. split; [discriminate|]. constructor; [now apply nl_str|constructor].
Qed.

Lemma lines_plus : forall (V : Type) ord builder phantom (s : plus V), builder <> [] -> phantom <> [] -> Forall nl builder -> Forall nl phantom ->
  exists ls, Forall nl ls /\ plus_debug o ord (lined builder) (lined phantom) s = lined ls /\ ls <> [] /\
    long_plus o builder phantom (ord (hp_tmpset s)) s (lined ls).
Proof.
  intros V ord builder phantom s NB NP FB FP. unfold plus_debug.
  destruct (writes_option (hp_registers s)) as (rl & WR & HR).
  assert (WC : writes o (DTuple "" [DNum (hp_counts0 s); DNum (hp_counts1 s); DNum (hp_counts2 s)])
    (list_lines (ascii "(") (ascii ")") [hp_counts0 s; hp_counts1 s; hp_counts2 s])).
  { refine (eq_ind _ (writes o _) (writes_tuple o "" _ [[debug_uint o (hp_counts0 s)]; [debug_uint o (hp_counts1 s)]; [debug_uint o (hp_counts2 s)]]
      alternate (nl_str "" eq_refl) _ _) _ _); [discriminate| |reflexivity].
    do 3 (constructor; [apply writes_num|]). constructor. }
  pose proof (writes_struct o "HyperLogLogPlus"
     [("builder", DText (lined builder)); ("precision", DNum (hp_precision s));
     ("counts", DTuple "" [DNum (hp_counts0 s); DNum (hp_counts1 s); DNum (hp_counts2 s)]);
     ("tmpset", DSet (map DNum (ord (hp_tmpset s)))); ("sparse", debug_dif (hp_sparse s));
     ("registers", debug_option (option_map (debug_registers "RegistersPlus") (hp_registers s)));
     ("phantom", DText (lined phantom))]%string [builder; [debug_uint o (hp_precision s)]; _; _; _; rl; phantom]
     alternate (nl_str "HyperLogLogPlus" eq_refl) ltac:(discriminate)
     ltac:(repeat (constructor; [now apply nl_str|]); constructor)
     ltac:(constructor; [apply writes_text; assumption|]; constructor; [apply writes_num|]; constructor; [exact WC|]; constructor; [apply writes_set|];
           constructor; [apply writes_dif|]; constructor; [exact WR|]; constructor; [apply writes_text; assumption|constructor])) as (E & NN & F).
  cbn [map combine fst snd concat] in E, NN, F. rewrite (hanging_mid 4 _ (ascii "DifIntVec" ++ ascii " {")) in E, NN, F.
  eexists. split; [exact F|]. split; [exact E|]. split; [exact NN|].
  eexists (debug_uint o (hp_precision s)), _, _, (debug_uint o (d_count (hp_sparse s))), (debug_uint o (d_last (hp_sparse s))), _, _.
  split; [apply shown_uint|]. split; [apply (hanging_list 4 (ascii "counts: ") (ascii "(") (ascii ")"))|].
  split; [apply (hanging_list 4 (ascii "tmpset: ") (ascii "{") (ascii "}"))|]. split; [apply shown_uint|]. split; [apply shown_uint|].
  split; [apply (block_line 8 4); apply (hanging_list 4 [] (ascii "[") (ascii "]"))|]. split.
  - instantiate (1 := hanging 4 (ascii "registers: ") rl). destruct (hp_registers s) as [g|]; exact HR.
  - rewrite app_nil_r, map_app. cbn [map]. rewrite map_app, map_map. cbn [map hanging]. rewrite !line_line.
    rewrite (map_ext (fun x => line 4 (line 4 x)) (line 8)) by (intros; now rewrite line_line).
    rewrite <- !app_assoc. cbn [app]. rewrite <- !app_assoc. cbn [app]. reflexivity.
Qed.
End Numbers.
