(** * Facts about the texts of sketches *)
From Coq Require Import String.
From Coq Require Import NArith Arith List Bool Lia Ascii.
From Verif Require Import ModelRegisters ModelEncoding ModelPF ModelPlus ModelFormat ModelFiles ModelDebug SpecFiles SpecFormat SpecDebug
  FormatFacts TextFacts.
Import ListNotations.
Local Open Scope N_scope.

(** ** Hexadecimal numerals *)
Lemma hex_char_spec : forall c d, d < 16 -> hex_char c d = hex_text c d.
Proof.
  intros c d H. assert (C : forall b, forallb (fun d => hex_char b d =? hex_text b d) (map N.of_nat (seq 0 16)) = true) by (intros []; reflexivity).
  specialize (C c). rewrite forallb_forall in C. apply N.eqb_eq, C. apply in_map_iff. exists (N.to_nat d). split; [lia|]. apply in_seq. lia.
Qed.
Definition hex_chars : list N := ascii "0123456789abcdefABCDEF".
Lemma hex_text_inj : forall c a b, a < 16 -> b < 16 -> hex_text c a = hex_text c b -> a = b.
Proof.
  intros c a b A B E.
  assert (C : forall k, forallb (fun p => negb (hex_text k (fst p) =? hex_text k (snd p)) || (fst p =? snd p))
    (list_prod (map N.of_nat (seq 0 16)) (map N.of_nat (seq 0 16))) = true) by (intros []; reflexivity).
  specialize (C c). rewrite forallb_forall in C. specialize (C (a, b)).
  assert (I : forall d, d < 16 -> In d (map N.of_nat (seq 0 16))) by (intros d D; apply in_map_iff; exists (N.to_nat d); split; [lia|apply in_seq; lia]).
  specialize (C (in_prod _ _ _ _ (I a A) (I b B))). cbn [fst snd] in C. rewrite E, N.eqb_refl in C. now apply N.eqb_eq.
Qed.
Lemma hex_text_in : forall c d, d < 16 -> In (hex_text c d) hex_chars.
Proof.
  intros c d H. assert (C : forall b, forallb (fun d => existsb (N.eqb (hex_text b d)) hex_chars) (map N.of_nat (seq 0 16)) = true) by (intros []; reflexivity).
  specialize (C c). rewrite forallb_forall in C. specialize (C d).
  destruct (proj1 (existsb_exists _ _) (C ltac:(apply in_map_iff; exists (N.to_nat d); split; [lia|apply in_seq; lia]))) as (x & I & E).
  apply N.eqb_eq in E. now rewrite E.
Qed.

Lemma hexadecimal_app : forall a b, hexadecimal_value (a ++ b) = hexadecimal_value a * 16 ^ N.of_nat (length b) + hexadecimal_value b.
Proof.
  induction a as [|d a IH]; intros b; [reflexivity|]. cbn [hexadecimal_value app]. rewrite IH, app_length, Nat2N.inj_add, N.pow_add_r. ring.
Qed.
Lemma hex_loop_spec : forall c fuel n acc, n < 2 ^ N.of_nat fuel -> (0 < fuel)%nat ->
  exists ds, ds <> [] /\ Forall (fun d => d < 16) ds /\ hex_loop c fuel n acc = map (hex_text c) ds ++ acc /\ hexadecimal_value ds = n /\
    (forall ds', ds = 0 :: ds' -> ds' = []).
Proof.
  intros c. induction fuel as [|fuel IH]; intros n acc B F; [lia|]. cbn [hex_loop].
  pose proof (N.div_mod n 16 ltac:(lia)) as DM. pose proof (N.mod_lt n 16 ltac:(lia)) as M. rewrite (hex_char_spec c _ M).
  destruct (N.eqb_spec (n / 16) 0) as [Z|Z].
  - exists [n mod 16]. split; [discriminate|]. split; [repeat constructor; exact M|]. split; [reflexivity|].
    split; [cbn [hexadecimal_value length]; change (16 ^ N.of_nat 0) with 1; lia|]. intros ds' E. injection E as _ <-. reflexivity.
  - rewrite Nat2N.inj_succ, N.pow_succ_r' in B. assert (n / 16 < 2 ^ N.of_nat fuel).
    { apply N.div_lt_upper_bound; [lia|]. lia. }
    destruct fuel as [|fuel]; [cbn in H; lia|].
    destruct (IH (n / 16) (hex_text c (n mod 16) :: acc) H ltac:(lia)) as (ds & D1 & D2 & E & V & L).
    exists (ds ++ [n mod 16]). split; [now destruct ds|]. split; [apply Forall_app; split; [exact D2|repeat constructor; exact M]|].
    split; [rewrite E, map_app, <- app_assoc; reflexivity|]. split.
    + rewrite hexadecimal_app, V. cbn [hexadecimal_value length]. change (16 ^ N.of_nat 1) with 16. change (16 ^ N.of_nat 0) with 1. lia.
    + intros ds' Q. destruct ds as [|d ds]; [congruence|]. cbn in Q. injection Q as -> Q. specialize (L ds eq_refl). subst ds.
      cbn in V. lia.
Qed.
Lemma size_nat_gt : forall n, n < 2 ^ N.of_nat (S (N.size_nat n)).
Proof.
  intros n. rewrite Nat2N.inj_succ, N.pow_succ_r'. assert (n < 2 ^ N.of_nat (N.size_nat n)); [|lia].
  destruct n as [|q]; [reflexivity|]. pose proof (N.size_gt (N.pos q)) as G.
  cbn [N.size_nat]. cbn [N.size] in G. replace (N.of_nat (Pos.size_nat q)) with (N.pos (Pos.size q)); [exact G|].
  clear. induction q; cbn [Pos.size_nat Pos.size]; rewrite ?Nat2N.inj_succ, <- ?IHq; lia.
Qed.
Lemma hex_numeral : forall c n, hexadecimal_numeral c n (hex_uint c n).
Proof.
  intros c n. destruct (hex_loop_spec c (S (N.size_nat n)) n [] (size_nat_gt n) ltac:(lia)) as (ds & D & F & E & V & L).
  exists ds. rewrite app_nil_r in E. unfold hex_uint. tauto.
Qed.
Lemma pow16_pos : forall n, 0 < 16 ^ n.
Proof. intros n. apply N.neq_0_lt_0, N.pow_nonzero. discriminate. Qed.
Lemma hex_bound : forall ds, Forall (fun d => d < 16) ds -> hexadecimal_value ds < 16 ^ N.of_nat (length ds).
Proof.
  induction ds as [|d ds IH]; intros F; [cbn; lia|]. inversion F; subst. cbn [hexadecimal_value length]. rewrite Nat2N.inj_succ, N.pow_succ_r'.
  specialize (IH H2). pose proof (pow16_pos (N.of_nat (length ds))). nia.
Qed.
Lemma hex_value_inj : forall a b, Forall (fun d => d < 16) a -> Forall (fun d => d < 16) b -> length a = length b ->
  hexadecimal_value a = hexadecimal_value b -> a = b.
Proof.
  induction a as [|x a IH]; intros [|y b] FA FB L E; try discriminate L; [reflexivity|]. inversion FA; inversion FB; subst.
  cbn in L. injection L as L. cbn [hexadecimal_value] in E. rewrite L in E.
  pose proof (hex_bound a H2). pose proof (hex_bound b H6). rewrite L in H.
  assert (x = y) by nia. subst. f_equal. apply IH; auto. lia.
Qed.
Lemma hex_unique : forall c n a b, hexadecimal_numeral c n a -> hexadecimal_numeral c n b -> a = b.
Proof.
  intros c n a b (x & X1 & X2 & -> & VX & LX) (y & Y1 & Y2 & -> & VY & LY). f_equal. rewrite <- VY in VX. clear n VY.
  assert (C : forall x y, x <> [] -> Forall (fun d => d < 16) x -> Forall (fun d => d < 16) y -> y <> [] -> hexadecimal_value x = hexadecimal_value y ->
     (forall ds', y = 0 :: ds' -> ds' = []) -> ~ (length x < length y)%nat).
  { clear. intros x y X1 X2 Y2 Y1 V LY L. destruct y as [|d y]; [congruence|]. destruct (N.eq_dec d 0) as [->|D].
    - rewrite (LY y eq_refl) in L. destruct x; cbn in L; [congruence|lia].
    - assert (H : 16 ^ N.of_nat (length y) <= hexadecimal_value (d :: y)) by (cbn [hexadecimal_value]; nia).
      rewrite <- V in H. pose proof (hex_bound x X2) as B.
      assert (16 ^ N.of_nat (length x) <= 16 ^ N.of_nat (length y)) by (apply N.pow_le_mono_r; [lia|]; cbn in L; lia). lia. }
  pose proof (C x y X1 X2 Y2 Y1 VX LY). pose proof (C y x Y1 Y2 X2 X1 (eq_sym VX) LX).
  apply hex_value_inj; auto. lia.
Qed.
Lemma hex_inj : forall c n m s, hexadecimal_numeral c n s -> hexadecimal_numeral c m s -> n = m.
Proof.
  intros c n m s (x & X1 & X2 & EX & <- & _) (y & Y1 & Y2 & EY & <- & _). f_equal. subst s. clear X1 Y1.
  revert y Y2 EY. induction X2 as [|a x A X IH]; intros [|b y] Y E; try discriminate E; [reflexivity|].
  inversion Y; subst. cbn [map] in E. injection E as E E'. f_equal; [exact (hex_text_inj c a b A H1 E)|]. now apply IH.
Qed.

(** ** Integers *)
Lemma padded_text : forall fill align width t out, padded fill (Some align) width t out <->
  out = concat (pad (Format fill (Some align) width None) t).
Proof.
  intros fill align width t out. rewrite <- pad_spec. unfold formatted. cbn [f_precision f_fill f_align f_width]. split.
  - intros H. exists t. split; [|exact H]. split; [exists []; now rewrite app_nil_r|reflexivity].
  - intros (t' & C & P). apply cut_spec in C. cbn [trunc] in C. now subst t'.
Qed.

Lemma pad_integral_spec : forall o prefix buf out,
  let sign := if o_plus o then ascii "+" else [] in let mark := if o_alternate o then prefix else [] in
  out = pad_integral o prefix buf <->
  (if o_zero o then
     exists zeros, out = sign ++ mark ++ zeros ++ buf /\ Forall (fun c => c = 48) zeros /\
       size out = match f_width (o_format o) with None => size (sign ++ mark ++ buf) | Some w => N.max w (size (sign ++ mark ++ buf)) end
   else padded (f_fill (o_format o)) (Some match f_align (o_format o) with None => Right | Some a => a end)
               (f_width (o_format o)) (sign ++ mark ++ buf) out).
Proof.
  intros o prefix buf out sign mark. unfold pad_integral. change (if o_plus o then [43] else []) with sign. fold mark. cbv zeta.
  change (N.of_nat (length (sign ++ mark ++ buf))) with (size (sign ++ mark ++ buf)).
  destruct (o_zero o).
  - set (w := match f_width (o_format o) with None => size (sign ++ mark ++ buf) | Some w => N.max w (size (sign ++ mark ++ buf)) end).
    assert (E : match f_width (o_format o) with
      | None => sign ++ mark ++ buf
      | Some min => if min <=? size (sign ++ mark ++ buf) then sign ++ mark ++ buf
                    else sign ++ mark ++ concat (repeat [48] (N.to_nat (min - size (sign ++ mark ++ buf)))) ++ buf
      end = sign ++ mark ++ repeat 48 (N.to_nat (w - size (sign ++ mark ++ buf))) ++ buf).
    { unfold w. destruct (f_width (o_format o)) as [min|]; [|now rewrite N.sub_diag].
      destruct (N.leb_spec min (size (sign ++ mark ++ buf))) as [L|L].
      - rewrite N.max_r by lia. now rewrite N.sub_diag.
      - rewrite N.max_l by lia. do 3 f_equal. clear. induction (N.to_nat (min - size (sign ++ mark ++ buf))); [reflexivity|]. cbn. now f_equal. }
    rewrite E. clear E. assert (W : size (sign ++ mark ++ buf) <= w) by (unfold w; destruct (f_width (o_format o)); lia).
    split.
    + intros ->. eexists. split; [reflexivity|]. split; [apply repeat_all; now rewrite repeat_length|].
      clear -W. rewrite !size_app in *. unfold size at 3. rewrite repeat_length. lia.
    + intros (zeros & -> & F & S). apply repeat_all in F. rewrite F. do 3 f_equal. f_equal.
      rewrite !size_app in S. rewrite !size_app. unfold size in S at 3. unfold size in *. lia.
  - rewrite padded_text, pad_text. cbn [f_precision f_width f_fill f_align trunc]. cbv zeta.
    destruct (f_width (o_format o)) as [min|]; [|reflexivity]. destruct (min <=? size (sign ++ mark ++ buf)); [reflexivity|].
    unfold padding. cbn [f_align]. destruct (f_align (o_format o)) as [[| |]|]; rewrite !concat_fill; reflexivity.
Qed.

Lemma shown_spec : forall o n out, shown o n out <-> out = debug_uint o n.
Proof.
  intros o n out. unfold shown, debug_uint. destruct (o_hex o) as [c|].
  - rewrite pad_integral_spec. cbv zeta. split.
    + intros (sign & mark & ds & -> & (-> & N) & H). rewrite (hex_unique c n _ _ N (hex_numeral c n)) in H. exact H.
    + intros H. eexists _, _, _. split; [reflexivity|]. split; [split; [reflexivity|apply hex_numeral]|]. exact H.
  - rewrite pad_integral_spec. cbv zeta. assert (E : (if o_alternate o then [] else []) = ([] : list N)) by (destruct (o_alternate o); reflexivity).
    rewrite E. split.
    + intros (sign & mark & ds & -> & (-> & N) & H). rewrite (numeral_display n ds N) in H. exact H.
    + intros H. eexists _, _, _. split; [reflexivity|]. split; [split; [reflexivity|apply display_numeral]|]. exact H.
Qed.
Lemma shown_uint : forall o n, shown o n (debug_uint o n).
Proof. intros o n. now apply shown_spec. Qed.

(** ** In one line *)
Lemma separated_commas : forall o l, separated o l (commas (map (show o) (map DNum l))).
Proof.
  intros o. induction l as [|n [|m l] IH]; [constructor|cbn; constructor; apply shown_uint|]. cbn [map commas]. constructor; [apply shown_uint|exact IH].
Qed.
Lemma short_list_items : forall o opening closing l, o_alternate o = false ->
  exists b, separated o l b /\ show_list (o_alternate o) opening closing (map (show o) (map DNum l)) = opening ++ b ++ closing.
Proof.
  intros o opening closing l A. exists (commas (map (show o) (map DNum l))). split; [apply separated_commas|].
  rewrite A. destruct l; [reflexivity|]. reflexivity.
Qed.

Lemma str_ascii_list : forall s, str s = ascii s.
Proof. reflexivity. Qed.

Lemma short_registers_spec : forall o name r, o_alternate o = false -> short_registers o name r (show o (debug_registers name r)).
Proof.
  intros o name r A. unfold debug_registers. cbn [show map fst snd]. destruct (short_list_items o (str "[") (str "]") (r_buf r) A) as (b & B & E).
  rewrite E. rewrite A. exists b, (debug_uint o (r_count r)), (debug_uint o (r_zeros r)).
  split; [exact B|]. split; [apply shown_uint|]. split; [apply shown_uint|].
  unfold show_struct. cbn [commas]. rewrite !str_ascii_list, <- !app_assoc. reflexivity.
Qed.
Lemma short_list_spec : forall o d, o_alternate o = false -> short_list o d (show o (debug_dif d)).
Proof.
  intros o d A. unfold debug_dif. cbn [show map fst snd]. destruct (short_list_items o (str "[") (str "]") (d_buf d) A) as (b & B & E).
  rewrite E. rewrite A. exists (debug_uint o (d_count d)), (debug_uint o (d_last d)), b.
  split; [apply shown_uint|]. split; [apply shown_uint|]. split; [exact B|].
  unfold show_struct, show_tuple. cbn [commas]. rewrite !str_ascii_list, <- !app_assoc. reflexivity.
Qed.
Lemma short_pf_spec : forall (V : Type) o builder phantom (s : pf V), o_alternate o = false ->
  short_pf o builder phantom s (pf_debug o builder phantom s).
Proof.
  intros V o builder phantom s A. unfold pf_debug, debug_pf. cbn [show map fst snd].
  change (DStruct "Registers" _) with (debug_registers "Registers" (pf_registers s)).
  exists (debug_uint o (pf_count s)), (debug_uint o (pf_precision s)), (show o (debug_registers "Registers" (pf_registers s))).
  split; [apply shown_uint|]. split; [apply shown_uint|]. split; [apply short_registers_spec; exact A|].
  rewrite A. unfold show_struct. cbn [commas]. rewrite !str_ascii_list, <- !app_assoc. reflexivity.
Qed.
Lemma short_plus_spec : forall (V : Type) o ord builder phantom (s : plus V), o_alternate o = false ->
  short_plus o builder phantom (ord (hp_tmpset s)) s (plus_debug o ord builder phantom s).
Proof.
  intros V o ord builder phantom s A. unfold plus_debug, debug_plus. cbn [show map fst snd].
  destruct (short_list_items o (str "{") (str "}") (ord (hp_tmpset s)) A) as (x & X & E). rewrite E.
  exists (debug_uint o (hp_precision s)), (commas (map (show o) (map DNum [hp_counts0 s; hp_counts1 s; hp_counts2 s]))), x,
    (show o (debug_dif (hp_sparse s))), (show o (debug_option (option_map (debug_registers "RegistersPlus") (hp_registers s)))).
  split; [apply shown_uint|]. split; [apply separated_commas|]. split; [exact X|]. split; [apply short_list_spec; exact A|]. split.
  - destruct (hp_registers s) as [g|]; [|reflexivity]. exists (show o (debug_registers "RegistersPlus" g)).
    split; [apply short_registers_spec; exact A|]. cbn [option_map debug_option]. unfold show at 1. fold (show o). cbn [map]. rewrite A. reflexivity.
  - rewrite A. unfold show_struct, show_tuple. cbn [commas map show]. rewrite !str_ascii_list, <- !app_assoc. reflexivity.
Qed.
