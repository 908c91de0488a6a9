(** * What the sketches look like when they are shown for debugging *)
From Coq Require Import String.
From Coq Require Import NArith List.
From Verif Require Import ModelRegisters ModelEncoding ModelPF ModelPlus ModelFormat ModelDebug SpecFiles SpecFormat.
Import ListNotations.
Local Open Scope N_scope.

(** ** Integers *)

Definition hex_text (c : hex_case) (d : N) : N :=
  nth (N.to_nat d) (ascii match c with Lower => "0123456789abcdef" | Upper => "0123456789ABCDEF" end) 0.
Fixpoint hexadecimal_value (ds : list N) : N :=
  match ds with
  | [] => 0
  | d :: ds' => d * 16 ^ N.of_nat (length ds') + hexadecimal_value ds'
  end.
Definition hexadecimal_numeral (c : hex_case) (n : N) (s : list N) : Prop :=
  exists ds, ds <> [] /\ Forall (fun d => d < 16) ds /\ s = map (hex_text c) ds /\ hexadecimal_value ds = n /\
    (forall ds', ds = 0 :: ds' -> ds' = []).

(** The sign, the mark of hexadecimal numbers, and the digits; padded with zeros between them, or with the fill around
    them, to the left unless requested otherwise. *)
Definition shown (o : options) (n : N) (out : list N) : Prop :=
  exists sign mark ds, sign = (if o_plus o then ascii "+" else []) /\
    match o_hex o with
    | None => mark = [] /\ numeral n ds
    | Some c => mark = (if o_alternate o then ascii "0x" else []) /\ hexadecimal_numeral c n ds
    end /\
    (if o_zero o then
       exists zeros, out = sign ++ mark ++ zeros ++ ds /\ Forall (fun c => c = 48) zeros /\
         size out = match f_width (o_format o) with None => size (sign ++ mark ++ ds) | Some w => N.max w (size (sign ++ mark ++ ds)) end
     else padded (f_fill (o_format o)) (Some match f_align (o_format o) with None => Right | Some a => a end)
                 (f_width (o_format o)) (sign ++ mark ++ ds) out).

(** ** In one line *)

Inductive separated (o : options) : list N -> list N -> Prop :=
| Separated_none : separated o [] []
| Separated_one : forall n s, shown o n s -> separated o [n] s
| Separated_more : forall n s m l t, shown o n s -> separated o (m :: l) t -> separated o (n :: m :: l) (s ++ ascii ", " ++ t).

Definition short_registers (o : options) (name : string) (r : registers) (s : list N) : Prop :=
  exists b c z, separated o (r_buf r) b /\ shown o (r_count r) c /\ shown o (r_zeros r) z /\
    s = ascii name ++ ascii " { buf: [" ++ b ++ ascii "], count: " ++ c ++ ascii ", zeros: " ++ z ++ ascii " }".
Definition short_list (o : options) (d : difintvec) (s : list N) : Prop :=
  exists c l b, shown o (d_count d) c /\ shown o (d_last d) l /\ separated o (d_buf d) b /\
    s = ascii "DifIntVec { count: " ++ c ++ ascii ", last: " ++ l ++ ascii ", buf: VarIntVec([" ++ b ++ ascii "]) }".
Definition short_pf {V : Type} (o : options) (builder phantom : list N) (s : pf V) (t : list N) : Prop :=
  exists c p r, shown o (pf_count s) c /\ shown o (pf_precision s) p /\ short_registers o "Registers" (pf_registers s) r /\
    t = ascii "HyperLogLogPF { builder: " ++ builder ++ ascii ", count: " ++ c ++ ascii ", precision: " ++ p ++
        ascii ", registers: " ++ r ++ ascii ", phantom: " ++ phantom ++ ascii " }".
(** [codes]: the pending codes in the order in which they are visited. *)
Definition short_plus {V : Type} (o : options) (builder phantom codes : list N) (s : plus V) (t : list N) : Prop :=
  exists p c x d r, shown o (hp_precision s) p /\ separated o [hp_counts0 s; hp_counts1 s; hp_counts2 s] c /\
    separated o codes x /\ short_list o (hp_sparse s) d /\
    match hp_registers s with
    | None => r = ascii "None"
    | Some g => exists u, short_registers o "RegistersPlus" g u /\ r = ascii "Some(" ++ u ++ ascii ")"
    end /\
    t = ascii "HyperLogLogPlus { builder: " ++ builder ++ ascii ", precision: " ++ p ++ ascii ", counts: (" ++ c ++
        ascii "), tmpset: {" ++ x ++ ascii "}, sparse: " ++ d ++ ascii ", registers: " ++ r ++ ascii ", phantom: " ++ phantom ++ ascii " }".

(** ** One field on each line *)

(** Lines with newlines between them. *)
Fixpoint lined (ls : list (list N)) : list N :=
  match ls with
  | [] => []
  | [l] => l
  | l :: ls' => l ++ [10] ++ lined ls'
  end.
Definition line (indentation : nat) (l : list N) : list N := repeat 32 indentation ++ l.

(** The lines of [text] after [before], and a comma. *)
Fixpoint hanging (indentation : nat) (before : list N) (text : list (list N)) : list (list N) :=
  match text with
  | [] => []
  | [l] => [line indentation (before ++ l ++ ascii ",")]
  | l :: text' => line indentation (before ++ l) :: hanging indentation [] text'
  end.

(** An integer on each line between [opening] and [closing]; if there is none, these are on one line. *)
Definition block (o : options) (indentation : nat) (opening closing : list N) (l : list N) (ls : list (list N)) : Prop :=
  match l with
  | [] => ls = [line indentation (opening ++ closing ++ ascii ",")]
  | _ => exists ts, Forall2 (shown o) l ts /\
           ls = [line indentation opening] ++ map (fun t => line (indentation + 4) (t ++ ascii ",")) ts ++
                [line indentation (closing ++ ascii ",")]
  end.

(** The fields of registers, and the closing brace. *)
Definition long_registers (o : options) (indentation : nat) (r : registers) (ls : list (list N)) : Prop :=
  exists b c z, block o (indentation + 4) (ascii "buf: [") (ascii "]") (r_buf r) b /\ shown o (r_count r) c /\ shown o (r_zeros r) z /\
    ls = b ++ [line (indentation + 4) (ascii "count: " ++ c ++ ascii ","); line (indentation + 4) (ascii "zeros: " ++ z ++ ascii ",");
               line indentation (ascii "},")].

Definition long_pf {V : Type} (o : options) (builder phantom : list (list N)) (s : pf V) (t : list N) : Prop :=
  exists c p r, shown o (pf_count s) c /\ shown o (pf_precision s) p /\ long_registers o 4 (pf_registers s) r /\
    t = lined ([ascii "HyperLogLogPF {"] ++ hanging 4 (ascii "builder: ") builder ++
               [line 4 (ascii "count: " ++ c ++ ascii ","); line 4 (ascii "precision: " ++ p ++ ascii ",");
                line 4 (ascii "registers: Registers {")] ++ r ++ hanging 4 (ascii "phantom: ") phantom ++ [ascii "}"]).

Definition long_plus {V : Type} (o : options) (builder phantom : list (list N)) (codes : list N) (s : plus V) (t : list N) : Prop :=
  exists p c x dc dl db r, shown o (hp_precision s) p /\
    block o 4 (ascii "counts: (") (ascii ")") [hp_counts0 s; hp_counts1 s; hp_counts2 s] c /\
    block o 4 (ascii "tmpset: {") (ascii "}") codes x /\
    shown o (d_count (hp_sparse s)) dc /\ shown o (d_last (hp_sparse s)) dl /\
    block o 12 (ascii "[") (ascii "]") (d_buf (hp_sparse s)) db /\
    match hp_registers s with
    | None => r = [line 4 (ascii "registers: None,")]
    | Some g => exists u, long_registers o 8 g u /\
        r = [line 4 (ascii "registers: Some("); line 8 (ascii "RegistersPlus {")] ++ u ++ [line 4 (ascii "),")]
    end /\
    t = lined ([ascii "HyperLogLogPlus {"] ++ hanging 4 (ascii "builder: ") builder ++
               [line 4 (ascii "precision: " ++ p ++ ascii ",")] ++ c ++ x ++
               [line 4 (ascii "sparse: DifIntVec {"); line 8 (ascii "count: " ++ dc ++ ascii ","); line 8 (ascii "last: " ++ dl ++ ascii ",");
                line 8 (ascii "buf: VarIntVec(")] ++ db ++ [line 8 (ascii "),"); line 4 (ascii "},")] ++ r ++
               hanging 4 (ascii "phantom: ") phantom ++ [ascii "}"]).
