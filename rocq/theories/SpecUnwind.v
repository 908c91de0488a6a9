(** * Reading the outcome of a call that may panic, for C81 *)
From Coq Require Import NArith List.
From Verif Require Import ModelRust ModelEnv ModelEncoding ModelPlus ModelHistory ModelUnwind.
Import ListNotations.
Local Open Scope N_scope.

(** How the call ends for a caller that does not catch panics: the receiver is then out of reach. *)
Definition uncaught {S A : Type} (u : exit S A) : M (S * A) :=
  match snd u with
  | Ret a => Ret (fst u, a)
  | Panic => Panic
  | OutOfFuel => OutOfFuel
  end.
Definition uncaught_unit {S : Type} (u : exit S unit) : M S :=
  match snd u with
  | Ret _ => Ret (fst u)
  | Panic => Panic
  | OutOfFuel => OutOfFuel
  end.

(** The call did not return. *)
Definition stopped {S A : Type} (u : exit S A) : Prop := forall a, snd u <> Ret a.

(** The same configuration: only the pending codes, the list and the registers may differ. *)
Definition same_setup {V : Type} (s s' : plus V) : Prop :=
  hp_builder s' = hp_builder s /\ hp_precision s' = hp_precision s /\
  hp_counts0 s' = hp_counts0 s /\ hp_counts1 s' = hp_counts1 s /\ hp_counts2 s' = hp_counts2 s.

(** A flush of the pending codes that did not return: nothing written, or the new list in place,
    the pending codes dropped and the list too long for a sketch without registers. *)
Definition flush_stopped {V : Type} (s s' : plus V) : Prop :=
  s' = s \/
  (same_setup s s' /\ hp_registers s' = hp_registers s /\ hp_tmpset s' = [] /\
   hp_counts2 s < dif_len (hp_sparse s')).

(** The values a difference vector's iterator gives before it ends or panics. *)
Inductive reads (e : env) : difiter -> list N -> Prop :=
| reads_nil : forall it, reads e it []
| reads_cons : forall it c it' l, dif_next e it = Ret (Some c, it') -> reads e it' l -> reads e it (c :: l).

(** The program without the calls whose hashing panics. *)
Fixpoint calm {V : Type} (w : wild V) : hist V :=
  match w with
  | WNew p b => HNew p b
  | WInsert k ord w v => HInsert k ord (calm w) v
  | WFail _ _ w => calm w
  | WMerge ord w1 w2 => HMerge ord (calm w1) (calm w2)
  | WCount ord w => HCount ord (calm w)
  | WSerde ord ser_b de_b w => HSerde ord ser_b de_b (calm w)
  end.
