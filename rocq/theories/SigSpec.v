(** Vocabulary for C119 and C120: signals during write(2). *)
From Verif Require Import Base DdOs SigModel.

(** The answers among calls [c], ..., [c + k - 1], interrupted calls left out. *)
Fixpoint answers (h : past) (c k : nat) : list answer :=
  match k with
  | 0 => []
  | S k => match h c with Interrupted => answers h (c + 1) k | Answered a => a :: answers h (c + 1) k end
  end.
(** [o] is what the operating system answers if the interrupted calls are left out. *)
Definition without_signals (h : past) (o : os) : Prop :=
  forall k i, i < length (answers h 0 k) -> nth_error (answers h 0 k) i = Some (o i).
(** Signals do not keep interrupting for ever. *)
Definition fair (h : past) : Prop := forall i, exists j a, i <= j /\ h j = Answered a.
