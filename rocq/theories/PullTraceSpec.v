(** Vocabulary for C125: pulling and pushing with side effects. *)
From Verif Require Import Base GenModel TraceModel.

(** The adapter never asks to stop when it is offered an item. *)
Definition never_stops {W S I Q : Type} (a : AdaptE W S I Q) : Prop := forall s x w s' w', eadapt a s x w <> Ret ((s', Break), w').
(** Once the iterator has reported its end, asking it again reports the end again and has no effect. *)
Definition quiet_end {W T I : Type} (src : T -> eff W (T * option I)) : Prop := forall t w t' w', src t w = Ret ((t', None), w') ->
  forall w1, src t' w1 = Ret ((t', None), w1).
(** With enough steps allowed, the computation, started in the world [w], has the outcome [res]: value and final world, or panic. *)
Definition comes_to {W A : Type} (m : nat -> eff W A) (w : W) (res : outcome (A * W)) : Prop :=
  res <> Fuel /\ exists n, forall k, n <= k -> m k w = res.
(** An iterator over a list that counts how often it has been asked. *)
Definition counting {I : Type} : list I * nat -> outcome ((list I * nat) * option I) := fun st =>
  match fst st with [] => Ret (([], snd st + 1), None) | x :: xs => Ret ((xs, snd st + 1), Some x) end.
(** The state after [n] calls of [next]. *)
Fixpoint state_after {S A : Type} (next : S -> outcome (S * option A)) (n : nat) (s : S) : outcome S :=
  match n with
  | O => Ret s
  | Datatypes.S n' => match next s with Ret (s', _) => state_after next n' s' | Panic => Panic | Fuel => Fuel end
  end.
