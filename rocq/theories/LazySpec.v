(** Vocabulary for C107: how far an iterator has been asked. *)
From Verif Require Import Base.

(** [gives src t xs t']: asked once for each of them, the iterator delivers the items [xs] and goes
    from state [t] to [t'].  Nothing is said about what it does then. *)
Inductive gives {T I : Type} (src : T -> outcome (T * option I)) : T -> list I -> T -> Prop :=
| gives_none t : gives src t [] t
| gives_one t x t1 xs t2 : src t = Ret (t1, Some x) -> gives src t1 xs t2 -> gives src t (x :: xs) t2.

(** What [n] calls of [next] return, and the state they leave behind. *)
Fixpoint asked {S A : Type} (next : S -> outcome (S * option A)) (n : nat) (s : S) : outcome (list (option A) * S) :=
  match n with
  | O => Ret ([], s)
  | Datatypes.S n' =>
      match next s with
      | Ret (s1, o) => match asked next n' s1 with Ret (os, s2) => Ret (o :: os, s2) | Panic => Panic | Fuel => Fuel end
      | Panic => Panic
      | Fuel => Fuel
      end
  end.
