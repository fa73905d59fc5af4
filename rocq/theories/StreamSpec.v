(** Vocabulary for C84: an iterator that delivers a list and then stays at its end. *)
From Verif Require Import Base Spec.

(** Whatever the number of calls: the first calls return the items of [l], all others [None]. *)
Definition stream {S A : Type} (next : S -> outcome (S * option A)) (s : S) (l : list A) : Prop :=
  forall n, calls next n s = Ret (map Some (firstn n l) ++ repeat None (n - length l)).
