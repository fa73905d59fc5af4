(** Vocabulary for C112 and C113: closures with side effects. *)
From Verif Require Import Base GenModel TraceModel.

(** Whatever the world, [m] returns, panics or does not end like [o]. *)
Definition yields {W A : Type} (m : eff W A) (o : outcome A) : Prop := forall w,
  (exists a w', m w = Ret (a, w') /\ o = Ret a) \/ (m w = Panic /\ o = Panic) \/ (m w = Fuel /\ o = Fuel).
Definition same_adapter {W S I Q : Type} (ae : AdaptE W S I Q) (a : Adapt S I Q) : Prop :=
  (forall s x, yields (eadapt ae s x) (adapt a s x)) /\ (forall s, yields (efinalize ae s) (finalize a s)).
Definition same_reducer {W S I R : Type} (re : ReduceE W S I R) (r : Reduce S I R) : Prop :=
  (forall s x, yields (enext re s x) (rnext r s x)) /\ (forall s, yields (efinal re s) (rfinal r s)).

(** A function that writes down each of its calls, behind what has been written before. *)
Definition noted {E A B : Type} (what : A -> E) (f : A -> B) : A -> eff (list E) B := fun a log => Ret (f a, log ++ [what a]).
Definition noted2 {E A A' B : Type} (what : A -> A' -> E) (f : A -> A' -> B) : A -> A' -> eff (list E) B :=
  fun a a' log => Ret (f a a', log ++ [what a a']).
(** Started with an empty log, [m] returns [a] after exactly the calls [log]. *)
Definition with_calls {E A : Type} (m : eff (list E) A) (a : A) (log : list E) : Prop :=
  forall before, m before = Ret (a, before ++ log).

(** The calls of groupby's predicate for the item [x] and the following ones: each is compared with its successor; an
    item related to neither neighbour is compared with itself. *)
Fixpoint group_calls {A : Type} (rel : A -> A -> bool) (alone : bool) (x : A) (ys : list A) : list (A * A) :=
  match ys with
  | [] => if alone then [(x, x)] else []
  | y :: ys' =>
      (x, y) :: (if rel x y then group_calls rel false y ys'
                 else (if alone then [(x, x)] else []) ++ group_calls rel true y ys')
  end.
(** How often one kind of call is in a log. *)
Definition times {E : Type} (which : E -> bool) (log : list E) : nat := length (filter which log).
