(** Vocabulary for C75: what an adapter written by a user of the library (any implementation of
    AdaptFnTrait / AdapterTrait, adapter.rs:17-34) does with its input. *)
From Verif Require Import Base GenModel.

Section Runs.
  Context {S I Q : Type}.
  Variable a : Adapt S I Q.

  (** [takes s xs s' out]: the adapter accepts every item of [xs] without asking to stop; it
      emits [out] meanwhile and goes from state [s] to [s']. *)
  Inductive takes : S -> list I -> S -> list Q -> Prop :=
  | takes_none s : takes s [] s []
  | takes_emit s x y s' xs s'' out :
      adapt a s x = Ret (s', Continue (Some y)) -> takes s' xs s'' out -> takes s (x :: xs) s'' (y :: out)
  | takes_silent s x s' xs s'' out :
      adapt a s x = Ret (s', Continue None) -> takes s' xs s'' out -> takes s (x :: xs) s'' out.

  (** [asked_to_finish k s s' o]: finalizing is silent [k] times and then emits [o] or, if [o] is
      [None], reports the end. *)
  Inductive asked_to_finish : nat -> S -> S -> option Q -> Prop :=
  | finish_end s s' : finalize a s = Ret (s', Break) -> asked_to_finish 0 s s' None
  | finish_emit s s' y : finalize a s = Ret (s', Continue (Some y)) -> asked_to_finish 0 s s' (Some y)
  | finish_silent k s s' s'' o : finalize a s = Ret (s', Continue None) ->
      asked_to_finish k s' s'' o -> asked_to_finish (1 + k) s s'' o.

  (** [finishes k s out]: finalized again and again, the adapter emits [out] and then reports the
      end; [k] calls are made before that. *)
  Inductive finishes : nat -> S -> list Q -> Prop :=
  | finishes_end s s' : finalize a s = Ret (s', Break) -> finishes 0 s []
  | finishes_emit k s s' y out : finalize a s = Ret (s', Continue (Some y)) ->
      finishes k s' out -> finishes (1 + k) s (y :: out)
  | finishes_silent k s s' out : finalize a s = Ret (s', Continue None) ->
      finishes k s' out -> finishes (1 + k) s out.
End Runs.
