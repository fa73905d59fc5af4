(** Vocabulary for C132: an input that has ended, or is still open. *)
From Verif Require Import Base InModel.

(** The end of the input, or an error, is among the events. *)
Fixpoint closed (evs : list event) : Prop :=
  match evs with
  | [] => False
  | Delivers [] :: _ | ReadFails :: _ | ReadNotOpen :: _ => True
  | Delivers (_ :: _) :: r | Interrupted :: r => closed r
  end.
