(** Model of matchit/src/fromgenerator.rs:12-38 once more: [FromAdaptFn] over any iterator (in
    GenModel.v [from_next] over one that holds a list of items). *)
From Verif Require Import Base GenModel.

Section Pull.
  Context {S T I Q : Type}.
  Variable a : Adapt S I Q.
  Variable src : T -> outcome (T * option I).       (* [Iter::next] *)

  (** fromgenerator.rs:20-38 [FromAdaptFn::next]; the state is the adapter's and the iterator's.
      The loop over the iterator (:21-28) consumes [fuel], the loop of finalizing (:30-36) has its
      own.  The iterator is asked again in every call, also after it has reported its end. *)
  Fixpoint pull (fuel finalizing : nat) (st : S * T) : outcome ((S * T) * option Q) :=
    match fuel with
    | O => Fuel
    | Datatypes.S f =>
        let* (t', i) := src (snd st) in
        match i with
        | None => let* (s', o) := from_finalize a finalizing (fst st) in Ret ((s', t'), o)
        | Some x =>
            let* (s', r) := adapt a (fst st) x in
            match r with
            | Continue (Some o) => Ret ((s', t'), Some o)
            | Break => let* (s'', o) := from_finalize a finalizing s' in Ret ((s'', t'), o)
            | Continue None => pull f finalizing (s', t')
            end
        end
    end.
End Pull.
