(** Pulling (matchit/src/fromgenerator.rs) with closures and iterators that have side effects.

    PullModel.v has [FromAdaptFn] with closures that only return values.  Here iterator and closures read and change a
    world [W], as in TraceModel.v. *)
From Verif Require Import Base GenModel TraceModel.

Section Pull.
  Context {W S T I Q : Type}.
  Variable a : AdaptE W S I Q.
  Variable src : T -> eff W (T * option I).        (* [Iter::next] *)
  (** fromgenerator.rs:30-37 *)
  Fixpoint finish_pull (fuel : nat) (s : S) : eff W (S * option Q) :=
    match fuel with
    | O => fun _ => Fuel
    | Datatypes.S f =>
        run* '(s', out) := efinalize a s in
        match out with
        | Break => pure (s', None)
        | Continue (Some o) => pure (s', Some o)
        | Continue None => finish_pull f s'
        end
    end.
  (** fromgenerator.rs:20-38 [FromAdaptFn::next] *)
  Fixpoint pullE (fuel finalizing : nat) (st : S * T) : eff W ((S * T) * option Q) :=
    match fuel with
    | O => fun _ => Fuel
    | Datatypes.S f =>
        run* '(t', i) := src (snd st) in
        match i with
        | None => run* '(s', o) := finish_pull finalizing (fst st) in pure ((s', t'), o)
        | Some x =>
            run* '(s', r) := eadapt a (fst st) x in
            match r with
            | Continue (Some o) => pure ((s', t'), Some o)
            | Break => run* '(s'', o) := finish_pull finalizing s' in pure ((s'', t'), o)
            | Continue None => pullE f finalizing (s', t')
            end
        end
    end.
End Pull.

(** fromgenerator.rs:59-64: the loop of [split], for any reducer. *)
Section Loop.
  Context {W T I Acc R : Type}.
  Variable src : T -> eff W (T * option I).
  Variable r : ReduceE W Acc I R.
  (** fromgenerator.rs:51-66 over a source that is pulled. *)
  Fixpoint reduce_from (fuel : nat) (t : T) (acc : Acc) : eff W R :=
    match fuel with
    | O => fun _ => Fuel
    | Datatypes.S f =>
        run* '(t', i) := src t in
        match i with
        | None => efinal r acc
        | Some x => run* acc' := enext r acc x in reduce_from f t' acc'
        end
    end.
End Loop.

(** std's [Filter::next] and [Map::next], which the commands of ripdlt use beside the library's adapters. *)
Section Std.
  Context {W T I : Type}.
  Variable src : T -> eff W (T * option I).
  (** [Iterator::filter] of std. *)
  Fixpoint std_filter (p : I -> eff W bool) (fuel : nat) (t : T) : eff W (T * option I) :=
    match fuel with
    | O => fun _ => Fuel
    | Datatypes.S f =>
        run* '(t', i) := src t in
        match i with
        | None => pure (t', None)
        | Some x => run* b := p x in if b then pure (t', Some x) else std_filter p f t'
        end
    end.
  (** [Iterator::map] of std. *)
  Definition std_map {Q} (f : I -> eff W Q) (t : T) : eff W (T * option Q) :=
    run* '(t', i) := src t in
    match i with
    | None => pure (t', None)
    | Some x => run* y := f x in pure (t', Some y)
    end.
End Std.
