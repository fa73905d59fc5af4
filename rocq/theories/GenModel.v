(** Model of matchit/src/generator/*.rs and matchit/src/fromgenerator.rs. *)
From Verif Require Import Base.

(** std::ops::ControlFlow<(), Option<O>>. *)
Inductive flow (Q : Type) : Type :=
| Break
| Continue (o : option Q).
Arguments Break {Q}.
Arguments Continue {Q} o.

(** * BTreeMap: an association list sorted by the key order (the B-tree itself is not
      modelled). Keys are compared with [cmp], Rust's [Ord::cmp]. *)
Section Map.
  Context {K V : Type}.
  Variable cmp : K -> K -> comparison.

  (** BTreeMap::get *)
  Fixpoint map_get (k : K) (m : list (K * V)) : option V :=
    match m with
    | [] => None
    | (k', v) :: m' =>
        match cmp k k' with
        | Eq => Some v
        | Lt => None
        | Gt => map_get k m'
        end
    end.

  (** BTreeMap::insert: an existing equal key keeps its key, the value is replaced. *)
  Fixpoint map_insert (k : K) (v : V) (m : list (K * V)) : list (K * V) :=
    match m with
    | [] => [(k, v)]
    | (k', v') :: m' =>
        match cmp k k' with
        | Eq => (k', v) :: m'
        | Lt => (k, v) :: m
        | Gt => (k', v') :: map_insert k v m'
        end
    end.

  (** BTreeMap::remove *)
  Fixpoint map_remove (k : K) (m : list (K * V)) : list (K * V) :=
    match m with
    | [] => []
    | (k', v') :: m' =>
        match cmp k k' with
        | Eq => m'
        | Lt => m
        | Gt => (k', v') :: map_remove k m'
        end
    end.
End Map.

(** * adapter.rs:17-23 [AdaptFnTrait] and :25-34 [AdapterTrait] have the same two methods:
      one record of operations over a state [S]. Closures may panic, hence [outcome]. *)
Record Adapt (S I Q : Type) := {
  adapt : S -> I -> outcome (S * flow Q);
  finalize : S -> outcome (S * flow Q)
}.
Arguments adapt {S I Q} a s i.
Arguments finalize {S I Q} a s.

(** adapter.rs:102-128 [NilAdapter]. *)
Definition NilAdapter {I : Type} : Adapt unit I I := {|
  adapt := fun s next => Ret (s, Continue (Some next));
  finalize := fun s => Ret (s, Break)
|}.

(** adapter.rs:197-224 [Filter]. *)
Definition Filter {I : Type} (f : I -> outcome bool) : Adapt unit I I := {|
  adapt := fun s next =>
    let* r := f next in
    if r then Ret (s, Continue (Some next)) else Ret (s, Continue None);
  finalize := fun s => Ret (s, Break)
|}.

(** adapter.rs:226-248 [Map]. *)
Definition MapA {I Q : Type} (f : I -> outcome Q) : Adapt unit I Q := {|
  adapt := fun s next => let* y := f next in Ret (s, Continue (Some y));
  finalize := fun s => Ret (s, Break)
|}.

(** groupby.rs:5-13 [GroupByState]. *)
Inductive gstate (T : Type) : Type :=
| GEmpty
| GConsumed (t : T)
| GLazy (start stop : T).
Arguments GEmpty {T}.
Arguments GConsumed {T} t.
Arguments GLazy {T} start stop.

(** groupby.rs:27-85 [GroupBy]. *)
Definition GroupBy {I : Type} (f : I -> I -> outcome bool) : Adapt (gstate I) I (I * I) := {|
  adapt := fun s next =>
    match s with
    | GEmpty => Ret (GConsumed next, Continue None)
    | GConsumed prev =>
        let* r := f prev next in
        if r then Ret (GLazy prev next, Continue None)
        else
          let* r2 := f prev prev in
          if r2 then Ret (GConsumed next, Continue (Some (prev, prev)))
          else Ret (GConsumed prev, Continue None)
    | GLazy start stop =>
        let* r := f stop next in
        if r then Ret (GLazy start next, Continue None)
        else Ret (GConsumed next, Continue (Some (start, stop)))
    end;
  finalize := fun s =>
    match s with
    | GEmpty => Ret (GEmpty, Break)
    | GConsumed prev =>
        let* r := f prev prev in
        if r then Ret (GEmpty, Continue (Some (prev, prev)))
        else Ret (GEmpty, Break)
    | GLazy start stop => Ret (GEmpty, Continue (Some (start, stop)))
    end
|}.

(** groupby.rs:88-145 [Merge].  State: the map and, once finalizing has begun, the
    remaining values of the consuming iterator. *)
Definition merge_state (K I : Type) : Type := (list (K * I) * option (list (K * I)))%type.

(** groupby.rs:130-136: the first entry in key order that merges. *)
Fixpoint merge_find {K I : Type} (f : I -> I -> outcome (option I)) (next : I)
  (m : list (K * I)) : outcome (option (I * I)) :=
  match m with
  | [] => Ret None
  | (_, prev) :: m' =>
      let* r := f prev next in
      match r with
      | Some val => Ret (Some (prev, val))
      | None => merge_find f next m'
      end
  end.

(** groupby.rs:88-145. *)
Definition Merge {K I : Type} (cmp : K -> K -> comparison)
  (f : I -> I -> outcome (option I)) (keyfn : I -> outcome K)
  : Adapt (merge_state K I) I I := {|
  adapt := fun s next =>                                     (* groupby.rs:127-144 *)
    let '(m, it) := s in
    let* consumed := merge_find f next m in
    match consumed with
    | Some (prev, val) =>
        let* kp := keyfn prev in
        let* kv := keyfn val in
        Ret ((map_insert cmp kv val (map_remove cmp kp m), it), Continue None)
    | None =>
        let* kn := keyfn next in
        Ret ((map_insert cmp kn next m, it), Continue None)
    end;
  finalize := fun s =>                                       (* groupby.rs:113-123 *)
    let '(m, it) := s in
    let l := match it with Some l => l | None => m end in
    match l with
    | [] => Ret ((m, Some []), Break)
    | (_, v) :: l' => Ret ((m, Some l'), Continue (Some v))
    end
|}.

(** adapter.rs:165-195 [Adapter<Impl, A>]: [impl] applied to the output of [inner].
    The [while] loop of [finalize] (:187-192) consumes fuel. *)
Section Compose.
  Context {S1 S2 I M Q : Type}.
  Variable impl : Adapt S1 M Q.
  Variable inner : Adapt S2 I M.

  (** adapter.rs:185-193. *)
  Fixpoint compose_finalize (fuel : nat) (s1 : S1) (s2 : S2)
    : outcome ((S1 * S2) * flow Q) :=
    match fuel with
    | O => Fuel
    | Datatypes.S f =>
        let* (s2', out) := finalize inner s2 in
        match out with
        | Break => let* (s1', r) := finalize impl s1 in Ret ((s1', s2'), r)
        | Continue (Some o) => let* (s1', r) := adapt impl s1 o in Ret ((s1', s2'), r)
        | Continue None => compose_finalize f s1 s2'
        end
    end.

  (** adapter.rs:165-195. *)
  Definition Adapter (fuel : nat) : Adapt (S1 * S2) I Q := {|
    adapt := fun s next =>
      let '(s1, s2) := s in
      let* (s2', out) := adapt inner s2 next in
      match out with
      | Break => Ret ((s1, s2'), Break)                      (* the [?] at :175 *)
      | Continue (Some o) => let* (s1', r) := adapt impl s1 o in Ret ((s1', s2'), r)
      | Continue None => Ret ((s1, s2'), Continue None)
      end;
    finalize := fun s => compose_finalize fuel (fst s) (snd s)
  |}.
End Compose.

(** * reducer.rs:7-13 [ReducerTrait]. *)
Record Reduce (S I R : Type) := {
  rnext : S -> I -> outcome S;
  rfinal : S -> outcome R
}.
Arguments rnext {S I R} r s i.
Arguments rfinal {S I R} r s.

(** reducer.rs:116-140 [Fold]: the state is the accumulator ([FnMut] state of the closure
    is part of the accumulator; none of the repo's closures has other state). *)
Definition Fold {Acc I : Type} (f : Acc -> I -> outcome Acc) : Reduce Acc I Acc := {|
  rnext := fun s next => f s next;
  rfinal := fun s => Ret s
|}.

(** reducer.rs:88-114 [Fork]. *)
Definition Fork {S1 S2 I R1 R2 : Type} (r1 : Reduce S1 I R1) (r2 : Reduce S2 I R2)
  : Reduce (S1 * S2) I (R1 * R2) := {|
  rnext := fun s next =>
    let* s1 := rnext r1 (fst s) next in
    let* s2 := rnext r2 (snd s) next in
    Ret (s1, s2);
  rfinal := fun s =>
    let* x1 := rfinal r1 (fst s) in
    let* x2 := rfinal r2 (snd s) in
    Ret (x1, x2)
|}.

(** reducer.rs:78-84 [Split::finalize]: finalize each value in key order, inserting into
    a fresh map (keys arrive in ascending order, so the result is the same list). *)
Fixpoint split_finalize {K S I R : Type} (cmp : K -> K -> comparison) (red : Reduce S I R)
  (m : list (K * S)) (acc : list (K * R)) : outcome (list (K * R)) :=
  match m with
  | [] => Ret acc
  | (k, v) :: m' =>
      let* r := rfinal red v in
      split_finalize cmp red m' (map_insert cmp k r acc)
  end.

(** reducer.rs:53-85 [Split]. [redfn key] is the initial state of a new reducer of the
    (single) type [red]; [entry(key).or_insert(..)] then [next] on it. *)
Definition Split {K S I R : Type} (cmp : K -> K -> comparison)
  (keyfn : I -> outcome K) (redfn : K -> S) (red : Reduce S I R)
  : Reduce (list (K * S)) I (list (K * R)) := {|
  rnext := fun m next =>
    let* key := keyfn next in
    let s := match map_get cmp key m with Some s => s | None => redfn key end in
    let* s' := rnext red s next in
    Ret (map_insert cmp key s' m);
  rfinal := fun m => split_finalize cmp red m []
|}.

(** reducer.rs:22-51 [Reducer<Impl, A>]; the [while] loop of [finalize] consumes fuel. *)
Section ReducerOver.
  Context {S1 S2 I M R : Type}.
  Variable impl : Reduce S1 M R.
  Variable a : Adapt S2 I M.

  (** reducer.rs:40-50. *)
  Fixpoint reducer_finalize (fuel : nat) (s1 : S1) (s2 : S2) : outcome R :=
    match fuel with
    | O => Fuel
    | Datatypes.S f =>
        let* (s2', out) := finalize a s2 in
        match out with
        | Break => rfinal impl s1
        | Continue None => reducer_finalize f s1 s2'
        | Continue (Some o) =>
            let* s1' := rnext impl s1 o in
            reducer_finalize f s1' s2'
        end
    end.

  (** reducer.rs:22-51. *)
  Definition ReducerOver (fuel : nat) : Reduce (S1 * S2) I R := {|
    rnext := fun s next =>
      let '(s1, s2) := s in
      let* (s2', out) := adapt a s2 next in
      match out with
      | Continue (Some o) => let* s1' := rnext impl s1 o in Ret (s1', s2')
      | _ => Ret (s1, s2')
      end;
    rfinal := fun s => reducer_finalize fuel (fst s) (snd s)
  |}.
End ReducerOver.

(** The caller's loop [for a in xs { r.next(a) }; r.finalize()]
    (e.g. fromgenerator.rs:59-64). *)
Fixpoint feed {S I R : Type} (r : Reduce S I R) (s : S) (xs : list I) : outcome S :=
  match xs with
  | [] => Ret s
  | x :: xs' => let* s' := rnext r s x in feed r s' xs'
  end.
(** fromgenerator.rs:51-66: a reducer is fed all items, then finalized. *)
Definition run_reduce {S I R : Type} (r : Reduce S I R) (s : S) (xs : list I) : outcome R :=
  let* s' := feed r s xs in rfinal r s'.

(** adapter.rs:142-145 / generator.rs:32-35 [count]; :148-153 [sum]; :156-161 [collect].
    [usize] additions are unbounded here (ToolsWord.v has them with overflow; the same by C94). *)
Definition Count {I : Type} : Reduce nat I nat := Fold (fun acc _ => Ret (acc + 1)).
(** adapter.rs:148-153, generator.rs:38-43. *)
Definition Sum {I : Type} (add : I -> nat -> nat) : Reduce nat I nat :=
  Fold (fun acc next => Ret (add next acc)).
(** adapter.rs:156-161. *)
Definition Collect {I : Type} : Reduce (list I) I (list I) := Fold (fun acc next => Ret (acc ++ [next])).

(** fromgenerator.rs:20-38 [FromAdaptFn::next] over an iterator that holds the items
    [xs] (a fused iterator; the state is the adapter's state and the remaining items). *)
Section FromAdapt.
  Context {S I Q : Type}.
  Variable a : Adapt S I Q.

  (** fromgenerator.rs:30-37 *)
  Fixpoint from_finalize (fuel : nat) (s : S) : outcome (S * option Q) :=
    match fuel with
    | O => Fuel
    | Datatypes.S f =>
        let* (s', out) := finalize a s in
        match out with
        | Break => Ret (s', None)
        | Continue (Some o) => Ret (s', Some o)
        | Continue None => from_finalize f s'
        end
    end.

  (** fromgenerator.rs:21-28 *)
  Fixpoint from_next (fuel : nat) (s : S) (xs : list I) : outcome ((S * list I) * option Q) :=
    match xs with
    | [] => let* (s', o) := from_finalize fuel s in Ret ((s', []), o)
    | x :: xs' =>
        let* (s', r) := adapt a s x in
        match r with
        | Continue (Some o) => Ret ((s', xs'), Some o)
        | Break => let* (s'', o) := from_finalize fuel s' in Ret ((s'', xs'), o)
        | Continue None => from_next fuel s' xs'
        end
    end.

  (** fromgenerator.rs:20-38, driven to its end. *)
  Definition from_adapt (fuel1 fuel2 : nat) (s : S) (xs : list I) : outcome (list Q) :=
    collect (fun st => from_next fuel1 (fst st) (snd st)) fuel2 (s, xs).
End FromAdapt.
