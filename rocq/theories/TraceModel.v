(** The generator of GenModel.v with closures that may have side effects.

    GenModel.v takes closures as functions that return a value or panic.  Rust's [Fn] closures may change state
    through cells, files or the like, and [FnMut] closures change what they capture; so here a closure is a function
    that also reads and changes a world [W].  What the adapters and reducers themselves do is as in GenModel.v, in
    the order of the code; [clone]s of values of arbitrary size are closures too. *)
From Verif Require Import Base GenModel.

(** A computation that may change the world [W]. *)
Definition eff (W A : Type) : Type := W -> outcome (A * W).
(** No effect. *)
Definition pure {W A} (a : A) : eff W A := fun w => Ret (a, w).
(** Sequencing. *)
Definition ebind {W A B} (m : eff W A) (f : A -> eff W B) : eff W B :=
  fun w => match m w with Ret (a, w') => f a w' | Panic => Panic | Fuel => Fuel end.
Notation "'run*' x := a 'in' b" := (ebind a (fun x => b)) (at level 200, x name, a at level 100, b at level 200).
Notation "'run*' ' p := a 'in' b" := (ebind a (fun x => match x with p => b end)) (at level 200, p strict pattern, a at level 100, b at level 200).

(** adapter.rs:17-34 *)
Record AdaptE (W S I Q : Type) := {
  eadapt : S -> I -> eff W (S * flow Q);
  efinalize : S -> eff W (S * flow Q)
}.
Arguments eadapt {W S I Q} a s i.
Arguments efinalize {W S I Q} a s.

(** adapter.rs:102-128 *)
Definition NilE {W I : Type} : AdaptE W unit I I := {|
  eadapt := fun s next => pure (s, Continue (Some next));
  efinalize := fun s => pure (s, Break)
|}.
(** adapter.rs:197-224 *)
Definition FilterE {W I : Type} (f : I -> eff W bool) : AdaptE W unit I I := {|
  eadapt := fun s next => run* r := f next in if r then pure (s, Continue (Some next)) else pure (s, Continue None);
  efinalize := fun s => pure (s, Break)
|}.
(** adapter.rs:226-248 *)
Definition MapE {W I Q : Type} (f : I -> eff W Q) : AdaptE W unit I Q := {|
  eadapt := fun s next => run* y := f next in pure (s, Continue (Some y));
  efinalize := fun s => pure (s, Break)
|}.
(** groupby.rs:27-85 *)
Definition GroupByE {W I : Type} (f : I -> I -> eff W bool) : AdaptE W (gstate I) I (I * I) := {|
  eadapt := fun s next =>
    match s with
    | GEmpty => pure (GConsumed next, Continue None)
    | GConsumed prev =>
        run* r := f prev next in
        if r then pure (GLazy prev next, Continue None)
        else
          run* r2 := f prev prev in
          if r2 then pure (GConsumed next, Continue (Some (prev, prev)))
          else pure (GConsumed prev, Continue None)
    | GLazy start stop =>
        run* r := f stop next in
        if r then pure (GLazy start next, Continue None)
        else pure (GConsumed next, Continue (Some (start, stop)))
    end;
  efinalize := fun s =>
    match s with
    | GEmpty => pure (GEmpty, Break)
    | GConsumed prev =>
        run* r := f prev prev in
        if r then pure (GEmpty, Continue (Some (prev, prev))) else pure (GEmpty, Break)
    | GLazy start stop => pure (GEmpty, Continue (Some (start, stop)))
    end
|}.
(** groupby.rs:130-136 *)
Fixpoint merge_findE {W K I : Type} (f : I -> I -> eff W (option I)) (next : I) (m : list (K * I)) : eff W (option (I * I)) :=
  match m with
  | [] => pure None
  | (_, prev) :: m' =>
      run* r := f prev next in
      match r with
      | Some val => pure (Some (prev, val))
      | None => merge_findE f next m'
      end
  end.
(** groupby.rs:88-145 *)
Definition MergeE {W K I : Type} (cmp : K -> K -> comparison) (f : I -> I -> eff W (option I)) (keyfn : I -> eff W K)
  : AdaptE W (merge_state K I) I I := {|
  eadapt := fun s next =>
    let '(m, it) := s in
    run* consumed := merge_findE f next m in
    match consumed with
    | Some (prev, val) =>
        run* kp := keyfn prev in
        run* kv := keyfn val in
        pure ((map_insert cmp kv val (map_remove cmp kp m), it), Continue None)
    | None =>
        run* kn := keyfn next in
        pure ((map_insert cmp kn next m, it), Continue None)
    end;
  efinalize := fun s =>
    let '(m, it) := s in
    let l := match it with Some l => l | None => m end in
    match l with
    | [] => pure ((m, Some []), Break)
    | (_, v) :: l' => pure ((m, Some l'), Continue (Some v))
    end
|}.
(** adapter.rs:165-195 *)
Section Compose.
  Context {W S1 S2 I M Q : Type}.
  Variable impl : AdaptE W S1 M Q.
  Variable inner : AdaptE W S2 I M.
  (** adapter.rs:185-193. *)
  Fixpoint compose_finalizeE (fuel : nat) (s1 : S1) (s2 : S2) : eff W ((S1 * S2) * flow Q) :=
    match fuel with
    | O => fun _ => Fuel
    | Datatypes.S f =>
        run* '(s2', out) := efinalize inner s2 in
        match out with
        | Break => run* '(s1', r) := efinalize impl s1 in pure ((s1', s2'), r)
        | Continue (Some o) => run* '(s1', r) := eadapt impl s1 o in pure ((s1', s2'), r)
        | Continue None => compose_finalizeE f s1 s2'
        end
    end.
  (** adapter.rs:165-195. *)
  Definition AdapterE (fuel : nat) : AdaptE W (S1 * S2) I Q := {|
    eadapt := fun s next =>
      let '(s1, s2) := s in
      run* '(s2', out) := eadapt inner s2 next in
      match out with
      | Break => pure ((s1, s2'), Break)
      | Continue (Some o) => run* '(s1', r) := eadapt impl s1 o in pure ((s1', s2'), r)
      | Continue None => pure ((s1, s2'), Continue None)
      end;
    efinalize := fun s => compose_finalizeE fuel (fst s) (snd s)
  |}.
End Compose.

(** reducer.rs:7-13 *)
Record ReduceE (W S I R : Type) := {
  enext : S -> I -> eff W S;
  efinal : S -> eff W R
}.
Arguments enext {W S I R} r s i.
Arguments efinal {W S I R} r s.

(** reducer.rs:116-140: the accumulator is cloned for every item (:133) and at the end (:138). *)
Definition FoldE {W Acc I : Type} (clone : Acc -> eff W Acc) (f : Acc -> I -> eff W Acc) : ReduceE W Acc I Acc := {|
  enext := fun s next => run* c := clone s in f c next;
  efinal := fun s => clone s
|}.
(** reducer.rs:88-114 *)
Definition ForkE {W S1 S2 I R1 R2 : Type} (clone : I -> eff W I) (r1 : ReduceE W S1 I R1) (r2 : ReduceE W S2 I R2)
  : ReduceE W (S1 * S2) I (R1 * R2) := {|
  enext := fun s next =>
    run* c := clone next in
    run* s1 := enext r1 (fst s) c in
    run* s2 := enext r2 (snd s) next in
    pure (s1, s2);
  efinal := fun s =>
    run* x1 := efinal r1 (fst s) in
    run* x2 := efinal r2 (snd s) in
    pure (x1, x2)
|}.
(** reducer.rs:78-84 *)
Fixpoint split_finalizeE {W K S I R : Type} (cmp : K -> K -> comparison) (red : ReduceE W S I R)
  (m : list (K * S)) (acc : list (K * R)) : eff W (list (K * R)) :=
  match m with
  | [] => pure acc
  | (k, v) :: m' => run* r := efinal red v in split_finalizeE cmp red m' (map_insert cmp k r acc)
  end.
(** reducer.rs:53-85: the argument of [or_insert] (:73) is evaluated for every item. *)
Definition SplitE {W K S I R : Type} (cmp : K -> K -> comparison) (keyfn : I -> eff W K) (redfn : K -> eff W S) (red : ReduceE W S I R)
  : ReduceE W (list (K * S)) I (list (K * R)) := {|
  enext := fun m next =>
    run* key := keyfn next in
    run* new := redfn key in
    let s := match map_get cmp key m with Some s => s | None => new end in
    run* s' := enext red s next in
    pure (map_insert cmp key s' m);
  efinal := fun m => split_finalizeE cmp red m []
|}.
(** reducer.rs:22-51 *)
Section ReducerOver.
  Context {W S1 S2 I M R : Type}.
  Variable impl : ReduceE W S1 M R.
  Variable a : AdaptE W S2 I M.
  (** reducer.rs:40-50. *)
  Fixpoint reducer_finalizeE (fuel : nat) (s1 : S1) (s2 : S2) : eff W R :=
    match fuel with
    | O => fun _ => Fuel
    | Datatypes.S f =>
        run* '(s2', out) := efinalize a s2 in
        match out with
        | Break => efinal impl s1
        | Continue None => reducer_finalizeE f s1 s2'
        | Continue (Some o) => run* s1' := enext impl s1 o in reducer_finalizeE f s1' s2'
        end
    end.
  (** reducer.rs:22-51. *)
  Definition ReducerOverE (fuel : nat) : ReduceE W (S1 * S2) I R := {|
    enext := fun s next =>
      let '(s1, s2) := s in
      run* '(s2', out) := eadapt a s2 next in
      match out with
      | Continue (Some o) => run* s1' := enext impl s1 o in pure (s1', s2')
      | _ => pure (s1, s2')
      end;
    efinal := fun s => reducer_finalizeE fuel (fst s) (snd s)
  |}.
End ReducerOver.
(** fromgenerator.rs:59-64 *)
Fixpoint feedE {W S I R : Type} (r : ReduceE W S I R) (s : S) (xs : list I) : eff W S :=
  match xs with
  | [] => pure s
  | x :: xs' => run* s' := enext r s x in feedE r s' xs'
  end.
(** fromgenerator.rs:51-66. *)
Definition run_reduceE {W S I R : Type} (r : ReduceE W S I R) (s : S) (xs : list I) : eff W R :=
  run* s' := feedE r s xs in efinal r s'.
(** adapter.rs:156-161 [collect]: the vector is cloned like any accumulator, item by item. *)
Definition CollectE {W I : Type} (clone : list I -> eff W (list I)) : ReduceE W (list I) I (list I) :=
  FoldE clone (fun acc next => pure (acc ++ [next])).
(** adapter.rs:142-145 [count] *)
Definition CountE {W I : Type} : ReduceE W nat I nat := FoldE (fun s => pure s) (fun acc _ => pure (acc + 1)).
