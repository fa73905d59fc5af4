(** C75 and the general form of C41: adapters written by the user, including those that ask to stop. *)
From Verif Require Import Base GenModel BaseFacts GenFacts StopSpec.

Section Stop.
  Context {S I Q : Type}.
  Variable a : Adapt S I Q.

  Lemma from_finish k s s' o : asked_to_finish a k s s' o -> forall fuel, k < fuel ->
    from_finalize a fuel s = Ret (s', o).
  Proof.
    induction 1 as [s s' E|s s' y E|k s s' s'' o E H IH]; intros fuel L; destruct fuel as [|f]; try lia;
      cbn [from_finalize]; rewrite E; cbn [obind]; [reflexivity..|]. apply IH; lia.
  Qed.

  Lemma pull_takes fuel s xs s' out : takes a s xs s' out -> forall zs calls items,
    from_adapt a fuel calls s' zs = Ret items -> from_adapt a fuel (length out + calls) s (xs ++ zs) = Ret (out ++ items).
  Proof.
    unfold from_adapt. induction 1 as [s|s x y s' xs s'' out E H IH|s x s' xs s'' out E H IH]; intros zs calls items P; [exact P| |].
    - cbn [length app plus collect fst snd from_next]. rewrite E. cbn [obind]. rewrite (IH _ _ _ P). reflexivity.
    - specialize (IH _ _ _ P). destruct (length out + calls) as [|n]; [exact IH|].
      cbn [collect fst snd app from_next] in *. rewrite E. cbn [obind]. exact IH.
  Qed.

  Lemma pull_finishes fuel k s out : finishes a k s out -> k < fuel -> forall calls, length out < calls ->
    from_adapt a fuel calls s [] = Ret out.
  Proof.
    unfold from_adapt. intros H. revert fuel.
    induction H as [s s' E|k s s' y out E H IH|k s s' out E H IH]; intros fuel L calls C; destruct fuel as [|f]; try lia;
      destruct calls as [|c]; try (cbn [length] in C; lia).
    - cbn [collect fst snd from_next from_finalize]. rewrite E. reflexivity.
    - cbn [collect fst snd from_next from_finalize]. rewrite E. cbn [obind]. cbn [length] in C.
      rewrite IH by lia. reflexivity.
    - specialize (IH f ltac:(lia) (Datatypes.S c) C).
      cbn [collect fst snd from_next from_finalize] in *. rewrite E. cbn [obind].
      (* the first call with one unit of fuel less gives the same result *)
      assert (M : forall n s p, from_finalize a n s = Ret p -> from_finalize a (Datatypes.S n) s = Ret p).
      { clear. induction n as [|n IHn]; intros s p P; [discriminate|]. cbn [from_finalize] in *.
        destruct (finalize a s) as [[s1 [|[o|]]]| |]; cbn [obind] in *; try exact P; try discriminate. now apply IHn. }
      assert (N : forall c n s p, collect (fun st => from_next a n (fst st) (snd st)) c (s, []) = Ret p ->
                  collect (fun st => from_next a (Datatypes.S n) (fst st) (snd st)) c (s, []) = Ret p).
      { clear - M. induction c as [|c IHc]; intros n s p P; [discriminate|]. cbn [collect fst snd from_next] in *.
        destruct (from_finalize a n s) as [[s1 o]| |] eqn:F; cbn [obind] in *; try discriminate.
        rewrite (M _ _ _ F). cbn [obind]. destruct o as [o|]; [|exact P].
        destruct (collect _ c (s1, [])) as [l| |] eqn:C1; cbn [obind] in P; try discriminate.
        rewrite (IHc _ _ _ C1). exact P. }
      destruct (from_finalize a f s') as [[s1 o]| |] eqn:F; cbn [obind] in *; try discriminate.
      destruct o as [o|]; [|exact IH].
      destruct (collect _ c (s1, [])) as [l| |] eqn:C1; cbn [obind] in IH; try discriminate.
      rewrite (N _ _ _ _ C1). exact IH.
  Qed.

  Context {T R : Type}.
  Variable r : Reduce T Q R.
  Lemma push_takes fuel s xs s' out : takes a s xs s' out -> forall t,
    feed (ReducerOver r a fuel) (t, s) xs = obind (feed r t out) (fun t' => Ret (t', s')).
  Proof.
    induction 1 as [s|s x y s' xs s'' out E H IH|s x s' xs s'' out E H IH]; intros t; [reflexivity| |];
      cbn [feed ReducerOver rnext]; rewrite E; cbn [obind].
    - destruct (rnext r t y) as [t'| |]; cbn [obind]; [apply IH|reflexivity..].
    - apply IH.
  Qed.
  Lemma push_finishes k s out : finishes a k s out -> forall fuel t, k < fuel ->
    reducer_finalize r a fuel t s = run_reduce r t out.
  Proof.
    unfold run_reduce. induction 1 as [s s' E|k s s' y out E H IH|k s s' out E H IH]; intros fuel t L; destruct fuel as [|f]; try lia;
      cbn [reducer_finalize]; rewrite E; cbn [obind].
    - reflexivity.
    - cbn [feed]. destruct (rnext r t y) as [t'| |]; cbn [obind]; [apply IH; lia|reflexivity..].
    - apply IH; lia.
  Qed.
End Stop.

(** C41 for every adapter that does not ask to stop, the user's own included: what is emitted
    while the items go in, then what finalizing emits. *)
Theorem C41_any_adapter : forall (S I Q : Type) (a : Adapt S I Q) (s s' : S) (xs : list I) (out last : list Q) (k fuel calls : nat),
  takes a s xs s' out -> finishes a k s' last -> k < fuel -> length (out ++ last) < calls ->
  from_adapt a fuel calls s xs = Ret (out ++ last) /\
  (forall (T R : Type) (r : Reduce T Q R) (t : T),
    run_reduce (ReducerOver r a fuel) (t, s) xs = run_reduce r t (out ++ last)).
Proof.
  intros S I Q a s s' xs out last k fuel calls H F L C. rewrite app_length in C. split.
  - replace calls with (length out + (calls - length out)) by lia.
    rewrite <- (app_nil_r xs). eapply pull_takes; [exact H|].
    eapply pull_finishes; [exact F|exact L|lia].
  - intros T R r t. unfold run_reduce at 1. rewrite (push_takes a r fuel _ _ _ _ H).
    unfold run_reduce. rewrite feed_app. destruct (feed r t out) as [t'| |]; cbn [obind]; [|reflexivity..].
    cbn [ReducerOver rfinal fst snd]. now rewrite (push_finishes a r _ _ _ F) by exact L.
Qed.
Print Assumptions C41_any_adapter.

(** C75: an adapter asks to stop at item [x].
    Pulling: it is finalized at once. If that emits nothing the iteration ends there and the
    items behind [x] are never offered; if it emits [y], [y] is delivered and then the items behind
    [x] are offered after all. *)
Theorem C75_stop_pulled : forall (S I Q : Type) (a : Adapt S I Q) (s s1 s2 s3 : S) (xs zs : list I) (x : I)
    (out : list Q) (k fuel : nat),
  takes a s xs s1 out -> adapt a s1 x = Ret (s2, Break) -> k < fuel ->
  (asked_to_finish a k s2 s3 None -> forall calls, length out < calls ->
     from_adapt a fuel calls s (xs ++ x :: zs) = Ret out) /\
  (forall y, asked_to_finish a k s2 s3 (Some y) -> forall calls items,
     from_adapt a fuel calls s3 zs = Ret items ->
     from_adapt a fuel (length out + 1 + calls) s (xs ++ x :: zs) = Ret (out ++ y :: items)).
Proof.
  intros S I Q a s s1 s2 s3 xs zs x out k fuel H B L. split.
  - intros F calls C. replace calls with (length out + (calls - length out)) by lia.
    replace (Ret out) with (Ret (out ++ [])) by (now rewrite app_nil_r). eapply pull_takes; [exact H|].
    destruct (calls - length out) as [|c] eqn:EC; [lia|]. unfold from_adapt. cbn [collect fst snd from_next].
    rewrite B. cbn [obind]. rewrite (from_finish a _ _ _ _ F) by exact L. reflexivity.
  - intros y F calls items P. rewrite <- Nat.add_assoc. eapply pull_takes; [exact H|].
    unfold from_adapt in *. cbn [plus collect fst snd from_next]. rewrite B. cbn [obind].
    rewrite (from_finish a _ _ _ _ F) by exact L. cbn [obind]. rewrite P. reflexivity.
Qed.
Print Assumptions C75_stop_pulled.

(** Reducing: the request is ignored; the reducer sees what was emitted so far, then what the
    adapter makes of the items behind [x]. *)
Theorem C75_stop_reduced : forall (S I Q T R : Type) (a : Adapt S I Q) (r : Reduce T Q R) (s s1 s2 : S)
    (xs zs : list I) (x : I) (out : list Q) (fuel : nat) (t : T),
  takes a s xs s1 out -> adapt a s1 x = Ret (s2, Break) ->
  run_reduce (ReducerOver r a fuel) (t, s) (xs ++ x :: zs)
  = obind (feed r t out) (fun t' => run_reduce (ReducerOver r a fuel) (t', s2) zs).
Proof.
  intros S I Q T R a r s s1 s2 xs zs x out fuel t H B. unfold run_reduce. rewrite feed_app.
  rewrite (push_takes a r fuel _ _ _ _ H). destruct (feed r t out) as [t'| |]; cbn [obind]; [|reflexivity..].
  cbn [feed ReducerOver rnext]. rewrite B. reflexivity.
Qed.
Print Assumptions C75_stop_reduced.

(** Inside a chain the request of the inner adapter is passed on as it is: the outer adapter sees
    neither the item nor the request. *)
Theorem C75_stop_in_chain : forall (S1 S2 I M Q : Type) (outer : Adapt S1 M Q) (inner : Adapt S2 I M)
    (s1 : S1) (s2 s2' : S2) (x : I) (fuel : nat),
  adapt inner s2 x = Ret (s2', Break) ->
  adapt (Adapter outer inner fuel) (s1, s2) x = Ret ((s1, s2'), Break).
Proof. intros. cbn [adapt Adapter]. rewrite H. reflexivity. Qed.
Print Assumptions C75_stop_in_chain.

(** An adapter that lets two items pass, then asks to stop, and finally emits a mark (0) once:
    pulling gives 5 6 0, and then the items behind the third; reducing never stops. *)
Definition TakeTwo : Adapt (nat * bool) nat nat := {|
  adapt := fun (s : nat * bool) x => match fst s with
                      | O => Ret (s, Break)
                      | S n => Ret ((n, snd s), Continue (Some x))
                      end;
  finalize := fun (s : nat * bool) => if snd s then Ret ((2, false), Continue (Some 0)) else Ret (s, Break)
|}.
Example C75_example :
  takes TakeTwo (2, true) [5; 6] (0, true) [5; 6] /\ adapt TakeTwo (0, true) 7 = Ret ((0, true), Break) /\
  asked_to_finish TakeTwo 0 (0, true) (2, false) (Some 0) /\
  asked_to_finish TakeTwo 0 (0, false) (0, false) None /\
  from_adapt TakeTwo 3 9 (2, true) [5; 6; 7; 8; 9; 10; 11] = Ret [5; 6; 0; 8; 9] /\
  from_adapt TakeTwo 3 9 (2, false) [5; 6; 7; 8; 9; 10; 11] = Ret [5; 6] /\
  run_reduce (ReducerOver Collect TakeTwo 3) ([], (2, true)) [5; 6; 7; 8] = Ret [5; 6; 0].
Proof.
  split; [eapply takes_emit; [reflexivity|]; eapply takes_emit; [reflexivity|constructor]|].
  split; [reflexivity|]. split; [now apply finish_emit|]. split; [now apply finish_end|]. repeat split; reflexivity.
Qed.
Example C41_any_example : exists k,
  takes (GroupBy (fun x y : nat => Ret (Nat.leb x y))) GEmpty [1; 2; 0] (GConsumed 0) [(1, 2)] /\
  finishes (GroupBy (fun x y : nat => Ret (Nat.leb x y))) k (GConsumed 0) [(0, 0)].
Proof.
  exists 1. split.
  - eapply takes_silent; [reflexivity|]. eapply takes_silent; [reflexivity|]. eapply takes_emit; [reflexivity|constructor].
  - eapply (finishes_emit _ 0); [reflexivity|]. eapply finishes_end; reflexivity.
Qed.
