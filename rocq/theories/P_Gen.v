(** Property theorems C35-C41: adapters and reducers. *)
From Verif Require Import Base DltModel MatchModel GenModel ToolsModel Spec Samples BaseFacts GenFacts GroupFacts MapFacts MergeFacts ChainFacts.
From Coq Require Import Sorted.

(** C35: the reducer behind a chain of adapters sees the list that the list functions give.
    For chains of filter and map ... *)
Fixpoint list_meaning {I Q : Type} (c : chain I Q) (xs : list I) : list Q :=
  match c with
  | Start => xs
  | FilterBy p c => filter p (list_meaning c xs)
  | MapBy f c => map f (list_meaning c xs)
  | _ => []
  end.
Theorem C35_filter_map_chain : forall (I Q : Type) (c : chain I Q) (xs : list I), simple c ->
  exists n, forall fuel, n <= fuel -> forall (S R : Type) (r : Reduce S Q R) (s : S),
    run_reduce (ReducerOver r (chain_adapter fuel c) fuel) (s, chain_init c) xs = run_reduce r s (list_meaning c xs).
Proof.
  intros I Q c xs SC. destruct (chain_delivers c xs) as [n H]. exists n. intros fuel L S R r s.
  destruct (H fuel L) as (k & Lk & D). rewrite (run_over r _ k _ xs _ D) by lia. f_equal.
  clear - SC. induction c; cbn in *; try contradiction; [reflexivity|rewrite IHc; auto|rewrite IHc; auto].
Qed.
Print Assumptions C35_filter_map_chain.

(** ... and for chains that also contain groupby (see C36 for [grouped]) and merge (C38 for
    [merged]). *)
Theorem C35_any_chain : forall (I Q : Type) (c : chain I Q) (xs : list I),
  exists n, forall fuel, n <= fuel -> forall (S R : Type) (r : Reduce S Q R) (s : S),
    run_reduce (ReducerOver r (chain_adapter fuel c) fuel) (s, chain_init c) xs = run_reduce r s (meaning c xs).
Proof.
  intros I Q c xs. destruct (chain_delivers c xs) as [n H]. exists n. intros fuel L S R r s.
  destruct (H fuel L) as (k & Lk & D). now rewrite (run_over r _ k _ xs _ D) by lia.
Qed.
Print Assumptions C35_any_chain.

Example C35_example :
  run_reduce (ReducerOver Collect
    (chain_adapter 3 (MapBy (fun x => 10 * x) (FilterBy Nat.even (Start (I := nat))))) 3)
    ([], (tt, (tt, tt))) [1; 2; 3; 4; 6] = Ret [20; 40; 60].
Proof. reflexivity. Qed.

(** C36: for a relation that is reflexive on the elements.  Both the push-style adapter (any
    reducer [r] behind it) and the iterator deliver the ends of the maximal runs. *)
Theorem C36_groupby_runs_partial : forall (A : Type) (rel : A -> A -> bool) (f : A -> A -> outcome bool) (xs : list A),
  (forall x y, In x xs -> In y xs -> f x y = Ret (rel x y)) ->
  (forall x, In x xs -> rel x x = true) ->
  exists groups pairs, maximal_runs rel xs groups /\ Forall2 ends groups pairs /\
    (forall groups', maximal_runs rel xs groups' -> groups' = groups) /\
    from_adapt (GroupBy f) 2 (S (length xs) + 1) GEmpty xs = Ret pairs /\
    forall (S R : Type) (r : Reduce S (A * A) R) (s : S) fuel, 3 <= fuel ->
      run_reduce (ReducerOver r (Adapter (GroupBy f) NilAdapter fuel) fuel) (s, (GEmpty, tt)) xs = run_reduce r s pairs.
Proof.
  intros A rel f xs F RX. destruct (grouped_runs rel xs RX) as (groups & M & E).
  exists groups, (grouped rel xs). split; [exact M|]. split; [exact E|].
  split; [intros g' M'; exact (runs_unique rel xs g' groups M' M)|].
  destruct (delivers_groupby rel f xs F) as (n & Ln & D). split.
  - apply (from_delivers _ n _ _ _ D); [exact Ln|]. pose proof (grouped_len rel xs). lia.
  - intros S R r s fuel L.
    destruct (delivers_comp (GroupBy f) NilAdapter fuel n 1 GEmpty tt xs xs (grouped rel xs) (delivers_nil xs) D) as (k & Lk & Dk); [lia|].
    apply (run_over r _ k _ xs _ Dk). lia.
Qed.
Print Assumptions C36_groupby_runs_partial.

Example C36_example : from_adapt (GroupBy (fun x y => Ret (x <=? y))) 2 9 GEmpty [3; 4; 4; 1; 0; 2] = Ret [(3, 4); (1, 1); (0, 2)].
Proof. reflexivity. Qed.

(** For any relation: the ends are elements of the input and consecutive elements of a run
    are related, so a transitive consequence of the relation holds between them. *)
Theorem C36_groupby_ends_related : forall (A : Type) (rel : A -> A -> bool) (xs : list A) (le : A -> A -> Prop),
  (forall a b c, le a b -> le b c -> le a c) -> (forall a b, rel a b = true -> le a b) ->
  exists pairs, from_adapt (GroupBy (fun x y => Ret (rel x y))) 2 (S (length xs) + 1) GEmpty xs = Ret pairs /\
    length pairs <= length xs /\
    forall a b, In (a, b) pairs -> In a xs /\ In b xs /\ le a b.
Proof.
  intros A rel xs le T R. exists (grouped rel xs).
  destruct (delivers_groupby rel (fun x y => Ret (rel x y)) xs) as (n & Ln & D); [reflexivity|].
  pose proof (grouped_len rel xs). split; [apply (from_delivers _ n _ _ _ D); [exact Ln|lia]|]. split; [lia|].
  intros a b I. pose proof (grouped_trans rel le xs T R) as G. rewrite Forall_forall in G.
  specialize (G _ I). apply grouped_in in I. cbn in G. tauto.
Qed.
Print Assumptions C36_groupby_ends_related.

(** C36 fails for a relation that is not reflexive: strictly ascending runs of 5 1 2 3 are
    5 and 1 2 3; nothing is delivered. *)
Theorem C36_refuted : exists (rel : nat -> nat -> bool) (xs : list nat) (groups : list (list nat)) (pairs : list (nat * nat)),
  maximal_runs rel xs groups /\ Forall2 ends groups pairs /\ pairs = [(5, 5); (1, 3)] /\
  from_adapt (GroupBy (fun x y => Ret (rel x y))) 2 (S (length xs) + 1) GEmpty xs = Ret [].
Proof.
  exists Nat.ltb, [5; 1; 2; 3], [[5]; [1; 2; 3]], [(5, 5); (1, 3)].
  split; [|split; [|split; reflexivity]].
  - repeat split; try reflexivity; repeat constructor; try discriminate; cbn; auto.
  - repeat constructor; intros; reflexivity.
Qed.
Print Assumptions C36_refuted.

(** C38.  [merge] with ripdlt's overlap criterion and key, between any chain-free input of
    periods and any reducer. *)
Definition MergeOverlapping :=
  Merge pair_cmp (fun a b => Ret (merge_overlapping a b)) (fun r => Ret (period_key r)).
Definition start_of (p : storage_entry * storage_entry) : N := secs (sheader (fst p)).
Definition end_of (p : storage_entry * storage_entry) : N := secs (sheader (snd p)).

Theorem C38_merge_coverage_partial : forall ps : list (storage_entry * storage_entry),
  Forall (fun p => (start_of p <= end_of p)%N) ps ->
  exists out,
    (exists n, forall fuel, n <= fuel -> forall (S R : Type) (r : Reduce S (storage_entry * storage_entry) R) (s : S),
      run_reduce (ReducerOver r (Adapter MergeOverlapping NilAdapter fuel) fuel) (s, (([], None), tt)) ps = run_reduce r s out) /\
    (forall t, (exists p, In p out /\ (start_of p <= t <= end_of p)%N) <->
               (exists p, In p ps /\ (start_of p <= t <= end_of p)%N)) /\
    Forall (fun p => (start_of p <= end_of p)%N) out /\
    StronglySorted (fun p q => (start_of p <= start_of q)%N) out /\
    (StronglySorted (fun p q => (start_of p <= start_of q)%N) ps ->
     StronglySorted (fun p q => (end_of p < start_of q)%N) out).
Proof.
  intros ps PR. set (out := merged pair_cmp merge_overlapping period_key ps). exists out.
  destruct (pm_fold ps [] (filed_nil pair_cmp period_key) (Forall_nil _) PR) as (F & P & C).
  split; [|split; [|split; [exact P|split]]].
  - destruct (delivers_merge pair_cmp merge_overlapping period_key ps) as (n & _ & D).
    exists (n + 1). intros fuel L S R r s.
    destruct (delivers_comp MergeOverlapping NilAdapter fuel n 1 ([], None) tt ps ps out (delivers_nil ps) D) as (k & Lk & Dk); [lia|].
    apply (run_over r _ k _ ps _ Dk). lia.
  - intros t. specialize (C t). unfold covered, covers in C. cbn [map] in C.
    change esecs with (fun e => secs (sheader e)) in C. cbn beta in C.
    unfold out, merged. unfold start_of, end_of. rewrite C. split; [|now right].
    intros [(p & [] & _)|H]; exact H.
  - apply filed_starts, F.
  - intros SS. apply (filed_disjoint _ F P).
    apply (pm_fold_disjoint ps [] (filed_nil pair_cmp period_key) (Forall_nil _) PR); auto.
    + intros p q [].
    + intros p [].
Qed.
Print Assumptions C38_merge_coverage_partial.

(** An entry with the given storage seconds. *)
Definition at_secs (n : N) : storage_entry :=
  {| sheader := storage_header_new (Quad x44 x4c x54 x01) n 0 quad_ECU1;
     dlt := {| header := std_header_new x20 x00 4; tail := [] |} |}.

(** C38 fails: 0-1, 4-5, 1-4 come out as 0-4 and 4-5, which overlap. *)
Theorem C38_refuted : exists ps out, Forall (fun p => (start_of p <= end_of p)%N) ps /\
  run_reduce (ReducerOver Collect (Adapter MergeOverlapping NilAdapter 5) 5) ([], (([], None), tt)) ps = Ret out /\
  map (fun p => (start_of p, end_of p)) ps = [(0, 1); (4, 5); (1, 4)]%N /\
  map (fun p => (start_of p, end_of p)) out = [(0, 4); (4, 5)]%N.
Proof.
  exists [(at_secs 0, at_secs 1); (at_secs 4, at_secs 5); (at_secs 1, at_secs 4)]. eexists.
  split; [repeat constructor; vm_compute; discriminate|]. split; [vm_compute; reflexivity|]. split; vm_compute; reflexivity.
Qed.
Print Assumptions C38_refuted.

Example C38_example : exists out,
  run_reduce (ReducerOver Collect (Adapter MergeOverlapping NilAdapter 5) 5) ([], (([], None), tt))
    [(at_secs 0, at_secs 3); (at_secs 2, at_secs 7); (at_secs 9, at_secs 9)] = Ret out /\
  map (fun p => (start_of p, end_of p)) out = [(0, 7); (9, 9)]%N.
Proof. eexists. split; vm_compute; reflexivity. Qed.

(** C39 *)
Theorem C39_split : forall (K S I R : Type) (cmp : K -> K -> comparison) (eqb : K -> K -> bool)
  (keyfn : I -> outcome K) (key : I -> K) (new : K -> S) (red : Reduce S I R) (xs : list I) (result : K -> R),
  total_order cmp -> (forall a b, eqb a b = true <-> a = b) ->
  (forall x, In x xs -> keyfn x = Ret (key x)) ->
  (forall k, In k (map key xs) -> run_reduce red (new k) (filter (fun x => eqb (key x) k) xs) = Ret (result k)) ->
  exists ks, ascending cmp ks /\ (forall k, In k ks <-> In k (map key xs)) /\
    run_reduce (Split cmp keyfn new red) [] xs = Ret (map (fun k => (k, result k)) ks).
Proof.
  intros K S I R cmp eqb keyfn key new red xs result O E KF F.
  apply (run_split cmp O keyfn key new red xs result KF). intros k Ik. rewrite <- F by exact Ik. f_equal.
  unfold sub. apply filter_ext. intros x. apply Bool.eq_iff_eq_true. rewrite E. now apply keq_iff.
Qed.
Print Assumptions C39_split.

Example C39_example :
  run_reduce (Split N.compare (fun n => Ret (n mod 3)%N) (fun _ => []) Collect) [] [5; 3; 8; 4; 6]%N
  = Ret [(0, [3; 6]); (1, [4]); (2, [5; 8])]%N.
Proof. reflexivity. Qed.

(** C40 *)
Theorem C40_fold : forall (Acc I : Type) (f : Acc -> I -> Acc) (init : Acc) (xs : list I),
  run_reduce (Fold (fun a x => Ret (f a x))) init xs = Ret (fold_left f xs init).
Proof. intros. now apply run_fold. Qed.
Theorem C40_count : forall (I : Type) (xs : list I), run_reduce Count 0 xs = Ret (length xs).
Proof. intros. apply run_count. Qed.
Theorem C40_sum : forall xs : list nat, run_reduce (Sum Nat.add) 0 xs = Ret (list_sum xs).
Proof.
  intros xs. unfold Sum. rewrite (run_fold _ (fun acc next => next + acc)) by reflexivity. f_equal.
  assert (G : forall acc, fold_left (fun acc next => next + acc) xs acc = acc + list_sum xs).
  { induction xs as [|x xs IH]; intros acc; cbn; [lia|]. rewrite IH. unfold list_sum in *. lia. }
  apply G.
Qed.
Theorem C40_collect : forall (I : Type) (xs : list I), run_reduce Collect [] xs = Ret xs.
Proof. intros. apply run_collect. Qed.
Theorem C40_fork : forall (I S1 S2 R1 R2 : Type) (r1 : Reduce S1 I R1) (r2 : Reduce S2 I R2) s1 s2 (xs : list I) x1 x2,
  run_reduce (Fork r1 r2) (s1, s2) xs = Ret (x1, x2) <->
  run_reduce r1 s1 xs = Ret x1 /\ run_reduce r2 s2 xs = Ret x2.
Proof.
  intros I S1 S2 R1 R2 r1 r2 s1 s2 xs. unfold run_reduce. revert s1 s2.
  induction xs as [|x xs IH]; intros s1 s2 x1 x2; cbn [feed Fork rnext rfinal fst snd obind].
  - destruct (rfinal r1 s1) as [y1| |], (rfinal r2 s2) as [y2| |]; cbn [obind]; split; intros H; try discriminate;
      try (destruct H as [H1 H2]; congruence); injection H as -> ->; auto.
  - destruct (rnext r1 s1 x) as [t1| |]; cbn [obind]; [|split; [discriminate|intros [H _]; discriminate]..].
    destruct (rnext r2 s2 x) as [t2| |]; cbn [obind]; [|split; [discriminate|intros [_ H]; discriminate]..].
    apply IH.
Qed.
Print Assumptions C40_fold. Print Assumptions C40_count. Print Assumptions C40_sum.
Print Assumptions C40_collect. Print Assumptions C40_fork.
Example C40_example : run_reduce (Fork Count (Sum Nat.add)) (0, 0) [7; 8; 9] = Ret (3, 24).
Proof. reflexivity. Qed.

(** C41 *)
Theorem C41_pull_is_push : forall (I Q : Type) (c : chain I Q) (xs : list I),
  exists n items, forall fuel calls, n <= fuel -> n <= calls ->
    from_adapt (chain_adapter fuel c) fuel calls (chain_init c) xs = Ret items /\
    run_reduce (ReducerOver Collect (chain_adapter fuel c) fuel) ([], chain_init c) xs = Ret items.
Proof.
  intros I Q c xs. destruct (chain_delivers c xs) as [n H].
  exists (n + S (length (meaning c xs))), (meaning c xs). intros fuel calls L1 L2.
  destruct (H fuel ltac:(lia)) as (k & Lk & D). split.
  - apply (from_delivers _ k _ _ _ D); lia.
  - rewrite (run_over Collect _ k _ xs _ D) by lia. apply run_collect.
Qed.
Print Assumptions C41_pull_is_push.
Example C41_example :
  from_adapt (chain_adapter 4 (GroupedBy Nat.leb (FilterBy Nat.even (Start (I := nat))))) 4 5
    (GEmpty, (tt, tt)) [2; 3; 4; 0; 1] = Ret [(2, 4); (0, 0)].
Proof. reflexivity. Qed.
