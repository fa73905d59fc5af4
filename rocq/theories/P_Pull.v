(** Property theorem C84: adapters over iterators deliver a stream that stays at its end
    (vocabulary in StreamSpec.v). *)
From Verif Require Import Base DltModel MatchModel GenModel PullModel Spec StreamSpec Samples BaseFacts DltFacts ParseFacts GenFacts IterFacts DltIterFacts GroupFacts MapFacts MergeFacts ChainFacts PullFacts ReadFacts.

(** For every chain of filter, map, groupby and merge and every iterator that stays at its end: what
    pulling delivers is, call by call, what pushing the same items delivers (C35, C36, C38), and then
    [None] for ever. *)
Theorem C84_adapted_partial : forall (I Q T : Type) (c : chain I Q) (src : T -> outcome (T * option I)) (t : T) (xs : list I),
  stream src t xs ->
  exists n items, forall fuel, n <= fuel ->
    run_reduce (ReducerOver Collect (chain_adapter fuel c) fuel) ([], chain_init c) xs = Ret items /\
    stream (pull (chain_adapter fuel c) src fuel fuel) (chain_init c, t) items.
Proof.
  intros I Q T c src t xs ST. destruct (chain_delivers c xs) as [n H]. exists (n + S (length xs)), (meaning c xs). intros fuel L.
  destruct (H fuel ltac:(lia)) as (k & Lk & D). split.
  - rewrite (run_over Collect _ k _ xs _ D) by lia. apply run_collect.
  - apply (pull_stream _ _ _ k _ xs); [exact D|exact ST|lia|lia].
Qed.
Print Assumptions C84_adapted_partial.

(** For a single groupby, filter, map or merge (not on top of the do-nothing adapter that starts a
    chain) likewise; here groupby, which is what [FromAdaptFnCall] offers on iterators. *)
Theorem C84_groupby_partial : forall (A T : Type) (rel : A -> A -> bool) (src : T -> outcome (T * option A)) (t : T) (xs : list A),
  stream src t xs -> (forall x, In x xs -> rel x x = true) ->
  exists groups pairs, maximal_runs rel xs groups /\ Forall2 ends groups pairs /\
    forall fuel, length xs + 2 < fuel ->
    stream (pull (GroupBy (fun x y => Ret (rel x y))) src fuel fuel) (GEmpty, t) pairs.
Proof.
  intros A T rel src t xs ST RX. destruct (grouped_runs rel xs RX) as (groups & M & E). exists groups, (grouped rel xs).
  split; [exact M|]. split; [exact E|]. intros fuel L.
  destruct (delivers_groupby rel (fun x y => Ret (rel x y)) xs ltac:(reflexivity)) as (n & Ln & D).
  apply (pull_stream _ _ _ n _ xs); [exact D|exact ST|lia|lia].
Qed.
Print Assumptions C84_groupby_partial.

(** The library's own iterators that meet the condition: sequential (with and without offsets),
    searching, contiguous, and both regular expression iterators. *)
Theorem C84_iterators_partial : forall (b : bytes) (off fuel : nat),
  length b - off < fuel ->
  (exists l, collect (fallback_next DLT 2 b) fuel off = Ret l /\ stream (fallback_next DLT 2 b) off l /\
     stream (no_offset (fallback_next DLT 2 b)) off (map snd l)) /\
  (exists l, collect (search_next DLT (S (length b)) b) fuel off = Ret l /\ stream (search_next DLT (S (length b)) b) off l) /\
  (exists l, collect (readit_next DLT b) fuel off = Ret l /\ stream (readit_next DLT b) off l) /\
  (forall find_at depth n l, collect (grep_next DLT find_at depth b) n off = Ret l -> stream (grep_next DLT find_at depth b) off l) /\
  (forall captures_at depth n l, collect (capture_next DLT captures_at depth b) n off = Ret l -> stream (capture_next DLT captures_at depth b) off l).
Proof.
  intros b off fuel L.
  assert (SAME : forall (A : Type) (next : nat -> outcome (nat * option A)), (forall o o', next o = Ret (o', None) -> o' = o) ->
    forall s1 s2, next s1 = Ret (s2, None) -> over next s2).
  { intros A next H s1 s2 E k. pose proof (H _ _ E) as Q. subst s2. apply (calls_none _ (fun o => o = s1)); [|reflexivity]. intros o ->. exists s1. split; [exact E|reflexivity]. }
  split; [|split; [|split; [|split]]].
  - destruct (collect_chain DLT parse dlt_lawful b 0 fuel off L) as (l & E & _). exists l. split; [exact E|].
    assert (ST : stream (fallback_next DLT 2 b) off l).
    { apply (collect_stream _ fuel _ _ E). intros s1 s2 H k. exact (fallback_fused b s1 s2 k H). }
    split; [exact ST|]. now apply stream_no_offset.
  - destruct (search_exact b off fuel (S (length b)) ltac:(lia) L) as (l & ms & E & _). exists l. split; [exact E|].
    apply (collect_stream _ fuel _ _ E). intros s1 s2 H k. exact (search_fused b s1 s2 k H).
  - destruct (readit_all b fuel off L) as (l & ms & r & E & _). exists l. split; [exact E|].
    apply (collect_stream _ fuel _ _ E). intros s1 s2 H k. exact (readit_fused b s1 s2 k H).
  - intros find_at depth n l E. apply (collect_stream _ n _ _ E). apply SAME. intros o o' H. unfold grep_next in H.
    destruct (grep_search DLT find_at depth b o) as [[[c v]|]| |]; cbn [obind] in H; congruence.
  - intros captures_at depth n l E. apply (collect_stream _ n _ _ E). apply SAME. intros o o' H. unfold capture_next in H.
    destruct (capture DLT captures_at depth b o) as [[[c v]|]| |]; cbn [obind] in H; congruence.
Qed.
Print Assumptions C84_iterators_partial.

(** Together: grouping the messages of any slice by any reflexive relation delivers the ends of the
    maximal runs of what the sequential iterator delivers, then [None] for ever. *)
Example C84_sequential : forall (b : bytes) (rel : nat * storage_entry -> nat * storage_entry -> bool), (forall x, rel x x = true) ->
  exists l groups pairs, collect (fallback_next DLT 2 b) (S (length b)) 0 = Ret l /\ maximal_runs rel l groups /\ Forall2 ends groups pairs /\
    forall fuel, length l + 2 < fuel ->
    stream (pull (GroupBy (fun x y => Ret (rel x y))) (fallback_next DLT 2 b) fuel fuel) (GEmpty, 0) pairs.
Proof.
  intros b rel RX. destruct (C84_iterators_partial b 0 (S (length b)) ltac:(lia)) as ((l & E & ST & _) & _).
  destruct (C84_groupby_partial _ _ rel _ _ l ST ltac:(auto)) as (groups & pairs & M & F & P). now exists l, groups, pairs.
Qed.
(** A slice with three messages, the first two related: two pairs, then [None] thrice. *)
Example C84_example :
  let rel := fun x y : nat * storage_entry => Nat.eqb (storage_len (snd x)) (storage_len (snd y)) in
  match calls (pull (GroupBy (fun x y => Ret (rel x y))) (fallback_next DLT 2 (m1 ++ m1 ++ m_nested)) 9 9) 5 (GEmpty, 0) with
  | Ret os => map (option_map (fun p => (fst (fst p), fst (snd p)))) os = [Some (0, 45); Some (90, 90); None; None; None]
  | _ => False
  end.
Proof. vm_compute. reflexivity. Qed.

(** The reverse iterator does not stay at its end, and groupby asks it again after its end: on every
    slice that holds a message, grouping what it delivers gets its pairs, but the call after them,
    the one that should report the end, descends into more than 2^61 nested calls. *)
Theorem C84_refuted : forall (rel : nat * storage_entry -> nat * storage_entry -> bool) (b : bytes), (forall x, rel x x = true) ->
  (N.of_nat (length b) <= 9223372036854775807)%N -> (exists k m, message_at b k m) ->
  exists pairs, pairs <> [] /\ forall depth fuel, length b < depth -> (N.of_nat depth <= 2305843009213693951)%N -> length b + 2 < fuel ->
    let next := pull (GroupBy (fun x y => Ret (rel x y))) (rev_next DLT depth b) fuel fuel in
    calls next (length pairs) (GEmpty, N.of_nat (length b)) = Ret (map Some pairs) /\
    calls next (length pairs + 1) (GEmpty, N.of_nat (length b)) = Fuel.
Proof. exact reverse_grouped. Qed.
Print Assumptions C84_refuted.
Example C84_refuted_example : exists k m, message_at (m1 ++ m1) k m.
Proof. exists 0, m1. split; [exact m1_valid|]. exists [], m1. split; reflexivity. Qed.
