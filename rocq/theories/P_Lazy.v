(** Property theorem C107: adapters ask an iterator for no more items than they need
    (vocabulary in LazySpec.v and StopSpec.v). *)
From Verif Require Import Base DltModel MatchModel GenModel PullModel Spec StopSpec LazySpec Samples BaseFacts GenFacts GroupFacts.

Section Lazy.
  Context {S T I Q : Type}.
  Variable a : Adapt S I Q.
  Variable src : T -> outcome (T * option I).

  Lemma lazy_pull fin s xs s1 out0 : takes a s xs s1 out0 -> forall x y s2 t t2,
    adapt a s1 x = Ret (s2, Continue (Some y)) -> gives src t (xs ++ [x]) t2 ->
    exists o out' st', out0 ++ [y] = o :: out' /\
      (forall f, length xs < f -> pull a src f fin (s, t) = Ret (st', Some o)) /\
      forall fuel, length xs < fuel -> asked (pull a src fuel fin) (length out') st' = Ret (map Some out', (s2, t2)).
  Proof.
    induction 1 as [s|s x y s' xs s'' out E H IH|s x s' xs s'' out E H IH]; intros x' y' s2 t t2 A G; cbn [app] in G;
      inversion G as [|? ? t1 ? ? SX G']; subst.
    - inversion G'; subst. exists y', [], (s2, t2). split; [reflexivity|]. split; [|reflexivity].
      intros [|f] L; [cbn in L; lia|]. cbn [pull fst snd]. rewrite SX. cbn [obind]. rewrite A. reflexivity.
    - destruct (IH _ _ _ _ _ A G') as (o & out' & st' & EQ & P & R).
      exists y, (out ++ [y']), (s', t1). split; [reflexivity|]. split.
      + intros [|f] L; [cbn in L; lia|]. cbn [pull fst snd]. rewrite SX. cbn [obind]. rewrite E. reflexivity.
      + intros fuel L. cbn [length] in L. rewrite EQ. cbn [length asked map]. rewrite (P fuel) by lia. rewrite (R fuel) by lia. reflexivity.
    - destruct (IH _ _ _ _ _ A G') as (o & out' & st' & EQ & P & R).
      exists o, out', st'. split; [exact EQ|]. split.
      + intros [|f] L; [cbn in L; lia|]. cbn [length] in L. cbn [pull fst snd]. rewrite SX. cbn [obind]. rewrite E. cbn [obind]. apply P. lia.
      + intros fuel L. cbn [length] in L. apply R. lia.
  Qed.
End Lazy.

(** For every adapter and every iterator, whatever the iterator does behind the items [xs] and [x]
    (report its end, wait for ever, panic): if the adapter emits [out] for [xs] and then [y] for [x],
    the calls of [next] return these items, and the iterator has then been asked exactly for [xs] and [x]. *)
Theorem C107_no_more_than_needed : forall (S T I Q : Type) (a : Adapt S I Q) (src : T -> outcome (T * option I))
    (s s1 s2 : S) (t t2 : T) (xs : list I) (x : I) (out : list Q) (y : Q),
  takes a s xs s1 out -> adapt a s1 x = Ret (s2, Continue (Some y)) -> gives src t (xs ++ [x]) t2 ->
  forall fuel finalizing, length xs < fuel ->
  asked (pull a src fuel finalizing) (length out + 1) (s, t) = Ret (map Some (out ++ [y]), (s2, t2)).
Proof.
  intros S T I Q a src s s1 s2 t t2 xs x out y H A G fuel fin L.
  destruct (lazy_pull a src fin s xs s1 out H x y s2 t t2 A G) as (o & out' & st' & EQ & P & R).
  replace (length out + 1) with (length (out ++ [y])) by (rewrite app_length; reflexivity).
  rewrite EQ. cbn [length asked map]. rewrite (P fuel L), (R fuel L). reflexivity.
Qed.
Print Assumptions C107_no_more_than_needed.

(** A chain is an adapter too: it emits for the items what the outer adapter emits for what the inner one emits. *)
Theorem C107_chains : forall (S1 S2 I M Q : Type) (impl : Adapt S1 M Q) (inner : Adapt S2 I M) (fuel : nat) s1 s2 xs s2' ms s1' out,
  takes inner s2 xs s2' ms -> takes impl s1 ms s1' out -> takes (Adapter impl inner fuel) (s1, s2) xs (s1', s2') out.
Proof.
  intros S1 S2 I M Q impl inner fuel s1 s2 xs s2' ms s1' out H. revert s1 out.
  induction H as [s|s x y s' xs s'' ms E H IH|s x s' xs s'' ms E H IH]; intros s1 out K.
  - inversion K; subst. constructor.
  - inversion K as [|? ? z ? ? ? ? A K'|? ? ? ? ? ? A K']; subst.
    + eapply takes_emit; [|exact (IH _ _ K')]. cbn [adapt Adapter]. rewrite E. cbn [obind]. rewrite A. reflexivity.
    + eapply takes_silent; [|exact (IH _ _ K')]. cbn [adapt Adapter]. rewrite E. cbn [obind]. rewrite A. reflexivity.
  - eapply takes_silent; [|exact (IH _ _ K)]. cbn [adapt Adapter]. rewrite E. reflexivity.
Qed.
Print Assumptions C107_chains.

Lemma takes_filter {I} (p : I -> bool) xs : takes (Filter (fun x => Ret (p x))) tt xs tt (filter p xs).
Proof.
  induction xs as [|x xs IH]; cbn [filter]; [constructor|]. destruct (p x) eqn:P.
  - eapply takes_emit; [|exact IH]. cbn [adapt Filter obind]. now rewrite P.
  - eapply takes_silent; [|exact IH]. cbn [adapt Filter obind]. now rewrite P.
Qed.
Lemma takes_map {I Q} (g : I -> Q) xs : takes (MapA (fun x => Ret (g x))) tt xs tt (map g xs).
Proof. induction xs as [|x xs IH]; cbn [map]; [constructor|]. eapply takes_emit; [|exact IH]. reflexivity. Qed.

(** filter stops asking at the item it delivers, map at each item. *)
Theorem C107_filter_map : forall (T I Q : Type) (p : I -> bool) (g : I -> Q) (src : T -> outcome (T * option I)) (t t2 : T) (xs : list I) (x : I),
  gives src t (xs ++ [x]) t2 -> forall fuel finalizing, length xs < fuel ->
  (p x = true ->
   asked (pull (Filter (fun x => Ret (p x))) src fuel finalizing) (length (filter p (xs ++ [x]))) (tt, t) = Ret (map Some (filter p (xs ++ [x])), (tt, t2))) /\
  asked (pull (MapA (fun x => Ret (g x))) src fuel finalizing) (length (xs ++ [x])) (tt, t) = Ret (map Some (map g (xs ++ [x])), (tt, t2)).
Proof.
  intros T I Q p g src t t2 xs x G fuel fin L. split.
  - intros P. rewrite filter_app. cbn [filter]. rewrite P, app_length. cbn [length].
    apply (C107_no_more_than_needed _ _ _ _ _ src tt tt tt t t2 xs x); [apply takes_filter| |exact G|exact L].
    cbn [adapt Filter obind]. now rewrite P.
  - rewrite map_app, app_length. cbn [map length]. rewrite <- (map_length g xs).
    apply (C107_no_more_than_needed _ _ _ _ _ src tt tt tt t t2 xs x); [apply takes_map|reflexivity|exact G|exact L].
Qed.
Print Assumptions C107_filter_map.

Lemma takes_pend {A} (rel : A -> A -> bool) xs : forall lz s e st, (forall x, In x (e :: xs) -> rel x x = true) -> stands lz s e st ->
  exists lz' s' e' st' out, takes (GroupBy (fun x y => Ret (rel x y))) st xs st' out /\ stands lz' s' e' st' /\
    pend rel lz s e xs = out ++ [(s', e')] /\ e' = last xs e.
Proof.
  induction xs as [|x xs IH]; intros lz s e st RX St.
  - exists lz, s, e, st, []. split; [constructor|]. split; [exact St|]. split; [|reflexivity].
    cbn [pend]. rewrite (RX e) by now left. now destruct lz.
  - assert (RE : rel e e = true) by (apply RX; now left).
    assert (RX' : forall z, In z (x :: xs) -> rel z z = true) by (intros; apply RX; now right).
    assert (LE : last (x :: xs) e = last xs x).
    { clear. assert (D : forall l (z d : A), last (z :: l) d = last (z :: l) z).
      { induction l as [|w l IHl]; intros z d; [reflexivity|]. change (last (w :: l) d = last (w :: l) z). rewrite (IHl w d), (IHl w z). reflexivity. }
      destruct xs as [|z l]; [reflexivity|]. change (last (z :: l) e = last (z :: l) x). now rewrite (D l z e), (D l z x). }
    assert (GO : forall st1 lz1 s1 o, adapt (GroupBy (fun x y => Ret (rel x y))) st x = Ret (st1, Continue o) -> stands lz1 s1 x st1 ->
      exists lz' s' e' st' out, takes (GroupBy (fun x y => Ret (rel x y))) st (x :: xs) st' out /\ stands lz' s' e' st' /\
        olist o ++ pend rel lz1 s1 x xs = out ++ [(s', e')] /\ e' = last (x :: xs) e).
    { intros st1 lz1 s1 o AD St1. destruct (IH lz1 s1 x st1 RX' St1) as (lz' & s' & e' & st' & out & T & St' & P & E).
      exists lz', s', e', st', (olist o ++ out). split; [|split; [exact St'|split]].
      - destruct o; cbn [olist app]; [eapply takes_emit|eapply takes_silent]; eassumption.
      - rewrite P. apply app_assoc.
      - rewrite LE. exact E. }
    cbn [pend]. rewrite RE. destruct lz; cbn [stands] in St.
    + subst st. destruct (rel e x) eqn:R.
      * apply (GO (GLazy s x) true s None); [cbn [adapt GroupBy obind]; rewrite R; reflexivity|reflexivity].
      * apply (GO (GConsumed x) false x (Some (s, e))); [cbn [adapt GroupBy obind]; rewrite R; reflexivity|now split].
    + destruct St as [-> ->]. destruct (rel e x) eqn:R.
      * apply (GO (GLazy e x) true e None); [cbn [adapt GroupBy obind]; rewrite R; reflexivity|reflexivity].
      * apply (GO (GConsumed x) false x (Some (e, e))); [cbn [adapt GroupBy obind]; rewrite R, RE; reflexivity|now split].
Qed.

(** groupby delivers a run as soon as it is given the first item of the next one: with the runs of
    [xs] complete, that is, [y] not related to the last item, it has been given [xs] and [y] and no more. *)
Theorem C107_groupby : forall (A T : Type) (rel : A -> A -> bool) (src : T -> outcome (T * option A)) (t t2 : T) (xs : list A) (y : A) (groups : list (list A)),
  (forall x, In x xs -> rel x x = true) -> maximal_runs rel xs groups -> xs <> [] -> (forall d, rel (last xs d) y = false) ->
  gives src t (xs ++ [y]) t2 ->
  exists pairs, Forall2 ends groups pairs /\ forall fuel finalizing, length xs < fuel ->
  asked (pull (GroupBy (fun x y => Ret (rel x y))) src fuel finalizing) (length groups) (GEmpty, t) = Ret (map Some pairs, (GConsumed y, t2)).
Proof.
  intros A T rel src t t2 xs y groups RX M NE NR G.
  destruct (grouped_runs rel xs RX) as (groups' & M' & EN). rewrite (runs_unique rel xs _ _ M M'). clear groups M.
  exists (grouped rel xs). split; [exact EN|]. intros fuel fin L.
  destruct xs as [|x xs]; [easy|]. cbn [grouped] in *.
  destruct (takes_pend rel xs false x x (GConsumed x) RX (conj eq_refl eq_refl)) as (lz & s' & e' & st' & out & TK & St & P & E).
  assert (NR' : rel e' y = false).
  { specialize (NR x). rewrite E. destruct xs as [|z xs]; exact NR. }
  assert (RE : rel e' e' = true).
  { apply RX. rewrite E. clear. destruct xs as [|z xs] using rev_ind; [now left|]. rewrite last_last. right. apply in_or_app. right. now left. }
  replace (length groups') with (length out + 1).
  2: { assert (LL : length groups' = length (pend rel false x x xs)) by (clear - EN; induction EN; cbn; congruence). rewrite LL, P, app_length. reflexivity. }
  rewrite P. eapply C107_no_more_than_needed; [|  |exact G|exact L].
  - eapply takes_silent; [reflexivity|exact TK].
  - destruct lz; cbn [stands] in St; [subst st'|destruct St as [-> ->]]; cbn [adapt GroupBy obind]; rewrite NR', ?RE; reflexivity.
Qed.
Print Assumptions C107_groupby.

(** merge delivers nothing before the end, whatever it is given. *)
Theorem C107_merge : forall (K I : Type) (cmp : K -> K -> comparison) (f : I -> I -> option I) (key : I -> K) (s : merge_state K I) (xs : list I),
  exists s', takes (Merge cmp (fun x y => Ret (f x y)) (fun x => Ret (key x))) s xs s' [].
Proof.
  intros K I cmp f key s xs. revert s. induction xs as [|x xs IH]; intros [m it]; [eexists; constructor|].
  assert (F : exists r, merge_find (fun x y => Ret (f x y)) x m = Ret r).
  { induction m as [|[k p] m IHm]; cbn [merge_find obind]; [now eexists|]. destruct (f p x); [now eexists|exact IHm]. }
  destruct F as [[[prev val]|] F].
  - edestruct IH as [s' H]. exists s'. eapply takes_silent; [|exact H]. cbn [adapt Merge]. rewrite F. reflexivity.
  - edestruct IH as [s' H]. exists s'. eapply takes_silent; [|exact H]. cbn [adapt Merge]. rewrite F. reflexivity.
Qed.
Print Assumptions C107_merge.

(** An iterator that panics when it is asked for a sixth item: groupby delivers the two runs 3 4 and 1 2, which
    are complete after five, and only the third call, which needs more, panics. *)
Definition five (t : nat) : outcome (nat * option nat) :=
  match nth_error [3; 4; 1; 2; 0] t with Some x => Ret (S t, Some x) | None => Panic end.
Example C107_example :
  asked (pull (GroupBy (fun x y => Ret (Nat.leb x y))) five 9 9) 2 (GEmpty, 0) = Ret ([Some (3, 4); Some (1, 2)], (GConsumed 0, 5)) /\
  asked (pull (GroupBy (fun x y => Ret (Nat.leb x y))) five 9 9) 3 (GEmpty, 0) = Panic /\
  gives five 0 ([3; 4; 1; 2] ++ [0]) 5 /\ maximal_runs Nat.leb [3; 4; 1; 2] [[3; 4]; [1; 2]].
Proof.
  repeat split; try reflexivity; try (repeat constructor; congruence). repeat (econstructor; [reflexivity|]). constructor.
Qed.
