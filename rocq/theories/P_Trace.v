(** Property theorems C112 (which closures the generator calls, and when) and C113 (how much it does). *)
From Verif Require Import Base GenModel TraceModel TraceSpec TraceFacts.
From Coq Require Import Sorted.

(** * C112 *)
(** Side effects that do not change the closures' results do not change what adapters, chains and reducers return:
    everything proved about GenModel.v holds with them, too. *)
Theorem C112_same_adapters : forall (W : Type),
  (forall I (fe : I -> eff W bool) f, (forall x, yields (fe x) (f x)) -> same_adapter (FilterE fe) (Filter f)) /\
  (forall I Q (fe : I -> eff W Q) f, (forall x, yields (fe x) (f x)) -> same_adapter (MapE fe) (MapA f)) /\
  (forall I (fe : I -> I -> eff W bool) f, (forall x y, yields (fe x y) (f x y)) -> same_adapter (GroupByE fe) (GroupBy f)) /\
  (forall K I cmp (fe : I -> I -> eff W (option I)) f (keye : I -> eff W K) key, (forall x y, yields (fe x y) (f x y)) -> (forall x, yields (keye x) (key x)) ->
     same_adapter (MergeE cmp fe keye) (Merge cmp f key)) /\
  (forall I, same_adapter (W := W) (I := I) NilE NilAdapter) /\
  (forall S1 S2 I M Q (outer : AdaptE W S1 M Q) (inner : AdaptE W S2 I M) outer' inner' fuel,
     same_adapter outer outer' -> same_adapter inner inner' -> same_adapter (AdapterE outer inner fuel) (Adapter outer' inner' fuel)).
Proof.
  intros W. split; [|split; [|split; [|split; [|split]]]]; intros.
  - now apply same_filter.
  - now apply same_map.
  - now apply same_groupby.
  - now apply same_merge.
  - apply same_nil.
  - now apply same_compose.
Qed.
Print Assumptions C112_same_adapters.

Theorem C112_same_reducers : forall (W : Type),
  (forall Acc I clone (fe : Acc -> I -> eff W Acc) f, (forall a, yields (clone a) (Ret a)) -> (forall a x, yields (fe a x) (f a x)) ->
     same_reducer (FoldE clone fe) (Fold f)) /\
  (forall S1 S2 I R1 R2 clone (r1 : ReduceE W S1 I R1) (r2 : ReduceE W S2 I R2) r1' r2', (forall a, yields (clone a) (Ret a)) ->
     same_reducer r1 r1' -> same_reducer r2 r2' -> same_reducer (ForkE clone r1 r2) (Fork r1' r2')) /\
  (forall K S I R cmp (keye : I -> eff W K) key (newe : K -> eff W S) new (r : ReduceE W S I R) r', (forall x, yields (keye x) (key x)) ->
     (forall k, yields (newe k) (Ret (new k))) -> same_reducer r r' -> same_reducer (SplitE cmp keye newe r) (Split cmp key new r')) /\
  (forall S1 S2 I M R (r : ReduceE W S1 M R) (a : AdaptE W S2 I M) r' a' fuel, same_reducer r r' -> same_adapter a a' ->
     same_reducer (ReducerOverE r a fuel) (ReducerOver r' a' fuel)) /\
  (forall S I R (r : ReduceE W S I R) r', same_reducer r r' -> forall xs s, yields (run_reduceE r s xs) (run_reduce r' s xs)).
Proof.
  intros W. split; [|split; [|split; [|split]]]; intros.
  - now apply same_fold.
  - now apply same_fork.
  - now apply same_split.
  - now apply same_over.
  - now apply same_run.
Qed.
Print Assumptions C112_same_reducers.

(** Items go through a chain one after the other: the filter sees an item, then the map, then the reducer, before the
    filter sees the next item; each closure once per item that reaches it. *)
Inductive step (I Q : Type) := Filtered (x : I) | Mapped (x : I) | Folded (y : Q).
Arguments Filtered {I Q} x. Arguments Mapped {I Q} x. Arguments Folded {I Q} y.
Theorem C112_streaming : forall (I Q Acc : Type) (p : I -> bool) (g : I -> Q) (f : Acc -> Q -> Acc) (fuel : nat) (xs : list I) (a : Acc),
  with_calls
    (run_reduceE
       (ReducerOverE (FoldE (fun s => pure s) (noted2 (fun _ y => Folded y) f))
          (AdapterE (MapE (noted Mapped g)) (AdapterE (FilterE (noted Filtered p)) NilE (S fuel)) (S fuel)) (S fuel))
       (a, (tt, (tt, tt))) xs)
    (fold_left f (map g (filter p xs)) a)
    (concat (map (fun x => Filtered x :: if p x then [Mapped x; Folded (g x)] else []) xs)).
Proof.
  intros I Q Acc p g f fuel xs. induction xs as [|x xs IH]; intros a w.
  - cbn. unfold run_reduceE, ebind, pure. cbn. unfold ebind, pure. cbn. now rewrite app_nil_r.
  - cbn [map concat filter]. unfold run_reduceE, ebind in *. cbn [feedE]. cbn. unfold ebind, pure, noted, noted2. destruct (p x); cbn.
    + specialize (IH (f a (g x)) (((w ++ [Filtered x]) ++ [Mapped x]) ++ [Folded (g x)])). cbn in IH. unfold ebind, pure in IH.
      etransitivity; [exact IH|]. now rewrite <- !app_assoc.
    + specialize (IH a (w ++ [Filtered x])). etransitivity; [exact IH|]. now rewrite <- app_assoc.
Qed.
Print Assumptions C112_streaming.

(** groupby compares each item with its successor, and with itself if it is a run of its own; for any relation at most
    twice as often as there are items. *)
Theorem C112_groupby : forall (A : Type) (rel : A -> A -> bool) (fuel : nat) (x : A) (xs : list A),
  (forall z, In z (x :: xs) -> rel z z = true) ->
  exists r, with_calls (run_reduceE (ReducerOverE (CollectE (fun l => pure l)) (GroupByE (noted2 pair rel)) (S (S fuel))) ([], GEmpty) (x :: xs))
    r (group_calls rel true x xs).
Proof.
  intros A rel fuel x xs RX. destruct (group_trace rel fuel xs true x (GConsumed x) [] RX eq_refl) as [r F]. exists r.
  intros w. specialize (F w). unfold run_reduceE, ebind in *. cbn [feedE]. cbn. unfold ebind, pure. exact F.
Qed.
Print Assumptions C112_groupby.
Theorem C112_groupby_at_most : forall (A : Type) (rel : A -> A -> bool) (fuel : nat) (xs : list A),
  exists r log, with_calls (run_reduceE (ReducerOverE (CollectE (fun l => pure l)) (GroupByE (noted2 pair rel)) (S (S fuel))) ([], GEmpty) xs) r log /\
    length log <= 2 * length xs - 1.
Proof.
  intros A rel fuel [|x xs].
  - do 2 eexists. split; [intros w; unfold run_reduceE, ebind, feedE, pure; cbn; unfold ebind, pure; rewrite <- (app_nil_r w) at 1; reflexivity|cbn; lia].
  - destruct (group_bound rel fuel xs (GConsumed x) []) as (r & log & F & B). exists r, log. split; [|cbn [length]; lia].
    intros w. specialize (F w). unfold run_reduceE, ebind in *. cbn [feedE]. cbn. unfold ebind, pure. exact F.
Qed.
Print Assumptions C112_groupby_at_most.

(** split asks for the key of each item once, in order, and hands the item to the reducer of that key before it asks
    for the next key.  (It also makes a new reducer for each item: C113.) *)
Inductive split_step (I K : Type) := Keyed (x : I) | Made (k : K) | Reduced (x : I).
Arguments Keyed {I K} x. Arguments Made {I K} k. Arguments Reduced {I K} x.
Theorem C112_split : forall (I K Acc : Type) (cmp : K -> K -> comparison) (key : I -> K) (new : K -> Acc) (f : Acc -> I -> Acc) (xs : list I) m,
  exists m', with_calls
    (feedE (SplitE cmp (noted Keyed key) (noted Made new) (FoldE (fun s => pure s) (noted2 (fun _ x => Reduced x) f))) m xs) m'
    (concat (map (fun x => [Keyed x; Made (key x); Reduced x]) xs)).
Proof.
  intros I K Acc cmp key new f xs. induction xs as [|x xs IH]; intros m; [exists m; apply calls_pure|].
  cbn [map concat]. match goal with |- exists m', with_calls (feedE ?r _ _) _ _ => set (R := r) in * end.
  set (m1 := map_insert cmp (key x) (f match map_get cmp (key x) m with Some s => s | None => new (key x) end x) m).
  destruct (IH m1) as [m' F]. exists m'. cbn [feedE]. eapply calls_bind; [|exact F].
  intros w. cbn. unfold ebind, noted, noted2, pure. rewrite <- !app_assoc. reflexivity.
Qed.
Print Assumptions C112_split.

(** At the end the reducer of each key is finished once, in the order of the keys. *)
Theorem C112_split_end : forall (I K Acc R : Type) (cmp : K -> K -> comparison) (keyfn : I -> eff (list Acc) K) (new : K -> eff (list Acc) Acc)
    (next : Acc -> I -> eff (list Acc) Acc) (final : Acc -> R) (m : list (K * Acc)),
  exists r, with_calls (efinal (SplitE cmp keyfn new {| enext := next; efinal := noted (fun a => a) final |}) m) r (map snd m).
Proof.
  intros I K Acc R cmp keyfn new next final m. cbn [efinal SplitE]. generalize (@nil (K * R)).
  induction m as [|[k v] m IH]; intros acc; cbn [split_finalizeE map snd]; [exists acc; apply calls_pure|].
  destruct (IH (map_insert cmp k (final v) acc)) as [r F]. exists r. change (v :: map snd m) with ([v] ++ map snd m). eapply calls_bind; [|exact F]. intros w. reflexivity.
Qed.
Print Assumptions C112_split_end.

(** fork clones each item once, hands the clone to its first reducer and then the item to its second; at the end it
    finishes the first reducer, then the second.  fold clones what it has accumulated for each item, and at the end. *)
Inductive fork_step (I A B : Type) := Cloned (x : I) | Copied1 (a : A) | First (x : I) | Copied2 (b : B) | Second (x : I).
Arguments Cloned {I A B} x. Arguments Copied1 {I A B} a. Arguments First {I A B} x. Arguments Copied2 {I A B} b. Arguments Second {I A B} x.
Fixpoint fork_calls {I A B : Type} (f : A -> I -> A) (g : B -> I -> B) (xs : list I) (a : A) (b : B) : list (fork_step I A B) :=
  match xs with
  | [] => [Copied1 a; Copied2 b]
  | x :: xs' => [Cloned x; Copied1 a; First x; Copied2 b; Second x] ++ fork_calls f g xs' (f a x) (g b x)
  end.
Theorem C112_fork : forall (I A B : Type) (f : A -> I -> A) (g : B -> I -> B) (xs : list I) (a : A) (b : B),
  with_calls
    (run_reduceE
       (ForkE (noted Cloned (fun x => x)) (FoldE (noted Copied1 (fun a => a)) (noted2 (fun _ x => First x) f))
                                          (FoldE (noted Copied2 (fun b => b)) (noted2 (fun _ x => Second x) g))) (a, b) xs)
    (fold_left f xs a, fold_left g xs b) (fork_calls f g xs a b).
Proof.
  intros I A B f g. induction xs as [|x xs IH]; intros a b w; unfold run_reduceE, ebind in *; cbn [feedE fold_left fork_calls].
  - cbn. unfold ebind, pure, noted. now rewrite <- app_assoc.
  - specialize (IH (f a x) (g b x) (w ++ [Cloned x; Copied1 a; First x; Copied2 b; Second x])). rewrite <- app_assoc in IH. rewrite <- IH.
    unfold ebind at 1. cbn [enext ForkE fst snd]. unfold ebind, noted, noted2, pure. cbn [enext FoldE]. unfold ebind. rewrite <- !app_assoc. reflexivity.
Qed.
Print Assumptions C112_fork.
Example C112_fork_example : fork_calls Nat.add (fun n _ => n + 1) [7; 8] 0 0 =
  [Cloned 7; Copied1 0; First 7; Copied2 0; Second 7; Cloned 8; Copied1 7; First 8; Copied2 1; Second 8; Copied1 15; Copied2 2].
Proof. reflexivity. Qed.

(** merge offers each new item to the kept ones in the order of their keys until one accepts it. *)
Theorem C112_merge : forall (K I : Type) (cmp : K -> K -> comparison) (f : I -> I -> option I) (key : I -> K) (m : list (K * I)) (x : I),
  exists asked rest m', map snd m = asked ++ rest /\
    with_calls (eadapt (MergeE cmp (noted2 (fun a b => inl (a, b)) f) (noted inr key)) (m, None) x) ((m', None), Continue None)
      (map (fun p => inl (p, x)) asked ++
       match last (map Some asked) None with
       | Some p => match f p x with Some v => [inr p; inr v] | None => [inr x] end
       | None => [inr x]
       end) /\
    (forall p, In p (removelast asked) -> f p x = None) /\
    (rest <> [] -> exists p v, last (map Some asked) None = Some p /\ f p x = Some v).
Proof.
  intros K I cmp f key m x.
  assert (F : exists asked rest, map snd m = asked ++ rest /\ (forall p, In p (removelast asked) -> f p x = None) /\
    (rest <> [] -> exists p v, last (map Some asked) None = Some p /\ f p x = Some v) /\
    with_calls (merge_findE (noted2 (fun a b => inl (a, b) : I * I + I) f) x m)
      (match last (map Some asked) None with Some p => match f p x with Some v => Some (p, v) | None => None end | None => None end)
      (map (fun p => inl (p, x)) asked)).
  { induction m as [|[k p] m IH].
    - exists [], []. split; [reflexivity|]. split; [intros p []|]. split; [easy|]. apply calls_pure.
    - cbn [map snd]. destruct (f p x) as [v|] eqn:Fp.
      + exists [p], (map snd m). split; [reflexivity|]. split; [intros q []|]. split; [intros _; exists p, v; now split|].
        intros w. cbn. unfold ebind, noted2, pure. rewrite Fp. reflexivity.
      + destruct IH as (a & r & E & N & L & C). exists (p :: a), r. split; [cbn; now rewrite E|].
        assert (LA : last (map Some (p :: a)) None = match a with [] => Some p | _ => last (map Some a) None end) by (destruct a; reflexivity).
        split; [|split].
        * intros q Q. destruct a as [|a0 a]; [destruct Q|]. change (removelast (p :: a0 :: a)) with (p :: removelast (a0 :: a)) in Q.
          destruct Q as [<-|Q]; [exact Fp|exact (N q Q)].
        * intros NE. destruct (L NE) as (p' & v & L1 & L2). exists p', v. split; [|exact L2]. rewrite LA. destruct a; [discriminate|exact L1].
        * intros w. cbn [merge_findE map]. unfold ebind, noted2 at 1. rewrite Fp, C, <- app_assoc. change (Some p :: map Some a) with (map Some (p :: a)). rewrite LA.
          destruct a as [|a0 a]; [cbn; rewrite Fp; reflexivity|reflexivity]. }
  destruct F as (a & r & E & N & L & C).
  destruct (last (map Some a) None) as [p|] eqn:LA; [destruct (f p x) as [v|] eqn:Fp|].
  1: exists a, r, (map_insert cmp (key v) v (map_remove cmp (key p) m)).
  2-3: exists a, r, (map_insert cmp (key x) x m).
  all: (split; [exact E|]; split; [|split; [exact N|]]).
  all: try (rewrite LA).
  all: try (rewrite ?Fp; cbn [eadapt MergeE]; eapply calls_bind; [exact C|]; intros w; cbn; unfold ebind, noted, pure; rewrite <- ?app_assoc; reflexivity).
  all: intros NE; destruct (L NE) as (p' & v' & L1 & L2); try discriminate; exists p', v'; split; congruence.
Qed.
Print Assumptions C112_merge.

(** Two runs, 3 4 and 1: the predicate is asked for (3,4), (4,1) and, for the run of one item, (1,1). *)
Example C112_example : group_calls Nat.leb true 3 [4; 1] = [(3, 4); (4, 1); (1, 1)] /\
  run_reduceE (ReducerOverE (CollectE (fun l => pure l)) (GroupByE (noted2 pair Nat.leb)) 2) ([], GEmpty) [3; 4; 1] [] =
    Ret ([(3, 4); (1, 1)], [(3, 4); (4, 1); (1, 1)]).
Proof. split; reflexivity. Qed.

(** * C113 *)
(** Linear: filter and map (C112_streaming, at most three calls per item), groupby (C112_groupby_at_most), the key
    functions of merge, and count. *)
Theorem C113_merge_partial : forall (K I : Type) cmp (f : I -> I -> option I) (key : I -> K) (fuel : nat) (xs : list I), length xs < fuel ->
  exists r log,
    with_calls (run_reduceE (ReducerOverE (CollectE (fun l => pure l)) (MergeE cmp (noted2 (fun a b => inl (a, b)) f) (noted inr key)) fuel) ([], ([], None)) xs) r log /\
    times (fun e => match e with inl _ => false | inr _ => true end) log <= 2 * length xs /\
    2 * times (fun e => match e with inl _ => true | inr _ => false end) log <= length xs * (length xs - 1).
Proof.
  intros K I cmp f key fuel xs H. destruct (merge_log cmp f key fuel xs H) as (r & log & F & B & B').
  exists r, log. split; [exact F|]. split; [exact B'|exact B].
Qed.
Print Assumptions C113_merge_partial.

(** Not linear: if no two items can be merged (and arrive in the order of their keys), merge's function is called for
    every pair of them, n (n - 1) / 2 times. *)
Theorem C113_merge_quadratic : forall (K I : Type) cmp (f : I -> I -> option I) (key : I -> K) (xs : list I) (fuel : nat),
  StronglySorted (fun a b => cmp (key b) (key a) = Gt) xs -> (forall a b, In a xs -> In b xs -> f a b = None) -> length xs < fuel ->
  exists r log,
    with_calls (run_reduceE (ReducerOverE (CollectE (fun l => pure l)) (MergeE cmp (noted2 (fun a b => inl (a, b)) f) (noted inr key)) fuel) ([], ([], None)) xs) r log /\
    2 * times (fun e => match e with inl _ => true | inr _ => false end) log = length xs * (length xs - 1).
Proof.
  intros K I cmp f key xs fuel SO NM H.
  set (Mg := MergeE cmp (noted2 (fun a b => inl (a, b) : I * I + I) f) (noted inr key)).
  assert (G : forall ys zs acc, xs = zs ++ ys -> exists log, with_calls (feedE (ReducerOverE (CollectE (fun l => pure l)) Mg fuel) (acc, (map (fun z => (key z, z)) zs, None)) ys)
     (acc, (map (fun z => (key z, z)) xs, None)) log /\ 2 * times (@is_f I) log = length ys * (2 * length zs + length ys - 1)).
  { induction ys as [|y ys IH]; intros zs acc E.
    - exists []. rewrite app_nil_r in E. subst. split; [apply calls_pure|]. cbn. lia.
    - destruct (IH (zs ++ [y]) acc) as (log & F & B); [now rewrite <- app_assoc|].
      exists ((map (fun z => inl (z, y)) zs ++ [inr y]) ++ log). split.
      + cbn [feedE]. eapply calls_bind; [|exact F]. cbn [enext ReducerOverE]. eapply calls_bind0 with (a := ((map (fun z => (key z, z)) (zs ++ [y]), None), Continue None)).
        * cbn [eadapt Mg MergeE]. eapply calls_bind with (a := None).
          -- assert (FN : forall z, In z zs -> f z y = None) by (intros z I0; apply NM; rewrite E; apply in_or_app; [now left|right; now left]).
             clear - FN. induction zs as [|z zs IH]; [apply calls_pure|]. cbn [map merge_findE]. intros w. unfold ebind, noted2 at 1.
             rewrite (FN z (or_introl eq_refl)). rewrite IH by (intros; apply FN; now right). now rewrite <- app_assoc.
          -- replace (map (fun z => (key z, z)) (zs ++ [y])) with (map_insert cmp (key y) y (map (fun z => (key z, z)) zs)).
             ++ intros w. cbn. unfold ebind, noted, pure. reflexivity.
             ++ assert (GT : forall z, In z zs -> cmp (key y) (key z) = Gt).
                { intros z I0. subst xs. clear - SO I0. induction zs as [|z' zs IH]; [easy|]. inversion SO as [|? ? SO' FA]; subst.
                  destruct I0 as [->|I0]; [|now apply IH]. rewrite Forall_forall in FA. apply FA. apply in_or_app. right. now left. }
                clear - GT. induction zs as [|z zs IH]; [reflexivity|]. cbn [map map_insert app]. rewrite (GT z (or_introl eq_refl)). f_equal.
                apply IH. intros; apply GT; now right.
        * cbn. apply calls_pure.
      + rewrite !times_app. assert (T : times (@is_f I) (map (fun z => inl (z, y)) zs) = length zs).
        { unfold times. clear. induction zs as [|z zs IH]; [reflexivity|]. cbn. now rewrite IH. }
        rewrite T. change (times (@is_f I) [inr y]) with 0. rewrite app_length in B. cbn [length] in *.
        replace (2 * (length zs + 1) + length ys - 1) with (2 * length zs + length ys + 1) in B by lia.
        replace (2 * length zs + S (length ys) - 1) with (2 * length zs + length ys) by lia. nia. }
  destruct (G xs [] [] eq_refl) as (log & F & B). cbn [map length Nat.mul Nat.add] in *.
  assert (D : exists r, with_calls (efinal (ReducerOverE (CollectE (fun l => pure l)) Mg fuel) ([], (map (fun z => (key z, z)) xs, None))) r []).
  { cbn [efinal ReducerOverE fst snd]. destruct fuel as [|fuel]; [lia|]. cbn [reducer_finalizeE]. destruct xs as [|x xs].
    - exists []. intros w. cbn. unfold ebind, pure. now rewrite app_nil_r.
    - destruct (merge_drain cmp f key fuel (map (fun z => (key z, z)) xs) [x] (map (fun z => (key z, z)) (x :: xs)) ltac:(rewrite map_length; cbn in H; lia)) as [r D].
      exists r. intros w. cbn. unfold ebind, pure. exact (D w). }
  destruct D as [r D]. exists r, log. split; [|exact B]. unfold run_reduceE. eapply calls_bind0; [exact F|exact D].
Qed.
Print Assumptions C113_merge_quadratic.

(** collect clones the vector for every item and at the end: n (n + 1) / 2 copies of items. *)
Theorem C113_collect_quadratic : forall (I : Type) (xs : list I),
  exists copied, run_reduceE (CollectE (fun (l : list I) (n : nat) => Ret (l, n + length l))) [] xs 0 = Ret (xs, copied) /\
    2 * copied = length xs * (length xs + 1).
Proof.
  intros I xs.
  assert (G : forall xs acc n, exists copied, run_reduceE (CollectE (fun (l : list I) (n : nat) => Ret (l, n + length l))) acc xs n = Ret (acc ++ xs, n + copied) /\
    2 * copied = length xs * (2 * length acc + length xs + 1) + 2 * length acc).
  { clear. induction xs as [|x xs IH]; intros acc n.
    - exists (length acc). rewrite app_nil_r. split; [reflexivity|cbn; lia].
    - destruct (IH (acc ++ [x]) (n + length acc)) as (c & E & B). exists (length acc + c). split.
      + rewrite <- app_assoc in E. cbn [app] in E. rewrite Nat.add_assoc, <- E. reflexivity.
      + rewrite app_length in B. cbn [length] in *. nia. }
  destruct (G xs [] 0) as (c & E & B). exists c. split; [exact E|]. cbn [length] in B. lia.
Qed.
Print Assumptions C113_collect_quadratic.

(** split makes a new reducer for every item, not for every key. *)
Theorem C113_split_reducer_per_item : forall (I K Acc : Type) (cmp : K -> K -> comparison) (key : I -> K) (new : K -> Acc) (f : Acc -> I -> Acc) (xs : list I),
  exists m' made, feedE (SplitE cmp (fun x => pure (key x)) (noted (fun k => k) new) (FoldE (fun s => pure s) (fun a x => pure (f a x)))) [] xs [] = Ret (m', made) /\
    made = map key xs.
Proof.
  intros I K Acc cmp key new f xs.
  assert (G : forall xs m l, exists m', feedE (SplitE cmp (fun x => pure (key x)) (noted (fun k => k) new) (FoldE (fun s => pure s) (fun a x => pure (f a x)))) m xs l = Ret (m', l ++ map key xs)).
  { clear. induction xs as [|x xs IH]; intros m l; [exists m; cbn; unfold pure; now rewrite app_nil_r|].
    cbn [feedE map]. unfold ebind, pure, noted at 1. cbn. unfold ebind, pure, noted.
    match goal with |- context [feedE _ ?m1 xs ?l1] => destruct (IH m1 l1) as [m' E] end. exists m'. unfold pure, noted in E. rewrite E, <- app_assoc. reflexivity. }
  destruct (G xs [] []) as [m' E]. exists m', (map key xs). split; [exact E|reflexivity].
Qed.
Print Assumptions C113_split_reducer_per_item.

Example C113_example : exists r, run_reduceE (CollectE (fun (l : list nat) (n : nat) => Ret (l, n + length l))) [] (seq 0 100) 0 = Ret (r, 5050).
Proof. eexists. vm_compute. reflexivity. Qed.
