(** Property theorem C125: side effects of closures when an adapter is pulled like an iterator. *)
From Verif Require Import Base GenModel StopSpec Spec PullModel TraceModel TraceSpec TraceFacts PullTrace PullTraceSpec PullTraceFacts.

(** Reducing what is pulled from an adapter does the same as reducing with the adapter pushed: the same value or panic, and
    the same effects of iterator, adapter and reducer in the same order, for every adapter that does not ask to stop and
    every iterator that stays quietly at its end; and one comes to an end if and only if the other does. *)
Theorem C125_pull_push : forall (W S T I Q Acc R : Type) (a : AdaptE W S I Q) (src : T -> eff W (T * option I)) (r : ReduceE W Acc Q R)
    (s : S) (t : T) (acc : Acc) (w : W) (res : outcome (R * W)),
  never_stops a -> quiet_end src ->
  (comes_to (fun k => reduce_from (pullE a src k k) r k (s, t) acc) w res <->
   comes_to (fun k => reduce_from src (ReducerOverE r a k) k t (acc, s)) w res).
Proof.
  intros W St T I Q Acc R a src r s t acc w res NS QE. split; intros (NF & n & P).
  - specialize (P (S n) ltac:(lia)). rewrite reduce_S in P. destruct (pull_push a src r NS QE _ _ _ _ _ _ _ _ _ P NF) as (m & X).
    split; [exact NF|]. exists m. intros k K. apply X; lia.
  - specialize (P n ltac:(lia)). destruct (push_pull a src r NS QE _ _ _ _ _ _ _ P NF) as (m & X).
    split; [exact NF|]. exists (S m). intros [|k] K; [lia|]. rewrite reduce_S. apply X; lia.
Qed.
Print Assumptions C125_pull_push.

(** No adapter of the library asks to stop, nor do chains of them. *)
Theorem C125_library : forall (W : Type),
  (forall I, never_stops (W := W) (I := I) NilE) /\
  (forall I (f : I -> eff W bool), never_stops (FilterE f)) /\
  (forall I Q (f : I -> eff W Q), never_stops (MapE f)) /\
  (forall I (f : I -> I -> eff W bool), never_stops (GroupByE f)) /\
  (forall K I cmp (f : I -> I -> eff W (option I)) (key : I -> eff W K), never_stops (MergeE cmp f key)) /\
  (forall S1 S2 I M Q (outer : AdaptE W S1 M Q) (inner : AdaptE W S2 I M) fuel, never_stops outer -> never_stops inner -> never_stops (AdapterE outer inner fuel)).
Proof.
  intros W. split; [intros; apply ns_nil|]. split; [intros; apply ns_filter|]. split; [intros; apply ns_map|]. split; [intros; apply ns_groupby|].
  split; [intros; apply ns_merge|intros; now apply ns_compose].
Qed.
Print Assumptions C125_library.

(** Effects that do not change results do not change what is pulled. *)
Theorem C125_same : forall (W S T I Q : Type) (ae : AdaptE W S I Q) (a : Adapt S I Q) (srce : T -> eff W (T * option I)) (src : T -> outcome (T * option I)),
  same_adapter ae a -> (forall t, yields (srce t) (src t)) ->
  forall fuel fin st, yields (pullE ae srce fuel fin st) (pull a src fuel fin st).
Proof.
  intros W St T I Q ae a srce src [SA SF] SS fuel fin.
  assert (FIN : forall f s, yields (finish_pull ae f s) (from_finalize a f s)).
  { induction f as [|f IH]; intros s; cbn [finish_pull from_finalize]; [apply yields_fuel|]. apply yields_bind; [apply SF|].
    intros [s' [|[o|]]]; [apply yields_pure|apply yields_pure|apply IH]. }
  induction fuel as [|fuel IH]; intros [s t]; cbn [pullE pull]; [apply yields_fuel|]. apply yields_bind; [apply SS|]. intros [t' [x|]].
  - apply yields_bind; [apply SA|]. intros [s' [|[o|]]]; [|apply yields_pure|apply IH].
    apply yields_bind; [apply FIN|]. intros [s'' o]. apply yields_pure.
  - apply yields_bind; [apply FIN|]. intros [s'' o]. apply yields_pure.
Qed.
Print Assumptions C125_same.

(** filter and map of the library, pulled, are filter and map of the standard library, call by call. *)
Theorem C125_std : forall (W T I Q : Type) (src : T -> eff W (T * option I)) (p : I -> eff W bool) (f : I -> eff W Q) fuel fin t w,
  pullE (FilterE p) src fuel (S fin) (tt, t) w = ebind (std_filter src p fuel t) (fun x => pure ((tt, fst x), snd x)) w /\
  pullE (MapE f) src (S fuel) (S fin) (tt, t) w = ebind (std_map src f t) (fun x => pure ((tt, fst x), snd x)) w.
Proof.
  intros W T I Q src p f fuel fin t w. split.
  - revert t w. induction fuel as [|fuel IH]; intros t w; [reflexivity|]. cbn [pullE std_filter]. unfold ebind. cbn [snd fst].
    destruct (src t w) as [[[t' [x|]] w1]| |]; [|reflexivity|reflexivity|reflexivity].
    cbn [FilterE eadapt]. unfold ebind. destruct (p x w1) as [[[] w2]| |]; [reflexivity| |reflexivity|reflexivity].
    exact (IH t' w2).
  - cbn [pullE std_map]. unfold std_map, ebind. cbn [snd fst].
    destruct (src t w) as [[[t' [x|]] w1]| |]; [|reflexivity|reflexivity|reflexivity].
    cbn [MapE eadapt]. unfold ebind. destruct (f x w1) as [[y w2]| |]; reflexivity.
Qed.
Print Assumptions C125_std.

(** * How often the iterator is asked *)
Section Asks.
  Context {St I Q : Type}.
  Variable a : Adapt St I Q.
  Lemma pull_takes s xs s' out : takes a s xs s' out -> forall fin n,
    match out with
    | [] => forall f, pull a counting (length xs + f) fin (s, (xs, n)) = pull a counting f fin (s', ([], n + length xs))
    | y :: out' => exists s1 (xs1 xs2 : list I), takes a s1 xs2 s' out' /\ length xs1 + length xs2 = length xs /\
        forall f, length xs1 <= f -> pull a counting f fin (s, (xs, n)) = Ret ((s1, (xs2, n + length xs1)), Some y)
    end.
  Proof.
    induction 1 as [s|s x y s' xs s'' out E H IH|s x s' xs s'' out E H IH]; intros fin n.
    - intros f. cbn [length Nat.add]. now rewrite Nat.add_0_r.
    - exists s', [x], xs. split; [exact H|]. split; [reflexivity|]. intros [|f] L; [cbn in L; lia|].
      cbn [pull counting fst snd obind]. rewrite E. cbn [obind]. reflexivity.
    - specialize (IH fin (n + 1)). destruct out as [|y out].
      + intros f. cbn [length Nat.add pull counting fst snd obind]. rewrite E. cbn [obind]. rewrite IH. do 3 f_equal. lia.
      + destruct IH as (s1 & xs1 & xs2 & T & L & P). exists s1, (x :: xs1), xs2. split; [exact T|]. split; [cbn [length]; lia|].
        intros [|f] K; [cbn in K; lia|]. cbn [pull counting fst snd obind]. rewrite E. cbn [obind]. cbn [length] in *. rewrite P by lia.
        do 4 f_equal. lia.
  Qed.
  Lemma pull_finishes k s last : finishes a k s last -> forall f fin n, k < fin ->
    match last with
    | [] => exists s', pull a counting (S f) fin (s, ([], n)) = Ret ((s', ([], n + 1)), None)
    | y :: last' => exists s' k', k' < k /\ finishes a k' s' last' /\ pull a counting (S f) fin (s, ([], n)) = Ret ((s', ([], n + 1)), Some y)
    end.
  Proof.
    induction 1 as [s s' E|k s s' y out E H IH|k s s' out E H IH]; intros f fin n L; (destruct fin as [|fin]; [lia|]).
    - exists s'. cbn [pull counting fst snd obind from_finalize]. rewrite E. reflexivity.
    - exists s', k. split; [lia|]. split; [exact H|]. cbn [pull counting fst snd obind from_finalize]. rewrite E. reflexivity.
    - specialize (IH f fin n ltac:(lia)). cbn [pull counting fst snd obind from_finalize] in IH |- *. rewrite E. cbn [obind].
      destruct out as [|y out]; [exact IH|]. destruct IH as (s1 & k1 & K & F & P). exists s1, k1. split; [lia|]. split; [exact F|exact P].
  Qed.
End Asks.

(** The iterator is asked once per item and once at its end, and then once more for every item that the adapter had kept
    back: asking it at its end must therefore be harmless. *)
Theorem C125_asks : forall (S I Q : Type) (a : Adapt S I Q) (s s' : S) (xs : list I) (out last : list Q) (k fuel fin asked : nat),
  takes a s xs s' out -> finishes a k s' last -> length xs < fuel -> k < fin ->
  let next := pull a counting fuel fin in
  calls next (length out + length last + 1) (s, (xs, asked)) = Ret (map Some (out ++ last) ++ [None]) /\
  exists s'', state_after next (length out + length last + 1) (s, (xs, asked)) = Ret (s'', ([], asked + length xs + length last + 1)).
Proof.
  intros St I Q a s s' xs out last k fuel fin asked T F LF KF next. revert s xs asked T LF.
  induction out as [|y out IH]; intros s xs asked T LF.
  - pose proof (pull_takes a _ _ _ _ T fin asked) as P. cbn beta iota in P.
    assert (B : forall last k s' n, finishes a k s' last -> k < fin ->
      calls next (length last + 1) (s', ([], n)) = Ret (map Some last ++ [None]) /\
      exists s'', state_after next (length last + 1) (s', ([], n)) = Ret (s'', ([], n + length last + 1))).
    { clear - LF. destruct fuel as [|fuel]; [lia|]. induction last as [|y last IH]; intros k s' n F K; pose proof (pull_finishes a _ _ _ F fuel fin n K) as P; cbn beta iota in P.
      - destruct P as (s1 & P). fold next in P. cbn [length Nat.add calls state_after map app]. rewrite P. split; [reflexivity|]. exists s1. now rewrite Nat.add_0_r.
      - destruct P as (s1 & k1 & K1 & F1 & P). fold next in P. destruct (IH k1 s1 (n + 1) F1 ltac:(lia)) as (C & s2 & C2).
        cbn [length Nat.add calls state_after map app]. rewrite P. cbn beta iota. rewrite C, C2. split; [reflexivity|]. exists s2. do 3 f_equal. lia. }
    cbn [length Nat.add app].
    assert (E : forall z, calls next (S z) (s, (xs, asked)) = calls next (S z) (s', ([], asked + length xs)) /\
                state_after next (S z) (s, (xs, asked)) = state_after next (S z) (s', ([], asked + length xs))).
    { intros z. cbn [calls state_after].
      assert (X : next (s, (xs, asked)) = next (s', ([], asked + length xs))).
      { unfold next. replace fuel with (length xs + (fuel - length xs)) at 1 by lia. rewrite P.
        assert (Y : forall f g, 0 < f -> 0 < g -> pull a counting f fin (s', ([], asked + length xs)) = pull a counting g fin (s', ([], asked + length xs)))
          by (intros [|f] [|g] Hf Hg; [lia|lia|lia|]; reflexivity).
        apply Y; lia. }
      rewrite X. auto. }
    replace (length last + 1) with (S (length last)) by lia. destruct (E (length last)) as (-> & ->).
    replace (S (length last)) with (length last + 1) by lia. exact (B last k s' _ F KF).
  - pose proof (pull_takes a _ _ _ _ T fin asked) as (s1 & xs1 & xs2 & T1 & L & P). specialize (P fuel ltac:(lia)). fold next in P.
    destruct (IH s1 xs2 (asked + length xs1) T1 ltac:(lia)) as (C & s2 & C2).
    cbn [length Nat.add calls state_after map app]. rewrite P. cbn beta iota. rewrite C, C2. split; [reflexivity|]. exists s2. do 3 f_equal. lia.
Qed.
Print Assumptions C125_asks.

(** An iterator over 3 2 5 6 1 that notes each number it hands out; filter notes what it looks at, groupby its comparisons
    (as two numbers), and the reducer what it counts. *)
Definition numbers : list nat -> eff (list nat) (list nat * option nat) := fun l log =>
  match l with [] => Ret (([], None), log) | x :: l' => Ret ((l', Some x), log ++ [x]) end.
Definition chain_ex (fuel : nat) : AdaptE (list nat) _ nat (nat * nat) :=
  AdapterE (GroupByE (noted2 (fun x y => 100 * x + y) Nat.leb)) (AdapterE (FilterE (noted (fun x => 10 * x) (fun x => negb (x =? 2)))) NilE fuel) fuel.
Definition reducer_ex : ReduceE (list nat) nat (nat * nat) nat := FoldE (fun s => pure s) (noted2 (fun _ y => fst y + snd y) (fun n _ => n + 1)).
Example C125_example : never_stops (chain_ex 9) /\ quiet_end numbers /\
  let log := [3; 30; 2; 20; 5; 50; 305; 6; 60; 506; 1; 10; 601; 9; 101; 2] in
  reduce_from (pullE (chain_ex 9) numbers 9 9) reducer_ex 9 ((GEmpty, (tt, tt)), [3; 2; 5; 6; 1]) 0 [] = Ret (2, log) /\
  reduce_from numbers (ReducerOverE reducer_ex (chain_ex 9) 9) 9 [3; 2; 5; 6; 1] (0, (GEmpty, (tt, tt))) [] = Ret (2, log).
Proof.
  split; [|split].
  - apply ns_compose; [apply ns_groupby|]. apply ns_compose; [apply ns_filter|apply ns_nil].
  - intros [|x l] w t' w' E; [|discriminate E]. injection E as <- <-. reflexivity.
  - vm_compute. split; reflexivity.
Qed.
Example C125_asks_example : state_after (pull (GroupBy (fun x y => Ret (Nat.leb x y))) counting 9 9) 3 (GEmpty, ([3; 4; 1; 2], 0)) = Ret (GEmpty, ([], 6)).
Proof. vm_compute. reflexivity. Qed.
