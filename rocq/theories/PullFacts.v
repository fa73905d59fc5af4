(** Adapters over arbitrary iterators (C84). *)
From Verif Require Import Base DltModel MatchModel GenModel PullModel Spec StreamSpec BaseFacts DltFacts ParseFacts GenFacts IterFacts DltIterFacts GroupFacts MapFacts MergeFacts ChainFacts.

(** * Calls *)
Section Calls.
  Context {S A : Type}.
  Variable next : S -> outcome (S * option A).
  Inductive reach : S -> list (option A) -> S -> Prop :=
  | R_nil s : reach s [] s
  | R_cons s s' o os s'' : next s = Ret (s', o) -> reach s' os s'' -> reach s (o :: os) s''.
  Lemma calls_reach n : forall s os, calls next n s = Ret os -> length os = n /\ exists s', reach s os s'.
  Proof.
    induction n as [|n IH]; intros s os H; cbn [calls] in H; [injection H as <-; split; [reflexivity|]; exists s; constructor|].
    destruct (next s) as [[s1 o]| |] eqn:E; try discriminate. destruct (calls next n s1) as [r| |] eqn:C; try discriminate.
    injection H as <-. destruct (IH _ _ C) as [L [s' R]]. split; [cbn; lia|]. exists s'. econstructor; eauto.
  Qed.
  Lemma reach_calls s os s' : reach s os s' -> forall n r, calls next n s' = Ret r -> calls next (length os + n) s = Ret (os ++ r).
  Proof.
    induction 1 as [|s s1 o os s2 E R IH]; intros n r C; [exact C|]. cbn [length plus calls app]. rewrite E, (IH _ _ C). reflexivity.
  Qed.
  Lemma calls_app n m s r : calls next (n + m) s = Ret r -> exists r1 r2 s', r = r1 ++ r2 /\ length r1 = n /\ reach s r1 s' /\ calls next m s' = Ret r2.
  Proof.
    revert s r. induction n as [|n IH]; intros s r H.
    - exists [], r, s. repeat split; auto. constructor.
    - cbn [plus calls] in H. destruct (next s) as [[s1 o]| |] eqn:E; try discriminate. destruct (calls next (n + m) s1) as [q| |] eqn:C; try discriminate.
      injection H as <-. destruct (IH _ _ C) as (r1 & r2 & s' & -> & L & R & C2). exists (o :: r1), r2, s'. cbn. split; [reflexivity|]. split; [lia|].
      split; [econstructor; eauto|exact C2].
  Qed.
  Lemma calls_first n m s r : m <= n -> calls next n s = Ret r -> calls next m s = Ret (firstn m r).
  Proof.
    intros L H. replace n with (m + (n - m)) in H by lia. apply calls_app in H. destruct H as (r1 & r2 & s' & -> & L1 & R & _).
    rewrite firstn_app, firstn_all2 by lia. replace (m - length r1) with 0 by lia. rewrite app_nil_r.
    pose proof (reach_calls _ _ _ R 0 [] eq_refl) as C. now rewrite Nat.add_0_r, L1, app_nil_r in C.
  Qed.
  Definition over (s : S) : Prop := forall k, calls next k s = Ret (repeat None k).

  Lemma collect_stream fuel : forall s l, collect next fuel s = Ret l ->
    (forall s1 s2, next s1 = Ret (s2, None) -> over s2) -> stream next s l.
  Proof.
    induction fuel as [|f IH]; intros s l H F; [discriminate|]. cbn [collect] in H.
    destruct (next s) as [[s' [x|]]| |] eqn:E; cbn [obind] in H; try discriminate.
    - destruct (collect next f s') as [xs| |] eqn:C; cbn [obind] in H; try discriminate. injection H as <-.
      intros [|k]; [reflexivity|]. cbn [calls]. rewrite E, (IH _ _ C F k). cbn [firstn map length app Nat.sub]. reflexivity.
    - injection H as <-. intros [|k]; [reflexivity|]. cbn [calls]. rewrite E, (F _ _ E k). reflexivity.
  Qed.
  Lemma stream_over s : stream next s [] <-> over s.
  Proof. unfold stream, over. split; intros H k; specialize (H k); rewrite firstn_nil, ?Nat.sub_0_r in *; exact H. Qed.
  Lemma stream_cons s x l : stream next s (x :: l) -> exists s', next s = Ret (s', Some x) /\ stream next s' l.
  Proof.
    intros H. pose proof (H 1) as H1. cbn in H1. destruct (next s) as [[s' o]| |] eqn:E; try discriminate.
    injection H1 as ->. exists s'. split; [reflexivity|]. intros k. specialize (H (Datatypes.S k)). cbn [calls] in H. rewrite E in H.
    destruct (calls next k s') as [r| |]; try discriminate. cbn [firstn map length Nat.sub app] in H. injection H as <-. reflexivity.
  Qed.
End Calls.

Lemma stream_no_offset {S A} (next : S -> outcome (S * option (nat * A))) : forall l s, stream next s l -> stream (no_offset next) s (map snd l).
Proof.
  intros l s ST n. revert s l ST. induction n as [|n IH]; intros s l ST; [reflexivity|]. cbn [calls]. destruct l as [|[k x] l].
  - pose proof (ST 1) as H. cbn in H. unfold no_offset at 1. destruct (next s) as [[s' o]| |] eqn:E; try discriminate. injection H as ->. cbn [obind].
    assert (ST' : stream next s' []).
    { apply stream_over. intros k. apply stream_over in ST. specialize (ST (Datatypes.S k)). cbn [calls repeat] in ST. rewrite E in ST.
      destruct (calls next k s'); try discriminate. now injection ST as <-. }
    rewrite (IH s' [] ST'). cbn. rewrite !firstn_nil, Nat.sub_0_r. reflexivity.
  - destruct (stream_cons _ _ _ _ ST) as (s' & E & ST'). unfold no_offset at 1. rewrite E. cbn [obind]. rewrite (IH s' l ST'). reflexivity.
Qed.
Lemma firstn_repeat' {A} (x : A) n : forall m, firstn m (repeat x n) = repeat x (Nat.min m n).
Proof. induction n as [|n IH]; intros [|m]; cbn; try reflexivity. now rewrite IH. Qed.

(** * Pulling *)
Section Pull.
  Context {S T I Q : Type}.
  Variable a : Adapt S I Q.
  Variable src : T -> outcome (T * option I).
  Variable ff : nat.

  Lemma pull_S f st : pull a src (Datatypes.S f) ff st =
    let* (t', i) := src (snd st) in
    match i with
    | None => let* (s', o) := from_finalize a ff (fst st) in Ret ((s', t'), o)
    | Some x =>
        let* (s', r) := adapt a (fst st) x in
        match r with
        | Continue (Some o) => Ret ((s', t'), Some o)
        | Break => let* (s'', o) := from_finalize a ff s' in Ret ((s'', t'), o)
        | Continue None => pull a src f ff (s', t')
        end
    end.
  Proof. reflexivity. Qed.
  Lemma calls_S n f st : calls (pull a src f ff) (Datatypes.S n) st =
    match pull a src f ff st with
    | Ret (s', o) => match calls (pull a src f ff) n s' with Ret os => Ret (o :: os) | Panic => Panic | Fuel => Fuel end
    | Panic => Panic
    | Fuel => Fuel
    end.
  Proof. reflexivity. Qed.

  Lemma pull_mono f : forall st r g, pull a src f ff st = Ret r -> f <= g -> pull a src g ff st = Ret r.
  Proof.
    induction f as [|f IH]; intros st r g H L; [discriminate|]. destruct g as [|g]; [lia|]. cbn [pull] in *.
    destruct (src (snd st)) as [[t' [x|]]| |]; cbn [obind] in *; try exact H.
    destruct (adapt a (fst st) x) as [[s' [|[o|]]]| |]; cbn [obind] in *; try exact H. apply IH with (g := g) in H; [exact H|lia].
  Qed.
  Lemma pull_mono_panic f : forall st g, pull a src f ff st = Panic -> f <= g -> pull a src g ff st = Panic.
  Proof.
    induction f as [|f IH]; intros st g H L; [discriminate|]. destruct g as [|g]; [lia|]. rewrite pull_S in *.
    destruct (src (snd st)) as [[t' [x|]]| |]; cbn [obind] in *; try exact H.
    destruct (adapt a (fst st) x) as [[s' [|[o|]]]| |]; cbn [obind] in *; try exact H. apply IH with (g := g) in H; [exact H|lia].
  Qed.
  Lemma calls_mono f g n : f <= g -> forall st r, calls (pull a src f ff) n st = Ret r -> calls (pull a src g ff) n st = Ret r.
  Proof.
    intros L. induction n as [|n IH]; intros st r H; [exact H|]. cbn [calls] in *.
    destruct (pull a src f ff st) as [[st' o]| |] eqn:E; try discriminate. rewrite (pull_mono _ _ _ _ E L).
    destruct (calls (pull a src f ff) n st') as [q| |] eqn:C; try discriminate. rewrite (IH _ _ C). exact H.
  Qed.

  Lemma pull_push s xs s' out : pushes a s xs s' out -> forall t t' f g n rs, reach src t (map Some xs) t' -> length xs + f <= g ->
    calls (pull a src f ff) n (s', t') = Ret rs -> calls (pull a src g ff) (length out + n) (s, t) = Ret (map Some out ++ rs).
  Proof.
    induction 1 as [s|s x s' o xs s'' out E H IH]; intros t t' f g n rs R L C.
    - inv R. cbn [length] in L. apply (calls_mono f); [lia|exact C].
    - inv R. match goal with H : src t = _, R : reach src _ _ _ |- _ => rename H into E1; rename R into R1 end.
      cbn [length] in L. destruct g as [|g]; [lia|]. destruct o as [o|]; cbn [olist app length plus map].
      + rewrite calls_S, pull_S. cbn [fst snd]. rewrite E1. cbn [obind]. rewrite E. cbn [obind].
        rewrite (IH _ _ f (Datatypes.S g) n rs R1 ltac:(lia) C). reflexivity.
      + pose proof (IH _ _ f g n rs R1 ltac:(lia) C) as K. destruct (length out + n) as [|m]; [exact K|].
        rewrite calls_S in *. rewrite pull_S. cbn [fst snd]. rewrite E1. cbn [obind]. rewrite E. cbn [obind].
        destruct (pull a src g ff (s', s'0)) as [[st' o]| |]; try discriminate.
        destruct (calls (pull a src g ff) m st') as [q| |] eqn:CQ; try discriminate.
        rewrite (calls_mono g (Datatypes.S g) m ltac:(lia) _ _ CQ). exact K.
  Qed.

  Lemma pull_push_fuel s xs s' out : pushes a s xs s' out -> forall t t' n, reach src t (map Some xs) t' -> 1 <= n ->
    (forall h, calls (pull a src h ff) n (s', t') = Fuel) -> forall g, calls (pull a src g ff) (length out + n) (s, t) = Fuel.
  Proof.
    induction 1 as [s|s x s' o xs s'' out E H IH]; intros t t' n R Ln C g.
    - inv R. apply C.
    - inv R. match goal with H : src t = _, R : reach src _ _ _ |- _ => rename H into E1; rename R into R1 end.
      assert (Z : exists m, length (olist o ++ out) + n = Datatypes.S m) by (destruct n as [|n]; [lia|]; rewrite Nat.add_succ_r; eauto).
      destruct g as [|g]; [destruct Z as [m ->]; reflexivity|]. destruct o as [o|]; cbn [olist app length plus] in *.
      + rewrite calls_S, pull_S. cbn [fst snd]. rewrite E1. cbn [obind]. rewrite E. cbn [obind]. now rewrite (IH _ _ n R1 Ln C).
      + pose proof (IH _ _ n R1 Ln C (Datatypes.S g)) as K. destruct Z as [m Z]. rewrite Z in *. rewrite calls_S in *. rewrite pull_S at 1. cbn [fst snd].
        rewrite E1. cbn [obind]. rewrite E. cbn [obind].
        destruct (pull a src g ff (s', s'0)) as [[st' o]| |] eqn:PG; [| |reflexivity].
        * now rewrite (pull_mono _ _ _ (Datatypes.S g) PG ltac:(lia)) in K.
        * now rewrite (pull_mono_panic _ _ (Datatypes.S g) PG ltac:(lia)) in K.
  Qed.

  Lemma pull_drain n : n <= ff -> forall s out, drains a n s out -> forall t, over src t -> stream (pull a src 1 ff) (s, t) out.
  Proof.
    induction n as [n IH] using lt_wf_ind. intros L s out D t OV.
    assert (ST : exists t', src t = Ret (t', None) /\ over src t').
    { pose proof (OV 1) as H. cbn in H. destruct (src t) as [[t' o]| |] eqn:E; try discriminate. injection H as ->. exists t'. split; [reflexivity|].
      intros k. specialize (OV (Datatypes.S k)). cbn [calls repeat] in OV. rewrite E in OV. destruct (calls src k t'); try discriminate. injection OV as <-. reflexivity. }
    destruct ST as (t' & E & OV').
    destruct (from_finalize_step a n s out D ff L) as [(-> & q & Q1 & Q2)|(o & rest & n' & s' & -> & L' & D' & Q2)].
    - apply stream_over. assert (Z : forall k t, over src t -> calls (pull a src 1 ff) k (q, t) = Ret (repeat None k)).
      { induction k as [|k IHk]; intros u OU; [reflexivity|].
        pose proof (OU 1) as H. cbn in H. destruct (src u) as [[u' o]| |] eqn:EU; try discriminate. injection H as ->.
        assert (OU' : over src u').
        { intros j. specialize (OU (Datatypes.S j)). cbn [calls repeat] in OU. rewrite EU in OU. destruct (calls src j u'); try discriminate. injection OU as <-. reflexivity. }
        rewrite calls_S, pull_S. cbn [fst snd repeat]. rewrite EU. cbn [obind].
        assert (FQ : from_finalize a ff q = Ret (q, None)) by (pose proof (drains_pos a _ _ _ D); destruct ff as [|g]; [lia|]; cbn [from_finalize]; rewrite Q1; reflexivity).
        rewrite FQ. cbn [obind]. now rewrite (IHk _ OU'). }
      intros [|k]; [reflexivity|]. rewrite calls_S, pull_S. cbn [fst snd repeat]. rewrite E. cbn [obind]. rewrite Q2. cbn [obind]. now rewrite (Z k t' OV').
    - intros [|k]; [reflexivity|]. rewrite calls_S, pull_S. cbn [fst snd]. rewrite E. cbn [obind]. rewrite Q2. cbn [obind].
      rewrite (IH n' L' ltac:(lia) s' rest D' t' OV' k). reflexivity.
  Qed.

  Lemma pull_stream n s xs out t : delivers a n s xs out -> stream src t xs -> n <= ff -> forall fuel, length xs < fuel ->
    stream (pull a src fuel ff) (s, t) out.
  Proof.
    intros (s' & o1 & o2 & P & D & ->) ST L fuel Lf.
    assert (RT : exists t', reach src t (map Some xs) t' /\ over src t').
    { clear - ST. revert t ST. induction xs as [|x xs IH]; intros t ST.
      - exists t. split; [constructor|now apply stream_over].
      - apply stream_cons in ST. destruct ST as (t1 & E & ST). destruct (IH _ ST) as (t' & R & O). exists t'. split; [econstructor; eauto|exact O]. }
    destruct RT as (t' & R & OV). pose proof (pull_drain n L s' o2 D t' OV) as DR.
    intros k. pose proof (pull_push _ _ _ _ P t t' 1 fuel k _ R ltac:(lia) (DR k)) as C.
    apply (calls_first _ _ k) in C; [|lia]. rewrite C. f_equal.
    rewrite (firstn_app k (map Some o1)), (firstn_map Some k o1), map_length, (firstn_app k o1 o2), map_app, app_length, <- app_assoc. f_equal.
    destruct (Nat.le_gt_cases k (length o1)) as [Lk|Lk].
    - replace (k - length o1) with 0 by lia. replace (k - (length o1 + length o2)) with 0 by lia. reflexivity.
    - rewrite (firstn_app (k - length o1)), firstn_map, firstn_firstn, map_length, firstn_length. rewrite Nat.min_l by lia. f_equal.
      destruct (Nat.le_gt_cases (length o2) k) as [L2|L2].
      + rewrite Nat.min_r by lia. rewrite firstn_repeat'. f_equal. lia.
      + replace (k - length o2) with 0 by lia. cbn [repeat]. rewrite firstn_nil. replace (k - (length o1 + length o2)) with 0 by lia. reflexivity.
  Qed.
End Pull.

(** * Reverse search under groupby *)
Lemma collect_reach {S A} (next : S -> outcome (S * option A)) fuel : forall s l, collect next fuel s = Ret l ->
  exists s' s'', reach next s (map Some l) s' /\ next s' = Ret (s'', None).
Proof.
  induction fuel as [|f IH]; intros s l H; [discriminate|]. cbn [collect] in H.
  destruct (next s) as [[s1 [x|]]| |] eqn:E; cbn [obind] in H; try discriminate.
  - destruct (collect next f s1) as [xs| |] eqn:C; cbn [obind] in H; try discriminate. injection H as <-.
    destruct (IH _ _ C) as (s' & s'' & R & N). exists s', s''. split; [econstructor; eauto|exact N].
  - injection H as <-. exists s, s1. split; [constructor|exact E].
Qed.
Lemma rev_next_none {T} (R : Readable T) fuel : forall b o o', rev_next R fuel b o = Ret (o', None) -> o' = usize_max.
Proof.
  induction fuel as [|f IH]; intros b o o' H; [discriminate|]. cbn [rev_next] in H.
  destruct (rev_search R b o) as [[[c t]|]| |]; cbn [obind] in H; try discriminate.
  set (off' := (if (N.of_nat (length (marker R)) <=? o)%N then _ else _)) in H. destruct (N.eqb_spec off' usize_max) as [E|E]; [congruence|].
  now apply IH in H.
Qed.
Lemma rev_next_mono {T} (R : Readable T) f : forall b o r g, rev_next R f b o = Ret r -> f <= g -> rev_next R g b o = Ret r.
Proof.
  induction f as [|f IH]; intros b o r g H L; [discriminate|]. destruct g as [|g]; [lia|]. cbn [rev_next] in *.
  destruct (rev_search R b o) as [[[c t]|]| |]; cbn [obind] in *; try exact H.
  set (off' := (if (N.of_nat (length (marker R)) <=? o)%N then _ else _)) in *. destruct (off' =? usize_max)%N; [exact H|]. apply IH with (1 := H). lia.
Qed.
Lemma reach_mono {S A} (f g : S -> outcome (S * option A)) : (forall s r, f s = Ret r -> g s = Ret r) ->
  forall s os s', reach f s os s' -> reach g s os s'.
Proof. intros H s os s'. induction 1; econstructor; eauto. Qed.

Lemma groupby_open {A} (f : A -> A -> outcome bool) s xs s' out : pushes (GroupBy f) s xs s' out -> xs <> [] \/ s <> GEmpty -> s' <> GEmpty.
Proof.
  induction 1 as [s|s x s' o xs s'' out E H IH]; intros N; [destruct N as [N|N]; [now contradict N|exact N]|].
  apply IH. right. cbn [adapt GroupBy] in E. destruct s as [|p|p q].
  - injection E as <- <-. discriminate.
  - destruct (f p x) as [[|]| |]; cbn [obind] in E; try discriminate; [injection E as <- <-; discriminate|].
    destruct (f p p) as [[|]| |]; cbn [obind] in E; try discriminate; injection E as <- <-; discriminate.
  - destruct (f q x) as [[|]| |]; cbn [obind] in E; try discriminate; injection E as <- <-; discriminate.
Qed.

Lemma reverse_grouped (rel : nat * storage_entry -> nat * storage_entry -> bool) (b : bytes) : (forall x, rel x x = true) ->
  (N.of_nat (length b) <= 9223372036854775807)%N -> (exists k m, message_at b k m) ->
  exists pairs, pairs <> [] /\ forall depth fuel, length b < depth -> (N.of_nat depth <= 2305843009213693951)%N -> length b + 2 < fuel ->
    let next := pull (GroupBy (fun x y => Ret (rel x y))) (rev_next DLT depth b) fuel fuel in
    calls next (length pairs) (GEmpty, N.of_nat (length b)) = Ret (map Some pairs) /\
    calls next (length pairs + 1) (GEmpty, N.of_nat (length b)) = Fuel.
Proof.
  intros RX Hb (k & m & M).
  destruct (reverse_all b ltac:(unfold usize_max; lia)) as (l & CL & SS & IN).
  assert (NE : l <> []).
  { intros ->. apply (proj2 (IN k (entry_of m))). exists m. split; [exact M|]. apply denotes_entry_of. destruct M as (V & _). apply V. }
  destruct (delivers_groupby rel (fun x y => Ret (rel x y)) l ltac:(reflexivity)) as (n & Ln & s' & o1 & o2 & P & D & E).
  pose proof (groupby_open _ _ _ _ _ P (or_introl NE)) as OP.
  destruct (collect_reach _ _ _ _ CL) as (t' & t'' & RT & NT). pose proof (rev_next_none _ _ _ _ _ NT) as ->.
  assert (LL : length l <= length b).
  { assert (Z : forall f s x, collect (rev_next DLT (S (length b)) b) f s = Ret x -> length x < f).
    { clear. induction f as [|f IH]; intros s x H; [discriminate|]. cbn [collect] in H.
      destruct (rev_next DLT (S (length b)) b s) as [[s1 [y|]]| |]; cbn [obind] in H; try discriminate; [|injection H as <-; cbn; lia].
      destruct (collect _ f s1) as [xs| |] eqn:C; cbn [obind] in H; try discriminate. injection H as <-. apply IH in C. cbn. lia. }
    apply Z in CL. lia. }
  assert (F : exists p, finalize (GroupBy (fun x y => Ret (rel x y))) s' = Ret (GEmpty, Continue (Some p))).
  { destruct s' as [|p|p q]; [now contradict OP| |eexists; reflexivity]. cbn [finalize GroupBy obind]. rewrite RX. eexists; reflexivity. }
  destruct F as [p F]. exists (o1 ++ [p]). split; [now destruct o1|]. intros depth fuel L1 L2 L3 next.
  assert (RT' : reach (rev_next DLT depth b) (N.of_nat (length b)) (map Some l) t').
  { eapply reach_mono; [|exact RT]. intros t r H. apply (rev_next_mono DLT _ _ _ _ depth H). lia. }
  assert (NT' : rev_next DLT depth b t' = Ret (usize_max, None)) by (apply (rev_next_mono DLT _ _ _ _ depth NT); lia).
  pose proof (reverse_exhausted b depth Hb L2) as EX.
  assert (FF : from_finalize (GroupBy (fun x y => Ret (rel x y))) fuel s' = Ret (GEmpty, Some p)).
  { destruct fuel as [|f]; [lia|]. cbn [from_finalize]. rewrite F. reflexivity. }
  rewrite app_length. cbn [length]. split.
  - unfold next. rewrite map_app. apply (pull_push _ _ fuel _ _ _ _ P _ t' 1); [exact RT'|lia|].
    rewrite calls_S, pull_S. cbn [fst snd]. rewrite NT'. cbn [obind]. rewrite FF. reflexivity.
  - unfold next. rewrite <- Nat.add_assoc. cbn [plus]. apply (pull_push_fuel _ _ fuel _ _ _ _ P _ t' 2 RT'); [lia|].
    intros [|h]; [reflexivity|]. rewrite calls_S, pull_S. cbn [fst snd]. rewrite NT'. cbn [obind]. rewrite FF. cbn [obind].
    rewrite calls_S, pull_S. cbn [fst snd]. rewrite EX. reflexivity.
Qed.
