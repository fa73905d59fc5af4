(** Proofs for C125. *)
From Verif Require Import Base GenModel TraceModel PullTrace PullTraceSpec.

Section Agree.
  Context {W St T I Q Acc R : Type}.
  Variable a : AdaptE W St I Q.
  Variable src : T -> eff W (T * option I).
  Variable r : ReduceE W Acc Q R.
  Hypothesis NS : never_stops a.
  Hypothesis QE : quiet_end src.

  (** What the loop does with the answer of one [next]. *)
  Definition go f1 f2 f3 acc (x : (St * T) * option Q) : eff W R :=
    match snd x with
    | None => efinal r acc
    | Some y => run* acc' := enext r acc y in reduce_from (pullE a src f1 f2) r f3 (fst x) acc'
    end.
  Definition head f0 f1 f2 f3 s t acc : eff W R := ebind (pullE a src f0 f2 (s, t)) (go f1 f2 f3 acc).
  Definition tail_end f0 f1 f2 f3 s t acc : eff W R :=
    ebind (ebind (finish_pull a f0 s) (fun x => pure ((fst x, t), snd x))) (go f1 f2 f3 acc).
  Lemma reduce_S f1 f2 f3 s t acc w : reduce_from (pullE a src f1 f2) r (S f3) (s, t) acc w = head f1 f1 f2 f3 s t acc w.
  Proof.
    cbn [reduce_from]. unfold head, ebind. destruct (pullE a src f1 f2 (s, t) w) as [[[st o] w']| |]; try reflexivity.
  Qed.

  Lemma head_end f0 f1 f2 f3 s t acc w w1 t' : src t w = Ret ((t', None), w1) -> head (S f0) f1 f2 f3 s t acc w = tail_end f2 f1 f2 f3 s t' acc w1.
  Proof.
    intros E. unfold head, tail_end. cbn [pullE]. unfold ebind at 1 2. cbn [snd fst]. rewrite E. cbn [fst snd].
    unfold ebind. destruct (finish_pull a f2 s w1) as [[[s' o] w2]| |]; reflexivity.
  Qed.

  Lemma end_push fin : forall s t acc w res, (forall w1, src t w1 = Ret ((t, None), w1)) ->
    reducer_finalizeE r a fin acc s w = res -> res <> Fuel ->
    exists n, forall f0 f1 f2 f3, n <= f0 -> n <= f1 -> n <= f2 -> n <= f3 -> tail_end f0 f1 f2 f3 s t acc w = res.
  Proof.
    induction fin as [|fin IH]; intros s t acc w res QT E NF; [cbn in E; congruence|].
    cbn [reducer_finalizeE] in E. unfold ebind in E.
    destruct (efinalize a s w) as [[[s' out] w1]| |] eqn:EF.
    2:{ exists 1. intros [|f0] f1 f2 f3 ? ? ? ?; [lia|]. unfold tail_end. cbn [finish_pull]. unfold ebind. now rewrite EF. }
    2:{ congruence. }
    destruct out as [|[o|]].
    - exists 1. intros [|f0] f1 f2 f3 ? ? ? ?; [lia|]. unfold tail_end. cbn [finish_pull]. unfold ebind. rewrite EF. exact E.
    - destruct (enext r acc o w1) as [[acc' w2]| |] eqn:EN.
      + destruct (IH s' t acc' w2 res QT E NF) as (n & P). exists (S (S n)). intros [|f0] f1 f2 [|f3] ? ? ? ?; try lia.
        destruct f1 as [|f1]; [lia|]. unfold tail_end. cbn [finish_pull]. unfold ebind at 1 2 3. rewrite EF. unfold pure. cbn [fst snd].
        unfold go at 1. cbn [fst snd]. unfold ebind. rewrite EN. rewrite reduce_S. rewrite (head_end _ _ _ _ _ _ _ _ _ _ (QT w2)). apply P; lia.
      + exists 1. intros [|f0] f1 f2 f3 ? ? ? ?; [lia|]. unfold tail_end. cbn [finish_pull]. unfold ebind at 1 2 3. rewrite EF. unfold pure. cbn [fst snd].
        unfold go. cbn [fst snd]. unfold ebind. now rewrite EN.
      + congruence.
    - destruct (IH s' t acc w1 res QT E NF) as (n & P). exists (S n). intros [|f0] f1 f2 f3 ? ? ? ?; [lia|].
      unfold tail_end. cbn [finish_pull]. specialize (P f0 f1 f2 f3 ltac:(lia) ltac:(lia) ltac:(lia) ltac:(lia)).
      unfold tail_end in P. unfold ebind in P |- *. rewrite EF. exact P.
  Qed.

  Lemma push_pull fin fuel : forall s t acc w res,
    reduce_from src (ReducerOverE r a fin) fuel t (acc, s) w = res -> res <> Fuel ->
    exists n, forall f0 f1 f2 f3, n <= f0 -> n <= f1 -> n <= f2 -> n <= f3 -> head f0 f1 f2 f3 s t acc w = res.
  Proof.
    induction fuel as [|fuel IH]; intros s t acc w res E NF; [cbn in E; congruence|].
    cbn [reduce_from] in E. unfold ebind at 1 in E.
    destruct (src t w) as [[[t' i] w1]| |] eqn:ES.
    2:{ exists 1. intros [|f0] f1 f2 f3 ? ? ? ?; [lia|]. unfold head. cbn [pullE]. unfold ebind. cbn [snd]. now rewrite ES. }
    2:{ congruence. }
    destruct i as [x|].
    - unfold ebind at 1 in E. cbn [ReducerOverE enext] in E. unfold ebind at 1 in E.
      destruct (eadapt a s x w1) as [[[s' out] w2]| |] eqn:EA.
      2:{ exists 1. intros [|f0] f1 f2 f3 ? ? ? ?; [lia|]. unfold head. cbn [pullE]. unfold ebind. cbn [snd fst]. rewrite ES. now rewrite EA. }
      2:{ congruence. }
      destruct out as [|[o|]]; [now apply NS in EA| |].
      + unfold ebind at 1 in E. destruct (enext r acc o w2) as [[acc' w3]| |] eqn:EN.
        * unfold pure in E. destruct (IH s' t' acc' w3 res E NF) as (n & P). exists (S n). intros [|f0] f1 f2 [|f3] ? ? ? ?; try lia.
          unfold head. cbn [pullE]. unfold ebind at 1 2 3. cbn [snd fst]. rewrite ES, EA. unfold pure, go. cbn [snd fst]. unfold ebind. rewrite EN.
          rewrite reduce_S. apply P; lia.
        * exists 1. intros [|f0] f1 f2 f3 ? ? ? ?; [lia|]. unfold head. cbn [pullE]. unfold ebind at 1 2 3. cbn [snd fst]. rewrite ES, EA.
          unfold pure, go. cbn [snd fst]. unfold ebind. now rewrite EN.
        * congruence.
      + unfold pure in E. destruct (IH s' t' acc w2 res E NF) as (n & P). exists (S n). intros [|f0] f1 f2 f3 ? ? ? ?; try lia.
        specialize (P f0 f1 f2 f3 ltac:(lia) ltac:(lia) ltac:(lia) ltac:(lia)). unfold head in P |- *. cbn [pullE].
        unfold ebind at 1 2 3. cbn [snd fst]. rewrite ES, EA. exact P.
    - cbn [ReducerOverE efinal fst snd] in E. destruct (end_push _ _ t' _ _ _ (fun w' => QE _ _ _ _ ES w') E NF) as (n & P).
      exists (S n). intros [|f0] f1 f2 f3 ? ? ? ?; try lia. rewrite (head_end _ _ _ _ _ _ _ _ _ _ ES). apply P; lia.
  Qed.

  Lemma end_pull f1 f2 f3 : forall f0 s t acc w res, (forall w1, src t w1 = Ret ((t, None), w1)) ->
    tail_end f0 f1 f2 f3 s t acc w = res -> res <> Fuel -> exists n, forall fin, n <= fin -> reducer_finalizeE r a fin acc s w = res.
  Proof.
    induction f3 as [|f3 IH3]; intros f0; (induction f0 as [|f0 IH0]; intros s t acc w res QT E NF; [cbn in E; congruence|]).
    all: unfold tail_end in E; cbn [finish_pull] in E; unfold ebind in E; destruct (efinalize a s w) as [[[s' out] w1]| |] eqn:EF;
      [|exists 1; intros [|fin] ?; [lia|]; cbn [reducer_finalizeE]; unfold ebind; now rewrite EF|congruence].
    all: destruct out as [|[o|]].
    1,4: exists 1; intros [|fin] ?; [lia|]; cbn [reducer_finalizeE]; unfold ebind; rewrite EF; exact E.
    2,4: destruct (IH0 s' t acc w1 res QT E NF) as (n & P); exists (S n); intros [|fin] ?; [lia|]; cbn [reducer_finalizeE]; unfold ebind; rewrite EF; apply P; lia.
    all: unfold pure, go in E; cbn [fst snd] in E; unfold ebind in E; destruct (enext r acc o w1) as [[acc' w2]| |] eqn:EN;
      [|exists 1; intros [|fin] ?; [lia|]; cbn [reducer_finalizeE]; unfold ebind; rewrite EF, EN; exact E|congruence].
    - cbn [reduce_from] in E. congruence.
    - rewrite reduce_S in E. destruct f1 as [|f1]; [cbn in E; congruence|].
      rewrite (head_end _ _ _ _ _ _ _ _ _ _ (QT w2)) in E. destruct (IH3 f2 s' t acc' w2 res QT E NF) as (n & P).
      exists (S n); intros [|fin] ?; [lia|]; cbn [reducer_finalizeE]; unfold ebind; rewrite EF, EN; apply P; lia.
  Qed.
  Lemma pull_push f1 f2 f3 : forall f0 s t acc w res, head f0 f1 f2 f3 s t acc w = res -> res <> Fuel ->
    exists n, forall fuel fin, n <= fuel -> n <= fin -> reduce_from src (ReducerOverE r a fin) fuel t (acc, s) w = res.
  Proof.
    induction f3 as [|f3 IH3]; intros f0; (induction f0 as [|f0 IH0]; intros s t acc w res E NF; [cbn in E; congruence|]).
    all: destruct (src t w) as [[[t' i] w1]| |] eqn:ES;
      [|exists 1; intros [|fuel] fin ? ?; [lia|]; unfold head in E; cbn [pullE] in E; cbn [reduce_from]; unfold ebind in *; cbn [snd] in E; now rewrite ES in *
       |unfold head in E; cbn [pullE] in E; unfold ebind in E; cbn [snd] in E; rewrite ES in E; congruence].
    all: destruct i as [x|];
      [|rewrite (head_end _ _ _ _ _ _ _ _ _ _ ES) in E; destruct (end_pull _ _ _ _ _ t' _ _ _ (fun w' => QE _ _ _ _ ES w') E NF) as (n & P);
        exists (S n); intros [|fuel] fin ? ?; [lia|]; cbn [reduce_from]; unfold ebind; rewrite ES; apply P; lia].
    all: unfold head in E; cbn [pullE] in E; unfold ebind at 1 2 3 in E; cbn [snd fst] in E; rewrite ES in E;
      destruct (eadapt a s x w1) as [[[s' out] w2]| |] eqn:EA;
      [|exists 1; intros [|fuel] fin ? ?; [lia|]; cbn [reduce_from]; unfold ebind; rewrite ES; cbn [ReducerOverE enext]; unfold ebind; now rewrite EA|congruence].
    all: destruct out as [|[o|]]; [now apply NS in EA| |].
    2,4: destruct (IH0 s' t' acc w2 res E NF) as (n & P); exists (S n); intros [|fuel] fin ? ?; [lia|]; cbn [reduce_from];
      unfold ebind; rewrite ES; cbn [ReducerOverE enext]; unfold ebind; rewrite EA; apply P; lia.
    all: unfold pure, go in E; cbn [fst snd] in E; unfold ebind in E; destruct (enext r acc o w2) as [[acc' w3]| |] eqn:EN;
      [|exists 1; intros [|fuel] fin ? ?; [lia|]; cbn [reduce_from]; unfold ebind; rewrite ES; cbn [ReducerOverE enext]; unfold ebind; rewrite EA, EN; exact E|congruence].
    - cbn [reduce_from] in E. congruence.
    - rewrite reduce_S in E. destruct (IH3 f1 s' t' acc' w3 res E NF) as (n & P). exists (S n); intros [|fuel] fin ? ?; [lia|]; cbn [reduce_from].
      unfold ebind. rewrite ES. cbn [ReducerOverE enext]. unfold ebind. rewrite EA, EN. apply P; lia.
  Qed.
End Agree.

(** ** The library's adapters never ask to stop *)
Section Library.
  Context {W : Type}.
  Lemma ns_nil {I} : never_stops (W := W) (I := I) NilE.
  Proof. intros s x w s' w' E. discriminate E. Qed.
  Lemma ns_filter {I} (f : I -> eff W bool) : never_stops (FilterE f).
  Proof. intros s x w s' w' E. cbn in E. unfold ebind in E. destruct (f x w) as [[[] w1]| |]; discriminate E. Qed.
  Lemma ns_map {I Q} (f : I -> eff W Q) : never_stops (MapE f).
  Proof. intros s x w s' w' E. cbn in E. unfold ebind in E. destruct (f x w) as [[y w1]| |]; discriminate E. Qed.
  Lemma ns_groupby {I} (f : I -> I -> eff W bool) : never_stops (GroupByE f).
  Proof.
    intros s x w s' w' E. destruct s; cbn in E; unfold ebind in E; [discriminate E| |];
      repeat match type of E with context [match ?y with _ => _ end] => destruct y end; discriminate E.
  Qed.
  Lemma ns_merge {K I} cmp (f : I -> I -> eff W (option I)) (key : I -> eff W K) : never_stops (MergeE cmp f key).
  Proof.
    intros s x w s' w' E. destruct s as [m it]; cbn in E; unfold ebind in E;
      repeat match type of E with context [match ?y with _ => _ end] => destruct y end; discriminate E.
  Qed.
  Lemma ns_compose {S1 S2 I M Q} (i : AdaptE W S1 M Q) (j : AdaptE W S2 I M) fuel : never_stops i -> never_stops j -> never_stops (AdapterE i j fuel).
  Proof.
    intros H1 H2 [s1 s2] x w s' w' E. cbn in E. unfold ebind in E.
    destruct (eadapt j s2 x w) as [[[s2' out] w1]| |] eqn:E2; [|discriminate E|discriminate E].
    destruct out as [|[o|]]; [now apply H2 in E2| |discriminate E].
    destruct (eadapt i s1 o w1) as [[[s1' out] w2]| |] eqn:E1; [|discriminate E|discriminate E].
    injection E as _ -> _. now apply H1 in E1.
  Qed.
End Library.
