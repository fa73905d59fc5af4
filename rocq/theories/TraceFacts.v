(** Proofs for C112 and C113. *)
From Verif Require Import Base GenModel TraceModel TraceSpec.

Section Yields.
  Context {W : Type}.
  Lemma yields_pure {A} (a : A) : yields (W := W) (pure a) (Ret a).
  Proof. intros w. left. now exists a, w. Qed.
  Lemma yields_bind {A B} (m : eff W A) (f : A -> eff W B) o g : yields m o -> (forall a, yields (f a) (g a)) -> yields (ebind m f) (obind o g).
  Proof.
    intros M F w. unfold ebind. destruct (M w) as [(a & w' & -> & ->)|[[-> ->]|[-> ->]]]; [exact (F a w')|right; left; auto|right; right; auto].
  Qed.
  Lemma yields_fuel {A} : yields (W := W) (A := A) (fun _ => Fuel) Fuel.
  Proof. intros w. now right; right. Qed.
End Yields.
Ltac yield := repeat first [apply yields_pure | apply yields_fuel | apply yields_bind; [|intros] |
  match goal with |- yields (match ?x with _ => _ end) _ => destruct x end | match goal with |- yields (let '(_, _) := ?x in _) _ => destruct x end].

Section Same.
  Context {W : Type}.
  Lemma same_nil {I} : same_adapter (W := W) (I := I) NilE NilAdapter.
  Proof. split; intros; cbn; yield. Qed.
  Lemma same_filter {I} (fe : I -> eff W bool) f : (forall x, yields (fe x) (f x)) -> same_adapter (FilterE fe) (Filter f).
  Proof. intros H. split; intros; cbn; yield; apply H. Qed.
  Lemma same_map {I Q} (fe : I -> eff W Q) f : (forall x, yields (fe x) (f x)) -> same_adapter (MapE fe) (MapA f).
  Proof. intros H. split; intros; cbn; yield; apply H. Qed.
  Lemma same_groupby {I} (fe : I -> I -> eff W bool) f : (forall x y, yields (fe x y) (f x y)) -> same_adapter (GroupByE fe) (GroupBy f).
  Proof. intros H. split; intros; destruct s; cbn; yield; apply H. Qed.
  Lemma same_find {K I} (fe : I -> I -> eff W (option I)) f (x : I) : (forall x y, yields (fe x y) (f x y)) ->
    forall m : list (K * I), yields (merge_findE fe x m) (merge_find f x m).
  Proof. intros H. induction m as [|[k p] m IH]; cbn; yield; [apply H|exact IH]. Qed.
  Lemma same_merge {K I} (cmp : K -> K -> comparison) (fe : I -> I -> eff W (option I)) f keye key : (forall x y, yields (fe x y) (f x y)) ->
    (forall x, yields (keye x) (key x)) -> same_adapter (MergeE cmp fe keye) (Merge cmp f key).
  Proof.
    intros H HK. split; [intros [m it] x|intros [m it]]; cbn.
    - apply yields_bind; [now apply same_find|]. intros [[p v]|]; yield; apply HK.
    - destruct it as [l|]; [destruct l as [|[k v] l]|destruct m as [|[k v] m]]; yield.
  Qed.
  Lemma same_compose {S1 S2 I M Q} (i : AdaptE W S1 M Q) (j : AdaptE W S2 I M) i' j' fuel : same_adapter i i' -> same_adapter j j' ->
    same_adapter (AdapterE i j fuel) (Adapter i' j' fuel).
  Proof.
    intros [A1 F1] [A2 F2]. split.
    - intros [s1 s2] x. cbn. apply yields_bind; [apply A2|]. intros [s2' [|[o|]]]; [apply yields_pure| |apply yields_pure].
      apply yields_bind; [apply A1|]. intros [s1' r]. apply yields_pure.
    - intros [s1 s2]. cbn. revert s2. induction fuel as [|fuel IH]; intros s2; cbn; [apply yields_fuel|].
      apply yields_bind; [apply F2|]. intros [s2' [|[o|]]]; [| |apply IH]; (apply yields_bind; [apply F1 || apply A1|]; intros [s1' r]; apply yields_pure).
  Qed.
  Lemma same_fold {Acc I} clone (fe : Acc -> I -> eff W Acc) f : (forall a, yields (clone a) (Ret a)) -> (forall a x, yields (fe a x) (f a x)) ->
    same_reducer (FoldE clone fe) (Fold f).
  Proof.
    intros HC HF. split; intros; cbn; [|apply HC].
    change (f s x) with (obind (Ret s) (fun c => f c x)). apply yields_bind; [apply HC|intros; apply HF].
  Qed.
  Lemma same_fork {S1 S2 I R1 R2} clone (r1 : ReduceE W S1 I R1) (r2 : ReduceE W S2 I R2) q1 q2 : (forall a, yields (clone a) (Ret a)) ->
    same_reducer r1 q1 -> same_reducer r2 q2 -> same_reducer (ForkE clone r1 r2) (Fork q1 q2).
  Proof.
    intros HC [N1 F1] [N2 F2]. split.
    - intros s x. cbn [enext rnext ForkE Fork].
      change (let* s1 := rnext q1 (fst s) x in let* s2 := rnext q2 (snd s) x in Ret (s1, s2))
        with (let* c := Ret x in let* s1 := rnext q1 (fst s) c in let* s2 := rnext q2 (snd s) x in Ret (s1, s2)).
      yield; auto.
    - intros s. cbn [efinal rfinal ForkE Fork]. yield; auto.
  Qed.
  Lemma same_split {K S I R} cmp keye key (rede : K -> eff W S) redfn (red : ReduceE W S I R) red' : (forall x, yields (keye x) (key x)) ->
    (forall k, yields (rede k) (Ret (redfn k))) -> same_reducer red red' -> same_reducer (SplitE cmp keye rede red) (Split cmp key redfn red').
  Proof.
    intros HK HR [N F]. split.
    - intros m x. cbn [enext rnext SplitE Split]. apply yields_bind; [apply HK|]. intros k.
      change (let* s' := rnext red' match map_get cmp k m with Some s => s | None => redfn k end x in Ret (map_insert cmp k s' m))
        with (let* new := Ret (redfn k) in let* s' := rnext red' match map_get cmp k m with Some s => s | None => new end x in Ret (map_insert cmp k s' m)).
      apply yields_bind; [apply HR|]. intros new. yield. apply N.
    - intros m. cbn [efinal rfinal SplitE Split]. generalize (@nil (K * R)). induction m as [|[k v] m IH]; intros acc; cbn; yield; auto.
  Qed.
  Lemma same_over {S1 S2 I M R} (i : ReduceE W S1 M R) (a : AdaptE W S2 I M) i' a' fuel : same_reducer i i' -> same_adapter a a' ->
    same_reducer (ReducerOverE i a fuel) (ReducerOver i' a' fuel).
  Proof.
    intros [N F] [A1 F1]. split.
    - intros [s1 s2] x. cbn. apply yields_bind; [apply A1|]. intros [s2' [|[o|]]]; yield; apply N.
    - intros [s1 s2]. cbn. revert s1 s2. induction fuel as [|fuel IH]; intros s1 s2; cbn; [apply yields_fuel|].
      apply yields_bind; [apply F1|]. intros [s2' [|[o|]]]; [apply F| |apply IH]. apply yields_bind; [apply N|]. intros; apply IH.
  Qed.
  Lemma same_run {S I R} (re : ReduceE W S I R) r : same_reducer re r -> forall xs s, yields (run_reduceE re s xs) (run_reduce r s xs).
  Proof.
    intros [N F] xs s. unfold run_reduceE, run_reduce. apply yields_bind; [|exact F].
    revert s. induction xs as [|x xs IH]; intros s; cbn; yield; auto.
  Qed.
End Same.

(** * Logs *)
Section Logs.
  Context {E : Type}.
  Lemma calls_pure {A} (a : A) : with_calls (E := E) (pure a) a [].
  Proof. intros w. unfold pure. now rewrite app_nil_r. Qed.
  Lemma calls_bind {A B} (m : eff (list E) A) (f : A -> eff (list E) B) a b l1 l2 :
    with_calls m a l1 -> with_calls (f a) b l2 -> with_calls (ebind m f) b (l1 ++ l2).
  Proof. intros M F w. unfold ebind. rewrite M, F, app_assoc. reflexivity. Qed.
  Lemma calls_noted {A B} (what : A -> E) (f : A -> B) a : with_calls (noted what f a) (f a) [what a].
  Proof. intros w. reflexivity. Qed.
  Lemma calls_noted2 {A A' B} (what : A -> A' -> E) (f : A -> A' -> B) a a' : with_calls (noted2 what f a a') (f a a') [what a a'].
  Proof. intros w. reflexivity. Qed.
  Lemma calls_bind0 {A B} (m : eff (list E) A) (f : A -> eff (list E) B) a b l : with_calls m a l -> with_calls (f a) b [] -> with_calls (ebind m f) b l.
  Proof. intros M F. rewrite <- (app_nil_r l). exact (calls_bind m f a b l [] M F). Qed.

  Lemma times_app (q : E -> bool) l l' : times q (l ++ l') = times q l + times q l'.
  Proof. unfold times. rewrite filter_app, app_length. reflexivity. Qed.

  (** groupby *)
  Section Group.
    Context {A : Type}.
    Variable rel : A -> A -> bool.
    Notation GB := (GroupByE (noted2 (@pair A A) rel)).
    Notation R fuel := (ReducerOverE (CollectE (W := list (A * A)) (fun l => pure l)) GB fuel).
    Lemma group_calls_bounds ys : forall alone x, length ys <= length (group_calls rel alone x ys) <= 2 * length ys + (if alone then 1 else 0).
    Proof.
      induction ys as [|y ys IH]; intros alone x; cbn [group_calls length]; [destruct alone; cbn; lia|].
      destruct (rel x y); [specialize (IH false y); cbn in IH; destruct alone; lia|].
      rewrite app_length. specialize (IH true y). cbn in IH. destruct alone; cbn [length]; lia.
    Qed.

    (** what is pending: the item [x], alone or as the end of a run that began with [start] *)
    Definition pends (alone : bool) (x : A) (s : gstate A) : Prop := if alone then s = GConsumed x else exists start, s = GLazy start x.
    Lemma group_trace fuel ys : forall alone x s acc, (forall z, In z (x :: ys) -> rel z z = true) -> pends alone x s ->
      exists r, with_calls (run_reduceE (R (S (S fuel))) (acc, s) ys) r (group_calls rel alone x ys).
    Proof.
      induction ys as [|y ys IH]; intros alone x s acc RX P.
      - destruct alone; cbn [pends] in P; [subst s|destruct P as [start ->]]; eexists; intros w.
        + unfold run_reduceE, ebind, feedE, pure. cbn. unfold ebind, pure, noted2. rewrite (RX x (or_introl eq_refl)). reflexivity.
        + unfold run_reduceE, ebind, feedE, pure. cbn. unfold ebind, pure. rewrite app_nil_r. reflexivity.
      - assert (RY : forall z, In z (y :: ys) -> rel z z = true) by (intros z I; apply RX; now right).
        cbn [group_calls].
        assert (ST : forall acc' s' l1 l2 r, (forall before, enext (R (S (S fuel))) (acc, s) y before = Ret ((acc', s'), before ++ l1)) ->
          with_calls (run_reduceE (R (S (S fuel))) (acc', s') ys) r l2 -> with_calls (run_reduceE (R (S (S fuel))) (acc, s) (y :: ys)) r (l1 ++ l2)).
        { intros acc' s' l1 l2 r N F w. specialize (F (w ++ l1)). unfold run_reduceE, ebind in *. cbn [feedE]. unfold ebind. rewrite N, F, app_assoc. reflexivity. }
        destruct alone; cbn [pends] in P; [subst s|destruct P as [start ->]].
        + destruct (rel x y) eqn:Rxy.
          * destruct (IH false y (GLazy x y) acc RY (ex_intro _ x eq_refl)) as [r F]. exists r.
            apply (ST acc (GLazy x y) [(x, y)]); [|exact F]. intros w. cbn. unfold ebind, noted2, pure. rewrite Rxy. reflexivity.
          * destruct (IH true y (GConsumed y) (acc ++ [(x, x)]) RY eq_refl) as [r F]. exists r.
            apply (ST (acc ++ [(x, x)]) (GConsumed y) [(x, y); (x, x)]); [|exact F]. intros w. cbn. unfold ebind, noted2, pure. rewrite Rxy.
            rewrite (RX x (or_introl eq_refl)). rewrite <- app_assoc. reflexivity.
        + destruct (rel x y) eqn:Rxy.
          * destruct (IH false y (GLazy start y) acc RY (ex_intro _ start eq_refl)) as [r F]. exists r.
            apply (ST acc (GLazy start y) [(x, y)]); [|exact F]. intros w. cbn. unfold ebind, noted2, pure. rewrite Rxy. reflexivity.
          * destruct (IH true y (GConsumed y) (acc ++ [(start, x)]) RY eq_refl) as [r F]. exists r.
            apply (ST (acc ++ [(start, x)]) (GConsumed y) [(x, y)]); [|exact F]. intros w. cbn. unfold ebind, noted2, pure. rewrite Rxy. reflexivity.
    Qed.
    (** for any relation *)
    Lemma group_bound fuel ys : forall s acc, exists r log, with_calls (run_reduceE (R (S (S fuel))) (acc, s) ys) r log /\
      length log <= 2 * length ys + match s with GConsumed _ => 1 | GLazy _ _ => 0 | GEmpty => 0 end.
    Proof.
      induction ys as [|y ys IH]; intros s acc.
      - destruct s as [|t|start stop].
        + do 2 eexists. split; [intros w; unfold run_reduceE, ebind, feedE, pure; cbn; unfold ebind, pure; rewrite <- (app_nil_r w) at 1; reflexivity|cbn; lia].
        + destruct (rel t t) eqn:Rt; do 2 eexists; (split; [intros w; unfold run_reduceE, ebind, feedE, pure; cbn; unfold ebind, pure, noted2; rewrite Rt; reflexivity|cbn; lia]).
        + do 2 eexists. split; [intros w; unfold run_reduceE, ebind, feedE, pure; cbn; unfold ebind, pure; rewrite <- (app_nil_r w) at 1; reflexivity|cbn; lia].
      - assert (ST : forall acc' s' l1 l2 r, (forall before, enext (R (S (S fuel))) (acc, s) y before = Ret ((acc', s'), before ++ l1)) ->
          with_calls (run_reduceE (R (S (S fuel))) (acc', s') ys) r l2 -> with_calls (run_reduceE (R (S (S fuel))) (acc, s) (y :: ys)) r (l1 ++ l2)).
        { intros acc' s' l1 l2 r N F w. specialize (F (w ++ l1)). unfold run_reduceE, ebind in *. cbn [feedE]. unfold ebind. rewrite N, F, app_assoc. reflexivity. }
        destruct s as [|t|start stop].
        + destruct (IH (GConsumed y) acc) as (r & log & F & B). exists r, ([] ++ log). split; [|cbn [length app] in *; lia].
          apply (ST acc (GConsumed y) []); [|exact F]. intros w. cbn. unfold ebind, pure. now rewrite app_nil_r.
        + destruct (rel t y) eqn:Rty.
          * destruct (IH (GLazy t y) acc) as (r & log & F & B). exists r, ([(t, y)] ++ log). split; [|cbn [length app] in *; lia].
            apply (ST acc (GLazy t y)); [|exact F]. intros w. cbn. unfold ebind, noted2, pure. rewrite Rty. reflexivity.
          * destruct (rel t t) eqn:Rtt.
            -- destruct (IH (GConsumed y) (acc ++ [(t, t)])) as (r & log & F & B). exists r, ([(t, y); (t, t)] ++ log). split; [|cbn [length app] in *; lia].
               apply (ST (acc ++ [(t, t)]) (GConsumed y)); [|exact F]. intros w. cbn. unfold ebind, noted2, pure. rewrite Rty, Rtt, <- app_assoc. reflexivity.
            -- destruct (IH (GConsumed t) acc) as (r & log & F & B). exists r, ([(t, y); (t, t)] ++ log). split; [|cbn [length app] in *; lia].
               apply (ST acc (GConsumed t)); [|exact F]. intros w. cbn. unfold ebind, noted2, pure. rewrite Rty, Rtt, <- app_assoc. reflexivity.
        + destruct (rel stop y) eqn:Rty.
          * destruct (IH (GLazy start y) acc) as (r & log & F & B). exists r, ([(stop, y)] ++ log). split; [|cbn [length app] in *; lia].
            apply (ST acc (GLazy start y)); [|exact F]. intros w. cbn. unfold ebind, noted2, pure. rewrite Rty. reflexivity.
          * destruct (IH (GConsumed y) (acc ++ [(start, stop)])) as (r & log & F & B). exists r, ([(stop, y)] ++ log). split; [|cbn [length app] in *; lia].
            apply (ST (acc ++ [(start, stop)]) (GConsumed y)); [|exact F]. intros w. cbn. unfold ebind, noted2, pure. rewrite Rty. reflexivity.
    Qed.
  End Group.
End Logs.

(** merge *)
Section MergeLog.
  Context {K I : Type}.
  Variable cmp : K -> K -> comparison.
  Variable f : I -> I -> option I.
  Variable key : I -> K.
  Notation Ev := ((I * I) + I)%type.
  Notation fE := (noted2 (fun a b => inl (a, b) : Ev) f).
  Notation kE := (noted (fun a => inr a : Ev) key).
  Definition is_f (e : Ev) : bool := match e with inl _ => true | _ => false end.
  Definition is_k (e : Ev) : bool := match e with inr _ => true | _ => false end.
  Notation R fuel := (ReducerOverE (CollectE (W := list Ev) (fun l => pure l)) (MergeE cmp fE kE) fuel).

  Lemma insert_length {V} k (v : V) m : length (map_insert cmp k v m) <= S (length m).
  Proof. induction m as [|[k' v'] m IH]; cbn; [lia|]. destruct (cmp k k'); cbn; lia. Qed.
  Lemma remove_length {V} k (m : list (K * V)) : length (map_remove cmp k m) <= length m.
  Proof. induction m as [|[k' v'] m IH]; cbn; [lia|]. destruct (cmp k k'); cbn; lia. Qed.
  Lemma find_log x (m : list (K * I)) : exists r log, with_calls (merge_findE fE x m) r log /\ times is_f log <= length m /\ times is_k log = 0.
  Proof.
    induction m as [|[k p] m IH]; cbn [merge_findE].
    - exists None, []. split; [apply calls_pure|split; reflexivity].
    - destruct (f p x) as [v|] eqn:F.
      + exists (Some (p, v)), [inl (p, x)]. split; [intros w; unfold ebind, noted2; rewrite F; reflexivity|]. cbn. lia.
      + destruct IH as (r & log & H & B & B0). exists r, (inl (p, x) :: log). split; [|unfold times in *; cbn in *; lia].
        intros w. unfold ebind, noted2. rewrite F, H, <- app_assoc. reflexivity.
  Qed.
  Lemma merge_step x m it : exists m' log, with_calls (eadapt (MergeE cmp fE kE) (m, it) x) ((m', it), Continue None) log /\
    length m' <= S (length m) /\ times is_f log <= length m /\ times is_k log <= 2.
  Proof.
    cbn [eadapt MergeE]. destruct (find_log x m) as ([[p v]|] & log & F & B & B0).
    - eexists. exists (log ++ [inr p; inr v]). split; [|split; [|split]].
      + eapply calls_bind; [exact F|]. intros w. cbn. unfold ebind, noted, pure. rewrite <- app_assoc. reflexivity.
      + pose proof (insert_length (key v) v (map_remove cmp (key p) m)). pose proof (remove_length (key p) m). lia.
      + rewrite times_app. cbn. lia.
      + rewrite times_app. cbn. lia.
    - eexists. exists (log ++ [inr x]). split; [|split; [|split]].
      + eapply calls_bind; [exact F|]. intros w. cbn. unfold ebind, noted, pure. reflexivity.
      + apply insert_length.
      + rewrite times_app. cbn. lia.
      + rewrite times_app. cbn. lia.
  Qed.
  (** delivering calls nothing *)
  Lemma merge_drain fuel : forall l acc m, length l < fuel ->
    exists r, with_calls (reducer_finalizeE (CollectE (W := list Ev) (fun l => pure l)) (MergeE cmp fE kE) fuel acc (m, Some l)) r [].
  Proof.
    induction fuel as [|fuel IH]; intros l acc m H; [lia|]. destruct l as [|[k v] l]; cbn.
    - exists acc. intros w. cbn. unfold ebind, pure. now rewrite app_nil_r.
    - destruct (IH l (acc ++ [v]) m ltac:(cbn in H; lia)) as [r F]. exists r. intros w. cbn. unfold ebind, pure. exact (F w).
  Qed.
  Lemma merge_feed fuel xs : forall acc m, exists m' log, with_calls (feedE (R fuel) (acc, (m, None)) xs) (acc, (m', None)) log /\
    length m' <= length m + length xs /\ 2 * times is_f log <= length xs * (2 * length m + length xs - 1) /\ times is_k log <= 2 * length xs.
  Proof.
    induction xs as [|x xs IH]; intros acc m.
    - exists m, []. split; [apply calls_pure|]. cbn. lia.
    - destruct (merge_step x m None) as (m1 & l1 & S1 & L1 & F1 & K1). destruct (IH acc m1) as (m' & l2 & S2 & L2 & F2 & K2).
      exists m', (l1 ++ l2). split; [|split; [cbn [length]; lia|split]].
      + cbn [feedE]. eapply calls_bind; [|exact S2]. cbn [enext ReducerOverE]. eapply calls_bind0; [exact S1|]. cbn. apply calls_pure.
      + rewrite times_app. cbn [length] in *.
        assert (2 * times is_f l2 <= length xs * (2 * length m + length xs + 1)) by (etransitivity; [exact F2|]; apply Nat.mul_le_mono_l; lia).
        nia.
      + rewrite times_app. cbn [length]. lia.
  Qed.
  Lemma merge_log fuel xs : length xs < fuel -> exists r log, with_calls (run_reduceE (R fuel) ([], ([], None)) xs) r log /\
    2 * times is_f log <= length xs * (length xs - 1) /\ times is_k log <= 2 * length xs.
  Proof.
    intros H. destruct (merge_feed fuel xs [] []) as (m & log & F & L & B & B'). cbn [length Nat.mul Nat.add] in *.
    assert (D : exists r, with_calls (efinal (R fuel) ([], (m, None))) r []).
    { cbn [efinal ReducerOverE fst snd]. destruct fuel as [|fuel]; [lia|]. cbn [reducer_finalizeE].
      destruct m as [|[k v] m]; cbn.
      - exists []. intros w. cbn. unfold ebind, pure. now rewrite app_nil_r.
      - destruct (merge_drain fuel m [v] ((k, v) :: m) ltac:(cbn in L; lia)) as [r D]. exists r. intros w. cbn. unfold ebind, pure. exact (D w). }
    destruct D as [r D]. exists r, log. split; [|split; [exact B|exact B']]. unfold run_reduceE. eapply calls_bind0; [exact F|exact D].
  Qed.
End MergeLog.
