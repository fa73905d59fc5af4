(** Facts about sorted maps, split and histograms. *)
From Verif Require Import Base GenModel ToolsModel Spec BaseFacts GenFacts.
From Coq Require Import Sorted Permutation.

Section Ord.
  Context {K : Type}.
  Variable cmp : K -> K -> comparison.
  Hypothesis O : total_order cmp.

  Lemma cmp_refl a : cmp a a = Eq.
  Proof. now apply (order_eq _ O). Qed.
  Lemma cmp_gt a b : cmp a b = Gt <-> cmp b a = Lt.
  Proof. rewrite (order_sym _ O b a). destruct (cmp b a); cbn; intuition congruence. Qed.
  Lemma cmp_lt_neq a b : cmp a b = Lt -> a <> b.
  Proof. intros H ->. rewrite cmp_refl in H. discriminate. Qed.
  Definition keq (a b : K) : bool := match cmp a b with Eq => true | _ => false end.
  Lemma keq_iff a b : keq a b = true <-> a = b.
  Proof. unfold keq. rewrite <- (order_eq _ O). destruct (cmp a b); intuition congruence. Qed.
  Lemma keq_refl a : keq a a = true. Proof. now apply keq_iff. Qed.
  Lemma keq_dec (a b : K) : {a = b} + {a <> b}.
  Proof. destruct (keq a b) eqn:E; [left; now apply keq_iff|right; intros ->; now rewrite keq_refl in E]. Qed.

  Context {V : Type}.
  Implicit Types m : list (K * V).
  Definition sorted m : Prop := ascending cmp (map fst m).

  Lemma sorted_tail kv m : sorted (kv :: m) -> sorted m.
  Proof. unfold sorted, ascending. cbn. intros H. now inv H. Qed.
  Lemma sorted_head k v m k' : sorted ((k, v) :: m) -> In k' (map fst m) -> cmp k k' = Lt.
  Proof.
    unfold sorted, ascending. cbn. intros H I. inv H.
    match goal with H : Forall _ _ |- _ => rewrite Forall_forall in H; now apply H end.
  Qed.
  Lemma sorted_nil : sorted []. Proof. constructor. Qed.
  Lemma sorted_cons k v m : sorted m -> (forall k', In k' (map fst m) -> cmp k k' = Lt) -> sorted ((k, v) :: m).
  Proof. intros S H. constructor; [exact S|]. now apply Forall_forall. Qed.

  Lemma get_in k v m : sorted m -> map_get cmp k m = Some v <-> In (k, v) m.
  Proof.
    induction m as [|[k' v'] m IH]; intros S; [cbn; intuition discriminate|].
    pose proof (sorted_tail _ _ S) as S'. specialize (IH S'). cbn [map_get In].
    destruct (cmp k k') eqn:C.
    - apply (order_eq _ O) in C. subst k'. split; [intros [= ->]; now left|]. intros [[= ->]|I]; [reflexivity|].
      apply (in_map fst) in I. apply (sorted_head _ _ _ _ S) in I. cbn in I. rewrite cmp_refl in I. discriminate.
    - split; [discriminate|]. intros [[= <- <-]|I]; [rewrite cmp_refl in C; discriminate|].
      apply (in_map fst) in I. apply (sorted_head _ _ _ _ S) in I. cbn in I.
      pose proof (order_trans _ O _ _ _ C I) as X. rewrite cmp_refl in X. discriminate.
    - rewrite IH. split; [auto|]. intros [[= <- <-]|I]; [rewrite cmp_refl in C; discriminate|exact I].
  Qed.
  Lemma get_none k m : sorted m -> map_get cmp k m = None <-> ~ In k (map fst m).
  Proof.
    intros S. split.
    - intros H I. apply in_map_iff in I. destruct I as ([k' v] & <- & I). apply get_in in I; [|exact S]. cbn in *. congruence.
    - intros H. destruct (map_get cmp k m) as [v|] eqn:E; [|reflexivity]. apply get_in in E; [|exact S].
      exfalso. apply H. apply (in_map fst) in E. exact E.
  Qed.

  Lemma insert_keys k v m k' : In k' (map fst (map_insert cmp k v m)) <-> k' = k \/ In k' (map fst m).
  Proof.
    induction m as [|[k1 v1] m IH]; [cbn; intuition|]. cbn [map_insert].
    destruct (cmp k k1) eqn:C; cbn [map fst In].
    - apply (order_eq _ O) in C. subst k1. intuition.
    - intuition.
    - rewrite IH. intuition.
  Qed.
  Lemma insert_sorted k v m : sorted m -> sorted (map_insert cmp k v m).
  Proof.
    induction m as [|[k1 v1] m IH]; intros S; [repeat constructor|]. cbn [map_insert].
    pose proof (sorted_tail _ _ S) as S'. destruct (cmp k k1) eqn:C.
    - apply sorted_cons; [exact S'|]. intros k' I. exact (sorted_head _ _ _ _ S I).
    - apply sorted_cons; [exact S|]. intros k' [<-|I]; [exact C|].
      exact (order_trans _ O _ _ _ C (sorted_head _ _ _ _ S I)).
    - apply sorted_cons; [now apply IH|]. intros k' I. apply insert_keys in I.
      destruct I as [->|I]; [now apply cmp_gt|exact (sorted_head _ _ _ _ S I)].
  Qed.
  Lemma get_insert k v m k' : sorted m ->
    map_get cmp k' (map_insert cmp k v m) = if keq k' k then Some v else map_get cmp k' m.
  Proof.
    induction m as [|[k1 v1] m IH]; intros S; cbn [map_insert].
    - cbn [map_get]. unfold keq. destruct (cmp k' k); reflexivity.
    - pose proof (sorted_tail _ _ S) as S'. specialize (IH S'). destruct (cmp k k1) eqn:C.
      + apply (order_eq _ O) in C. subst k1. cbn [map_get]. unfold keq. destruct (cmp k' k); reflexivity.
      + cbn [map_get]. unfold keq. destruct (cmp k' k) eqn:C'; [reflexivity| |reflexivity].
        now rewrite (order_trans _ O _ _ _ C' C).
      + cbn [map_get]. rewrite IH. unfold keq. destruct (cmp k' k1) eqn:C1; [|..].
        * apply (order_eq _ O) in C1. subst k'. rewrite cmp_gt in C. now rewrite C.
        * apply cmp_gt in C. now rewrite (order_trans _ O _ _ _ C1 C).
        * reflexivity.
  Qed.
  Lemma remove_keys k m k' : sorted m -> In k' (map fst (map_remove cmp k m)) <-> k' <> k /\ In k' (map fst m).
  Proof.
    induction m as [|[k1 v1] m IH]; intros S; [cbn; intuition|]. cbn [map_remove].
    pose proof (sorted_tail _ _ S) as S'. specialize (IH S'). destruct (cmp k k1) eqn:C; cbn [map fst In].
    - apply (order_eq _ O) in C. subst k1. split.
      + intros I. split; [|now right]. intros ->. apply (sorted_head _ _ _ _ S) in I. rewrite cmp_refl in I. discriminate.
      + intros [N [E|I]]; [congruence|exact I].
    - split; [|tauto]. intros I. split; [|exact I]. intros ->. destruct I as [->|I].
      + now rewrite cmp_refl in C.
      + pose proof (order_trans _ O _ _ _ C (sorted_head _ _ _ _ S I)) as X. rewrite cmp_refl in X. discriminate.
    - rewrite IH. split; [|tauto]. intros [<-|I]; [|tauto]. split; [|now left]. intros ->. now rewrite cmp_refl in C.
  Qed.
  Lemma remove_sorted k m : sorted m -> sorted (map_remove cmp k m).
  Proof.
    induction m as [|[k1 v1] m IH]; intros S; [exact S|]. cbn [map_remove].
    pose proof (sorted_tail _ _ S) as S'. destruct (cmp k k1) eqn:C; [exact S'|exact S|].
    apply sorted_cons; [now apply IH|]. intros k' I. apply remove_keys in I; [|exact S'].
    exact (sorted_head _ _ _ _ S (proj2 I)).
  Qed.
  Lemma in_remove k k' v m : sorted m -> In (k', v) (map_remove cmp k m) <-> k' <> k /\ In (k', v) m.
  Proof.
    intros S. induction m as [|[k1 v1] m IH]; [cbn; intuition|]. cbn [map_remove].
    pose proof (sorted_tail _ _ S) as S'. specialize (IH S'). destruct (cmp k k1) eqn:C; cbn [In].
    - apply (order_eq _ O) in C. subst k1. split.
      + intros I. split; [|now right]. intros ->. apply (in_map fst) in I. apply (sorted_head _ _ _ _ S) in I. cbn in I. rewrite cmp_refl in I. discriminate.
      + intros [N [E|I]]; [congruence|exact I].
    - split; [|tauto]. intros I. split; [|exact I]. intros ->. destruct I as [[= -> _]|I].
      + now rewrite cmp_refl in C.
      + apply (in_map fst) in I. pose proof (order_trans _ O _ _ _ C (sorted_head _ _ _ _ S I)) as X. cbn in X. rewrite cmp_refl in X. discriminate.
    - rewrite IH. split; [|tauto]. intros [[= <- <-]|I]; [|tauto]. split; [|now left]. intros ->. now rewrite cmp_refl in C.
  Qed.
  Lemma in_insert k v m k' v' : sorted m ->
    In (k', v') (map_insert cmp k v m) <-> (k' = k /\ v' = v) \/ (k' <> k /\ In (k', v') m).
  Proof.
    intros S. rewrite <- (get_in k' v' (map_insert cmp k v m)) by now apply insert_sorted.
    rewrite get_insert by exact S. destruct (keq k' k) eqn:E.
    - apply keq_iff in E. subst k'. split; [intros [= ->]; auto|]. intros [[_ ->]|[N _]]; [reflexivity|congruence].
    - rewrite get_in by exact S. split; [|intros [[-> _]|[_ H]]; [now rewrite keq_refl in E|exact H]].
      intros H. right. split; [|exact H]. intros ->. now rewrite keq_refl in E.
  Qed.

  Lemma sorted_nodup m : sorted m -> NoDup (map fst m).
  Proof.
    induction m as [|[k v] m IH]; intros S; [constructor|]. cbn [map fst]. constructor.
    - intros I. apply (sorted_head _ _ _ _ S) in I. rewrite cmp_refl in I. discriminate.
    - apply IH. now apply sorted_tail in S.
  Qed.
  Lemma sorted_ext m1 : forall m2, sorted m1 -> sorted m2 ->
    (forall k, map_get cmp k m1 = map_get cmp k m2) -> m1 = m2.
  Proof.
    induction m1 as [|[k1 v1] m1 IH]; intros m2 S1 S2 H.
    - destruct m2 as [|[k2 v2] m2]; [reflexivity|]. specialize (H k2). cbn in H. rewrite cmp_refl in H. discriminate.
    - destruct m2 as [|[k2 v2] m2]; [specialize (H k1); cbn in H; rewrite cmp_refl in H; discriminate|].
      assert (k1 = k2).
      { pose proof (H k1) as H1. pose proof (H k2) as H2. cbn [map_get] in H1, H2. rewrite cmp_refl in H1, H2.
        destruct (cmp k1 k2) eqn:C; [now apply (order_eq _ O)|discriminate|].
        apply cmp_gt in C. rewrite C in H2. discriminate. }
      subst k2. pose proof (H k1) as H1. cbn [map_get] in H1. rewrite cmp_refl in H1. injection H1 as ->.
      f_equal. apply IH; [now apply sorted_tail in S1|now apply sorted_tail in S2|].
      intros k. specialize (H k). cbn [map_get] in H. destruct (cmp k k1) eqn:C; [| |exact H].
      + apply (order_eq _ O) in C. subst k.
        rewrite (proj2 (get_none k1 m1 (sorted_tail _ _ S1))), (proj2 (get_none k1 m2 (sorted_tail _ _ S2))); [reflexivity| |];
          intros I; [apply (sorted_head _ _ _ _ S2) in I|apply (sorted_head _ _ _ _ S1) in I]; rewrite cmp_refl in I; discriminate.
      + assert (N : forall m, sorted ((k1, v2) :: m) -> map_get cmp k m = None).
        { intros m S. apply get_none; [now apply sorted_tail in S|]. intros I. apply (sorted_head _ _ _ _ S) in I.
          pose proof (order_trans _ O _ _ _ C I) as X. rewrite cmp_refl in X. discriminate. }
        rewrite (N m1 S1), (N m2 S2). reflexivity.
  Qed.
  Lemma insert_last k v m : (forall k', In k' (map fst m) -> cmp k' k = Lt) -> map_insert cmp k v m = m ++ [(k, v)].
  Proof.
    induction m as [|[k1 v1] m IH]; intros H; [reflexivity|]. cbn [map_insert app].
    assert (C : cmp k k1 = Gt) by (apply cmp_gt, H; now left). rewrite C. f_equal. apply IH. intros k' I. apply H. now right.
  Qed.
End Ord.

(** * split *)
Section SplitFacts.
  Context {K S I R : Type}.
  Variable cmp : K -> K -> comparison.
  Hypothesis O : total_order cmp.
  Variable keyfn : I -> outcome K.
  Variable key : I -> K.
  Variable redfn : K -> S.
  Variable red : Reduce S I R.
  Notation Sp := (Split cmp keyfn redfn red).
  Definition sub (k : K) (xs : list I) : list I := filter (fun x => keq cmp (key x) k) xs.
  Definition start (m : list (K * S)) (k : K) : S := match map_get cmp k m with Some s => s | None => redfn k end.

  Lemma feed_split xs : forall m (fin : K -> S), (forall x, In x xs -> keyfn x = Ret (key x)) -> sorted cmp m ->
    (forall k, In k (map key xs) -> feed red (start m k) (sub k xs) = Ret (fin k)) ->
    exists m', feed Sp m xs = Ret m' /\ sorted cmp m' /\
      forall k, (In k (map key xs) -> map_get cmp k m' = Some (fin k)) /\
                (~ In k (map key xs) -> map_get cmp k m' = map_get cmp k m).
  Proof.
    induction xs as [|x xs IH]; intros m fin KF SM F.
    - exists m. repeat split; auto. intros [].
    - cbn [feed Split rnext]. rewrite KF by now left. cbn [obind]. fold (start m (key x)).
      assert (Fx := F (key x) (or_introl eq_refl)). unfold sub in Fx. cbn [filter] in Fx.
      rewrite keq_refl in Fx by exact O. cbn [feed] in Fx.
      destruct (rnext red (start m (key x)) x) as [s'| |] eqn:N; try discriminate Fx. cbn [obind] in *.
      set (m1 := map_insert cmp (key x) s' m).
      assert (S1 : sorted cmp m1) by now apply insert_sorted.
      assert (G1 : forall k, map_get cmp k m1 = if keq cmp k (key x) then Some s' else map_get cmp k m)
        by (intros; now apply get_insert).
      assert (St : forall k, start m1 k = if keq cmp k (key x) then s' else start m k).
      { intros k. unfold start. rewrite G1. now destruct (keq cmp k (key x)). }
      assert (Sb : forall k, sub k (x :: xs) = if keq cmp k (key x) then x :: sub k xs else sub k xs).
      { intros k. unfold sub. cbn [filter]. destruct (keq cmp k (key x)) eqn:E.
        - apply keq_iff in E; [|exact O]. subst k. now rewrite keq_refl.
        - destruct (keq cmp (key x) k) eqn:E'; [|reflexivity]. apply keq_iff in E'; [|exact O]. subst k. now rewrite keq_refl in E. }
      destruct (IH m1 fin) as (m' & E & S' & G'); auto.
      { intros; apply KF; now right. }
      { intros k Ik. rewrite St. assert (Fk := F k (or_intror Ik)). rewrite Sb in Fk.
        destruct (keq cmp k (key x)) eqn:E; [|exact Fk].
        apply keq_iff in E; [|exact O]. subst k. cbn [feed] in Fk. rewrite N in Fk. exact Fk. }
      exists m'. split; [exact E|]. split; [exact S'|]. intros k. destruct (G' k) as [Ga Gb]. split.
      + intros Ik. destruct (in_dec (keq_dec cmp O) k (map key xs)) as [Y|Y]; [now apply Ga|].
        rewrite Gb by exact Y. destruct Ik as [<-|Ik]; [|contradiction]. rewrite G1, keq_refl by exact O.
        f_equal. assert (X : filter (fun y => keq cmp (key y) (key x)) xs = []).
        { clear - Y O. induction xs as [|y xs IH]; [reflexivity|]. cbn [filter]. destruct (keq cmp (key y) (key x)) eqn:E.
          - apply keq_iff in E; [|exact O]. exfalso. apply Y. left. exact E.
          - apply IH. intros H. apply Y. now right. }
        rewrite X in Fx. cbn in Fx. congruence.
      + intros NI. rewrite Gb by (intros H; apply NI; now right). rewrite G1.
        destruct (keq cmp k (key x)) eqn:E1; [|reflexivity]. apply keq_iff in E1; [|exact O]. subst k. exfalso. apply NI. now left.
  Qed.

  Lemma split_finalize_spec m : forall acc (res : K -> R),
    (forall k s, In (k, s) m -> rfinal red s = Ret (res k)) -> sorted cmp m ->
    (forall k k', In k (map fst acc) -> In k' (map fst m) -> cmp k k' = Lt) ->
    split_finalize cmp red m acc = Ret (acc ++ map (fun k => (k, res k)) (map fst m)).
  Proof.
    induction m as [|[k s] m IH]; intros acc res F S' B; cbn [split_finalize].
    - now rewrite app_nil_r.
    - rewrite (F k s (or_introl eq_refl)). cbn [obind]. rewrite insert_last; [|exact O|].
      + rewrite (IH _ res); [now rewrite <- app_assoc|intros; apply F; now right|now apply sorted_tail in S'|].
        intros k1 k2 I1 I2. rewrite map_app in I1. apply in_app_or in I1. destruct I1 as [I1|[<-|[]]].
        * apply B; [exact I1|now right].
        * exact (sorted_head cmp _ _ _ _ S' I2).
      + intros k' Ik. apply B; [exact Ik|now left].
  Qed.

  Lemma run_split xs (res : K -> R) : (forall x, In x xs -> keyfn x = Ret (key x)) ->
    (forall k, In k (map key xs) -> run_reduce red (redfn k) (sub k xs) = Ret (res k)) ->
    exists ks, ascending cmp ks /\ (forall k, In k ks <-> In k (map key xs)) /\
      run_reduce Sp [] xs = Ret (map (fun k => (k, res k)) ks).
  Proof.
    intros KF F.
    assert (Fin : exists fin, forall k, In k (map key xs) -> feed red (redfn k) (sub k xs) = Ret (fin k) /\ rfinal red (fin k) = Ret (res k)).
    { exists (fun k => match feed red (redfn k) (sub k xs) with Ret s => s | _ => redfn k end).
      intros k Ik. specialize (F k Ik). unfold run_reduce in F.
      destruct (feed red (redfn k) (sub k xs)) as [s| |]; try discriminate F. split; [reflexivity|exact F]. }
    destruct Fin as [fin Fin].
    destruct (feed_split xs [] fin KF (sorted_nil cmp)) as (m & E & SM & G).
    { intros k Ik. apply Fin, Ik. }
    exists (map fst m). split; [exact SM|].
    assert (KS : forall k, In k (map fst m) <-> In k (map key xs)).
    { intros k. destruct (G k) as [Ga Gb]. destruct (in_dec (keq_dec cmp O) k (map key xs)) as [Y|Y].
      - split; [auto|]. intros _. specialize (Ga Y). apply get_in in Ga; [|exact O|exact SM]. apply (in_map fst) in Ga. exact Ga.
      - split; [|contradiction]. intros I1. specialize (Gb Y). cbn in Gb. apply get_none in Gb; [contradiction|exact O|exact SM]. }
    split; [exact KS|]. unfold run_reduce. rewrite E. cbn [obind Split rfinal].
    rewrite (split_finalize_spec m [] res); [reflexivity| |exact SM|intros k k' []].
    intros k s Iks. assert (Ik : In k (map key xs)) by (apply KS; apply (in_map fst) in Iks; exact Iks).
    apply (get_in cmp O) in Iks; [|exact SM]. rewrite (proj1 (G k) Ik) in Iks. injection Iks as <-. apply Fin, Ik.
  Qed.
End SplitFacts.

(** * Counting *)
Lemma feed_fold {Acc I} (f : Acc -> I -> outcome Acc) (g : Acc -> I -> Acc) xs : forall acc,
  (forall a x, In x xs -> f a x = Ret (g a x)) -> feed (Fold f) acc xs = Ret (fold_left g xs acc).
Proof.
  induction xs as [|x xs IH]; intros acc H; [reflexivity|]. cbn [feed Fold rnext]. rewrite H by now left. cbn [obind fold_left].
  apply IH. intros; apply H; now right.
Qed.
Lemma run_fold {Acc I} (f : Acc -> I -> outcome Acc) (g : Acc -> I -> Acc) xs acc :
  (forall a x, In x xs -> f a x = Ret (g a x)) -> run_reduce (Fold f) acc xs = Ret (fold_left g xs acc).
Proof. intros H. unfold run_reduce. rewrite (feed_fold f g) by exact H. reflexivity. Qed.
Lemma run_count {I} (xs : list I) : run_reduce Count 0 xs = Ret (length xs).
Proof.
  unfold Count. rewrite (run_fold _ (fun acc _ => acc + 1)) by reflexivity. f_equal.
  assert (G : forall acc, fold_left (fun acc (_ : I) => acc + 1) xs acc = acc + length xs).
  { induction xs as [|x xs IH]; intros acc; cbn [fold_left length]; [lia|]. rewrite IH. lia. }
  apply G.
Qed.
Lemma run_countg {I} (xs : list I) : run_reduce CountG (0, tt) xs = Ret (length xs).
Proof. unfold CountG. rewrite (run_over Count NilAdapter 1 tt xs xs (delivers_nil xs)) by lia. apply run_count. Qed.
Lemma run_collect {I} (xs : list I) : forall acc, run_reduce Collect acc xs = Ret (acc ++ xs).
Proof.
  intros acc. unfold Collect. rewrite (run_fold _ (fun acc next => acc ++ [next])) by reflexivity. f_equal.
  revert acc. induction xs as [|x xs IH]; intros acc; cbn [fold_left]; [now rewrite app_nil_r|].
  rewrite IH, <- app_assoc. reflexivity.
Qed.

Section Hist.
  Context {I K : Type}.
  Variable cmp : K -> K -> comparison.
  Hypothesis O : total_order cmp.

  (** The number of elements with key [k]. *)
  Definition freq (key : I -> K) (k : K) (xs : list I) : nat := length (sub cmp key k xs).

  Lemma histogram_spec (keyfn : I -> outcome K) (key : I -> K) xs : (forall x, In x xs -> keyfn x = Ret (key x)) ->
    exists ks, ascending cmp ks /\ (forall k, In k ks <-> In k (map key xs)) /\
      histogram cmp keyfn xs = Ret (map (fun k => (k, freq key k xs)) ks).
  Proof.
    intros H. apply (run_split cmp O keyfn key (fun _ => (0, tt)) CountG xs (fun k => freq key k xs) H).
    intros k _. apply run_countg.
  Qed.

  Lemma ascending_nodup ks : ascending cmp ks -> NoDup ks.
  Proof.
    induction ks as [|k ks IH]; intros H; [constructor|]. inv H. constructor; [|now apply IH].
    intros Ik. match goal with H : Forall _ _ |- _ => rewrite Forall_forall in H; apply H in Ik end.
    rewrite (cmp_refl cmp O) in Ik. discriminate.
  Qed.

  (** Summing any weight over the histogram is summing it over the elements. *)
  Lemma freq_sum (key : I -> K) (w : K -> N) xs ks : NoDup ks -> (forall x, In x xs -> In (key x) ks) ->
    fold_right N.add 0%N (map (fun k => (w k * N.of_nat (freq key k xs))%N) ks) =
    fold_right N.add 0%N (map (fun x => w (key x)) xs).
  Proof.
    intros ND. induction xs as [|x xs IH]; intros H.
    - cbn [map fold_right]. clear. induction ks as [|k ks IH]; [reflexivity|]. cbn [map fold_right]. rewrite IH. cbn. lia.
    - cbn [map fold_right]. rewrite <- IH by (intros; apply H; now right). clear IH.
      assert (Ix : In (key x) ks) by (apply H; now left). clear H.
      induction ks as [|k ks IHk]; [destruct Ix|]. inv ND. cbn [map fold_right].
      assert (Fr : forall k', freq key k' (x :: xs) = (if keq cmp (key x) k' then 1 else 0) + freq key k' xs).
      { intros k'. unfold freq, sub. cbn [filter]. now destruct (keq cmp (key x) k'). }
      rewrite Fr. destruct (keq cmp (key x) k) eqn:E.
      + apply (keq_iff cmp O) in E. subst k.
        assert (X : map (fun k => (w k * N.of_nat (freq key k (x :: xs)))%N) ks = map (fun k => (w k * N.of_nat (freq key k xs))%N) ks).
        { apply map_ext_in. intros k' I'. rewrite Fr. destruct (keq cmp (key x) k') eqn:E; [|reflexivity].
          apply (keq_iff cmp O) in E. subst k'. contradiction. }
        rewrite X. lia.
      + destruct Ix as [->|Ix]; [now rewrite (keq_refl cmp O) in E|]. rewrite IHk; auto. lia.
  Qed.
End Hist.

(** The orders of the key types. *)
Lemma N_order : total_order N.compare.
Proof.
  split.
  - apply N.compare_eq_iff.
  - intros a b. apply N.compare_antisym.
  - intros a b c. rewrite !N.compare_lt_iff. lia.
Qed.
