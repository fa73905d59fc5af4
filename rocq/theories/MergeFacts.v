(** Facts about merge and the merging of overlapping periods. *)
From Verif Require Import Base DltModel MatchModel GenModel ToolsModel Spec BaseFacts GenFacts MapFacts.
From Coq Require Import Sorted.

Section Merge.
  Context {K I : Type}.
  Variable cmp : K -> K -> comparison.
  Hypothesis O : total_order cmp.
  Variable f : I -> I -> option I.
  Variable key : I -> K.

  (** The first entry that merges with [x]. *)
  Fixpoint partner (x : I) (m : list (K * I)) : option (I * I) :=
    match m with
    | [] => None
    | (_, p) :: m' => match f p x with Some v => Some (p, v) | None => partner x m' end
    end.
  Definition merge_in (m : list (K * I)) (x : I) : list (K * I) :=
    match partner x m with
    | Some (p, v) => map_insert cmp (key v) v (map_remove cmp (key p) m)
    | None => map_insert cmp (key x) x m
    end.
  Definition merged (xs : list I) : list I := map snd (fold_left merge_in xs []).

  Notation Mg := (Merge cmp (fun a b => Ret (f a b)) (fun x => Ret (key x))).

  Lemma merge_find_ret x m : merge_find (fun a b => Ret (f a b)) x m = Ret (partner x m).
  Proof.
    induction m as [|[k p] m IH]; [reflexivity|]. cbn [merge_find obind partner]. destruct (f p x); [reflexivity|exact IH].
  Qed.
  Lemma merge_pushes xs : forall m, pushes Mg (m, None) xs (fold_left merge_in xs m, None) [].
  Proof.
    induction xs as [|x xs IH]; intros m; [constructor|]. cbn [fold_left].
    change (@nil I) with (olist (@None I) ++ []). econstructor; [|apply IH].
    cbn [adapt Merge]. rewrite merge_find_ret. cbn [obind]. unfold merge_in.
    destruct (partner x m) as [[p v]|]; reflexivity.
  Qed.
  Lemma merge_drains_it l : forall m, drains Mg (S (length l)) (m, Some l) (map snd l).
  Proof.
    induction l as [|[k v] l IH]; intros m; cbn [length map snd].
    - now apply (D_end _ _ (m, Some [])).
    - change (v :: map snd l) with (olist (Some v) ++ map snd l). eapply D_more; [reflexivity|apply IH].
  Qed.
  Lemma merge_drains m : drains Mg (S (length m)) (m, None) (map snd m).
  Proof.
    destruct m as [|[k v] l]; cbn [length map snd].
    - now apply (D_end _ _ ([], Some [])).
    - change (v :: map snd l) with (olist (Some v) ++ map snd l). eapply D_more; [reflexivity|apply merge_drains_it].
  Qed.
  Lemma delivers_merge xs : exists n, n = S (length (merged xs)) /\ delivers Mg n ([], None) xs (merged xs).
  Proof.
    exists (S (length (merged xs))). split; [reflexivity|].
    exists (fold_left merge_in xs [], None), [], (merged xs). split; [apply merge_pushes|]. split; [|reflexivity].
    unfold merged. rewrite map_length. apply merge_drains.
  Qed.

  Lemma partner_in x m p v : partner x m = Some (p, v) -> f p x = Some v /\ exists k, In (k, p) m.
  Proof.
    induction m as [|[k q] m IH]; [discriminate|]. cbn [partner]. destruct (f q x) as [w|] eqn:E.
    - intros [= -> ->]. split; [exact E|]. exists k. now left.
    - intros H. destruct (IH H) as (H1 & k' & H2). split; [exact H1|]. exists k'. now right.
  Qed.
  Lemma partner_none x m : partner x m = None -> forall k p, In (k, p) m -> f p x = None.
  Proof.
    induction m as [|[k q] m IH]; [intros _ k p []|]. cbn [partner]. destruct (f q x) as [w|] eqn:E; [discriminate|].
    intros H k' p [[= <- <-]|I1]; [exact E|eapply IH; eassumption].
  Qed.

  (** The map is sorted and entries are filed under their own key. *)
  Definition filed (m : list (K * I)) : Prop := sorted cmp m /\ forall k v, In (k, v) m -> k = key v.
  Lemma merge_in_filed m x : filed m -> filed (merge_in m x).
  Proof.
    intros [S F]. unfold merge_in. destruct (partner x m) as [[p v]|].
    - assert (S' := remove_sorted cmp O (key p) m S). split; [now apply insert_sorted|].
      intros k w H. apply (in_insert cmp O) in H; [|exact S']. destruct H as [[-> ->]|[_ H]]; [reflexivity|].
      apply (in_remove cmp O) in H; [|exact S]. apply F, H.
    - split; [now apply insert_sorted|]. intros k w H. apply (in_insert cmp O) in H; [|exact S].
      destruct H as [[-> ->]|[_ H]]; [reflexivity|now apply F].
  Qed.
  Lemma filed_nil : filed []. Proof. split; [constructor|intros k v []]. Qed.
  Lemma fold_filed xs : forall m, filed m -> filed (fold_left merge_in xs m).
  Proof. induction xs as [|x xs IH]; intros m H; [exact H|]. cbn. now apply IH, merge_in_filed. Qed.

  Lemma filed_in m v : filed m -> In v (map snd m) <-> In (key v, v) m.
  Proof.
    intros [_ F]. rewrite in_map_iff. split.
    - intros ([k w] & <- & H). cbn. rewrite <- (F k w H). exact H.
    - intros H. exists (key v, v). auto.
  Qed.
  Lemma merge_in_in m x w : filed m ->
    In w (map snd (merge_in m x)) <->
    match partner x m with
    | Some (p, v) => w = v \/ (key w <> key v /\ key w <> key p /\ In w (map snd m))
    | None => w = x \/ (key w <> key x /\ In w (map snd m))
    end.
  Proof.
    intros Fm. rewrite filed_in by now apply merge_in_filed. unfold merge_in.
    destruct (partner x m) as [[p v]|].
    - rewrite (in_insert cmp O) by now apply remove_sorted, Fm. rewrite (in_remove cmp O) by apply Fm.
      rewrite (filed_in m w Fm). split.
      + intros [[_ ->]|H]; [now left|right; tauto].
      + intros [->|H]; [left; auto|right; tauto].
    - rewrite (in_insert cmp O) by apply Fm. rewrite (filed_in m w Fm). split.
      + intros [[_ ->]|H]; [now left|right; tauto].
      + intros [->|H]; [left; auto|right; tauto].
  Qed.
End Merge.

(** * Periods of storage entries *)
Definition covers (t : N) (p : period) : Prop := (esecs (fst p) <= t <= esecs (snd p))%N.
Definition covered (t : N) (l : list period) : Prop := exists p, In p l /\ covers t p.
Definition proper (p : period) : Prop := (esecs (fst p) <= esecs (snd p))%N.

Lemma pair_order : total_order pair_cmp.
Proof.
  assert (L : forall a b, pair_cmp a b = Lt <-> (fst a < fst b \/ (fst a = fst b /\ snd a < snd b))%N).
  { intros a b. unfold pair_cmp. destruct (N.compare_spec (fst a) (fst b)).
    - rewrite N.compare_lt_iff. intuition lia.
    - intuition lia.
    - split; [discriminate|lia]. }
  split.
  - intros [a1 a2] [b1 b2]. unfold pair_cmp. cbn [fst snd]. destruct (N.compare_spec a1 b1).
    + subst. rewrite N.compare_eq_iff. split; [intros ->; reflexivity|congruence].
    + split; [discriminate|intros [= -> ->]; lia].
    + split; [discriminate|intros [= -> ->]; lia].
  - intros a b. unfold pair_cmp. rewrite (N.compare_antisym (fst a) (fst b)), (N.compare_antisym (snd a) (snd b)).
    destruct (N.compare (fst a) (fst b)); reflexivity.
  - intros a b c. rewrite !L. lia.
Qed.

Lemma max_secs_spec a b : esecs (max_secs a b) = N.max (esecs a) (esecs b).
Proof. unfold max_secs. destruct (N.leb_spec (esecs b) (esecs a)); lia. Qed.

Lemma overlap_spec a b : proper a -> proper b ->
  match merge_overlapping a b with
  | Some v => proper v /\ (esecs (fst v) = N.min (esecs (fst a)) (esecs (fst b)))%N /\
              (esecs (snd v) = N.max (esecs (snd a)) (esecs (snd b)))%N /\ (forall t, covers t v <-> covers t a \/ covers t b)
  | None => forall t, ~ (covers t a /\ covers t b)
  end.
Proof.
  unfold proper, covers, merge_overlapping. intros Ha Hb.
  destruct (N.leb_spec (esecs (fst a)) (esecs (fst b))) as [H1|H1];
  destruct (N.leb_spec (esecs (fst b)) (esecs (snd a))) as [H2|H2];
  destruct (N.leb_spec (esecs (fst b)) (esecs (fst a))) as [H3|H3];
  destruct (N.leb_spec (esecs (fst a)) (esecs (snd b))) as [H4|H4]; cbn [andb fst snd];
  rewrite ?max_secs_spec;
  (split; [lia|split; [lia|split; [lia|intros t; lia]]]) || (intros t; lia).
Qed.

Notation pm := (merge_in pair_cmp merge_overlapping period_key).

Lemma key_covers a b t : period_key a = period_key b -> covers t a <-> covers t b.
Proof. unfold period_key, covers. intros [= -> ->]. reflexivity. Qed.

Definition pfiled := filed pair_cmp period_key.
Lemma pm_step m x : pfiled m -> Forall proper (map snd m) -> proper x ->
  Forall proper (map snd (pm m x)) /\ forall t, covered t (map snd (pm m x)) <-> covered t (map snd m) \/ covers t x.
Proof.
  intros F P X.
  assert (IN := merge_in_in pair_cmp pair_order merge_overlapping period_key m x).
  destruct (partner merge_overlapping x m) as [[p v]|] eqn:E.
  - destruct (partner_in _ _ _ _ _ E) as (E1 & k & Ik).
    assert (Ip : In p (map snd m)) by (apply (in_map snd) in Ik; exact Ik).
    assert (Pp : proper p) by (rewrite Forall_forall in P; now apply P).
    pose proof (overlap_spec p x Pp X) as OV. rewrite E1 in OV. destruct OV as (V1 & _ & _ & V2). split.
    + apply Forall_forall. intros w Iw. apply IN in Iw; [|exact F]. destruct Iw as [->|(_ & _ & Iw)]; [exact V1|].
      rewrite Forall_forall in P. now apply P.
    + intros t. split.
      * intros (w & Iw & C). apply IN in Iw; [|exact F]. destruct Iw as [->|(_ & _ & Iw)].
        -- apply V2 in C. destruct C as [C|C]; [left; now exists p|now right].
        -- left. now exists w.
      * intros C. assert (D : covers t v \/ ~ covers t v) by (unfold covers; lia). destruct D as [D|D].
        { exists v. split; [|exact D]. apply IN; [exact F|now left]. }
        destruct C as [(w & Iw & C)|C]; [|exfalso; apply D, V2; now right].
        exists w. split; [|exact C]. apply IN; [exact F|]. right. split; [|split; [|exact Iw]].
        -- intros Q. apply D. now apply (key_covers w v t Q).
        -- intros Q. apply D, V2. left. now apply (key_covers w p t Q).
  - split.
    + apply Forall_forall. intros w Iw. apply IN in Iw; [|exact F]. destruct Iw as [->|(_ & Iw)]; [exact X|].
      rewrite Forall_forall in P. now apply P.
    + intros t. split.
      * intros (w & Iw & C). apply IN in Iw; [|exact F]. destruct Iw as [->|(_ & Iw)]; [now right|left; now exists w].
      * intros C. assert (D : covers t x \/ ~ covers t x) by (unfold covers; lia). destruct D as [D|D].
        { exists x. split; [|exact D]. apply IN; [exact F|now left]. }
        destruct C as [(w & Iw & C)|C]; [|contradiction].
        exists w. split; [|exact C]. apply IN; [exact F|]. right. split; [|exact Iw].
        intros Q. apply D. now apply (key_covers w x t Q).
Qed.
Lemma pm_fold xs : forall m, pfiled m -> Forall proper (map snd m) -> Forall proper xs ->
  pfiled (fold_left pm xs m) /\ Forall proper (map snd (fold_left pm xs m)) /\
  forall t, covered t (map snd (fold_left pm xs m)) <-> covered t (map snd m) \/ covered t xs.
Proof.
  induction xs as [|x xs IH]; intros m F P X.
  - cbn. split; [exact F|]. split; [exact P|]. intros t. split; [now left|]. intros [H|(p & [] & _)]; exact H.
  - inv X. destruct (pm_step m x F P H1) as [P' C']. cbn [fold_left].
    destruct (IH (pm m x)) as (F'' & P'' & C''); auto.
    { now apply merge_in_filed; [apply pair_order|]. }
    split; [exact F''|]. split; [exact P''|]. intros t. rewrite C'', C'. unfold covered. cbn [In]. split.
    + intros [[H|H]|(p & I & H)]; [now left|right; exists x; auto|right; exists p; auto].
    + intros [H|(p & [->|I] & H)]; [auto|auto|right; now exists p].
Qed.

(** Ascending keys: ascending starts. *)
Lemma filed_starts m : pfiled m -> StronglySorted (fun p q => (esecs (fst p) <= esecs (fst q))%N) (map snd m).
Proof.
  intros [S F]. induction m as [|[k v] m IH]; [constructor|]. cbn [map snd]. constructor.
  - apply IH; [now apply sorted_tail in S|intros; apply F; now right].
  - apply Forall_forall. intros w Iw. apply in_map_iff in Iw. destruct Iw as ([k' w'] & <- & Iw). cbn.
    assert (k = period_key v) by (apply F; now left). assert (k' = period_key w') by (apply F; now right). subst.
    apply (in_map fst) in Iw. apply (sorted_head _ _ _ _ _ S) in Iw. cbn in Iw. unfold pair_cmp, period_key in Iw. cbn [fst snd] in Iw.
    destruct (N.compare_spec (esecs (fst v)) (esecs (fst w'))); [lia|lia|discriminate].
Qed.

(** Disjoint periods stay disjoint if the periods arrive by start. *)
Definition disjoint (p q : period) : Prop := (esecs (snd p) < esecs (fst q))%N.
Lemma pm_disjoint m x : pfiled m -> Forall proper (map snd m) -> proper x ->
  (forall p q, In p (map snd m) -> In q (map snd m) -> p <> q -> disjoint p q \/ disjoint q p) ->
  (forall p, In p (map snd m) -> (esecs (fst p) <= esecs (fst x))%N) ->
  forall p q, In p (map snd (pm m x)) -> In q (map snd (pm m x)) -> p <> q -> disjoint p q \/ disjoint q p.
Proof.
  intros F P X D A. rewrite Forall_forall in P.
  assert (IN := merge_in_in pair_cmp pair_order merge_overlapping period_key m x).
  assert (NK : forall p q, In p (map snd m) -> In q (map snd m) -> period_key p <> period_key q -> disjoint p q \/ disjoint q p).
  { intros p q Ip Iq N. apply D; auto. intros ->. congruence. }
  destruct (partner merge_overlapping x m) as [[p0 v]|] eqn:E.
  - destruct (partner_in _ _ _ _ _ E) as (E1 & k & Ik).
    assert (Ip : In p0 (map snd m)) by (apply (in_map snd) in Ik; exact Ik).
    pose proof (overlap_spec p0 x (P p0 Ip) X) as OV. rewrite E1 in OV. destruct OV as (V1 & V3 & V4 & V2).
    assert (G : forall w, In w (map snd m) -> period_key w <> period_key p0 -> disjoint w v).
    { intros w Iw N. pose proof (A w Iw). pose proof (A p0 Ip). pose proof (P w Iw). pose proof (P p0 Ip).
      unfold proper, disjoint in *. assert (C : covers (esecs (fst x)) p0).
      { unfold merge_overlapping in E1. unfold covers.
        destruct (N.leb_spec (esecs (fst p0)) (esecs (fst x))); [|lia].
        destruct (N.leb_spec (esecs (fst x)) (esecs (snd p0))); [lia|]. cbn [andb] in E1.
        destruct (N.leb_spec (esecs (fst x)) (esecs (fst p0))); [|discriminate]. lia. }
      unfold covers in C. destruct (NK w p0 Iw Ip N) as [D1|D1]; unfold disjoint in D1; lia. }
    intros p q Hp Hq N. apply IN in Hp, Hq; try exact F.
    destruct Hp as [->|(P1 & P2 & P3)], Hq as [->|(Q1 & Q2 & Q3)]; [congruence| | |].
    + right. now apply G.
    + left. now apply G.
    + now apply D.
  - assert (G : forall w, In w (map snd m) -> disjoint w x).
    { intros w Iw. apply in_map_iff in Iw. destruct Iw as ([k w'] & <- & Iw). cbn.
      pose proof (partner_none _ _ _ E k w' Iw) as NO. apply (in_map snd) in Iw. cbn in Iw.
      pose proof (overlap_spec w' x (P w' Iw) X) as OV. rewrite NO in OV.
      pose proof (A w' Iw). pose proof (P w' Iw). specialize (OV (esecs (fst x))). unfold disjoint, covers, proper in *. lia. }
    intros p q Hp Hq N. apply IN in Hp, Hq; try exact F.
    destruct Hp as [->|(P1 & P3)], Hq as [->|(Q1 & Q3)]; [congruence| | |].
    + right. now apply G.
    + left. now apply G.
    + now apply D.
Qed.
Lemma pm_starts m x : pfiled m -> Forall proper (map snd m) -> proper x ->
  (forall p, In p (map snd m) -> (esecs (fst p) <= esecs (fst x))%N) ->
  forall p, In p (map snd (pm m x)) -> (esecs (fst p) <= esecs (fst x))%N.
Proof.
  intros F P X A p Ip. rewrite Forall_forall in P.
  apply (merge_in_in pair_cmp pair_order merge_overlapping period_key m x p F) in Ip.
  destruct (partner merge_overlapping x m) as [[p0 v]|] eqn:E.
  - destruct Ip as [->|(_ & _ & Ip)]; [|now apply A].
    destruct (partner_in _ _ _ _ _ E) as (E1 & k & Ik). apply (in_map snd) in Ik. cbn in Ik.
    pose proof (overlap_spec p0 x (P p0 Ik) X) as OV. rewrite E1 in OV. destruct OV as (_ & V & _). lia.
  - destruct Ip as [->|(_ & Ip)]; [lia|now apply A].
Qed.
Lemma pm_fold_disjoint xs : forall m, pfiled m -> Forall proper (map snd m) -> Forall proper xs ->
  (forall p q, In p (map snd m) -> In q (map snd m) -> p <> q -> disjoint p q \/ disjoint q p) ->
  (forall p, In p (map snd m) -> Forall (fun x => (esecs (fst p) <= esecs (fst x))%N) xs) ->
  StronglySorted (fun p q => (esecs (fst p) <= esecs (fst q))%N) xs ->
  forall p q, In p (map snd (fold_left pm xs m)) -> In q (map snd (fold_left pm xs m)) -> p <> q ->
  disjoint p q \/ disjoint q p.
Proof.
  induction xs as [|x xs IH]; intros m F P X D A S; [exact D|]. cbn [fold_left]. inv X. inv S.
  assert (Ax : forall p, In p (map snd m) -> (esecs (fst p) <= esecs (fst x))%N).
  { intros p Ip. specialize (A p Ip). now inv A. }
  apply IH; auto.
  - apply merge_in_filed; [apply pair_order|exact F].
  - now apply pm_step.
  - now apply pm_disjoint.
  - intros p Ip. apply (pm_starts m x) in Ip; auto. eapply Forall_impl; [|eassumption]. cbn. intros. lia.
Qed.

(** Pairwise disjoint and filed: each ends before every later one starts. *)
Lemma filed_disjoint m : pfiled m -> Forall proper (map snd m) ->
  (forall p q, In p (map snd m) -> In q (map snd m) -> p <> q -> disjoint p q \/ disjoint q p) ->
  StronglySorted disjoint (map snd m).
Proof.
  intros [S F]. induction m as [|[k v] m IH]; intros P D; [constructor|]. cbn [map snd] in *. inv P. constructor.
  - apply IH; [now apply sorted_tail in S|intros; apply F; now right|assumption|].
    intros p q Ip Iq. apply D; now right.
  - apply Forall_forall. intros w Iw. pose proof Iw as Jw. apply in_map_iff in Jw. destruct Jw as ([k' w'] & E & Jw). cbn in E. subst w'.
    assert (k = period_key v) by (apply F; now left). assert (k' = period_key w) by (apply F; now right). subst.
    apply (in_map fst) in Jw. apply (sorted_head _ _ _ _ _ S) in Jw. cbn in Jw.
    assert (NE : v <> w). { intros ->. assert (Q : pair_cmp (period_key w) (period_key w) = Eq) by (now apply (order_eq _ pair_order)). congruence. }
    destruct (D v w (or_introl eq_refl) (or_intror Iw) NE) as [Q|Q]; [exact Q|].
    exfalso. unfold pair_cmp, period_key in Jw. cbn [fst snd] in Jw. unfold disjoint in Q.
    assert (PW : proper w) by (rewrite Forall_forall in H2; now apply H2). unfold proper in *.
    destruct (N.compare_spec (esecs (fst v)) (esecs (fst w))); [lia|lia|discriminate].
Qed.
