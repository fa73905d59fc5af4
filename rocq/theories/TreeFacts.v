(** Merging maps, and reductions that do not depend on the tree. *)
From Verif Require Import Base DltModel MatchModel GenModel ToolsModel Spec BaseFacts GenFacts MapFacts.
From Coq Require Import Sorted Permutation.

(** * Reduction trees over a commutative monoid (on the values satisfying [P]) *)
Section Tree.
  Context {A : Type}.
  Variable P : A -> Prop.
  Variable op : A -> A -> A.
  Variable e : A.
  Hypothesis Pe : P e.
  Hypothesis Pop : forall x y, P x -> P y -> P (op x y).
  Hypothesis opC : forall x y, P x -> P y -> op x y = op y x.
  Hypothesis opA : forall x y z, P x -> P y -> P z -> op x (op y z) = op (op x y) z.
  Hypothesis ope : forall x, P x -> op e x = x.

  Definition msum (l : list A) : A := fold_right op e l.
  Lemma msum_P l : Forall P l -> P (msum l).
  Proof. induction 1; [exact Pe|]. cbn. now apply Pop. Qed.
  Lemma msum_app l1 l2 : Forall P l1 -> Forall P l2 -> msum (l1 ++ l2) = op (msum l1) (msum l2).
  Proof.
    intros H1 H2. induction H1 as [|x l1 Hx H1 IH]; cbn [app msum fold_right].
    - symmetry. apply ope. now apply msum_P.
    - fold (msum (l1 ++ l2)). fold (msum l1). rewrite IH. apply opA; [exact Hx|now apply msum_P|now apply msum_P].
  Qed.
  Lemma tree_msum t : Forall P (leaves t) -> reduce_tree e op t = msum (leaves t).
  Proof.
    induction t as [|a|l IHl r IHr]; cbn [leaves reduce_tree]; intros H.
    - reflexivity.
    - inv H. cbn. rewrite opC by assumption. now rewrite ope.
    - apply Forall_app in H. destruct H as [H1 H2]. rewrite msum_app, IHl, IHr by assumption. reflexivity.
  Qed.
  Lemma msum_perm l1 l2 : Permutation l1 l2 -> Forall P l1 -> msum l1 = msum l2.
  Proof.
    induction 1 as [|x l1 l2 H IH|x y l|l1 l2 l3 H1 IH1 H2 IH2]; intros F.
    - reflexivity.
    - inv F. cbn. fold (msum l1) (msum l2). now rewrite IH.
    - inv F. match goal with H : Forall P (_ :: _) |- _ => inv H end. cbn. fold (msum l).
      assert (P (msum l)) by now apply msum_P. rewrite !opA by assumption. f_equal. now apply opC.
    - rewrite IH1 by exact F. apply IH2. eapply Permutation_Forall; eassumption.
  Qed.
  Lemma tree_perm t1 t2 : Permutation (leaves t1) (leaves t2) -> Forall P (leaves t1) ->
    reduce_tree e op t1 = reduce_tree e op t2.
  Proof.
    intros H F. rewrite !tree_msum; [now apply msum_perm| |exact F]. eapply Permutation_Forall; eassumption.
  Qed.
End Tree.

(** * Merging sorted maps value by value *)
Section GMerge.
  Context {K V : Type}.
  Variable cmp : K -> K -> comparison.
  Hypothesis O : total_order cmp.
  Variable op : V -> V -> V.
  Variable d : V.

  Definition gmerge (acc next : list (K * V)) : list (K * V) :=
    fold_left (fun acc kv =>
      let e := match map_get cmp (fst kv) acc with Some x => x | None => d end in
      map_insert cmp (fst kv) (op e (snd kv)) acc) next acc.

  Variable P : V -> Prop.
  Hypothesis Pd : P d.
  Hypothesis Pop : forall x y, P x -> P y -> P (op x y).
  Hypothesis opC : forall x y, P x -> P y -> op x y = op y x.
  Hypothesis opA : forall x y z, P x -> P y -> P z -> op x (op y z) = op (op x y) z.
  Hypothesis opd : forall x, P x -> op d x = x.

  Definition wf (m : list (K * V)) : Prop := sorted cmp m /\ Forall (fun kv => P (snd kv)) m.
  Definition oop (a b : option V) : option V :=
    match a, b with
    | Some x, Some y => Some (op x y)
    | Some x, None => Some x
    | None, b => b
    end.

  Lemma wf_get m k v : wf m -> map_get cmp k m = Some v -> P v.
  Proof.
    intros [S F] H. apply (get_in cmp O) in H; [|exact S]. rewrite Forall_forall in F. exact (F _ H).
  Qed.
  Lemma wf_insert m k v : wf m -> P v -> wf (map_insert cmp k v m).
  Proof.
    intros [S F] Pv. split; [now apply insert_sorted|]. apply Forall_forall. intros [k' v'] I.
    apply (in_insert cmp O) in I; [|exact S]. rewrite Forall_forall in F. destruct I as [[_ ->]|[_ I]]; [exact Pv|exact (F _ I)].
  Qed.

  Lemma gmerge_spec next : forall acc, wf acc -> wf next ->
    wf (gmerge acc next) /\ forall k, map_get cmp k (gmerge acc next) = oop (map_get cmp k acc) (map_get cmp k next).
  Proof.
    induction next as [|[k0 v0] next IH]; intros acc WA WN.
    - split; [exact WA|]. intros k. cbn. now destruct (map_get cmp k acc).
    - assert (WN' : wf next).
      { destruct WN as [S F]. inv F. split; [now apply sorted_tail in S|assumption]. }
      assert (P0 : P v0) by (destruct WN as [_ F]; now inv F).
      unfold gmerge. cbn [fold_left fst snd].
      set (x := match map_get cmp k0 acc with Some x => x | None => d end).
      fold (gmerge (map_insert cmp k0 (op x v0) acc) next).
      assert (Px : P x) by (unfold x; destruct (map_get cmp k0 acc) eqn:E; [now apply (wf_get acc k0)|exact Pd]).
      destruct (IH (map_insert cmp k0 (op x v0) acc)) as [W G]; [now apply wf_insert; auto|exact WN'|].
      split; [exact W|]. intros k. rewrite G. rewrite (get_insert cmp O) by apply WA. cbn [map_get].
      unfold keq. destruct (cmp k k0) eqn:C.
      + apply (order_eq _ O) in C. subst k0.
        assert (N : map_get cmp k next = None).
        { apply (get_none cmp O); [apply WN'|]. intros I. destruct WN as [S _].
          apply (sorted_head cmp _ _ _ _ S) in I. rewrite (cmp_refl cmp O) in I. discriminate. }
        rewrite N. unfold x. destruct (map_get cmp k acc); cbn [oop]; [reflexivity|now rewrite opd].
      + assert (N : map_get cmp k next = None).
        { apply (get_none cmp O); [apply WN'|]. intros I. destruct WN as [S _].
          apply (sorted_head cmp _ _ _ _ S) in I. pose proof (order_trans _ O _ _ _ C I) as X. rewrite (cmp_refl cmp O) in X. discriminate. }
        rewrite N. reflexivity.
      + reflexivity.
  Qed.

  Lemma gmerge_wf x y : wf x -> wf y -> wf (gmerge x y).
  Proof. intros. now apply gmerge_spec. Qed.
  Lemma gmerge_get x y k : wf x -> wf y -> map_get cmp k (gmerge x y) = oop (map_get cmp k x) (map_get cmp k y).
  Proof. intros. now apply gmerge_spec. Qed.
  Lemma wf_nil : wf []. Proof. split; constructor. Qed.

  Lemma gmerge_comm x y : wf x -> wf y -> gmerge x y = gmerge y x.
  Proof.
    intros Wx Wy. apply (sorted_ext cmp O); [now apply gmerge_wf|now apply gmerge_wf|].
    intros k. rewrite !gmerge_get by assumption.
    destruct (map_get cmp k x) eqn:Ex, (map_get cmp k y) eqn:Ey; cbn [oop]; try reflexivity.
    f_equal. apply opC; (eapply wf_get; [|eassumption]; assumption).
  Qed.
  Lemma gmerge_assoc x y z : wf x -> wf y -> wf z -> gmerge x (gmerge y z) = gmerge (gmerge x y) z.
  Proof.
    intros Wx Wy Wz. apply (sorted_ext cmp O); [apply gmerge_wf; auto; now apply gmerge_wf|apply gmerge_wf; auto; now apply gmerge_wf|].
    intros k. rewrite !gmerge_get by (assumption || now apply gmerge_wf).
    destruct (map_get cmp k x) eqn:Ex, (map_get cmp k y) eqn:Ey, (map_get cmp k z) eqn:Ez; cbn [oop]; try reflexivity.
    f_equal. apply opA; (eapply wf_get; [|eassumption]; assumption).
  Qed.
  Lemma gmerge_nil x : wf x -> gmerge [] x = x.
  Proof.
    intros Wx. apply (sorted_ext cmp O); [apply gmerge_wf; [apply wf_nil|exact Wx]|apply Wx|].
    intros k. rewrite gmerge_get by (apply wf_nil || exact Wx). reflexivity.
  Qed.

  Lemma gtree_perm t1 t2 : Permutation (leaves t1) (leaves t2) -> Forall wf (leaves t1) ->
    reduce_tree [] gmerge t1 = reduce_tree [] gmerge t2.
  Proof.
    apply (tree_perm wf gmerge []); [apply wf_nil|apply gmerge_wf|apply gmerge_comm|apply gmerge_assoc|apply gmerge_nil].
  Qed.
  Lemma gtree_msum t : Forall wf (leaves t) -> reduce_tree [] gmerge t = msum gmerge [] (leaves t).
  Proof.
    apply (tree_msum wf gmerge []); [apply wf_nil|apply gmerge_wf|apply gmerge_comm|apply gmerge_assoc|apply gmerge_nil].
  Qed.
  Lemma gsum_wf l : Forall wf l -> wf (msum gmerge [] l).
  Proof. apply (msum_P wf gmerge []); [apply wf_nil|apply gmerge_wf]. Qed.
  Lemma gtree_wf t : Forall wf (leaves t) -> wf (reduce_tree [] gmerge t).
  Proof. intros H. rewrite gtree_msum by exact H. now apply gsum_wf. Qed.
  Lemma gtree_get t k : Forall wf (leaves t) ->
    map_get cmp k (reduce_tree [] gmerge t) = fold_right oop None (map (map_get cmp k) (leaves t)).
  Proof.
    intros H. rewrite gtree_msum by exact H. induction H as [|x l Hx H IH]; [reflexivity|].
    cbn [msum fold_right map]. fold (msum gmerge [] l). rewrite gmerge_get by (exact Hx || now apply gsum_wf). now rewrite IH.
  Qed.
End GMerge.

(** * Histograms *)
(** The count of [k] in a histogram. *)
Definition tally {K : Type} (cmp : K -> K -> comparison) (k : K) (h : list (K * nat)) : nat :=
  match map_get cmp k h with Some n => n | None => 0 end.

Lemma hist_merge_gmerge {K} (cmp : K -> K -> comparison) a b : hist_merge cmp a b = gmerge cmp Nat.add 0 a b.
Proof. reflexivity. Qed.
Section HistTree.
  Context {K : Type}.
  Variable cmp : K -> K -> comparison.
  Hypothesis O : total_order cmp.
  Definition okh (h : list (K * nat)) : Prop := sorted cmp h.
  Lemma okh_wf h : okh h <-> wf cmp (fun _ => True) h.
  Proof. split; [intros H; split; [exact H|apply Forall_forall; auto]|intros [H _]; exact H]. Qed.
  Lemma okh_wfs l : Forall okh l -> Forall (wf cmp (fun _ => True)) l.
  Proof. apply Forall_impl. intros h. apply okh_wf. Qed.
  Lemma hist_perm t1 t2 : Permutation (leaves t1) (leaves t2) -> Forall okh (leaves t1) ->
    reduce_tree [] (hist_merge cmp) t1 = reduce_tree [] (hist_merge cmp) t2.
  Proof.
    intros Hp F. apply (gtree_perm cmp O Nat.add 0 (fun _ => True)); auto; try (intros; lia). now apply okh_wfs.
  Qed.
  Lemma hist_ok t : Forall okh (leaves t) -> okh (reduce_tree [] (hist_merge cmp) t).
  Proof.
    intros F. apply okh_wf. apply (gtree_wf cmp O Nat.add 0 (fun _ => True)); auto; try (intros; lia). now apply okh_wfs.
  Qed.
  Lemma hist_get t k : Forall okh (leaves t) ->
    map_get cmp k (reduce_tree [] (hist_merge cmp) t) = fold_right (oop Nat.add) None (map (map_get cmp k) (leaves t)).
  Proof.
    intros F. apply (gtree_get cmp O Nat.add 0 (fun _ => True)); auto; try (intros; lia). now apply okh_wfs.
  Qed.
  Lemma hist_tally t k : Forall okh (leaves t) ->
    tally cmp k (reduce_tree [] (hist_merge cmp) t) = list_sum (map (tally cmp k) (leaves t)).
  Proof.
    intros F. unfold tally at 1. rewrite hist_get by exact F. clear F.
    induction (leaves t) as [|h l IH]; [reflexivity|]. cbn [map fold_right list_sum]. unfold tally at 1.
    change (fold_right Nat.add 0 (map (tally cmp k) l)) with (list_sum (map (tally cmp k) l)). rewrite <- IH.
    destruct (map_get cmp k h), (fold_right (oop Nat.add) None (map (map_get cmp k) l)); cbn [oop]; lia.
  Qed.
  Lemma hist_keys t k : Forall okh (leaves t) ->
    In k (map fst (reduce_tree [] (hist_merge cmp) t)) <-> exists h, In h (leaves t) /\ In k (map fst h).
  Proof.
    intros F. assert (OK := hist_ok t F).
    assert (G : forall h, okh h -> In k (map fst h) <-> map_get cmp k h <> None).
    { intros h Hh. rewrite (get_none cmp O k h Hh). destruct (in_dec (keq_dec cmp O) k (map fst h)); tauto. }
    rewrite G, hist_get by assumption. clear OK.
    induction F as [|h l Hh F IH]; cbn [map fold_right In].
    - split; [congruence|intros (h & [] & _)].
    - split.
      + intros H. destruct (map_get cmp k h) eqn:E.
        * exists h. split; [now left|]. apply G; [exact Hh|congruence].
        * destruct IH as [IH _]. destruct IH as (h' & I1 & I2); [exact H|]. exists h'. auto.
      + intros (h' & [->|I1] & I2).
        * apply G in I2; [|exact Hh]. destruct (map_get cmp k h'); [|congruence].
          destruct (fold_right (oop Nat.add) None (map (map_get cmp k) l)); discriminate.
        * destruct IH as [_ IH]. specialize (IH (ex_intro _ h' (conj I1 I2))).
          destruct (map_get cmp k h); [destruct (fold_right (oop Nat.add) None (map (map_get cmp k) l)); discriminate|exact IH].
  Qed.
End HistTree.

Lemma quad_order : total_order quad_cmp.
Proof.
  assert (BI : forall x y, bN x = bN y -> x = y).
  { intros x y H. unfold bN in H. apply (f_equal Strings.Byte.of_N) in H. rewrite !Strings.Byte.of_to_N in H. congruence. }
  assert (L : forall a b c d a' b' c' d', quad_cmp (Quad a b c d) (Quad a' b' c' d') = Lt <->
    (bN a < bN a' \/ (bN a = bN a' /\ (bN b < bN b' \/ (bN b = bN b' /\ (bN c < bN c' \/ (bN c = bN c' /\ bN d < bN d'))))))%N).
  { intros. unfold quad_cmp. destruct (N.compare_spec (bN a) (bN a')); [|intuition lia|split; [discriminate|lia]].
    destruct (N.compare_spec (bN b) (bN b')); [|intuition lia|split; [discriminate|lia]].
    destruct (N.compare_spec (bN c) (bN c')); [|intuition lia|split; [discriminate|lia]].
    rewrite N.compare_lt_iff. intuition lia. }
  split.
  - intros [a b c d] [a' b' c' d']. split; [|intros ->; unfold quad_cmp; now rewrite !N.compare_refl].
    unfold quad_cmp. destruct (N.compare_spec (bN a) (bN a')); try discriminate.
    destruct (N.compare_spec (bN b) (bN b')); try discriminate.
    destruct (N.compare_spec (bN c) (bN c')); try discriminate. intros H4. apply N.compare_eq_iff in H4.
    f_equal; now apply BI.
  - intros [a b c d] [a' b' c' d']. unfold quad_cmp.
    rewrite (N.compare_antisym (bN a) (bN a')), (N.compare_antisym (bN b) (bN b')),
      (N.compare_antisym (bN c) (bN c')), (N.compare_antisym (bN d) (bN d')).
    destruct (N.compare (bN a) (bN a')); try reflexivity. destruct (N.compare (bN b) (bN b')); try reflexivity.
    destruct (N.compare (bN c) (bN c')); reflexivity.
  - intros [a b c d] [a' b' c' d'] [a'' b'' c'' d'']. rewrite !L. lia.
Qed.

(** * Histograms per ECU *)
Definition ecu_entry : Type := (list (N * nat) * nat)%type.
Definition eop (x y : ecu_entry) : ecu_entry := (hist_merge N.compare (fst x) (fst y), snd x + snd y).
Definition eok (x : ecu_entry) : Prop := sorted N.compare (fst x).
Lemma split_merge_gmerge a b : split_merge a b = gmerge quad_cmp eop ([], 0) a b.
Proof. reflexivity. Qed.
Lemma hm_wf h : sorted N.compare h -> wf N.compare (fun _ : nat => True) h.
Proof. intros H. split; [exact H|]. apply Forall_forall. auto. Qed.
Lemma eop_laws : eok ([], 0) /\ (forall x y, eok x -> eok y -> eok (eop x y)) /\
  (forall x y, eok x -> eok y -> eop x y = eop y x) /\
  (forall x y z, eok x -> eok y -> eok z -> eop x (eop y z) = eop (eop x y) z) /\
  (forall x, eok x -> eop ([], 0) x = x).
Proof.
  assert (T1 : forall x y : nat, True -> True -> x + y = y + x) by (intros; lia).
  assert (T2 : forall x y z : nat, True -> True -> True -> x + (y + z) = x + y + z) by (intros; lia).
  assert (T3 : forall x : nat, True -> 0 + x = x) by (intros; lia).
  assert (W : forall a b, sorted N.compare a -> sorted N.compare b -> sorted N.compare (hist_merge N.compare a b)).
  { intros a b Ha Hb. apply (gmerge_wf N.compare N_order Nat.add 0 (fun _ => True)); auto; now apply hm_wf. }
  unfold eok, eop. split; [constructor|]. split; [intros; now apply W|]. split; [|split].
  - intros [a n] [b k]. cbn [fst snd]. intros Ha Hb. f_equal; [|lia].
    apply (gmerge_comm N.compare N_order Nat.add 0 (fun _ => True)); auto; now apply hm_wf.
  - intros [a n] [b k] [c l]. cbn [fst snd]. intros Ha Hb Hc. f_equal; [|lia].
    apply (gmerge_assoc N.compare N_order Nat.add 0 (fun _ => True)); auto; now apply hm_wf.
  - intros [a n]. cbn [fst snd]. intros Ha. f_equal.
    apply (gmerge_nil N.compare N_order Nat.add 0 (fun _ => True)); auto; now apply hm_wf.
Qed.
Definition okm : list (quad * ecu_entry) -> Prop := wf quad_cmp eok.
Lemma split_perm t1 t2 : Permutation (leaves t1) (leaves t2) -> Forall okm (leaves t1) ->
  reduce_tree [] split_merge t1 = reduce_tree [] split_merge t2.
Proof.
  destruct eop_laws as (E1 & E2 & E3 & E4 & E5).
  apply (gtree_perm quad_cmp quad_order eop ([], 0) eok E1 E2 E3 E4 E5).
Qed.
Lemma split_ok t : Forall okm (leaves t) -> okm (reduce_tree [] split_merge t).
Proof.
  destruct eop_laws as (E1 & E2 & E3 & E4 & E5).
  apply (gtree_wf quad_cmp quad_order eop ([], 0) eok E1 E2 E3 E4 E5).
Qed.
Lemma split_get t k : Forall okm (leaves t) ->
  map_get quad_cmp k (reduce_tree [] split_merge t) = fold_right (oop eop) None (map (map_get quad_cmp k) (leaves t)).
Proof.
  destruct eop_laws as (E1 & E2 & E3 & E4 & E5).
  apply (gtree_get quad_cmp quad_order eop ([], 0) eok E1 E2 E3 E4 E5).
Qed.

(** The messages of an ECU, and the tally of a duration for an ECU. *)
Definition ecu_count (k : quad) (m : list (quad * ecu_entry)) : nat :=
  match map_get quad_cmp k m with Some x => snd x | None => 0 end.
Definition ecu_tally (k : quad) (d : N) (m : list (quad * ecu_entry)) : nat :=
  match map_get quad_cmp k m with Some x => tally N.compare d (fst x) | None => 0 end.
Lemma hist_merge_tally a b k : sorted N.compare a -> sorted N.compare b ->
  tally N.compare k (hist_merge N.compare a b) = tally N.compare k a + tally N.compare k b.
Proof.
  intros Ha Hb. unfold tally. rewrite hist_merge_gmerge.
  rewrite (gmerge_get N.compare N_order Nat.add 0 (fun _ => True)); auto; try (now apply hm_wf).
  destruct (map_get N.compare k a), (map_get N.compare k b); cbn; lia.
Qed.
Lemma split_sums t k d : Forall okm (leaves t) ->
  ecu_count k (reduce_tree [] split_merge t) = list_sum (map (ecu_count k) (leaves t)) /\
  ecu_tally k d (reduce_tree [] split_merge t) = list_sum (map (ecu_tally k d) (leaves t)).
Proof.
  intros F. unfold ecu_count at 1, ecu_tally at 1. rewrite split_get by exact F.
  assert (G : match fold_right (oop eop) None (map (map_get quad_cmp k) (leaves t)) with Some x => eok x | None => True end /\
    match fold_right (oop eop) None (map (map_get quad_cmp k) (leaves t)) with Some x => snd x | None => 0 end = list_sum (map (ecu_count k) (leaves t)) /\
    match fold_right (oop eop) None (map (map_get quad_cmp k) (leaves t)) with Some x => tally N.compare d (fst x) | None => 0 end = list_sum (map (ecu_tally k d) (leaves t))).
  2: { tauto. }
  induction F as [|m l Hm F IH]; [cbn; auto|]. cbn [map fold_right list_sum].
  change (fold_right Nat.add 0 (map (ecu_count k) l)) with (list_sum (map (ecu_count k) l)).
  change (fold_right Nat.add 0 (map (ecu_tally k d) l)) with (list_sum (map (ecu_tally k d) l)).
  destruct IH as (I0 & I1 & I2). rewrite <- I1, <- I2. unfold ecu_count, ecu_tally.
  assert (Em : match map_get quad_cmp k m with Some x => eok x | None => True end).
  { destruct (map_get quad_cmp k m) eqn:E; [|exact I]. eapply (wf_get quad_cmp quad_order eok); eassumption. }
  destruct (map_get quad_cmp k m) as [x|], (fold_right (oop eop) None (map (map_get quad_cmp k) l)) as [y|]; cbn [oop]; auto.
  split; [now apply eop_laws|]. cbn [eop snd fst]. split; [reflexivity|]. now apply hist_merge_tally.
Qed.
