(** Exact results and exact panics of the ripdlt commands. *)
From Coq Require Import String.
From Verif Require Import Base DltModel MatchModel GenModel ToolsModel MainModel Spec CommandSpec BaseFacts DltFacts CodecFacts ParseFacts
  FindFacts IterFacts DltIterFacts LayoutFacts GrepFacts GrepTools PartitionFacts GenFacts GroupFacts MapFacts MergeFacts TreeFacts ToolFacts
  Utf8Facts CommandFacts TotalFacts.
From Coq Require Import Sorted Permutation.

(** * Tables *)
Lemma freq_occ {I K} (cmp : K -> K -> comparison) (O : total_order cmp) dec (key : I -> K) xs k :
  freq cmp key k xs = count_occ dec (map key xs) k.
Proof.
  unfold freq, sub. induction xs as [|x xs IH]; [reflexivity|]. cbn [filter map count_occ].
  destruct (keq cmp (key x) k) eqn:E; destruct (dec (key x) k) as [Q|Q]; cbn [List.length].
  - now rewrite IH.
  - apply (keq_iff cmp O) in E. contradiction.
  - subst k. now rewrite (keq_refl cmp O) in E.
  - exact IH.
Qed.
Lemma histogram_table {I K} (cmp : K -> K -> comparison) (O : total_order cmp) dec (keyfn : I -> outcome K) (key : I -> K) xs :
  (forall x, In x xs -> keyfn x = Ret (key x)) ->
  exists h, histogram cmp keyfn xs = Ret h /\ table dec (fun a b => cmp a b = Lt) (map key xs) h.
Proof.
  intros H. destruct (histogram_spec cmp O keyfn key xs H) as (ks & A & IK & E).
  eexists. split; [exact E|].
  assert (FE : map fst (map (fun k => (k, freq cmp key k xs)) ks) = ks) by (rewrite map_map; apply map_id).
  split; [now rewrite FE|]. intros k n. rewrite in_map_iff. split.
  - intros (k' & [= <- <-] & Ik). split; [now apply IK|]. now apply freq_occ.
  - intros [Ik ->]. exists k. split; [|now apply IK]. f_equal. now apply freq_occ.
Qed.
Lemma hist_of_table l h : hist_of l h -> number_table l h.
Proof.
  intros [S H]. split; [exact S|]. intros k n. destruct (H k) as [T KI]. unfold tally in T. split.
  - intros I. assert (I' := I). apply (get_in N.compare N_order) in I; [|exact S]. rewrite I in T. split; [|exact T].
    apply KI. now apply (in_map fst) in I'.
  - intros [Ik ->]. apply (get_in N.compare N_order); [exact S|].
    destruct (map_get N.compare k h) as [v|] eqn:G; [now rewrite <- T|].
    apply KI in Ik. apply (get_none N.compare N_order) in G; [contradiction|exact S].
Qed.
Lemma table_hist_of l h : number_table l h -> hist_of l h.
Proof.
  intros [S H]. split; [exact S|]. intros k. unfold tally.
  assert (KI : In k (map fst h) <-> In k l).
  { split; [intros I; apply map_fst_in in I; destruct I as [v I]; now apply H in I|].
    intros I. assert (I2 : In (k, count_occ N.eq_dec l k) h) by now apply H. now apply (in_map fst) in I2. }
  split; [|exact KI]. destruct (map_get N.compare k h) as [v|] eqn:G.
  - apply (get_in N.compare N_order) in G; [|exact S]. now apply H in G.
  - symmetry. apply count_occ_not_In. rewrite <- KI. apply (get_none N.compare N_order) in G; [exact G|exact S].
Qed.

(** * Computations that may panic more often than others *)
Definition below {A} (x y : outcome A) : Prop := x = Panic \/ x = y.
Lemma below_refl {A} (x : outcome A) : below x x. Proof. now right. Qed.
Lemma below_bind {A B} (x y : outcome A) (f g : A -> outcome B) : below x y -> (forall a, below (f a) (g a)) -> below (obind x f) (obind y g).
Proof. intros [->| ->] H; [now left|]. destruct y; cbn [obind]; [apply H|now left|now right]. Qed.
Definition below_adapt {S I Q} (a a' : Adapt S I Q) : Prop :=
  (forall s x, below (adapt a s x) (adapt a' s x)) /\ forall s, below (finalize a s) (finalize a' s).
Definition below_reduce {S I R} (r r' : Reduce S I R) : Prop :=
  (forall s x, below (rnext r s x) (rnext r' s x)) /\ forall s, below (rfinal r s) (rfinal r' s).

Lemma ba_refl {S I Q} (a : Adapt S I Q) : below_adapt a a. Proof. split; intros; apply below_refl. Qed.
Lemma br_refl {S I R} (a : Reduce S I R) : below_reduce a a. Proof. split; intros; apply below_refl. Qed.
Lemma ba_map {I Q} (f g : I -> outcome Q) : (forall x, below (f x) (g x)) -> below_adapt (MapA f) (MapA g).
Proof. intros H. split; intros; [|apply below_refl]. cbn. apply below_bind; [apply H|intros; apply below_refl]. Qed.
Lemma ba_group {I} (f g : I -> I -> outcome bool) : (forall x y, below (f x y) (g x y)) -> below_adapt (GroupBy f) (GroupBy g).
Proof.
  intros H. split.
  - intros [|p|p q] x; cbn [adapt GroupBy]; [apply below_refl| |].
    + apply below_bind; [apply H|]. intros [|]; [apply below_refl|]. apply below_bind; [apply H|intros; apply below_refl].
    + apply below_bind; [apply H|]. intros; apply below_refl.
  - intros [|p|p q]; cbn [finalize GroupBy]; try apply below_refl. apply below_bind; [apply H|intros; apply below_refl].
Qed.
Lemma ba_comp {S1 S2 I M Q} (f f' : Adapt S1 M Q) (g g' : Adapt S2 I M) fuel : below_adapt f f' -> below_adapt g g' ->
  below_adapt (Adapter f g fuel) (Adapter f' g' fuel).
Proof.
  intros [F1 F2] [G1 G2]. split.
  - intros [s1 s2] x. cbn [adapt Adapter]. apply below_bind; [apply G1|]. intros [s2' [|[o|]]]; try apply below_refl.
    apply below_bind; [apply F1|intros; apply below_refl].
  - intros [s1 s2]. cbn [finalize Adapter fst snd]. revert s1 s2. induction fuel as [|fuel IH]; intros s1 s2; [apply below_refl|].
    cbn [compose_finalize]. apply below_bind; [apply G2|]. intros [s2' [|[o|]]].
    + apply below_bind; [apply F2|intros; apply below_refl].
    + apply below_bind; [apply F1|intros; apply below_refl].
    + apply IH.
Qed.
Lemma br_over {S1 S2 I M R} (r r' : Reduce S1 M R) (g g' : Adapt S2 I M) fuel : below_reduce r r' -> below_adapt g g' ->
  below_reduce (ReducerOver r g fuel) (ReducerOver r' g' fuel).
Proof.
  intros [F1 F2] [G1 G2]. split.
  - intros [s1 s2] x. cbn [rnext ReducerOver]. apply below_bind; [apply G1|]. intros [s2' [|[o|]]]; try apply below_refl.
    apply below_bind; [apply F1|intros; apply below_refl].
  - intros [s1 s2]. cbn [rfinal ReducerOver fst snd]. revert s1 s2. induction fuel as [|fuel IH]; intros s1 s2; [apply below_refl|].
    cbn [reducer_finalize]. apply below_bind; [apply G2|]. intros [s2' [|[o|]]].
    + apply F2.
    + apply below_bind; [apply F1|]. intros; apply IH.
    + apply IH.
Qed.
Lemma br_fork {S1 S2 I R1 R2} (r1 r1' : Reduce S1 I R1) (r2 r2' : Reduce S2 I R2) : below_reduce r1 r1' -> below_reduce r2 r2' ->
  below_reduce (Fork r1 r2) (Fork r1' r2').
Proof.
  intros [F1 F2] [G1 G2]. split; intros; cbn [rnext rfinal Fork]; (apply below_bind; [auto|]; intros; apply below_bind; [auto|]; intros; apply below_refl).
Qed.
Lemma br_split {K S I R} (cmp : K -> K -> comparison) keyfn redfn (r r' : Reduce S I R) : below_reduce r r' ->
  below_reduce (Split cmp keyfn redfn r) (Split cmp keyfn redfn r').
Proof.
  intros [F1 F2]. split.
  - intros m x. cbn [rnext Split]. apply below_bind; [apply below_refl|]. intros k. apply below_bind; [apply F1|intros; apply below_refl].
  - intros m. cbn [rfinal Split]. generalize (@nil (K * R)). induction m as [|[k v] m IH]; intros acc; [apply below_refl|].
    cbn [split_finalize]. apply below_bind; [apply F2|]. intros; apply IH.
Qed.
Lemma br_run {S I R} (r r' : Reduce S I R) : below_reduce r r' -> forall xs s, below (run_reduce r s xs) (run_reduce r' s xs).
Proof.
  intros [F1 F2] xs. unfold run_reduce. induction xs as [|x xs IH]; intros s; cbn [feed obind]; [apply F2|].
  destruct (F1 s x) as [->| ->]; [now left|]. destruct (rnext r' s x) as [s'| |]; [apply IH|now left|now right].
Qed.
Lemma ba_from {S I Q} (a a' : Adapt S I Q) : below_adapt a a' -> forall f1 f2 s xs, below (from_adapt a f1 f2 s xs) (from_adapt a' f1 f2 s xs).
Proof.
  intros [F1 F2] f1 f2 s xs. unfold from_adapt.
  assert (FF : forall f s, below (from_finalize a f s) (from_finalize a' f s)).
  { induction f as [|f IH]; intros s0; [apply below_refl|]. cbn [from_finalize]. apply below_bind; [apply F2|].
    intros [s' [|[o|]]]; try apply below_refl. apply IH. }
  assert (FN : forall xs s, below (from_next a f1 s xs) (from_next a' f1 s xs)).
  { induction xs0 as [|x xs0 IH]; intros s0; cbn [from_next].
    - apply below_bind; [apply FF|]. intros [s' o]. apply below_refl.
    - apply below_bind; [apply F1|]. intros [s' [|[o|]]]; [|apply below_refl|apply IH].
      apply below_bind; [apply FF|]. intros [s'' o]. apply below_refl. }
  generalize (s, xs). induction f2 as [|f2 IH]; intros st; [apply below_refl|]. cbn [collect].
  apply below_bind; [apply FN|]. intros [st' [o|]]; [|apply below_refl]. apply below_bind; [apply IH|intros; apply below_refl].
Qed.

Lemma mapM_panic {A B} (f : A -> outcome B) l : (forall x, In x l -> f x <> Fuel) -> (exists x, In x l /\ f x = Panic) -> mapM f l = Panic.
Proof.
  induction l as [|y l IH]; intros NF (x & I & E); [destruct I|]. cbn [mapM].
  destruct (f y) as [v| |] eqn:Ey; [|reflexivity|exfalso; apply (NF y); [now left|exact Ey]].
  cbn [obind]. destruct I as [->|I]; [congruence|]. rewrite IH; [reflexivity|intros; apply NF; now right|now exists x].
Qed.
Lemma filterM_panic {A} (f : A -> outcome bool) l : (forall x, In x l -> f x <> Fuel) -> (exists x, In x l /\ f x = Panic) -> filterM f l = Panic.
Proof.
  induction l as [|y l IH]; intros NF (x & I & E); [destruct I|]. cbn [filterM].
  destruct (f y) as [v| |] eqn:Ey; [|reflexivity|exfalso; apply (NF y); [now left|exact Ey]].
  cbn [obind]. destruct I as [->|I]; [congruence|]. rewrite IH; [reflexivity|intros; apply NF; now right|now exists x].
Qed.

(** * Timestamps *)
Lemma with_ts_stamped e : with_ts e = stamped e.
Proof. unfold with_ts, stamped, htype. apply flags_spec. Qed.
Lemma stamped_filter es : filter with_ts es = filter stamped es.
Proof. apply filter_ext. intros e. apply with_ts_stamped. Qed.
Lemma nth_skipn_x (b : bytes) n k : nth k (skipn n b) x00 = nth (n + k) b x00.
Proof.
  revert b. induction n as [|n IH]; intros b; [reflexivity|]. destruct b as [|c b]; [cbn; now destruct k|]. cbn [skipn Nat.add nth]. apply IH.
Qed.
Lemma ts_stamp e : ts e = stamp e.
Proof.
  unfold ts, stamp, stamped, htype. rewrite timestamp_exact. cbv zeta. change ts_offset with stamp_pos.
  destruct (flag _ 4 && _); [|reflexivity]. f_equal. unfold u32be_at, byte_at. now rewrite !nth_skipn_x, Nat.add_0_r.
Qed.
Lemma ts_val_stamp e : ts_val e = stamp_value e.
Proof. unfold ts_val, stamp_value. now rewrite ts_stamp. Qed.
Lemma unstamped_dec es : {unstamped es} + {forall e, In e es -> stamped e = true -> stamp e <> None}.
Proof.
  induction es as [|e es [IH|IH]].
  - right. intros e [].
  - left. destruct IH as (x & I & H). exists x. split; [now right|exact H].
  - destruct (stamped e) eqn:S; [destruct (stamp e) eqn:T|].
    + right. intros x [<-|I]; [congruence|now apply IH].
    + left. exists e. split; [now left|now split].
    + right. intros x [<-|I] Sx; [congruence|now apply IH].
Qed.
Lemma all_ts es : (forall e, In e es -> stamped e = true -> stamp e <> None) -> forall e, In e (filter with_ts es) -> ts e <> None.
Proof. intros H e I. apply filter_In in I. destruct I as [I W]. rewrite ts_stamp. apply H; [exact I|now rewrite <- with_ts_stamped]. Qed.

(** The group of an entry without timestamp starts with one. *)
Lemma pend_none {A} (rel : A -> A -> bool) (P : A -> Prop) xs : (forall x, rel x x = true) -> (forall x y, rel x y = true -> P y -> P x) ->
  forall lz s e, (lz = false -> s = e) -> (P e -> P s) -> (P s \/ exists x, In x xs /\ P x) -> exists p, In p (pend rel lz s e xs) /\ P (fst p).
Proof.
  intros R T. induction xs as [|x xs IH]; intros lz s e Z I H; cbn [pend].
  - destruct H as [H|(x & [] & _)]. exists (s, e). split; [|exact H]. destruct lz; [now left|]. rewrite R. now left.
  - destruct (rel e x) eqn:E.
    + apply IH; [discriminate|intros Px; apply I; eapply T; eassumption|].
      destruct H as [H|(y & [->|Iy] & Py)]; [now left|left; apply I; eapply T; eassumption|right; now exists y].
    + assert (G : (exists p, In p ((s, e) :: pend rel false x x xs) /\ P (fst p)) -> exists p, In p (if lz then (s, e) :: pend rel false x x xs else if rel e e then (s, e) :: pend rel false x x xs else pend rel false s e xs) /\ P (fst p)).
      { intros G. destruct lz; [exact G|]. now rewrite R. }
      apply G. clear G. destruct H as [H|(y & Iy & Py)]; [exists (s, e); split; [now left|exact H]|].
      destruct (IH false x x) as (p & Ip & Pp); [reflexivity|auto| |exists p; split; [now right|exact Pp]].
      destruct Iy as [->|Iy]; [now left|right; now exists y].
Qed.
Lemma grouped_none {A} (rel : A -> A -> bool) (P : A -> Prop) xs : (forall x, rel x x = true) -> (forall x y, rel x y = true -> P y -> P x) ->
  (exists x, In x xs /\ P x) -> exists p, In p (grouped rel xs) /\ P (fst p).
Proof.
  intros R T (x & I & Px). destruct xs as [|y xs]; [destruct I|]. apply (pend_none rel P xs R T); [reflexivity|auto|].
  destruct I as [->|I]; [now left|right; now exists x].
Qed.
Lemma ts_rel_refl e : ts_rel e e = true.
Proof. unfold ts_rel, opt_geb. destruct (ts e); [apply N.leb_refl|reflexivity]. Qed.
Lemma ecu_ts_refl e : ecu_ts_rel e e = true.
Proof. unfold ecu_ts_rel. rewrite ts_rel_refl, andb_true_r. unfold opt_eqb. destruct (eid e); [apply N.eqb_refl|reflexivity]. Qed.
Lemma ts_rel_none x y : ts_rel x y = true -> ts y = None -> ts x = None.
Proof. unfold ts_rel, opt_geb. intros H E. rewrite E in H. now destruct (ts x). Qed.

Lemma ts_delta_nofuel p : ts_delta p <> Fuel.
Proof.
  unfold ts_delta. rewrite !timestamp_ts. cbn [obind]. destruct (ts (snd p)); cbn; [|discriminate]. destruct (ts (fst p)); cbn; [|discriminate].
  unfold u32_sub. now destruct (_ <=? _)%N.
Qed.
Lemma ts_delta_none p : ts (fst p) = None -> ts_delta p = Panic.
Proof. intros H. unfold ts_delta. rewrite !timestamp_ts. cbn [obind]. destruct (ts (snd p)); cbn [unwrap obind]; [now rewrite H|reflexivity]. Qed.

Lemma with_none es : unstamped es -> exists x, In x (filter with_ts es) /\ ts x = None.
Proof. intros (e & I & S & N). exists e. split; [apply filter_In; split; [exact I|now rewrite with_ts_stamped]|now rewrite ts_stamp]. Qed.

Lemma lifecycle_iter_panic b es : dltit b = Ret es -> unstamped es -> lifecycle_iter b = Panic.
Proof.
  intros E U. unfold lifecycle_iter. rewrite E. cbn [obind]. rewrite (groupby_iter_spec ts_pred ts_rel) by (intros; apply ts_pred_rel). cbn [obind].
  rewrite filterM_panic; [reflexivity| |].
  - intros p _. unfold long_enough. pose proof (ts_delta_nofuel p). destruct (ts_delta p); cbn; congruence.
  - destruct (grouped_none ts_rel (fun e => ts e = None) (filter with_ts es)) as (p & Ip & Pp).
    + apply ts_rel_refl.
    + apply ts_rel_none.
    + now apply with_none.
    + exists p. split; [exact Ip|]. unfold long_enough. now rewrite ts_delta_none.
Qed.
(** [ecu_ts_pred] where the ECU id can be read. *)
Lemma ecu_ts_below a b : below (ecu_ts_pred a b) (Ret (ecu_ts_rel a b)).
Proof.
  unfold ecu_ts_pred, ecu_ts_rel, eid. rewrite !ecu_id_exact.
  destruct (flag _ 2); [destruct (_ <? 4)|]; cbn [obind]; try (now left);
    (destruct (flag _ 2); [destruct (_ <? 4)|]; cbn [obind]; try (now left));
    (destruct (opt_eqb _ _); cbn [andb]; [rewrite ts_pred_rel|]; now right).
Qed.
Lemma lifecycle_histogram_panic b es : dltit b = Ret es -> unstamped es -> lifecycle_histogram b = Panic.
Proof.
  intros E U. unfold lifecycle_histogram. rewrite E. cbn [obind].
  assert (B : below (groupby_iter ecu_ts_pred (filter with_ts es)) (groupby_iter (fun a b => Ret (ecu_ts_rel a b)) (filter with_ts es))).
  { unfold groupby_iter. apply ba_from, ba_group. apply ecu_ts_below. }
  destruct B as [->| ->]; [reflexivity|]. rewrite (groupby_iter_spec _ ecu_ts_rel) by reflexivity. cbn [obind].
  rewrite mapM_panic; [reflexivity|intros; apply ts_delta_nofuel|].
  destruct (grouped_none ecu_ts_rel (fun e => ts e = None) (filter with_ts es)) as (p & Ip & Pp).
  - apply ecu_ts_refl.
  - intros x y H. unfold ecu_ts_rel in H. apply andb_prop in H. now apply ts_rel_none.
  - now apply with_none.
  - exists p. split; [exact Ip|now apply ts_delta_none].
Qed.

(** * Results when every announced timestamp is there *)
Lemma stamp_ecu e : ts e <> None -> ecu_id (dlt e) = Ret (std_ecu e).
Proof.
  rewrite ts_stamp. unfold stamp, std_ecu. rewrite ecu_id_exact. fold (htype e). destruct (stamped e); cbn [andb]; [|congruence].
  unfold stamp_pos. destruct (flag (htype e) 2); [|reflexivity]. destruct (Nat.ltb_spec (length (tail (dlt e))) 4) as [H|H]; [|reflexivity].
  destruct (Nat.leb_spec (4 + (if flag (htype e) 3 then 4 else 0) + 4) (length (tail (dlt e)))); [lia|congruence].
Qed.
Lemma eid_std e : ts e <> None -> eid e = std_ecu e.
Proof. intros H. unfold eid. now rewrite (stamp_ecu e H). Qed.
Lemma same_ecu_eqb a b : opt_eqb (std_ecu a) (std_ecu b) = same_ecu a b.
Proof. unfold opt_eqb, same_ecu. now destruct (std_ecu a), (std_ecu b). Qed.
Lemma ts_rel_stamps a b : ts a <> None -> ts b <> None -> ts_rel a b = not_earlier a b.
Proof.
  unfold ts_rel, not_earlier, opt_geb. rewrite <- !ts_val_stamp. unfold ts_val. destruct (ts a), (ts b); congruence.
Qed.
Lemma ecu_ts_stamps a b : ts a <> None -> ts b <> None -> ecu_ts_rel a b = same_cycle a b.
Proof. intros Ha Hb. unfold ecu_ts_rel, same_cycle. now rewrite !eid_std, same_ecu_eqb, ts_rel_stamps by assumption. Qed.
Lemma ecu_ts_pred_stamps a b : ts a <> None -> ts b <> None -> ecu_ts_pred a b = Ret (same_cycle a b).
Proof.
  intros Ha Hb. unfold ecu_ts_pred. rewrite !stamp_ecu by assumption. cbn [obind]. unfold same_cycle. rewrite same_ecu_eqb.
  destruct (same_ecu a b); cbn [andb]; [|reflexivity]. rewrite ts_pred_rel. now rewrite ts_rel_stamps.
Qed.
Lemma grouped_ext {A} (r1 r2 : A -> A -> bool) xs : (forall x y, In x xs -> In y xs -> r1 x y = r2 x y) -> grouped r1 xs = grouped r2 xs.
Proof.
  intros H. destruct xs as [|x xs]; [reflexivity|]. cbn [grouped].
  assert (G : forall l lz s e, incl (e :: l) (x :: xs) -> pend r1 lz s e l = pend r2 lz s e l).
  { induction l as [|y l IH]; intros lz s e IN; cbn [pend].
    - rewrite (H e e) by (apply IN; now left). reflexivity.
    - assert (Ie : In e (x :: xs)) by (apply IN; now left). assert (Iy : In y (x :: xs)) by (apply IN; right; now left).
      rewrite (H e y Ie Iy), (H e e Ie Ie).
      assert (I1 : incl (y :: l) (x :: xs)) by (intros z Iz; apply IN; now right).
      assert (I2 : incl (e :: l) (x :: xs)) by (intros z [->|Iz]; [exact Ie|apply IN; right; now right]).
      rewrite !(IH _ _ _ I1), (IH _ _ _ I2). reflexivity. }
  apply G. apply incl_refl.
Qed.
Lemma ends_span {A} (f : A -> N) g p : ends g p -> span f g = (f (snd p) - f (fst p))%N.
Proof.
  intros [H L]. destruct g as [|x g]; [discriminate|]. cbn in H. injection H as <-. unfold span. rewrite <- (L x).
  destruct g as [|y g]; [reflexivity|]. cbn [last]. reflexivity.
Qed.
Lemma ends_extent {A} (f : A -> N) g p : ends g p -> extent f g = (f (fst p), f (snd p)).
Proof.
  intros [H L]. destruct g as [|x g]; [discriminate|]. cbn in H. injection H as <-. unfold extent. rewrite <- (L x).
  destruct g as [|y g]; [reflexivity|]. cbn [last]. reflexivity.
Qed.
Lemma runs_spans {A} (f : A -> N) (h : N -> N) gs ps : Forall2 ends gs ps ->
  map (fun g => h (span f g)) gs = map (fun p => h (f (snd p) - f (fst p))%N) ps.
Proof. induction 1 as [|g p gs ps E F IH]; [reflexivity|]. cbn [map]. now rewrite IH, (ends_span f g p E). Qed.
Lemma runs_extents {A} (f : A -> N) gs ps : Forall2 ends gs ps -> map (extent f) gs = map (fun p => (f (fst p), f (snd p))) ps.
Proof. induction 1 as [|g p gs ps E F IH]; [reflexivity|]. cbn [map]. now rewrite IH, (ends_extent f g p E). Qed.
Lemma runs_filter {A} (f : A -> N) (h : N -> bool) gs ps : Forall2 ends gs ps ->
  length (filter (fun g => h (span f g)) gs) = length (filter (fun p => h (f (snd p) - f (fst p))%N) ps).
Proof.
  induction 1 as [|g p gs ps E F IH]; [reflexivity|]. cbn [filter]. rewrite (ends_span f g p E).
  destruct (h _); cbn [List.length]; now rewrite IH.
Qed.

Lemma lifecycle_iter_exact b es : dltit b = Ret es -> all_stamped es ->
  exists runs, maximal_runs not_earlier (filter stamped es) runs /\
    lifecycle_iter b = Ret (length (filter (fun g => half_an_hour <=? span stamp_value g)%N runs)).
Proof.
  intros E H. pose proof (all_ts es H) as T. rewrite <- stamped_filter. set (xs := filter with_ts es) in *.
  destruct (grouped_runs not_earlier xs) as (runs & MR & F2); [intros; apply N.leb_refl|].
  exists runs. split; [exact MR|]. unfold lifecycle_iter. rewrite E. cbn [obind]. fold xs.
  rewrite (groupby_iter_spec ts_pred ts_rel) by (intros; apply ts_pred_rel). cbn [obind].
  rewrite (filterM_all long_enough is_long).
  2: { intros p I. unfold long_enough, is_long. pose proof (delta_groups ts_rel xs T (ts_groups xs)) as P. rewrite Forall_forall in P. now rewrite (P p I). }
  cbn [obind]. f_equal. rewrite (runs_filter stamp_value (fun d => half_an_hour <=? d)%N runs _ F2).
  rewrite (grouped_ext ts_rel not_earlier) by (intros; apply ts_rel_stamps; now apply T).
  f_equal. apply filter_ext. intros p. unfold is_long, ts_diff. now rewrite !ts_val_stamp.
Qed.
Lemma lifecycle_histogram_exact b es : dltit b = Ret es -> all_stamped es ->
  exists runs h, maximal_runs same_cycle (filter stamped es) runs /\ lifecycle_histogram b = Ret h /\
    number_table (map (fun g => span stamp_value g / 10000)%N runs) h.
Proof.
  intros E H. pose proof (all_ts es H) as T. rewrite <- stamped_filter. set (xs := filter with_ts es) in *.
  destruct (grouped_runs same_cycle xs) as (runs & MR & F2).
  { intros x Ix. unfold same_cycle, not_earlier, same_ecu. rewrite N.leb_refl, andb_true_r. destruct (std_ecu x); [apply N.eqb_refl|reflexivity]. }
  exists runs. unfold lifecycle_histogram. rewrite E. cbn [obind]. fold xs.
  rewrite (groupby_iter_spec ecu_ts_pred same_cycle) by (intros; apply ecu_ts_pred_stamps; now apply T). cbn [obind].
  rewrite (mapM_In ts_delta ts_diff).
  2: { rewrite <- (grouped_ext ecu_ts_rel same_cycle xs) by (intros; apply ecu_ts_stamps; now apply T).
       apply delta_groups; [exact T|apply ecu_ts_groups]. }
  cbn [obind].
  destruct (histogram_table N.compare N_order N.eq_dec (fun id => Ret (id / 10000)%N) (fun id => (id / 10000)%N) (map ts_diff (grouped same_cycle xs))) as (h & Eh & Hh); [reflexivity|].
  exists h. split; [exact MR|]. split; [exact Eh|].
  rewrite (runs_spans stamp_value (fun d => d / 10000)%N runs _ F2).
  rewrite map_map in Hh. unfold number_table. erewrite map_ext; [exact Hh|]. intros p. unfold ts_diff. now rewrite !ts_val_stamp.
Qed.
Lemma windows_neighbours {A} (l : list A) : tuple_windows l = neighbours l.
Proof. unfold neighbours. induction l as [|x [|y l] IH]; try reflexivity. cbn [tuple_windows List.tl combine] in *. now rewrite IH. Qed.

Lemma neighbours_in {A} (l : list A) a b : In (a, b) (neighbours l) -> In a l /\ In b l.
Proof. rewrite <- windows_neighbours. apply windows_in. Qed.
Lemma long_pair p : ts (fst p) <> None -> ts_rel (fst p) (snd p) = true -> long_enough p = Ret (stamp_value (fst p) + half_an_hour <=? stamp_value (snd p))%N.
Proof.
  intros H R. unfold long_enough. assert (H' : ts (snd p) <> None).
  { intros N. apply H. eapply ts_rel_none; eassumption. }
  rewrite ts_delta_ret by assumption. cbn [obind]. f_equal. unfold ts_diff. rewrite !ts_val_stamp.
  rewrite ts_rel_stamps in R by assumption. unfold not_earlier in R. apply N.leb_le in R. unfold half_an_hour, min_time_dms in *.
  destruct (N.leb_spec 18000000 (stamp_value (snd p) - stamp_value (fst p)))%N; destruct (N.leb_spec (stamp_value (fst p) + 18000000) (stamp_value (snd p)))%N; try reflexivity; lia.
Qed.
Lemma lifecycle_itertools_exact b es : dltit b = Ret es -> (forall a z, In (a, z) (neighbours (filter stamped es)) -> stamp a <> None) ->
  lifecycle_itertools b = Ret (length (filter (fun p => stamp_value (fst p) + half_an_hour <=? stamp_value (snd p))%N (neighbours (filter stamped es)))).
Proof.
  intros E H. unfold lifecycle_itertools. rewrite E. cbn [obind]. rewrite stamped_filter, windows_neighbours. set (xs := neighbours (filter stamped es)) in *.
  rewrite (filterM_all _ (fun p => ts_rel (fst p) (snd p))) by (intros; apply ts_pred_rel). cbn [obind].
  rewrite (filterM_all long_enough (fun p => stamp_value (fst p) + half_an_hour <=? stamp_value (snd p))%N).
  2: { intros [a z] I. apply filter_In in I. destruct I as [I R]. apply long_pair; [rewrite ts_stamp; exact (H a z I)|exact R]. }
  cbn [obind]. do 2 f_equal. clear E. revert H. generalize xs as l. induction l as [|[a z] l IH]; intros H; [reflexivity|]. cbn [filter fst snd].
  assert (IH' := IH (fun a z I => H a z (or_intror I))). assert (Ha := H a z (or_introl eq_refl)).
  destruct (ts_rel a z) eqn:R; cbn [filter fst snd]; [now rewrite IH'|].
  destruct (N.leb_spec (stamp_value a + half_an_hour) (stamp_value z))%N as [Q|Q]; [|exact IH'].
  exfalso. unfold ts_rel in R. rewrite !ts_stamp in R. unfold stamp_value in Q. destruct (stamp a) as [ta|]; [|congruence].
  destruct (stamp z) as [tz|]; cbn [opt_geb] in R; unfold half_an_hour in Q; [apply N.leb_gt in R; lia|lia].
Qed.
Lemma lifecycle_itertools_panic b es a z : dltit b = Ret es -> In (a, z) (neighbours (filter stamped es)) -> stamp a = None ->
  lifecycle_itertools b = Panic.
Proof.
  intros E I H. unfold lifecycle_itertools. rewrite E. cbn [obind]. rewrite stamped_filter, windows_neighbours.
  rewrite (filterM_all _ (fun p => ts_rel (fst p) (snd p))) by (intros; apply ts_pred_rel). cbn [obind].
  rewrite filterM_panic; [reflexivity| |].
  - intros p _. unfold long_enough. pose proof (ts_delta_nofuel p). destruct (ts_delta p); cbn; congruence.
  - exists (a, z). split.
    + apply filter_In. split; [exact I|]. cbn [fst snd]. unfold ts_rel. rewrite (ts_stamp a), H. unfold opt_geb. now destruct (ts z).
    + unfold long_enough. rewrite ts_delta_none; [reflexivity|]. cbn [fst]. now rewrite ts_stamp.
Qed.

(** * Per-ECU lifecycles *)
Definition lifecycle_reducer_with (f : storage_entry * storage_entry -> outcome N) (fuel : nat) :=
  let chain := Adapter (MapA f) (Adapter (GroupBy ts_pred) NilAdapter fuel) fuel in
  ReducerOver (Fork (ReducerOver hist_split chain fuel) CountG) NilAdapter fuel.
Definition splitit_with (f : storage_entry * storage_entry -> outcome N) (fuel : nat) (xs : list storage_entry) :=
  run_reduce
    (Split quad_cmp (fun e => Ret (ecu (sheader e)))
       (fun _ => ((([], (tt, (GEmpty, tt))), (0, tt)), tt)) (lifecycle_reducer_with f fuel)) [] xs.
Lemma lifecycle_splitit_with fuel b es : dltit b = Ret es -> lifecycle_splitit fuel b = splitit_with ts_mapping fuel (filter with_ts es).
Proof. intros E. unfold lifecycle_splitit. rewrite E. reflexivity. Qed.
Lemma reducer_with_spec f g fuel es : 5 <= fuel -> (forall p, In p (grouped ts_rel es) -> f p = Ret (g p)) ->
  exists h, run_reduce (lifecycle_reducer_with f fuel) ((([], (tt, (GEmpty, tt))), (0, tt)), tt) es = Ret (h, length es) /\
    hist_of (map g (grouped ts_rel es)) h.
Proof.
  intros L T. unfold lifecycle_reducer_with. cbv zeta.
  rewrite (run_over _ NilAdapter 1 tt es es (delivers_nil es)) by lia.
  destruct (delivers_groupby ts_rel ts_pred es) as (n1 & L1 & D1); [intros; apply ts_pred_rel|].
  destruct (delivers_comp (GroupBy ts_pred) NilAdapter fuel n1 1 GEmpty tt es es _ (delivers_nil es) D1) as (k1 & K1 & E1); [lia|].
  pose proof (delivers_map f g (grouped ts_rel es) T) as D3.
  destruct (delivers_comp (MapA f) _ fuel 1 k1 tt _ es _ _ E1 D3) as (k3 & K3 & E3); [lia|].
  destruct (histogram_hist (fun k => Ret k) (fun k => k) (map g (grouped ts_rel es))) as (h & Eh & Hh); [reflexivity|].
  exists h. rewrite map_id in Hh. split; [|exact Hh].
  apply run_fork; [|apply run_countg].
  rewrite (run_over hist_split _ k3 _ es _ E3) by lia. exact Eh.
Qed.
Lemma splitit_with_spec f g fuel es : 5 <= fuel -> (forall k p, In p (grouped ts_rel (of_ecu k es)) -> f p = Ret (g p)) ->
  exists m, splitit_with f fuel es = Ret m /\ okm m /\
    (forall k, In k (map fst m) <-> In k (map ecu_of es)) /\
    forall k x, In (k, x) m -> snd x = length (of_ecu k es) /\ hist_of (map g (grouped ts_rel (of_ecu k es))) (fst x).
Proof.
  intros L F. unfold splitit_with.
  assert (R : exists res : quad -> list (N * nat) * nat, forall k,
    run_reduce (lifecycle_reducer_with f fuel) ((([], (tt, (GEmpty, tt))), (0, tt)), tt) (of_ecu k es) = Ret (res k) /\
    snd (res k) = length (of_ecu k es) /\ hist_of (map g (grouped ts_rel (of_ecu k es))) (fst (res k))).
  { exists (fun k => match run_reduce (lifecycle_reducer_with f fuel) ((([], (tt, (GEmpty, tt))), (0, tt)), tt) (of_ecu k es) with Ret x => x | _ => ([], 0) end).
    intros k. destruct (reducer_with_spec f g fuel (of_ecu k es) L (F k)) as (h & Eh & Hh). rewrite Eh. auto. }
  destruct R as [res R].
  destruct (run_split quad_cmp quad_order (fun e => Ret (ecu (sheader e))) (fun e => ecu (sheader e))
    (fun _ => ((([], (tt, (GEmpty, tt))), (0, tt)), tt)) (lifecycle_reducer_with f fuel) es res) as (ks & A & IK & Er).
  { reflexivity. } { intros k _. apply R. }
  exists (map (fun k => (k, res k)) ks).
  assert (FE : map fst (map (fun k => (k, res k)) ks) = ks) by (rewrite map_map; apply map_id).
  split; [exact Er|]. split; [|split].
  - split; [change (ascending quad_cmp (map fst (map (fun k => (k, res k)) ks))); rewrite FE; exact A|]. apply Forall_forall. intros [k x] I. apply in_map_iff in I.
    destruct I as (k' & [= <- <-] & _). cbn. unfold eok. apply R.
  - intros k. rewrite FE. apply IK.
  - intros k x I. apply in_map_iff in I. destruct I as (k' & [= <- <-] & _). apply R.
Qed.
Lemma with_below f g fuel xs : (forall p, below (f p) (g p)) -> below (splitit_with f fuel xs) (splitit_with g fuel xs).
Proof.
  intros H. unfold splitit_with. apply br_run, br_split. unfold lifecycle_reducer_with. cbv zeta.
  apply br_over; [|apply ba_refl]. apply br_fork; [|apply br_refl]. apply br_over; [apply br_refl|]. apply ba_comp; [now apply ba_map|apply ba_refl].
Qed.
(** A mapping that panics somewhere makes the whole computation panic: its result could not
    depend on what the mapping is there. *)
Lemma with_panic f fuel es k p : 5 <= fuel -> (forall q, f q <> Fuel) -> In k (map ecu_of es) -> In p (grouped ts_rel (of_ecu k es)) -> f p = Panic ->
  splitit_with f fuel es = Panic.
Proof.
  intros L NF Ik Ip Ep.
  set (g := fun (v : N) q => match f q with Ret x => x | _ => v end).
  assert (B : forall v, exists m, below (splitit_with f fuel es) (Ret m) /\
    forall x, In (k, x) m -> hist_of (map (g v) (grouped ts_rel (of_ecu k es))) (fst x)).
  { intros v. destruct (splitit_with_spec (fun q => Ret (g v q)) (g v) fuel es L) as (m & E & _ & _ & P); [reflexivity|].
    exists m. split; [|intros x I; now apply P in I]. rewrite <- E. apply with_below. intros q. unfold g.
    specialize (NF q). destruct (f q); [now right|now left|congruence]. }
  destruct (B 0%N) as (m0 & [B0|B0] & P0); [exact B0|]. destruct (B 1%N) as (m1 & [B1|B1] & P1); [exact B1|]. exfalso.
  assert (m1 = m0) by congruence. subst m1.
  destruct (splitit_with_spec (fun q => Ret (g 0%N q)) (g 0%N) fuel es L) as (m & E & _ & KS & P); [reflexivity|].
  assert (Em : m = m0).
  { assert (X : below (splitit_with f fuel es) (Ret m)).
    { rewrite <- E. apply with_below. intros q. unfold g. specialize (NF q). destruct (f q); [now right|now left|congruence]. }
    destruct X as [X|X]; congruence. }
  subst m. apply KS in Ik. apply map_fst_in in Ik. destruct Ik as [x Ix].
  destruct (P0 x Ix) as [_ H0]. destruct (P1 x Ix) as [_ H1]. specialize (H0 0%N). specialize (H1 0%N).
  destruct H0 as [H0 _], H1 as [H1 _]. rewrite H0 in H1. clear - Ip Ep H1.
  set (l := grouped ts_rel (of_ecu k es)) in *. clearbody l.
  assert (G : forall v q, g v q = match f q with Ret x => x | _ => v end) by reflexivity. clearbody g.
  assert (LE : forall l, count_occ N.eq_dec (map (g 1%N) l) 0%N <= count_occ N.eq_dec (map (g 0%N) l) 0%N).
  { induction l0 as [|q l0 IH]; [apply Nat.le_refl|]. cbn [map count_occ]. rewrite !G. destruct (f q) as [v| |]; [destruct (N.eq_dec v 0); lia| |]; (destruct (N.eq_dec 1 0) as [X|_]; [discriminate X|]; destruct (N.eq_dec 0 0); [lia|congruence]). }
  assert (LT : count_occ N.eq_dec (map (g 1%N) l) 0%N < count_occ N.eq_dec (map (g 0%N) l) 0%N); [clear H1|lia].
  induction l as [|q l IH]; [destruct Ip|]. cbn [map count_occ]. destruct Ip as [->|Ip].
  - specialize (LE l). rewrite !G. rewrite Ep. destruct (N.eq_dec 1 0) as [X|_]; [discriminate X|]. destruct (N.eq_dec 0 0); [lia|congruence].
  - specialize (IH Ip). rewrite !G. destruct (f q) as [v| |]; [destruct (N.eq_dec v 0); lia| |]; (destruct (N.eq_dec 1 0) as [X|_]; [discriminate X|]; destruct (N.eq_dec 0 0); [lia|congruence]).
Qed.
Lemma of_from k es : of_ecu k es = from_ecu k es.
Proof.
  unfold of_ecu, from_ecu, ecu_of. apply filter_ext. intros e. destruct (quad_dec (ecu (sheader e)) k) as [->|N].
  - apply (keq_refl quad_cmp quad_order).
  - destruct (keq quad_cmp (ecu (sheader e)) k) eqn:Q; [|reflexivity]. apply (keq_iff quad_cmp quad_order) in Q. contradiction.
Qed.
Lemma lifecycle_splitit_panic fuel b es : 5 <= fuel -> dltit b = Ret es -> unstamped es -> lifecycle_splitit fuel b = Panic.
Proof.
  intros L E U. rewrite (lifecycle_splitit_with fuel b es E). destruct (with_none es U) as (x & Ix & Tx).
  destruct (grouped_none ts_rel (fun e => ts e = None) (of_ecu (ecu_of x) (filter with_ts es))) as (p & Ip & Pp).
  - apply ts_rel_refl.
  - apply ts_rel_none.
  - exists x. split; [|exact Tx]. rewrite of_from. apply filter_In. split; [exact Ix|]. now destruct (quad_dec (ecu_of x) (ecu_of x)).
  - apply (with_panic ts_mapping fuel _ (ecu_of x) p L); [| |exact Ip|].
    + intros q. unfold ts_mapping. pose proof (ts_delta_nofuel q). destruct (ts_delta q); cbn; congruence.
    + now apply in_map.
    + unfold ts_mapping. now rewrite ts_delta_none.
Qed.

Lemma bN_inj_ x y : bN x = bN y -> x = y.
Proof.
  unfold bN. intros H. apply (f_equal Strings.Byte.of_N) in H. rewrite !Strings.Byte.of_to_N in H. now injection H.
Qed.
Lemma quad_before a b : quad_cmp a b = Lt -> bytes_before (quad_bytes a) (quad_bytes b).
Proof.
  destruct a as [a1 a2 a3 a4], b as [b1 b2 b3 b4]. unfold quad_cmp. cbn [quad_bytes bytes_before].
  destruct (N.compare_spec (bN a1) (bN b1)) as [E1|L1|G1]; [|auto|discriminate]. apply bN_inj_ in E1.
  destruct (N.compare_spec (bN a2) (bN b2)) as [E2|L2|G2]; [|auto|discriminate]. apply bN_inj_ in E2.
  destruct (N.compare_spec (bN a3) (bN b3)) as [E3|L3|G3]; [|auto 6|discriminate]. apply bN_inj_ in E3.
  destruct (N.compare_spec (bN a4) (bN b4)) as [E4|L4|G4]; [discriminate|auto 8|discriminate].
Qed.
Lemma quads_before l : ascending quad_cmp l -> StronglySorted (fun a b => bytes_before (quad_bytes a) (quad_bytes b)) l.
Proof. induction 1 as [|a l S IH F]; constructor; [exact IH|]. eapply Forall_impl; [|exact F]. intros b. apply quad_before. Qed.

Lemma lifecycle_splitit_exact fuel b es : 5 <= fuel -> dltit b = Ret es -> all_stamped es ->
  exists m, lifecycle_splitit fuel b = Ret m /\ ecu_rows (filter stamped es) cycles_row m.
Proof.
  intros L E H. pose proof (all_ts es H) as T. rewrite (lifecycle_splitit_with fuel b es E), <- stamped_filter. set (xs := filter with_ts es) in *.
  assert (TK : forall k e, In e (of_ecu k xs) -> ts e <> None) by (intros k e I; apply filter_In in I; now apply T).
  destruct (splitit_with_spec ts_mapping (fun p => ts_diff p / 10000)%N fuel xs L) as (m & Em & OK & KS & P).
  { intros k p Ip. pose proof (delta_groups ts_rel (of_ecu k xs) (TK k) (ts_groups _)) as D. rewrite Forall_forall in D.
    unfold ts_mapping. now rewrite (D p Ip). }
  exists m. split; [exact Em|]. split; [apply quads_before, OK|]. split; [exact KS|]. intros k x I. apply P in I. destruct I as [I1 I2].
  rewrite <- of_from. split; [exact I1|]. destruct (grouped_runs not_earlier (of_ecu k xs)) as (runs & MR & F2); [intros; apply N.leb_refl|].
  exists runs. split; [exact MR|]. rewrite (runs_spans stamp_value (fun d => d / 10000)%N runs _ F2). apply hist_of_table in I2.
  rewrite (grouped_ext ts_rel not_earlier) in I2 by (intros; apply ts_rel_stamps; now apply (TK k)).
  unfold number_table in *. erewrite map_ext; [exact I2|]. intros p. unfold ts_diff. now rewrite !ts_val_stamp.
Qed.

(** * Merged periods *)
Definition rising (l : list (N * N)) : Prop := StronglySorted (fun p q => (fst p < fst q)%N) l.
Definition forward (p : N * N) : Prop := (fst p <= snd p)%N.
Lemma join_spec p l : match join p l with
  | Some (r, l') => exists l1 q l2, l = l1 ++ q :: l2 /\ l' = l1 ++ l2 /\ r = hull q p /\ meets q p = true /\ Forall (fun x => meets x p = false) l1
  | None => Forall (fun x => meets x p = false) l end.
Proof.
  induction l as [|q l IH]; [constructor|]. cbn [join]. destruct (meets q p) eqn:E.
  - exists [], q, l. repeat split; auto.
  - destruct (join p l) as [[r l']|]; [|now constructor]. destruct IH as (l1 & q' & l2 & -> & -> & -> & M & F).
    exists (q :: l1), q', l2. repeat split; auto.
Qed.
Lemma meets_start x p : forward x -> forward p -> fst x = fst p -> meets x p = true.
Proof. unfold meets, forward. intros Hx Hp E. rewrite <- E in *. apply andb_true_intro. split; apply N.leb_le; lia. Qed.
Lemma file_in q p l : In q (file_period p l) <-> q = p \/ In q l.
Proof.
  induction l as [|x l IH]; cbn [file_period In]; [intuition congruence|]. destruct (fst p <? fst x)%N; cbn [In]; [intuition congruence|].
  rewrite IH. tauto.
Qed.
Lemma file_rising p l : rising l -> (forall q, In q l -> fst q <> fst p) -> rising (file_period p l).
Proof.
  induction 1 as [|x l S IH F]; intros NI; cbn [file_period]; [repeat constructor|].
  destruct (N.ltb_spec (fst p) (fst x)) as [H|H].
  - constructor; [now constructor|]. constructor; [exact H|]. eapply Forall_impl; [|exact F]. cbn. intros; lia.
  - assert (Nx := NI x (or_introl eq_refl)). constructor; [apply IH; intros q I; apply NI; now right|]. apply Forall_forall. intros q I.
    apply file_in in I. rewrite Forall_forall in F. destruct I as [->|I]; [lia|now apply F].
Qed.
Lemma rising_app l1 q l2 : rising (l1 ++ q :: l2) -> rising (l1 ++ l2) /\ (forall x, In x l1 -> fst x < fst q)%N /\ (forall x, In x l2 -> fst q < fst x)%N.
Proof.
  induction l1 as [|x l1 IH]; cbn [app]; intros H; inversion H as [|y l' H1 FA]; subst.
  - split; [assumption|]. split; [intros x []|]. now apply Forall_forall.
  - destruct (IH H1) as (A & B & C). rewrite Forall_forall in FA. split.
    + constructor; [exact A|]. apply Forall_forall. intros y Iy. apply FA. apply in_app_iff in Iy. apply in_app_iff. cbn [In]. tauto.
    + split; [|exact C]. intros y [<-|Iy]; [|now apply B]. apply FA. apply in_app_iff. right. now left.
Qed.
Lemma fresh_start p l : rising l -> Forall forward l -> forward p ->
  match join p l with
  | Some (r, l') => (forall q, In q l' -> fst q <> fst r) /\ rising l' /\ Forall forward l' /\ forward r
  | None => forall q, In q l -> fst q <> fst p end.
Proof.
  intros R F P. pose proof (join_spec p l) as J. destruct (join p l) as [[r l']|].
  - destruct J as (l1 & q & l2 & -> & -> & -> & M & N1). destruct (rising_app _ _ _ R) as (R' & B1 & B2). split; [|split; [exact R'|split]].
    + intros x Ix E. cbn [hull fst] in E. apply in_app_iff in Ix. destruct Ix as [Ix|Ix].
      * rewrite Forall_forall in N1, F. assert (Fx : forward x) by (apply F, in_app_iff; now left). specialize (B1 x Ix).
        specialize (N1 x Ix). rewrite (meets_start x p Fx P) in N1; [discriminate|lia].
      * specialize (B2 x Ix). lia.
    + rewrite Forall_forall in *. intros x Ix. apply F. apply in_app_iff in Ix. apply in_app_iff. cbn [In]. tauto.
    + rewrite Forall_forall in F. assert (Fq : forward q) by (apply F, in_app_iff; right; now left). unfold forward, hull in *. cbn [fst snd]. lia.
  - intros q I E. rewrite Forall_forall in J, F. specialize (J q I). rewrite (meets_start q p (F q I) P E) in J. discriminate.
Qed.
Lemma insert_file (k : N * N) (v : period) m : (forall q, In q (map fst m) -> fst q <> fst k) ->
  map fst (map_insert pair_cmp k v m) = file_period k (map fst m).
Proof.
  induction m as [|[k1 v1] m IH]; intros NI; [reflexivity|]. cbn [map_insert map fst file_period].
  assert (N1 : fst k1 <> fst k) by (apply NI; now left). change (pair_cmp k k1) with (match N.compare (fst k) (fst k1) with Eq => N.compare (snd k) (snd k1) | r => r end).
  destruct (N.compare_spec (fst k) (fst k1)) as [E|H|H].
  - now symmetry in E.
  - cbn [map fst]. destruct (N.ltb_spec (fst k) (fst k1)); [reflexivity|lia].
  - cbn [map fst]. destruct (N.ltb_spec (fst k) (fst k1)); [lia|]. rewrite IH; [reflexivity|]. intros q I. apply NI. now right.
Qed.
Lemma overlap_meets a b : proper a -> proper b ->
  match merge_overlapping a b with
  | Some v => meets (period_key a) (period_key b) = true /\ period_key v = hull (period_key a) (period_key b)
  | None => meets (period_key a) (period_key b) = false
  end.
Proof.
  unfold proper, merge_overlapping, meets, period_key, hull. intros Ha Hb. cbn [fst snd].
  destruct (N.leb_spec (esecs (fst a)) (esecs (fst b))); destruct (N.leb_spec (esecs (fst b)) (esecs (snd a)));
  destruct (N.leb_spec (esecs (fst b)) (esecs (fst a))); destruct (N.leb_spec (esecs (fst a)) (esecs (snd b))); cbn [andb fst snd]; try lia; try reflexivity;
  (split; [reflexivity|]); rewrite max_secs_spec; f_equal; lia.
Qed.
Lemma partner_join x m : pfiled m -> Forall proper (map snd m) -> proper x -> rising (map fst m) ->
  match partner merge_overlapping x m with
  | Some (p, v) => join (period_key x) (map fst m) = Some (period_key v, map fst (map_remove pair_cmp (period_key p) m))
  | None => join (period_key x) (map fst m) = None
  end.
Proof.
  intros [S F] P Px R. induction m as [|[k q] m IH]; [reflexivity|]. cbn [partner map fst join map_remove]. cbn [map snd] in P. inv P.
  cbn [map fst] in R. assert (Ek : k = period_key q) by (apply F; now left).
  pose proof (overlap_meets q x ltac:(assumption) Px) as OM. rewrite <- Ek in OM.
  destruct (merge_overlapping q x) as [v|].
  - destruct OM as [-> Ev]. rewrite <- Ev, <- Ek. destruct pair_order as [PE _ _]. assert (Z : pair_cmp k k = Eq) by now apply PE. now rewrite Z.
  - rewrite OM. inversion R as [|? ? R1 R2]; subst. inversion S as [|? ? S1 S2]; subst.
    specialize (IH S1 (fun k v I => F k v (or_intror I)) ltac:(assumption) R1).
    destruct (partner merge_overlapping x m) as [[p v]|] eqn:Ep.
    + rewrite IH. apply partner_in in Ep. destruct Ep as [_ (k' & I)]. assert (k' = period_key p) by (apply F; now right). subst k'.
      assert (LT : (fst (period_key q) < fst (period_key p))%N).
      { apply (in_map fst) in I. cbn [fst] in I. rewrite Forall_forall in R2. now apply R2 in I. }
      change (pair_cmp (period_key p) (period_key q)) with (match N.compare (fst (period_key p)) (fst (period_key q)) with Eq => N.compare (snd (period_key p)) (snd (period_key q)) | r => r end).
      destruct (N.compare_spec (fst (period_key p)) (fst (period_key q))); [lia|lia|]. reflexivity.
    + now rewrite IH.
Qed.
Lemma merge_in_periods x m : pfiled m -> Forall proper (map snd m) -> proper x -> rising (map fst m) ->
  map fst (merge_in pair_cmp merge_overlapping period_key m x) = add_period (map fst m) (period_key x) /\
  rising (add_period (map fst m) (period_key x)).
Proof.
  intros Fm P Px R. unfold merge_in, add_period. pose proof (partner_join x m Fm P Px R) as PJ.
  assert (FW : Forall forward (map fst m)).
  { apply Forall_forall. intros k I. apply map_fst_in in I. destruct I as [v I]. assert (k = period_key v) by now apply Fm. subst k.
    apply (in_map snd) in I. rewrite Forall_forall in P. exact (P _ I). }
  pose proof (fresh_start (period_key x) (map fst m) R FW Px) as FS.
  destruct (partner merge_overlapping x m) as [[p v]|]; rewrite PJ in *.
  - destruct FS as (F1 & F2 & _). split; [now apply insert_file|now apply file_rising].
  - split; [now apply insert_file|now apply file_rising].
Qed.
Lemma fold_periods xs : forall m, pfiled m -> Forall proper (map snd m) -> Forall proper xs -> rising (map fst m) ->
  map fst (fold_left (merge_in pair_cmp merge_overlapping period_key) xs m) = fold_left add_period (map period_key xs) (map fst m).
Proof.
  induction xs as [|x xs IH]; intros m Fm P Px R; [reflexivity|]. inv Px. cbn [fold_left map].
  destruct (merge_in_periods x m Fm P ltac:(assumption) R) as [E R']. rewrite <- E. apply IH; [| |assumption|now rewrite E].
  - apply (merge_in_filed pair_cmp pair_order), Fm.
  - assert (F1 : Forall proper [x]) by (constructor; [assumption|constructor]). exact (proj1 (proj2 (pm_fold [x] m Fm P F1))).
Qed.
Lemma periods_exact es : map period_key (periods es) = joined (map period_key (grouped secs_rel es)).
Proof.
  unfold periods, merged, joined. set (m := fold_left _ _ _).
  assert (E : map fst m = fold_left add_period (map period_key (grouped secs_rel es)) (map fst (@nil ((N * N) * period)))).
  { apply fold_periods; [apply filed_nil|constructor|apply secs_groups|constructor]. }
  cbn [map] in E. rewrite <- E. assert (Fm : pfiled m) by (apply (fold_filed pair_cmp pair_order), filed_nil). destruct Fm as [_ Fm].
  clear - Fm. induction m as [|[k v] m IH]; [reflexivity|]. cbn [map fst snd]. rewrite IH; [|intros; apply Fm; now right]. now rewrite <- (Fm k v (or_introl eq_refl)).
Qed.
Lemma timestamp_splitit_exact fuel b es : length b + 5 <= fuel -> dltit b = Ret es ->
  exists m, timestamp_splitit fuel b = Ret m /\ okm m /\ ecu_rows es periods_row m.
Proof.
  intros L E. destruct (dltit_total b) as (l & El & E'). assert (es = map snd l) by congruence. subst es. pose proof (entries_len b l El).
  destruct (timestamp_splitit_spec fuel b l El ltac:(lia)) as (m & Em & OK & KS & P). exists m. split; [exact Em|]. split; [exact OK|].
  split; [apply quads_before, OK|]. split; [exact KS|]. intros k x I. apply P in I. destruct I as [I1 I2]. rewrite of_from in *. split; [exact I1|].
  destruct (grouped_runs continuous (from_ecu k (map snd l))) as (runs & MR & F2); [intros; apply N.leb_refl|].
  exists runs. split; [exact MR|]. rewrite (runs_extents secs_of _ _ F2). apply hist_of_table in I2. unfold number_table in *.
  change (map (fun p => (secs_of (fst p), secs_of (snd p))) (grouped continuous (from_ecu k (map snd l)))) with (map period_key (grouped secs_rel (from_ecu k (map snd l)))).
  rewrite <- periods_exact, map_map. exact I2.
Qed.
Lemma continuous_exact b es : dltit b = Ret es ->
  exists runs h, maximal_runs continuous es runs /\ continuous_timestamp_histogram b = Ret h /\ number_table (map (fun g => span secs_of g) runs) h.
Proof.
  intros E. destruct (dltit_total b) as (l & El & E'). assert (es = map snd l) by congruence. subst es.
  destruct (continuous_spec b l El) as (h & Eh & H). destruct (grouped_runs continuous (map snd l)) as (runs & MR & F2); [intros; apply N.leb_refl|].
  exists runs, h. split; [exact MR|]. split; [exact Eh|]. rewrite (runs_spans secs_of (fun d => d) runs _ F2). now apply hist_of_table.
Qed.

(** * Payloads, sizes, message types *)
Lemma payload_body e : ~ stunted e -> exists o, payload (dlt e) = Ret o /\ opt_bytes o = body e /\ (o <> None <-> whole e).
Proof.
  unfold stunted, body, whole, ext_size. fold (htype e). intros H. rewrite payload_exact. cbv zeta. fold (htype e).
  destruct (flag (htype e) 0).
  - destruct (Nat.ltb_spec (length (tail (dlt e))) (announced (htype e))) as [A|A]; [exfalso; auto|].
    destruct (Nat.ltb_spec (length (tail (dlt e))) (announced (htype e) + 10)) as [B|B]; eexists; (split; [reflexivity|]); cbn [opt_bytes].
    + split; [symmetry; apply skipn_all2; lia|]. split; [intros Z; now contradiction Z|lia].
    + split; [reflexivity|]. split; [intros _; lia|discriminate].
  - rewrite Nat.add_0_r. destruct (Nat.ltb_spec (length (tail (dlt e))) (announced (htype e))) as [B|B]; eexists; (split; [reflexivity|]); cbn [opt_bytes].
    + split; [symmetry; apply skipn_all2; lia|]. split; [intros Z; now contradiction Z|lia].
    + split; [reflexivity|]. split; [intros _; lia|discriminate].
Qed.
Lemma stunted_panic e : stunted e -> payload (dlt e) = Panic /\ extended_header (dlt e) = Panic.
Proof.
  intros [A B]. destruct (accessors_panic_iff (dlt e)) as (_ & _ & X & P & _). split; [apply P|apply X]; split; assumption.
Qed.
Lemma stunted_not_whole e : stunted e -> ~ whole e.
Proof. unfold stunted, whole. lia. Qed.
Lemma pl_len_body e : ~ stunted e -> pl_len e = length (body e).
Proof. intros H. destruct (payload_body e H) as (o & E & B & _). unfold pl_len. rewrite E, <- B. now destruct o. Qed.
Lemma histogram_payload_exact b es : dltit b = Ret es ->
  ((forall e, In e es -> ~ stunted e) -> exists h, histogram_payload b = Ret h /\ number_table (map (fun e => N.of_nat (length (body e))) es) h) /\
  ((exists e, In e es /\ stunted e) -> histogram_payload b = Panic).
Proof.
  intros E. destruct (dltit_total b) as (l & El & E'). assert (es = map snd l) by congruence. subst es. split.
  - intros H. destruct (histogram_payload_spec b l El) as (h & Eh & Hh).
    { intros e I. destruct (payload_body e (H e I)) as (o & -> & _). discriminate. }
    exists h. split; [exact Eh|]. apply hist_of_table in Hh. unfold number_table in *. erewrite map_ext_in; [exact Hh|].
    intros e I. cbv beta. rewrite pl_len_body; [reflexivity|now apply H].
  - intros (e & I & S). unfold histogram_payload. rewrite E. cbn [obind]. rewrite mapM_panic; [reflexivity| |].
    + intros x _. destruct (accessors_panic_iff (dlt x)) as (_ & _ & _ & _ & _ & _ & _ & NF). destruct (payload (dlt x)); cbn; congruence.
    + exists e. split; [exact I|]. now rewrite (proj1 (stunted_panic e S)).
Qed.
Lemma storage_len_size e : storage_len e = size_of e.
Proof. unfold storage_len, size_of, std_header_length, storage_header_size. lia. Qed.
Lemma histogram_message_exact b es : dltit b = Ret es ->
  exists h, histogram_message b = Ret h /\ number_table (map (fun e => N.of_nat (size_of e)) es) h.
Proof.
  intros E. destruct (dltit_total b) as (l & El & E'). assert (es = map snd l) by congruence. subst es.
  destruct (histogram_message_spec b l El) as (h & Eh & Hh). exists h. split; [exact Eh|]. apply hist_of_table in Hh.
  unfold number_table in *. erewrite map_ext; [exact Hh|]. intros e. cbv beta. now rewrite storage_len_size.
Qed.
Lemma ext_info e : extended e = true -> whole e -> exists x, extended_header (dlt e) = Ret (Some x) /\ msin x = info_byte e.
Proof.
  unfold extended, whole, ext_size, info_byte. intros F W. rewrite F in W. rewrite extended_header_exact. cbv zeta. fold (htype e). rewrite F.
  destruct (Nat.ltb_spec (length (tail (dlt e))) (announced (htype e))) as [A|A]; [lia|].
  assert (L : 10 <= length (skipn (announced (htype e)) (tail (dlt e)))) by (rewrite skipn_length; lia).
  assert (N0 : nth (announced (htype e)) (tail (dlt e)) x00 = nth 0 (skipn (announced (htype e)) (tail (dlt e))) x00) by (rewrite nth_skipn_x, Nat.add_0_r; reflexivity).
  rewrite N0. clear N0. revert L.
  generalize (skipn (announced (htype e)) (tail (dlt e))) as t. intros t L.
  do 10 (destruct t as [|? t]; [cbn [List.length] in L; lia|]). eexists. split; reflexivity.
Qed.
Lemma ext_not_whole e : extended e = true -> ~ whole e -> extended_header (dlt e) = Panic \/ extended_header (dlt e) = Ret None.
Proof.
  unfold extended, whole, ext_size. intros F W. rewrite F in W. rewrite extended_header_exact. cbv zeta. fold (htype e). rewrite F.
  destruct (Nat.ltb_spec (length (tail (dlt e))) (announced (htype e))) as [A|A]; [now left|right]. f_equal.
  assert (L : length (skipn (announced (htype e)) (tail (dlt e))) < 10) by (rewrite skipn_length; lia). revert L.
  generalize (skipn (announced (htype e)) (tail (dlt e))) as t. intros t L.
  do 10 (destruct t as [|? t]; [reflexivity|]). cbn [List.length] in L. lia.
Qed.
Lemma extended_flag e : is_extended_header (header_type (header (dlt e))) = extended e.
Proof. apply flags_spec. Qed.
Lemma feed_split_panic {I K} (cmp : K -> K -> comparison) (keyfn : I -> outcome K) xs : (forall x, In x xs -> keyfn x <> Fuel) ->
  (exists x, In x xs /\ keyfn x = Panic) -> histogram cmp keyfn xs = Panic.
Proof.
  intros NF H. unfold histogram, run_reduce. generalize (@nil (K * (nat * unit))). revert NF H.
  induction xs as [|y xs IH]; intros NF (x & I1 & E) m; [destruct I1|]. cbn [feed]. cbn [rnext Split] in *.
  destruct (keyfn y) as [k| |] eqn:Ey; [|reflexivity|exfalso; apply (NF y); [now left|exact Ey]]. cbn [obind].
  destruct I1 as [->|I1]; [congruence|].
  assert (R : forall s, exists s', rnext (@CountG I) s y = Ret s') by (intros [n u]; eexists; reflexivity).
  destruct (R (match map_get cmp k m with Some s => s | None => (0, tt) end)) as [s' ->]. cbn [obind].
  apply IH; [intros; apply NF; now right|now exists x].
Qed.
Lemma info_before p q : info_cmp p q = Lt -> type_before p q.
Proof.
  destruct p as [[|] [t|]], q as [[|] [u|]]; unfold info_cmp, type_before; cbn [fst snd]; try discriminate; try (now auto);
    (intros H; right; split; [reflexivity|]; revert H; destruct t as [[]|[]|[]|[]], u as [[]|[]|[]|[]]; cbn; try discriminate; intros _; lia).
Qed.
Lemma mstp_exact b es : dltit b = Ret es ->
  ((forall e, In e es -> extended e = true -> whole e) -> exists h, mstp_info_histogram b = Ret h /\
     table type_dec type_before (map (fun e => shown_type (info_byte e)) (filter extended es)) h) /\
  ((exists e, In e es /\ extended e = true /\ ~ whole e) -> mstp_info_histogram b = Panic).
Proof.
  intros E. unfold mstp_info_histogram. rewrite E. cbn [obind]. rewrite (filter_ext _ extended extended_flag). split.
  - intros H. destruct (histogram_table info_cmp info_order type_dec
      (fun e => let* h := extended_header (dlt e) in let* h := unwrap h in Ret (msin_info (msin h))) (fun e => shown_type (info_byte e)) (filter extended es)) as (h & Eh & S & T).
    + intros e I. apply filter_In in I. destruct I as [I F].
      destruct (ext_info e F (H e I F)) as (x & -> & M). cbn [obind unwrap]. rewrite M. f_equal. apply (proj1 (proj2 (decode_exact (info_byte e)))).
    + exists h. split; [exact Eh|]. split; [|exact T]. clear - S. induction S as [|x l S IH F]; [constructor|]. constructor; [exact IH|].
      eapply Forall_impl; [|exact F]. intros y. apply info_before.
  - intros (e & I & F & W). apply feed_split_panic.
    + intros x _. destruct (accessors_panic_iff (dlt x)) as (_ & _ & _ & _ & _ & _ & NF & _). destruct (extended_header (dlt x)) as [[h|]| |]; cbn; congruence.
    + exists e. split; [apply filter_In; now split|]. destruct (ext_not_whole e F W) as [->| ->]; reflexivity.
Qed.

(** * Hello World *)
Lemma hello_no_overlap : no_overlap hello_world.
Proof.
  intros x k Hk P. cbn [hello_world List.length] in Hk. apply is_prefix_app in P. destruct P as [post ->].
  destruct k as [|k]; [lia|]. do 10 (destruct k as [|k]; [cbn; reflexivity|]). lia.
Qed.
Lemma whole_dec e : {whole e} + {~ whole e}.
Proof. unfold whole. apply le_dec. Qed.
Lemma hello_predicate_whole e : whole e -> exists v, hello_predicate e = Ret v /\ (v = true <-> occurs_in hello (body e)).
Proof.
  intros W. assert (NS : ~ stunted e) by (intros S; exact (stunted_not_whole e S W)).
  destruct (payload_body e NS) as (o & E & B & I). apply I in W. destruct o as [p|]; [|congruence]. cbn [opt_bytes] in B. subst p.
  unfold hello_predicate. rewrite E. cbn [obind unwrap]. eexists. split; [reflexivity|].
  rewrite <- (find_iter_occurs hello (body e)) by (cbn; lia). change hello with hello_world.
  destruct (find_iter hello_world (body e)); split; congruence.
Qed.
Lemma hello_predicate_broken e : ~ whole e -> hello_predicate e = Panic.
Proof.
  intros W. unfold hello_predicate.
  assert (D : {stunted e} + {~ stunted e}).
  { unfold stunted. destruct (flag (htype e) 0); [|right; now intros []]. destruct (lt_dec (length (tail (dlt e))) (announced (htype e))); [left; auto|right; tauto]. }
  destruct D as [S|S]; [now rewrite (proj1 (stunted_panic e S))|]. destruct (payload_body e S) as (o & E & _ & I). rewrite E.
  destruct o; [|reflexivity]. exfalso. apply W, I. discriminate.
Qed.
Lemma hello_predicate_nofuel e : hello_predicate e <> Fuel.
Proof.
  unfold hello_predicate. destruct (accessors_panic_iff (dlt e)) as (_ & _ & _ & _ & _ & _ & _ & NF). destruct (payload (dlt e)) as [[p|]| |]; cbn; congruence.
Qed.
Lemma count_hello_world_exact b es : dltit b = Ret es ->
  ((forall e, In e es -> whole e) -> exists holds, (forall e, holds e = true <-> occurs_in hello (body e)) /\
     count_hello_world b = Ret (length (filter holds es))) /\
  ((exists e, In e es /\ ~ whole e) -> count_hello_world b = Panic).
Proof.
  intros E. unfold count_hello_world. rewrite E. cbn [obind]. split.
  - intros W. exists (fun e => match find_iter hello (body e) with [] => false | _ => true end). split.
    + intros e. rewrite <- (find_iter_occurs hello (body e)) by (cbn; lia). destruct (find_iter hello (body e)); split; congruence.
    + rewrite (filterM_ret _ (fun e => match find_iter hello (body e) with [] => false | _ => true end)); [reflexivity|].
      intros e I. assert (NS : ~ stunted e) by (intros S; exact (stunted_not_whole e S (W e I))).
      destruct (payload_body e NS) as (o & E' & B & Iw). destruct o as [p|]; [|exfalso; now apply (proj2 Iw (W e I))].
      cbn [opt_bytes] in B. subst p. unfold hello_predicate. now rewrite E'.
  - intros (e & I & W). rewrite filterM_panic; [reflexivity|intros; apply hello_predicate_nofuel|]. exists e. split; [exact I|now apply hello_predicate_broken].
Qed.
Lemma raw_exact b : exists ks, StronglySorted lt ks /\ (forall k, In k ks <-> occurs_at hello b k) /\ count_hello_world_raw b = Ret (length ks).
Proof.
  exists (find_iter hello b). split; [apply find_iter_sorted; [cbn; lia|exact hello_no_overlap]|]. split; [|reflexivity].
  intros k. rewrite find_iter_in by (try exact hello_no_overlap; cbn; lia). apply occ_occurs. cbn; lia.
Qed.

(** * Printing of ECU ids *)
Lemma print_ecus_text m : (forall k, In k (map fst m) -> utf8_text (quad_bytes k)) ->
  print_ecus m = Ret (map (fun kx => LEcu (quad_bytes (fst kx)) (snd kx)) m).
Proof.
  intros H. unfold print_ecus. apply mapM_In. apply Forall_forall. intros [k x] I. cbn [fst snd].
  assert (T : utf8_text (quad_bytes k)) by (apply H; now apply (in_map fst) in I). apply from_utf8_exact in T. now rewrite T.
Qed.
Lemma print_ecus_panic m k : In k (map fst m) -> ~ utf8_text (quad_bytes k) -> print_ecus m = Panic.
Proof.
  intros I T. unfold print_ecus. apply mapM_panic.
  - intros x _. now destruct (from_utf8_ok _).
  - apply map_fst_in in I. destruct I as [v I]. exists (k, v). split; [exact I|]. cbn [fst].
    destruct (from_utf8_ok (quad_bytes k)) eqn:U; [|reflexivity]. apply from_utf8_exact in U. contradiction.
Qed.

(** * Merging of the slices' results *)
Lemma hist_of_merge l1 l2 h1 h2 : hist_of l1 h1 -> hist_of l2 h2 -> hist_of (l1 ++ l2) (hist_merge N.compare h1 h2).
Proof.
  intros [S1 H1] [S2 H2].
  assert (F : Forall (okh N.compare) (leaves (RNode (RLeaf h1) (RLeaf h2)))) by (cbn; repeat constructor; assumption).
  split; [exact (hist_ok N.compare N_order _ F)|]. intros k. split.
  - rewrite (hist_merge_tally h1 h2 k S1 S2), count_occ_app. now rewrite (proj1 (H1 k)), (proj1 (H2 k)).
  - change (hist_merge N.compare h1 h2) with (reduce_tree [] (hist_merge N.compare) (RNode (RLeaf h1) (RLeaf h2))).
    rewrite (hist_keys N.compare N_order _ k F), in_app_iff, <- (proj2 (H1 k)), <- (proj2 (H2 k)). cbn [leaves app In]. split.
    + intros (h & [<-|[<-|[]]] & I); auto.
    + intros [I|I]; [exists h1|exists h2]; auto.
Qed.
Lemma hist_of_nil : hist_of [] [].
Proof. split; [constructor|]. intros k. cbn. tauto. Qed.
Fixpoint right_tree {A} (l : list A) : rtree A := match l with [] => RId | x :: l' => RNode (RLeaf x) (right_tree l') end.
Lemma right_leaves {A} (l : list A) : leaves (right_tree l) = l.
Proof. induction l as [|x l IH]; [reflexivity|]. cbn. now rewrite IH. Qed.
Lemma hist_of_all ls hs : Forall2 hist_of ls hs -> hist_of (concat ls) (reduce_tree [] (hist_merge N.compare) (right_tree hs)).
Proof. induction 1 as [|l h ls hs H F IH]; [exact hist_of_nil|]. cbn [concat right_tree reduce_tree]. now apply hist_of_merge. Qed.
Lemma hist_of_sched (s : scheduler) ls hs : fair_sched s -> Forall2 hist_of ls hs ->
  hist_of (concat ls) (reduce_tree [] (hist_merge N.compare) (s _ hs)).
Proof.
  intros FS F. assert (OK : Forall (okh N.compare) hs) by (clear - F; induction F as [|l h ls hs [S _] F IH]; constructor; assumption).
  rewrite (hist_perm N.compare N_order (s _ hs) (right_tree hs)); [now apply hist_of_all| |].
  - rewrite right_leaves. apply FS.
  - eapply Permutation_Forall; [apply Permutation_sym, FS|exact OK].
Qed.

(** The rows of all slices together. *)
Lemma split_row k : forall (es : list (list storage_entry)) ms,
  Forall2 (fun e m => okm m /\ ecu_rows e periods_row m) es ms ->
  match fold_right (oop eop) None (map (map_get quad_cmp k) ms) with
  | Some x => In k (map ecu_of (concat es)) /\ snd x = length (from_ecu k (concat es)) /\
      exists rs, Forall2 (fun e r => maximal_runs continuous (from_ecu k e) r) es rs /\
        hist_of (concat (map (fun r => map (fun p => snd p - fst p)%N (joined (map (extent secs_of) r))) rs)) (fst x)
  | None => ~ In k (map ecu_of (concat es))
  end.
Proof.
  intros es ms F. induction F as [|e m es ms [OK R] F IH]; cbn [map fold_right].
  - intros [].
  - cbn [concat].
    assert (IN : In k (map ecu_of (e ++ concat es)) <-> In k (map ecu_of e) \/ In k (map ecu_of (concat es))) by (rewrite map_app; apply in_app_iff).
    assert (LN : length (from_ecu k (e ++ concat es)) = length (from_ecu k e) + length (from_ecu k (concat es))) by (unfold from_ecu; rewrite filter_app; apply app_length).
    assert (RR : match map_get quad_cmp k m with
      | Some x => In k (map ecu_of e) /\ snd x = length (from_ecu k e) /\ exists r, maximal_runs continuous (from_ecu k e) r /\ hist_of (map (fun p => snd p - fst p)%N (joined (map (extent secs_of) r))) (fst x)
      | None => ~ In k (map ecu_of e) end).
    { destruct R as (_ & K & R). destruct (map_get quad_cmp k m) as [x|] eqn:G.
      - apply (get_in quad_cmp quad_order) in G; [|apply OK]. destruct (R k x G) as [R1 (r & R2 & R3)]. split; [apply K; now apply (in_map fst) in G|].
        split; [exact R1|]. exists r. split; [exact R2|]. now apply table_hist_of.
      - intros I. apply K in I. apply (get_none quad_cmp quad_order) in G; [contradiction|apply OK]. }
    assert (NO : forall l, ~ In k (map ecu_of l) -> from_ecu k l = [] ).
    { intros l N. unfold from_ecu. induction l as [|y l IHl]; [reflexivity|]. cbn [filter]. destruct (quad_dec (ecu_of y) k) as [Q|Q]; [exfalso; apply N; now left|].
      apply IHl. intros I. apply N. now right. }
    assert (RN : forall l, l = [] -> maximal_runs continuous l []).
    { intros l ->. repeat split; constructor. }
    destruct (map_get quad_cmp k m) as [x|]; destruct (fold_right (oop eop) None (map (map_get quad_cmp k) ms)) as [y|]; cbn [oop].
    + destruct RR as (A1 & A2 & r & A3 & A4). destruct IH as (B1 & B2 & rs & B3 & B4). split; [apply IN; now left|]. split; [cbn [eop snd]; lia|].
      exists (r :: rs). split; [now constructor|]. cbn [map concat eop fst]. now apply hist_of_merge.
    + destruct RR as (A1 & A2 & r & A3 & A4). split; [apply IN; now left|]. rewrite LN, (NO _ IH), Nat.add_0_r. split; [exact A2|].
      exists (r :: map (fun _ => []) es). split.
      * constructor; [exact A3|]. clear - IH NO RN. induction es as [|e' es IHe]; [constructor|]. cbn [concat] in IH. rewrite map_app, in_app_iff in IH.
        constructor; [apply RN, NO; tauto|apply IHe; tauto].
      * cbn [map concat]. rewrite map_map. cbn [map]. assert (Z : concat (map (fun _ : list storage_entry => @nil N) es) = []) by (clear; induction es; [reflexivity|assumption]).
        change (joined []) with (@nil (N * N)). cbn [map]. rewrite Z, app_nil_r. exact A4.
    + destruct IH as (B1 & B2 & rs & B3 & B4). split; [apply IN; now right|]. rewrite LN, (NO _ RR). split; [exact B2|].
      exists ([] :: rs). split; [constructor; [now apply RN, NO|exact B3]|]. cbn [map concat]. exact B4.
    + tauto.
Qed.
