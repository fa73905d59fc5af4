(** Property theorems C37, C42-C45, C52: ripdlt's commands. *)
From Coq Require Import String.
From Verif Require Import Base DltModel MatchModel GenModel ToolsModel MainModel Spec Samples BaseFacts DltFacts CodecFacts ParseFacts
  FindFacts IterFacts DltIterFacts LayoutFacts GrepFacts GrepTools PartitionFacts GenFacts GroupFacts MapFacts MergeFacts TreeFacts ToolFacts
  Utf8Facts CommandFacts TotalFacts P_Partition.
From Coq Require Import Sorted Permutation.

(** C37: for any sequence of entries, groups of ascending storage seconds end no earlier than
    they start, so the subtraction does not underflow ... *)
Theorem C37_seconds : forall es : list storage_entry,
  exists gs, groupby_iter secs_pred es = Ret gs /\
    forall a z, In (a, z) gs -> (secs_of a <= secs_of z)%N /\ secs_delta (a, z) = Ret (secs_of z - secs_of a)%N.
Proof.
  intros es. exists (grouped secs_rel es). split; [now apply groupby_iter_spec|]. intros a z I.
  pose proof (secs_groups es) as P. rewrite Forall_forall in P. specialize (P _ I). split; [exact P|exact (secs_delta_ret _ P)].
Qed.
Print Assumptions C37_seconds.

(** ... the same for the message timestamps of groups, with and without comparing ECU ids
    first, and of neighbouring messages (itertools). *)
Lemma ts_some a t : timestamp (dlt a) = Ret (Some t) -> ts a = Some t.
Proof. unfold ts. now intros ->. Qed.
Lemma ts_delta_val a z t0 t1 : ts_le a z -> timestamp (dlt a) = Ret (Some t0) -> timestamp (dlt z) = Ret (Some t1) ->
  (t0 <= t1)%N /\ ts_delta (a, z) = Ret (t1 - t0)%N.
Proof.
  intros L H0 H1. apply ts_some in H0, H1. split; [exact (ts_le_some a z t0 t1 L H0 H1)|].
  rewrite ts_delta_ret; cbn [fst snd]; try congruence; try exact L. unfold ts_diff, ts_val. cbn [fst snd]. now rewrite H0, H1.
Qed.
Theorem C37_timestamps : forall es : list storage_entry,
  (exists gs, groupby_iter ts_pred es = Ret gs /\
     forall a z t0 t1, In (a, z) gs -> timestamp (dlt a) = Ret (Some t0) -> timestamp (dlt z) = Ret (Some t1) ->
       (t0 <= t1)%N /\ ts_delta (a, z) = Ret (t1 - t0)%N) /\
  ((forall e, In e es -> ecu_id (dlt e) <> Panic) ->
   exists gs, groupby_iter ecu_ts_pred es = Ret gs /\
     forall a z t0 t1, In (a, z) gs -> timestamp (dlt a) = Ret (Some t0) -> timestamp (dlt z) = Ret (Some t1) ->
       (t0 <= t1)%N /\ ts_delta (a, z) = Ret (t1 - t0)%N) /\
  (forall a z t0 t1, In (a, z) (tuple_windows es) -> ts_pred a z = Ret true ->
     timestamp (dlt a) = Ret (Some t0) -> timestamp (dlt z) = Ret (Some t1) ->
     (t0 <= t1)%N /\ ts_delta (a, z) = Ret (t1 - t0)%N).
Proof.
  intros es. split; [|split].
  - exists (grouped ts_rel es). split; [apply groupby_iter_spec; intros; apply ts_pred_rel|]. intros a z t0 t1 I.
    pose proof (ts_groups es) as P. rewrite Forall_forall in P. apply ts_delta_val. exact (P _ I).
  - intros NP. exists (grouped ecu_ts_rel es). split.
    + apply groupby_iter_spec. intros a b Ia Ib. unfold ecu_ts_pred, ecu_ts_rel, eid.
      assert (F : forall e, In e es -> exists o, ecu_id (dlt e) = Ret o).
      { intros e Ie. specialize (NP e Ie). rewrite ecu_id_exact in *.
        destruct (flag _ 2); [destruct (_ <? 4)|]; (congruence || now eexists). }
      destruct (F a Ia) as [oa ->]. destruct (F b Ib) as [ob ->]. cbn [obind].
      destruct (opt_eqb oa ob); [apply ts_pred_rel|reflexivity].
    + intros a z t0 t1 I. pose proof (ecu_ts_groups es) as P. rewrite Forall_forall in P. apply ts_delta_val. exact (P _ I).
  - intros a z t0 t1 _ H. rewrite ts_pred_rel in H. injection H as H. now apply ts_delta_val.
Qed.
Print Assumptions C37_timestamps.

Definition entry_at (m : bytes) : storage_entry := entry_of m.
Example C37_example : exists gs,
  groupby_iter ts_pred (map entry_at [m3; m1; m3; m3]) = Ret gs /\ map ts_delta gs = [Ret 0%N; Ret 256%N].
Proof. eexists. vm_compute. split; reflexivity. Qed.

(** C42: the result of a parallel command does not depend on how the reduction is split,
    associated, ordered and padded with identities, and is the key-wise sum. *)
Lemma Forall2_In_r {A B} (R : A -> B -> Prop) l l' y : Forall2 R l l' -> In y l' -> exists x, In x l /\ R x y.
Proof.
  induction 1 as [|a b l l' H F IH]; [intros []|]. intros [->|I]; [exists a; cbn; auto|].
  destruct (IH I) as (x & A1 & A2). exists x. cbn. auto.
Qed.
Theorem C42_parallel_sum : forall (s1 s2 : scheduler) (num : nat) (f : bytes -> outcome nat) (b : bytes),
  fair_sched s1 -> fair_sched s2 ->
  multithreaded s1 num f b = multithreaded s2 num f b /\
  forall slices ns, partition_from DLT b num = Ret slices -> Forall2 (fun s n => f s = Ret n) slices ns ->
    multithreaded s1 num f b = Ret (list_sum ns).
Proof.
  intros s1 s2 num f b F1 F2.
  assert (G : forall s ns, fair_sched s -> reduce_tree 0 Nat.add (s nat ns) = list_sum ns).
  { intros s ns F. rewrite reduce_add. apply (sum_perm _ _ (F nat ns)). }
  unfold multithreaded. split.
  - destruct (partition_from DLT b num) as [l| |]; [|reflexivity|reflexivity]. cbn [obind].
    destruct (mapM f l) as [rs| |]; [|reflexivity|reflexivity]. cbn [obind]. now rewrite !G.
  - intros slices ns -> F. cbn [obind].
    assert (Q : mapM f slices = Ret ns) by (induction F as [|s n l ns' H F IH]; [reflexivity|]; cbn [mapM]; now rewrite H, IH).
    rewrite Q. cbn [obind]. now rewrite G.
Qed.
Print Assumptions C42_parallel_sum.

Theorem C42_parallel_histogram : forall (s1 s2 : scheduler) (num : nat) (b : bytes),
  fair_sched s1 -> fair_sched s2 -> 0 < num ->
  exists slices hs h, partition_from DLT b num = Ret slices /\
    Forall2 (fun s h' => continuous_timestamp_histogram s = Ret h') slices hs /\
    par_continuous_timestamp_histogram s1 num b = Ret h /\
    par_continuous_timestamp_histogram s2 num b = Ret h /\
    ascending N.compare (map fst h) /\
    (forall k, In k (map fst h) <-> exists h', In h' hs /\ In k (map fst h')) /\
    forall k, under N.eq_dec k h = list_sum (map (under N.eq_dec k) hs).
Proof.
  intros s1 s2 num b F1 F2 Hn. destruct (partition_pieces b num Hn) as (l & rest & E & _).
  destruct (@mapM_total bytes _ continuous_timestamp_histogram l) as [hs Eh]; [intros; apply continuous_ret|].
  pose proof (mapM_length _ _ _ Eh) as FH.
  assert (OK : Forall (okh N.compare) hs).
  { apply Forall_forall. intros h I. destruct (Forall2_In_r _ _ _ _ FH I) as (s & _ & Es).
    destruct (dltit_total s) as (it & Ei & _). destruct (continuous_spec s it Ei) as (h' & Eh' & (S & _)).
    assert (h' = h) by congruence. subst. exact S. }
  assert (OKs : forall s, fair_sched s -> Forall (okh N.compare) (leaves (s _ hs))).
  { intros s F. apply (Permutation_Forall (Permutation_sym (F _ hs))). exact OK. }
  unfold par_continuous_timestamp_histogram. rewrite E. cbn [obind]. rewrite Eh. cbn [obind].
  exists l, hs, (reduce_tree [] (hist_merge N.compare) (s1 _ hs)).
  split; [reflexivity|]. split; [exact FH|]. split; [reflexivity|]. split.
  { f_equal. apply (hist_perm N.compare N_order); [|now apply OKs].
    eapply Permutation_trans; [apply F2|]. apply Permutation_sym, F1. }
  pose proof (hist_ok N.compare N_order _ (OKs s1 F1)) as OKh. split; [exact OKh|]. split.
  - intros k. rewrite (hist_keys N.compare N_order _ k (OKs s1 F1)).
    split; intros (h' & I1 & I2); exists h'; (split; [|exact I2]);
      [apply (Permutation_in _ (F1 _ hs)); exact I1|apply (Permutation_in _ (Permutation_sym (F1 _ hs))); exact I1].
  - intros k. rewrite (under_tally N.compare N_order N.eq_dec k _ OKh), (hist_tally N.compare N_order _ k (OKs s1 F1)).
    rewrite (sum_perm _ _ (Permutation_map _ (F1 _ hs))). f_equal. apply map_ext_in. intros h I.
    rewrite Forall_forall in OK. symmetry. apply (under_tally N.compare N_order). now apply OK.
Qed.
Print Assumptions C42_parallel_histogram.

(** The number of messages of an ECU, and the count of periods of length [d] of an ECU, in a
    per-ECU table. *)
Definition ecu_messages (k : quad) (m : list (quad * (list (N * nat) * nat))) : nat :=
  under quad_dec k (map (fun kx => (fst kx, snd (snd kx))) m).
Definition ecu_periods (k : quad) (d : N) (m : list (quad * (list (N * nat) * nat))) : nat :=
  under quad_dec k (map (fun kx => (fst kx, under N.eq_dec d (fst (snd kx)))) m).

Lemma under_get {V} (f : V -> nat) k (m : list (quad * V)) : sorted quad_cmp m ->
  under quad_dec k (map (fun kx => (fst kx, f (snd kx))) m) = match map_get quad_cmp k m with Some x => f x | None => 0 end.
Proof.
  intros S. assert (FE : map fst (map (fun kx : quad * V => (fst kx, f (snd kx))) m) = map fst m) by (rewrite map_map; reflexivity).
  rewrite (under_tally quad_cmp quad_order).
  - unfold tally. clear S FE. induction m as [|[k1 v] m IH]; [reflexivity|]. cbn [map map_get fst snd].
    destruct (quad_cmp k k1); [reflexivity|reflexivity|exact IH].
  - unfold sorted. now rewrite FE.
Qed.
Lemma ecu_messages_count k m : okm m -> ecu_messages k m = ecu_count k m.
Proof. intros [S _]. unfold ecu_messages. apply (under_get (fun x : ecu_entry => snd x) k m S). Qed.
Lemma ecu_periods_tally k d m : okm m -> ecu_periods k d m = ecu_tally k d m.
Proof.
  intros OK. unfold ecu_tally. etransitivity; [exact (under_get (fun x : ecu_entry => under N.eq_dec d (fst x)) k m (proj1 OK))|].
  destruct (map_get quad_cmp k m) as [x|] eqn:G; [|reflexivity].
  apply (under_tally N.compare N_order). exact (wf_get quad_cmp quad_order eok m k x OK G).
Qed.

Theorem C42_parallel_split : forall (s1 s2 : scheduler) (num fuel : nat) (b : bytes),
  fair_sched s1 -> fair_sched s2 -> 0 < num -> length b + 5 <= fuel ->
  exists slices ms m, partition_from DLT b num = Ret slices /\
    Forall2 (fun s m' => timestamp_splitit fuel s = Ret m') slices ms /\
    par_timestamp_splitit fuel s1 num b = Ret m /\
    par_timestamp_splitit fuel s2 num b = Ret m /\
    ascending quad_cmp (map fst m) /\
    (forall k, ecu_messages k m = list_sum (map (ecu_messages k) ms)) /\
    (forall k d, ecu_periods k d m = list_sum (map (ecu_periods k d) ms)) /\
    (forall k, In k (map fst m) <-> exists m', In m' ms /\ In k (map fst m')).
Proof.
  intros s1 s2 num fuel b F1 F2 Hn Hf. destruct (partition_pieces b num Hn) as (l & rest & E & _).
  assert (SL : forall s, In s l -> length s + 5 <= fuel).
  { intros s I. destruct (partition_slices b num l s E I) as (pre & post & Q).
    apply (f_equal (@List.length byte)) in Q. rewrite !app_length in Q. lia. }
  destruct (@mapM_total bytes _ (timestamp_splitit fuel) l) as [ms Em]; [intros; apply tsplit_ret; now apply SL|].
  pose proof (mapM_length _ _ _ Em) as FH.
  assert (OK : Forall okm ms).
  { apply Forall_forall. intros m I. destruct (Forall2_In_r _ _ _ _ FH I) as (s & Is & Es).
    destruct (dltit_total s) as (it & Ei & _). pose proof (entries_len s it Ei). specialize (SL s Is).
    destruct (timestamp_splitit_spec fuel s it Ei ltac:(lia)) as (m' & Em' & OKm & _).
    assert (m' = m) by congruence. subst. exact OKm. }
  assert (OKs : forall s, fair_sched s -> Forall okm (leaves (s _ ms))).
  { intros s F. apply (Permutation_Forall (Permutation_sym (F _ ms))). exact OK. }
  unfold par_timestamp_splitit. rewrite E. cbn [obind]. rewrite Em. cbn [obind].
  exists l, ms, (reduce_tree [] split_merge (s1 _ ms)).
  split; [reflexivity|]. split; [exact FH|]. split; [reflexivity|]. split.
  { f_equal. apply split_perm; [|now apply OKs].
    eapply Permutation_trans; [apply F2|]. apply Permutation_sym, F1. }
  pose proof (split_ok _ (OKs s1 F1)) as OKm. split; [exact (proj1 OKm)|]. rewrite Forall_forall in OK. split; [|split].
  - intros k. rewrite (ecu_messages_count k _ OKm), (proj1 (split_sums _ k 0%N (OKs s1 F1))).
    rewrite (sum_perm _ _ (Permutation_map _ (F1 _ ms))). f_equal. apply map_ext_in. intros m I.
    symmetry. apply ecu_messages_count. now apply OK.
  - intros k d. rewrite (ecu_periods_tally k d _ OKm), (proj2 (split_sums _ k d (OKs s1 F1))).
    rewrite (sum_perm _ _ (Permutation_map _ (F1 _ ms))). f_equal. apply map_ext_in. intros m I.
    symmetry. apply ecu_periods_tally. now apply OK.
  - intros k. split.
    + intros I. apply (split_keys _ k (OKs s1 F1)) in I. destruct I as (m' & I & J). exists m'. split; [|exact J].
      now apply (Permutation_in _ (F1 _ ms)).
    + intros (m' & I & J). apply (split_keys_all _ k m' (OKs s1 F1)); [|exact J].
      now apply (Permutation_in _ (Permutation_sym (F1 _ ms))).
Qed.
Print Assumptions C42_parallel_split.

(** Two different schedulers. *)
Fixpoint sched_rev (A : Type) (l : list A) : rtree A :=
  match l with [] => RNode RId RId | x :: l' => RNode (sched_rev A l') (RLeaf x) end.
Lemma sched_rev_fair : fair_sched sched_rev.
Proof.
  intros A l. induction l as [|x l IH]; [constructor|]. cbn [sched_rev leaves].
  eapply Permutation_trans; [apply Permutation_app_comm|]. now constructor.
Qed.
Example C42_example : fair_sched sched_rev /\ fair_sched sched_right /\
  par_continuous_timestamp_histogram sched_rev 2 (concat (repeat (m1 ++ m2 ++ m1) 10)) = Ret [(0%N, 2); (1%N, 10)] /\
  par_continuous_timestamp_histogram sched_right 2 (concat (repeat (m1 ++ m2 ++ m1) 10)) = Ret [(0%N, 2); (1%N, 10)].
Proof. split; [exact sched_rev_fair|]. split; [exact sched_right_fair|]. split; vm_compute; reflexivity. Qed.

(** C43 *)
Definition sizes (l : list nat) : N := fold_right N.add 0%N (map N.of_nat l).

Theorem C43_message_size : forall b : bytes, exists h l,
  histogram_message b = Ret h /\ dltit_offset b = Ret l /\ counts h = length l /\
  exists ms, Forall2 (fun i m => message_at b (fst i) m /\ denotes (snd i) m) l ms /\
    hist_total h = sizes (map (@length byte) ms).
Proof.
  intros b. destruct (dltit_total b) as (l & E & _). destruct (histogram_message_spec b l E) as (h & Eh & H).
  destruct (hist_of_totals _ _ H) as [H1 H2]. exists h, l. split; [exact Eh|]. split; [exact E|].
  split; [now rewrite H1, !map_length|]. destruct (iteration_genuine b l E) as [G _].
  rewrite H2. clear - G. induction l as [|[k e] l IH].
  - exists []. split; [constructor|reflexivity].
  - destruct IH as (ms & F & Q); [intros k' e' I; apply G; now right|].
    destruct (G k e (or_introl eq_refl)) as (m & M & D & L). exists (m :: ms). split; [constructor; [now split|exact F]|].
    cbn [map fold_right snd]. rewrite Q. unfold sizes. cbn [map fold_right]. now rewrite L.
Qed.
Print Assumptions C43_message_size.

Theorem C43_message_size_file : forall ms : list bytes, Forall valid_message ms ->
  exists h, histogram_message (concat ms) = Ret h /\ counts h = length ms /\ hist_total h = N.of_nat (length (concat ms)).
Proof.
  intros ms V. destruct (file_read ms V) as (l & E & S & _). destruct (histogram_message_spec _ l E) as (h & Eh & H).
  destruct (hist_of_totals _ _ H) as [H1 H2]. exists h. split; [exact Eh|]. rewrite H1, H2. clear H1 H2 H Eh E.
  split; [rewrite !map_length, (shows_len _ _ S); rewrite <- placed_bare, placed_len; unfold bare; now rewrite map_length|].
  revert l S. generalize 0. induction V as [|m ms V F IH]; intros k l S.
  - inversion S; subst. reflexivity.
  - inversion S as [|[k' e] y l' ys [D1 D2] S']; subst. cbn [map fold_right snd concat fst] in *. rewrite app_length.
    rewrite (IH _ _ S'). rewrite (storage_len_denotes e m V D2). lia.
Qed.
Print Assumptions C43_message_size_file.

Example C43_example : exists h, histogram_message (concat [m1; m2; m1]) = Ret h /\ h = [(23%N, 1); (45%N, 2)] /\
  counts h = 3 /\ hist_total h = N.of_nat (length (concat [m1; m2; m1])).
Proof. eexists. vm_compute. repeat split; reflexivity. Qed.

Theorem C43_payload_size : forall b h es, dltit b = Ret es -> histogram_payload b = Ret h ->
  counts h = length es /\
  exists ps, Forall2 (fun e p => payload (dlt e) = Ret p) es ps /\
             hist_total h = sizes (map (fun p => length (opt_bytes p)) ps).
Proof.
  intros b h es E H. unfold histogram_payload in H. rewrite E in H. cbn [obind] in H.
  destruct (mapM _ es) as [ls| |] eqn:M; try discriminate H. cbn [obind] in H. apply mapM_length in M.
  destruct (histogram_hist (fun id => Ret (N.of_nat id)) N.of_nat ls) as (h' & Eh & Hh); [reflexivity|].
  assert (h' = h) by congruence. subst h'. destruct (hist_of_totals _ _ Hh) as [H1 H2].
  split; [rewrite H1, map_length; clear - M; induction M; cbn; congruence|].
  rewrite H2. clear - M. induction M as [|e n es ls P M (ps & F & Q)].
  - exists []. split; [constructor|reflexivity].
  - destruct (payload (dlt e)) as [p| |] eqn:Ep; try discriminate P. cbn [obind] in P. injection P as <-.
    exists (p :: ps). split; [now constructor|]. cbn [map fold_right]. rewrite Q. unfold sizes. cbn [map fold_right].
    now destruct p.
Qed.
Print Assumptions C43_payload_size.

Theorem C43_message_type : forall b h es, dltit b = Ret es -> mstp_info_histogram b = Ret h ->
  counts h = length (filter (fun e => flag (header_type (header (dlt e))) 0) es).
Proof.
  intros b h es E H. unfold mstp_info_histogram in H. rewrite E in H. cbn [obind] in H.
  apply (histogram_inv info_cmp info_order) in H. rewrite H. f_equal. apply filter_ext. intros e. apply flags_spec.
Qed.
Print Assumptions C43_message_type.

(** The duration histograms count the groups. *)
Theorem C43_durations : forall b es, dltit b = Ret es ->
  (exists h gs, continuous_timestamp_histogram b = Ret h /\ groupby_iter secs_pred es = Ret gs /\ counts h = length gs) /\
  (forall h, lifecycle_histogram b = Ret h ->
     exists gs, groupby_iter ecu_ts_pred (filter (fun e => flag (header_type (header (dlt e))) 4) es) = Ret gs /\ counts h = length gs).
Proof.
  intros b es E. split.
  - destruct (dltit_total b) as (l & El & E'). assert (es = map snd l) by congruence. subst es.
    destruct (continuous_spec b l El) as (h & Eh & H). exists h, (grouped secs_rel (map snd l)).
    split; [exact Eh|]. split; [now apply groupby_iter_spec|]. destruct (hist_of_totals _ _ H) as [H1 _].
    rewrite H1. unfold durations. apply map_length.
  - intros h H. unfold lifecycle_histogram in H. rewrite E in H. cbn [obind] in H.
    assert (Q : filter (fun e => flag (header_type (header (dlt e))) 4) es = filter with_ts es).
    { apply filter_ext. intros e. symmetry. apply flags_spec. }
    rewrite Q. destruct (groupby_iter ecu_ts_pred (filter with_ts es)) as [gs| |]; try discriminate H. cbn [obind] in H.
    destruct (mapM ts_delta gs) as [ds| |] eqn:M; try discriminate H. cbn [obind] in H. exists gs. split; [reflexivity|].
    apply (histogram_inv N.compare N_order) in H. rewrite H. apply mapM_length in M. clear - M. induction M; cbn; congruence.
Qed.
Print Assumptions C43_durations.

(** The per-ECU tables: the messages of each ECU, and all of them together. *)
Lemma reducer_count {S R} (r : Reduce S storage_entry R) (s : S) fuel es x :
  run_reduce (ReducerOver (Fork r CountG) NilAdapter (Datatypes.S fuel)) ((s, (0, tt)), tt) es = Ret x -> snd x = length es.
Proof.
  rewrite (run_over _ NilAdapter 1 tt es es (delivers_nil es)) by lia. intros H. apply fork_inv in H. destruct H as [_ H].
  rewrite run_countg in H. congruence.
Qed.
Lemma sub_length k es : freq quad_cmp (fun e => ecu (sheader e)) k es = length (filter (fun e => if quad_dec (ecu_of e) k then true else false) es).
Proof.
  unfold freq, sub. f_equal. apply filter_ext. intros e. unfold ecu_of. destruct (quad_dec (ecu (sheader e)) k) as [->|N].
  - apply (keq_refl quad_cmp quad_order).
  - destruct (keq quad_cmp (ecu (sheader e)) k) eqn:Q; [|reflexivity]. apply (keq_iff quad_cmp quad_order) in Q. contradiction.
Qed.
Lemma split_counts {S R} (r : Reduce S storage_entry R) (init : quad -> S) fuel es m :
  run_reduce (Split quad_cmp (fun e => Ret (ecu (sheader e))) (fun k => ((init k, (0, tt)), tt))
     (ReducerOver (Fork r CountG) NilAdapter (Datatypes.S fuel))) [] es = Ret m ->
  ascending quad_cmp (map fst m) /\
  (forall k, In k (map fst m) <-> In k (map ecu_of es)) /\
  (forall k x, In (k, x) m -> snd x = length (filter (fun e => if quad_dec (ecu_of e) k then true else false) es)) /\
  counts (map (fun kx => (fst kx, snd (snd kx))) m) = length es.
Proof.
  intros H. apply (run_split_inv quad_cmp quad_order _ (fun e => ecu (sheader e))) in H; [|reflexivity].
  destruct H as (A & KS & P). split; [exact A|]. split; [exact KS|].
  assert (C : forall k x, In (k, x) m -> snd x = freq quad_cmp (fun e => ecu (sheader e)) k es).
  { intros k x I. apply P in I. now apply reducer_count in I. }
  split; [intros k x I; rewrite (C k x I); apply sub_length|].
  assert (FE : map fst (map (fun kx : quad * (R * nat) => (fst kx, snd (snd kx))) m) = map fst m) by (rewrite map_map; reflexivity).
  apply (counts_of_parts quad_cmp quad_order (fun e => ecu (sheader e)) es).
  - now rewrite FE.
  - intros k. rewrite FE. apply KS.
  - intros k n I. apply in_map_iff in I. destruct I as ([k' x] & [= <- <-] & I). now apply C.
Qed.
Theorem C43_split_timestamp : forall b fuel es m, dltit b = Ret es -> timestamp_splitit (S fuel) b = Ret m ->
  ascending quad_cmp (map fst m) /\
  (forall k, In k (map fst m) <-> In k (map ecu_of es)) /\
  (forall k x, In (k, x) m -> snd x = length (filter (fun e => if quad_dec (ecu_of e) k then true else false) es)) /\
  counts (map (fun kx => (fst kx, snd (snd kx))) m) = length es.
Proof.
  intros b fuel es m E H. unfold timestamp_splitit in H. rewrite E in H. cbn [obind] in H.
  unfold timestamp_reducer in H. cbv zeta in H. exact (split_counts _ (fun _ => _) fuel es m H).
Qed.
Print Assumptions C43_split_timestamp.
Theorem C43_split_lifecycles : forall b fuel es0 m, dltit b = Ret es0 -> lifecycle_splitit (S fuel) b = Ret m ->
  let es := filter (fun e => flag (header_type (header (dlt e))) 4) es0 in
  ascending quad_cmp (map fst m) /\
  (forall k, In k (map fst m) <-> In k (map ecu_of es)) /\
  (forall k x, In (k, x) m -> snd x = length (filter (fun e => if quad_dec (ecu_of e) k then true else false) es)) /\
  counts (map (fun kx => (fst kx, snd (snd kx))) m) = length es.
Proof.
  intros b fuel es0 m E H es. unfold lifecycle_splitit in H. rewrite E in H. cbn [obind] in H.
  assert (Q : es = filter with_ts es0) by (apply filter_ext; intros e; symmetry; apply flags_spec).
  rewrite Q. unfold lifecycle_reducer in H. cbv zeta in H. exact (split_counts _ (fun _ => _) fuel _ m H).
Qed.
Print Assumptions C43_split_lifecycles.
Theorem C43_hello_world : forall find_at b h, histogram_hello_world find_at b = Ret h ->
  count_hello_world_grepit find_at b = Ret (counts h).
Proof.
  intros fa b h H. unfold histogram_hello_world in H. unfold count_hello_world_grepit.
  destruct (grep_collect fa b) as [l| |]; try discriminate H. cbn [obind] in *.
  apply (histogram_inv N.compare N_order) in H. now rewrite H, map_length.
Qed.
Print Assumptions C43_hello_world.
