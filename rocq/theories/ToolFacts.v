(** Facts about the ripdlt commands. *)
From Verif Require Import Base DltModel MatchModel GenModel ToolsModel Spec BaseFacts DltFacts CodecFacts ParseFacts
  FindFacts IterFacts DltIterFacts LayoutFacts GrepTools PartitionFacts GenFacts GroupFacts MapFacts MergeFacts TreeFacts.
From Coq Require Import Sorted Permutation.

(** * The entries of a file *)
Lemma dltit_total b : exists l, dltit_offset b = Ret l /\ dltit b = Ret (map snd l).
Proof. destruct (dltit_offset_total b) as (l & E & _). exists l. split; [exact E|now apply dltit_map]. Qed.

(** What an entry holds if its message is complete. *)
Definition full (e : dlt_entry) : Prop :=
  announced (header_type (header e)) + (if flag (header_type (header e)) 0 then 10 else 0) <= length (tail e).
Lemma complete_full e m : denotes e m -> complete m -> full (dlt e).
Proof.
  intros D C. unfold denotes in D. destruct D as (_ & _ & _ & _ & _ & H & _ & _ & T). unfold full, complete in *.
  rewrite H, T, skipn_length. lia.
Qed.

Definition ts (e : storage_entry) : option N := match timestamp (dlt e) with Ret o => o | _ => None end.
Lemma timestamp_ts e : timestamp (dlt e) = Ret (ts e).
Proof. unfold ts. rewrite timestamp_exact. reflexivity. Qed.
Definition ts_rel (a b : storage_entry) : bool := opt_geb (ts b) (ts a).
Lemma ts_pred_rel a b : ts_pred a b = Ret (ts_rel a b).
Proof. unfold ts_pred. now rewrite !timestamp_ts. Qed.
Definition secs_rel (a b : storage_entry) : bool := (esecs a <=? esecs b)%N.

Lemma full_ts e : full (dlt e) -> with_ts e = true -> exists t, ts e = Some t.
Proof.
  unfold full, with_ts, ts. intros F W. destruct (flags_spec (header_type (header (dlt e)))) as (_ & _ & _ & _ & W' & _).
  rewrite W' in W. rewrite timestamp_exact. cbv zeta. rewrite W. cbn [andb].
  assert (A : announced (header_type (header (dlt e))) = ts_offset (header_type (header (dlt e))) + 4).
  { unfold announced, ts_offset. rewrite W. lia. }
  destruct (Nat.leb_spec (ts_offset (header_type (header (dlt e))) + 4) (length (tail (dlt e)))); [eexists; reflexivity|lia].
Qed.
Lemma full_ecu e : full (dlt e) -> exists o, ecu_id (dlt e) = Ret o.
Proof.
  unfold full. rewrite ecu_id_exact. intros F. destruct (flag (header_type (header (dlt e))) 2) eqn:E; [|now eexists].
  unfold announced in F. rewrite E in F. destruct (Nat.ltb_spec (length (tail (dlt e))) 4); [lia|now eexists].
Qed.
Lemma full_payload e : full e -> exists p, payload e = Ret (Some p).
Proof.
  unfold full. rewrite payload_exact. cbv zeta. intros F. destruct (flag (header_type (header e)) 0) eqn:E.
  - destruct (Nat.ltb_spec (length (tail e)) (announced (header_type (header e)))); [lia|].
    destruct (Nat.ltb_spec (length (tail e)) (announced (header_type (header e)) + 10)); [lia|now eexists].
  - destruct (Nat.ltb_spec (length (tail e)) (announced (header_type (header e)))); [lia|now eexists].
Qed.
Lemma full_ext e : full e -> is_extended_header (header_type (header e)) = true -> exists x, extended_header e = Ret (Some x).
Proof.
  unfold full. intros F W. destruct (flags_spec (header_type (header e))) as (W' & _). rewrite W' in W.
  rewrite extended_header_exact. cbv zeta. rewrite W in *.
  destruct (Nat.ltb_spec (length (tail e)) (announced (header_type (header e)))); [lia|].
  assert (L : 10 <= length (skipn (announced (header_type (header e))) (tail e))) by (rewrite skipn_length; lia).
  revert L. generalize (skipn (announced (header_type (header e))) (tail e)) as b. intros b L.
  do 10 (destruct b as [|? b]; [cbn in L; lia|]). eexists. reflexivity.
Qed.

(** * groupby over entries *)
Lemma groupby_iter_spec pred rel xs : (forall x y, In x xs -> In y xs -> pred x y = Ret (rel x y)) ->
  groupby_iter pred xs = Ret (grouped rel xs).
Proof.
  intros H. unfold groupby_iter. destruct (delivers_groupby rel pred xs H) as (n & Ln & D).
  apply (from_delivers _ n _ _ _ D); [exact Ln|]. pose proof (grouped_len rel xs). lia.
Qed.
Lemma secs_groups xs : Forall proper (grouped secs_rel xs).
Proof.
  apply (grouped_trans secs_rel (fun a b => (esecs a <= esecs b)%N)); [intros; lia|].
  intros a b H. now apply N.leb_le.
Qed.
Definition ts_le (a b : storage_entry) : Prop := opt_geb (ts b) (ts a) = true.
Lemma ts_le_trans a b c : ts_le a b -> ts_le b c -> ts_le a c.
Proof.
  unfold ts_le, opt_geb. destruct (ts a), (ts b), (ts c); auto; try discriminate.
  rewrite !N.leb_le. lia.
Qed.
Lemma ts_groups xs : Forall (fun p => ts_le (fst p) (snd p)) (grouped ts_rel xs).
Proof. apply grouped_trans; [exact ts_le_trans|auto]. Qed.
Lemma ts_le_some a b t0 t1 : ts_le a b -> ts a = Some t0 -> ts b = Some t1 -> (t0 <= t1)%N.
Proof. unfold ts_le. intros H E0 E1. rewrite E0, E1 in H. now apply N.leb_le in H. Qed.

Definition secs_diff (p : period) : N := (esecs (snd p) - esecs (fst p))%N.
Lemma secs_delta_ret p : proper p -> secs_delta p = Ret (secs_diff p).
Proof. unfold proper, secs_delta, u32_sub. intros H. destruct (N.leb_spec (esecs (fst p)) (esecs (snd p))); [reflexivity|lia]. Qed.
Definition ts_val (e : storage_entry) : N := match ts e with Some t => t | None => 0%N end.
Definition ts_diff (p : storage_entry * storage_entry) : N := (ts_val (snd p) - ts_val (fst p))%N.
Lemma ts_delta_ret p : ts_le (fst p) (snd p) -> ts (fst p) <> None -> ts (snd p) <> None -> ts_delta p = Ret (ts_diff p).
Proof.
  intros H H0 H1. unfold ts_delta, ts_diff, ts_val. rewrite !timestamp_ts. cbn [obind].
  destruct (ts (fst p)) as [t0|] eqn:E0; [|congruence]. destruct (ts (snd p)) as [t1|] eqn:E1; [|congruence].
  cbn [unwrap obind]. unfold u32_sub. pose proof (ts_le_some _ _ _ _ H E0 E1).
  destruct (N.leb_spec t0 t1); [reflexivity|lia].
Qed.

Lemma mapM_In {A B} (f : A -> outcome B) (g : A -> B) l : Forall (fun x => f x = Ret (g x)) l -> mapM f l = Ret (map g l).
Proof. rewrite Forall_forall. apply mapM_ret. Qed.

(** Durations of the continuous periods of a sequence of entries. *)
Definition durations (es : list storage_entry) : list N := map secs_diff (grouped secs_rel es).
Definition hist_of (l : list N) (h : list (N * nat)) : Prop :=
  sorted N.compare h /\ forall k, tally N.compare k h = count_occ N.eq_dec l k /\ (In k (map fst h) <-> In k l).

Lemma freq_count {I} (key : I -> N) xs k : freq N.compare key k xs = count_occ N.eq_dec (map key xs) k.
Proof.
  unfold freq, sub. induction xs as [|x xs IH]; [reflexivity|]. cbn [filter map count_occ].
  destruct (keq N.compare (key x) k) eqn:E; destruct (N.eq_dec (key x) k) as [Q|Q]; cbn [length].
  - now rewrite IH.
  - apply (keq_iff N.compare N_order) in E. contradiction.
  - subst k. now rewrite (keq_refl N.compare N_order) in E.
  - exact IH.
Qed.
Lemma tally_map (f : N -> nat) ks k : ascending N.compare ks ->
  tally N.compare k (map (fun k => (k, f k)) ks) = if in_dec N.eq_dec k ks then f k else 0.
Proof.
  intros A. set (h := map (fun k => (k, f k)) ks).
  assert (FE : map fst h = ks) by (unfold h; rewrite map_map; apply map_id).
  assert (S : sorted N.compare h) by (unfold sorted; now rewrite FE).
  unfold tally. destruct (in_dec N.eq_dec k ks) as [I|I].
  - assert (G : map_get N.compare k h = Some (f k)).
    { apply (get_in N.compare N_order); [exact S|]. unfold h. apply in_map_iff. now exists k. }
    now rewrite G.
  - assert (G : map_get N.compare k h = None) by (apply (get_none N.compare N_order); [exact S|now rewrite FE]).
    now rewrite G.
Qed.
Lemma histogram_hist {I} (keyfn : I -> outcome N) (key : I -> N) xs : (forall x, In x xs -> keyfn x = Ret (key x)) ->
  exists h, histogram N.compare keyfn xs = Ret h /\ hist_of (map key xs) h.
Proof.
  intros H. destruct (histogram_spec N.compare N_order keyfn key xs H) as (ks & A & IK & E).
  eexists. split; [exact E|].
  assert (FE : map fst (map (fun k => (k, freq N.compare key k xs)) ks) = ks) by (rewrite map_map; apply map_id).
  split; [unfold sorted; now rewrite FE|]. intros k. split.
  - rewrite tally_map by exact A. destruct (in_dec N.eq_dec k ks) as [I1|I1].
    + apply freq_count.
    + symmetry. apply count_occ_not_In. now rewrite <- IK.
  - rewrite FE. apply IK.
Qed.
(** A histogram is determined by its list of values. *)
Lemma hist_of_unique l h1 h2 : hist_of l h1 -> hist_of l h2 -> h1 = h2.
Proof.
  intros [S1 H1] [S2 H2]. apply (sorted_ext N.compare N_order); [exact S1|exact S2|]. intros k.
  destruct (H1 k) as [T1 K1], (H2 k) as [T2 K2]. unfold tally in *.
  assert (G : forall h : list (N * nat), sorted N.compare h -> (map_get N.compare k h = None <-> ~ In k (map fst h)))
    by (intros h Sh; exact (get_none N.compare N_order k h Sh)).
  pose proof (G h1 S1) as G1. pose proof (G h2 S2) as G2.
  destruct (map_get N.compare k h1) as [n1|], (map_get N.compare k h2) as [n2|]; try congruence.
  - exfalso. assert (X : ~ In k (map fst h1)) by (rewrite K1, <- K2; now apply G2). apply G1 in X. discriminate.
  - exfalso. assert (X : ~ In k (map fst h2)) by (rewrite K2, <- K1; now apply G1). apply G2 in X. discriminate.
Qed.

(** * Commands that never panic *)
Lemma continuous_spec b l : dltit_offset b = Ret l ->
  exists h, continuous_timestamp_histogram b = Ret h /\ hist_of (durations (map snd l)) h.
Proof.
  intros E. unfold continuous_timestamp_histogram. rewrite (dltit_map b l E). cbn [obind].
  rewrite (groupby_iter_spec secs_pred secs_rel) by reflexivity. cbn [obind].
  rewrite (mapM_In secs_delta secs_diff). 2: { eapply Forall_impl; [|apply secs_groups]. intros p. apply secs_delta_ret. }
  cbn [obind]. destruct (histogram_hist (fun id => Ret id) (fun id => id) (durations (map snd l))) as (h & Eh & Hh); [reflexivity|].
  exists h. split; [exact Eh|]. now rewrite map_id in Hh.
Qed.

Lemma merged_len {K I} (cmp : K -> K -> comparison) f (key : I -> K) xs : forall m,
  length (fold_left (merge_in cmp f key) xs m) <= length m + length xs.
Proof.
  assert (IL : forall k v (m : list (K * I)), length (map_insert cmp k v m) <= S (length m)).
  { intros k v m. induction m as [|[k1 v1] m IH]; cbn [map_insert length]; [lia|].
    destruct (cmp k k1); cbn [length]; lia. }
  assert (RL : forall k (m : list (K * I)), length (map_remove cmp k m) <= length m).
  { intros k m. induction m as [|[k1 v1] m IH]; cbn [map_remove length]; [lia|]. destruct (cmp k k1); cbn [length]; lia. }
  induction xs as [|x xs IH]; intros m; cbn [fold_left length]; [lia|].
  specialize (IH (merge_in cmp f key m x)).
  assert (length (merge_in cmp f key m x) <= S (length m)); [|lia].
  unfold merge_in. destruct (partner f x m) as [[p v]|].
  - specialize (IL (key v) v (map_remove cmp (key p) m)). specialize (RL (key p) m). lia.
  - apply IL.
Qed.

(** The merged periods of one ECU. *)
Definition periods (es : list storage_entry) : list period :=
  merged pair_cmp merge_overlapping period_key (grouped secs_rel es).
Lemma periods_proper es : Forall proper (periods es).
Proof.
  destruct (pm_fold (grouped secs_rel es) [] (filed_nil pair_cmp period_key) (Forall_nil _) (secs_groups es)) as (_ & P & _).
  exact P.
Qed.
Lemma periods_len es : length (periods es) <= length es.
Proof.
  unfold periods, merged. rewrite map_length. pose proof (merged_len pair_cmp merge_overlapping period_key (grouped secs_rel es) []) as H.
  eapply Nat.le_trans; [exact H|]. exact (grouped_len secs_rel es).
Qed.

Lemma run_fork {I S1 S2 R1 R2} (r1 : Reduce S1 I R1) (r2 : Reduce S2 I R2) s1 s2 xs x1 x2 :
  run_reduce r1 s1 xs = Ret x1 -> run_reduce r2 s2 xs = Ret x2 -> run_reduce (Fork r1 r2) (s1, s2) xs = Ret (x1, x2).
Proof.
  unfold run_reduce. revert s1 s2. induction xs as [|x xs IH]; intros s1 s2 H1 H2; cbn [feed Fork rnext rfinal fst snd obind] in *.
  - now rewrite H1, H2.
  - destruct (rnext r1 s1 x) as [t1| |]; try discriminate H1. cbn [obind] in *.
    destruct (rnext r2 s2 x) as [t2| |]; try discriminate H2. cbn [obind] in *. now apply IH.
Qed.

Notation hist_split := (Split N.compare (fun k => Ret k) (fun _ => (0, tt)) CountG).
Lemma timestamp_reducer_spec fuel es : length es + 5 <= fuel ->
  exists h, run_reduce (timestamp_reducer fuel) ((([], (tt, (([], None), (GEmpty, tt)))), (0, tt)), tt) es = Ret (h, length es) /\
    hist_of (map secs_diff (periods es)) h.
Proof.
  intros L. unfold timestamp_reducer. cbv zeta.
  set (MG := Merge pair_cmp (fun a b => Ret (merge_overlapping a b)) (fun r => Ret (period_key r))).
  rewrite (run_over _ NilAdapter 1 tt es es (delivers_nil es)) by lia.
  destruct (delivers_groupby secs_rel secs_pred es) as (n1 & L1 & D1); [reflexivity|].
  destruct (delivers_comp (GroupBy secs_pred) NilAdapter fuel n1 1 GEmpty tt es es _ (delivers_nil es) D1) as (k1 & K1 & E1); [lia|].
  destruct (delivers_merge pair_cmp merge_overlapping period_key (grouped secs_rel es)) as (n2 & L2 & D2).
  change (merged pair_cmp merge_overlapping period_key (grouped secs_rel es)) with (periods es) in L2, D2.
  pose proof (periods_len es) as PL. rewrite L2 in D2. clear L2.
  destruct (delivers_comp MG _ fuel (S (length (periods es))) k1 ([], None) (GEmpty, tt) es _ (periods es) E1 D2) as (k2 & K2 & E2); [lia|].
  assert (D3 : delivers (MapA secs_delta) 1 tt (periods es) (map secs_diff (periods es))).
  { apply delivers_map. intros p Ip. apply secs_delta_ret. pose proof (periods_proper es) as P. rewrite Forall_forall in P. now apply P. }
  destruct (delivers_comp (MapA secs_delta) _ fuel 1 k2 tt _ es _ _ E2 D3) as (k3 & K3 & E3); [lia|].
  destruct (histogram_hist (fun k => Ret k) (fun k => k) (map secs_diff (periods es))) as (h & Eh & Hh); [reflexivity|].
  exists h. rewrite map_id in Hh. split; [|exact Hh].
  apply run_fork; [|apply run_countg].
  rewrite (run_over hist_split _ k3 _ es _ E3) by lia. exact Eh.
Qed.

Definition of_ecu (k : quad) (es : list storage_entry) : list storage_entry :=
  filter (fun e => keq quad_cmp (ecu (sheader e)) k) es.
Lemma of_ecu_len k es : length (of_ecu k es) <= length es.
Proof. unfold of_ecu. induction es as [|e es IH]; cbn [filter length]; [lia|]. destruct (keq quad_cmp (ecu (sheader e)) k); cbn [length]; lia. Qed.

Lemma timestamp_splitit_spec fuel b l : dltit_offset b = Ret l -> length l + 5 <= fuel ->
  exists m, timestamp_splitit fuel b = Ret m /\ okm m /\
    (forall k, In k (map fst m) <-> In k (map (fun e => ecu (sheader e)) (map snd l))) /\
    forall k x, In (k, x) m -> snd x = length (of_ecu k (map snd l)) /\
      hist_of (map secs_diff (periods (of_ecu k (map snd l)))) (fst x).
Proof.
  intros E L. unfold timestamp_splitit. rewrite (dltit_map b l E). cbn [obind]. set (es := map snd l).
  assert (Le : length es = length l) by (unfold es; apply map_length).
  assert (R : exists res : quad -> list (N * nat) * nat, forall k,
    run_reduce (timestamp_reducer fuel) ((([], (tt, (([], None), (GEmpty, tt)))), (0, tt)), tt) (of_ecu k es) = Ret (res k) /\
    snd (res k) = length (of_ecu k es) /\ hist_of (map secs_diff (periods (of_ecu k es))) (fst (res k))).
  { exists (fun k => match run_reduce (timestamp_reducer fuel) ((([], (tt, (([], None), (GEmpty, tt)))), (0, tt)), tt) (of_ecu k es) with Ret x => x | _ => ([], 0) end).
    intros k. destruct (timestamp_reducer_spec fuel (of_ecu k es)) as (h & Eh & Hh).
    { pose proof (of_ecu_len k es). lia. }
    rewrite Eh. auto. }
  destruct R as [res R].
  destruct (run_split quad_cmp quad_order (fun e => Ret (ecu (sheader e))) (fun e => ecu (sheader e))
    (fun _ => ((([], (tt, (([], None), (GEmpty, tt)))), (0, tt)), tt)) (timestamp_reducer fuel) es res) as (ks & A & IK & Er).
  { reflexivity. } { intros k _. apply R. }
  exists (map (fun k => (k, res k)) ks).
  assert (FE : map fst (map (fun k => (k, res k)) ks) = ks) by (rewrite map_map; apply map_id).
  split; [exact Er|]. split; [|split].
  - split; [change (ascending quad_cmp (map fst (map (fun k => (k, res k)) ks))); rewrite FE; exact A|]. apply Forall_forall. intros [k x] I. apply in_map_iff in I.
    destruct I as (k' & [= <- <-] & _). cbn. unfold eok. apply R.
  - intros k. rewrite FE. apply IK.
  - intros k x I. apply in_map_iff in I. destruct I as (k' & [= <- <-] & _). apply R.
Qed.

(** * Commands that need complete messages *)
Lemma filter_in_full {p : storage_entry -> bool} es : Forall (fun e => full (dlt e)) es -> Forall (fun e => full (dlt e)) (filter p es).
Proof. rewrite !Forall_forall. intros H e I. apply filter_In in I. now apply H. Qed.
Lemma timed es : Forall (fun e => full (dlt e)) es -> forall e, In e (filter with_ts es) -> ts e <> None.
Proof.
  intros F e I. apply filter_In in I. destruct I as [I W]. rewrite Forall_forall in F.
  destruct (full_ts e (F e I) W) as [t ->]. discriminate.
Qed.
Definition eid (e : storage_entry) : option N := match ecu_id (dlt e) with Ret o => o | _ => None end.
Definition ecu_ts_rel (a b : storage_entry) : bool := opt_eqb (eid a) (eid b) && ts_rel a b.
Lemma full_eid e : full (dlt e) -> ecu_id (dlt e) = Ret (eid e).
Proof. intros F. unfold eid. destruct (full_ecu e F) as [o ->]. reflexivity. Qed.
Lemma ecu_ts_pred_rel a b : full (dlt a) -> full (dlt b) -> ecu_ts_pred a b = Ret (ecu_ts_rel a b).
Proof.
  intros Fa Fb. unfold ecu_ts_pred, ecu_ts_rel. rewrite !full_eid by assumption. cbn [obind].
  destruct (opt_eqb (eid a) (eid b)); [apply ts_pred_rel|reflexivity].
Qed.
Lemma ecu_ts_groups xs : Forall (fun p => ts_le (fst p) (snd p)) (grouped ecu_ts_rel xs).
Proof.
  apply grouped_trans; [exact ts_le_trans|]. unfold ecu_ts_rel. intros a b H. apply andb_prop in H. exact (proj2 H).
Qed.
Lemma delta_groups rel xs : (forall e, In e xs -> ts e <> None) -> Forall (fun p => ts_le (fst p) (snd p)) (grouped rel xs) ->
  Forall (fun p => ts_delta p = Ret (ts_diff p)) (grouped rel xs).
Proof.
  intros T G. rewrite Forall_forall in *. intros [a b] I. pose proof (grouped_in rel xs a b I) as [Ia Ib].
  apply ts_delta_ret; cbn; [exact (G _ I)|now apply T|now apply T].
Qed.

Lemma lifecycle_histogram_spec b l : dltit_offset b = Ret l -> Forall (fun e => full (dlt e)) (map snd l) ->
  exists h, lifecycle_histogram b = Ret h /\
    hist_of (map (fun p => ts_diff p / 10000)%N (grouped ecu_ts_rel (filter with_ts (map snd l)))) h.
Proof.
  intros E F. unfold lifecycle_histogram. rewrite (dltit_map b l E). cbn [obind]. set (es := filter with_ts (map snd l)).
  assert (Fe : Forall (fun e => full (dlt e)) es) by now apply filter_in_full.
  rewrite (groupby_iter_spec ecu_ts_pred ecu_ts_rel).
  2: { rewrite Forall_forall in Fe. intros x y Ix Iy. apply ecu_ts_pred_rel; now apply Fe. }
  cbn [obind]. rewrite (mapM_In ts_delta ts_diff).
  2: { apply delta_groups; [exact (timed _ F)|apply ecu_ts_groups]. }
  cbn [obind]. destruct (histogram_hist (fun id => Ret (id / 10000)%N) (fun id => (id / 10000)%N) (map ts_diff (grouped ecu_ts_rel es))) as (h & Eh & Hh); [reflexivity|].
  exists h. split; [exact Eh|]. now rewrite map_map in Hh.
Qed.

Lemma lifecycle_reducer_spec fuel es : 5 <= fuel -> (forall e, In e es -> ts e <> None) ->
  exists h, run_reduce (lifecycle_reducer fuel) ((([], (tt, (GEmpty, tt))), (0, tt)), tt) es = Ret (h, length es) /\
    hist_of (map (fun p => ts_diff p / 10000)%N (grouped ts_rel es)) h.
Proof.
  intros L T. unfold lifecycle_reducer. cbv zeta.
  rewrite (run_over _ NilAdapter 1 tt es es (delivers_nil es)) by lia.
  destruct (delivers_groupby ts_rel ts_pred es) as (n1 & L1 & D1); [intros; apply ts_pred_rel|].
  destruct (delivers_comp (GroupBy ts_pred) NilAdapter fuel n1 1 GEmpty tt es es _ (delivers_nil es) D1) as (k1 & K1 & E1); [lia|].
  assert (D3 : delivers (MapA ts_mapping) 1 tt (grouped ts_rel es) (map (fun p => (ts_diff p / 10000)%N) (grouped ts_rel es))).
  { apply delivers_map. intros p Ip. pose proof (delta_groups ts_rel es T (ts_groups es)) as P. rewrite Forall_forall in P.
    unfold ts_mapping. rewrite (P p Ip). reflexivity. }
  destruct (delivers_comp (MapA ts_mapping) _ fuel 1 k1 tt _ es _ _ E1 D3) as (k3 & K3 & E3); [lia|].
  destruct (histogram_hist (fun k => Ret k) (fun k => k) (map (fun p => (ts_diff p / 10000)%N) (grouped ts_rel es))) as (h & Eh & Hh); [reflexivity|].
  exists h. rewrite map_id in Hh. split; [|exact Hh].
  apply run_fork; [|apply run_countg].
  rewrite (run_over hist_split _ k3 _ es _ E3) by lia. exact Eh.
Qed.
Lemma lifecycle_splitit_spec fuel b l : dltit_offset b = Ret l -> 5 <= fuel -> Forall (fun e => full (dlt e)) (map snd l) ->
  let es := filter with_ts (map snd l) in
  exists m, lifecycle_splitit fuel b = Ret m /\ okm m /\
    (forall k, In k (map fst m) <-> In k (map (fun e => ecu (sheader e)) es)) /\
    forall k x, In (k, x) m -> snd x = length (of_ecu k es) /\
      hist_of (map (fun p => ts_diff p / 10000)%N (grouped ts_rel (of_ecu k es))) (fst x).
Proof.
  intros E L F es. unfold lifecycle_splitit. rewrite (dltit_map b l E). cbn [obind]. fold es.
  assert (R : exists res : quad -> list (N * nat) * nat, forall k,
    run_reduce (lifecycle_reducer fuel) ((([], (tt, (GEmpty, tt))), (0, tt)), tt) (of_ecu k es) = Ret (res k) /\
    snd (res k) = length (of_ecu k es) /\ hist_of (map (fun p => (ts_diff p / 10000)%N) (grouped ts_rel (of_ecu k es))) (fst (res k))).
  { exists (fun k => match run_reduce (lifecycle_reducer fuel) ((([], (tt, (GEmpty, tt))), (0, tt)), tt) (of_ecu k es) with Ret x => x | _ => ([], 0) end).
    intros k. destruct (lifecycle_reducer_spec fuel (of_ecu k es) L) as (h & Eh & Hh).
    { intros e I. apply filter_In in I. now apply (timed _ F). }
    rewrite Eh. auto. }
  destruct R as [res R].
  destruct (run_split quad_cmp quad_order (fun e => Ret (ecu (sheader e))) (fun e => ecu (sheader e))
    (fun _ => ((([], (tt, (GEmpty, tt))), (0, tt)), tt)) (lifecycle_reducer fuel) es res) as (ks & A & IK & Er).
  { reflexivity. } { intros k _. apply R. }
  exists (map (fun k => (k, res k)) ks).
  assert (FE : map fst (map (fun k => (k, res k)) ks) = ks) by (rewrite map_map; apply map_id).
  split; [exact Er|]. split; [|split].
  - split; [change (ascending quad_cmp (map fst (map (fun k => (k, res k)) ks))); rewrite FE; exact A|]. apply Forall_forall. intros [k x] I. apply in_map_iff in I.
    destruct I as (k' & [= <- <-] & _). cbn. unfold eok. apply R.
  - intros k. rewrite FE. apply IK.
  - intros k x I. apply in_map_iff in I. destruct I as (k' & [= <- <-] & _). apply R.
Qed.

Lemma filterM_all {A} (f : A -> outcome bool) (g : A -> bool) l : (forall x, In x l -> f x = Ret (g x)) -> filterM f l = Ret (filter g l).
Proof.
  induction l as [|x l IH]; intros H; [reflexivity|]. cbn [filterM filter]. rewrite H by now left. cbn [obind].
  rewrite IH by (intros; apply H; now right). cbn [obind]. now destruct (g x).
Qed.
Definition is_long (p : storage_entry * storage_entry) : bool := (min_time_dms <=? ts_diff p)%N.
Lemma lifecycle_iter_spec b l : dltit_offset b = Ret l -> Forall (fun e => full (dlt e)) (map snd l) ->
  lifecycle_iter b = Ret (length (filter is_long (grouped ts_rel (filter with_ts (map snd l))))).
Proof.
  intros E F. unfold lifecycle_iter. rewrite (dltit_map b l E). cbn [obind]. set (es := filter with_ts (map snd l)).
  rewrite (groupby_iter_spec ts_pred ts_rel) by (intros; apply ts_pred_rel). cbn [obind].
  rewrite (filterM_all long_enough is_long); [reflexivity|]. intros p I. unfold long_enough, is_long.
  pose proof (delta_groups ts_rel es (timed _ F) (ts_groups es)) as P. rewrite Forall_forall in P. now rewrite (P p I).
Qed.
Lemma windows_in {A} (l : list A) a b : In (a, b) (tuple_windows l) -> In a l /\ In b l.
Proof.
  induction l as [|x l IH]; [intros []|]. destruct l as [|y l]; [intros []|]. cbn [tuple_windows In].
  intros [[= <- <-]|I]; [auto|]. apply IH in I. cbn [In] in *. tauto.
Qed.
Lemma lifecycle_itertools_spec b l : dltit_offset b = Ret l -> Forall (fun e => full (dlt e)) (map snd l) ->
  lifecycle_itertools b = Ret (length (filter is_long (filter (fun p => ts_rel (fst p) (snd p)) (tuple_windows (filter with_ts (map snd l)))))).
Proof.
  intros E F. unfold lifecycle_itertools. rewrite (dltit_map b l E). cbn [obind]. set (es := filter with_ts (map snd l)).
  rewrite (filterM_all _ (fun p => ts_rel (fst p) (snd p))) by (intros; apply ts_pred_rel). cbn [obind].
  rewrite (filterM_all long_enough is_long); [reflexivity|]. intros [a b'] I. apply filter_In in I. destruct I as [I R].
  apply windows_in in I. unfold long_enough, is_long. rewrite ts_delta_ret; [reflexivity|exact R| |]; apply (timed _ F), I.
Qed.

Definition pl_len (e : storage_entry) : nat := match payload (dlt e) with Ret (Some p) => length p | _ => 0 end.
Lemma histogram_payload_spec b l : dltit_offset b = Ret l -> (forall e, In e (map snd l) -> payload (dlt e) <> Panic) ->
  exists h, histogram_payload b = Ret h /\ hist_of (map (fun e => N.of_nat (pl_len e)) (map snd l)) h.
Proof.
  intros E F. unfold histogram_payload. rewrite (dltit_map b l E). cbn [obind]. set (es := map snd l) in *.
  rewrite (mapM_ret _ pl_len).
  2: { intros e I. specialize (F e I). unfold pl_len.
       destruct (accessors_panic_iff (dlt e)) as (_ & _ & _ & _ & _ & _ & _ & NF).
       destruct (payload (dlt e)) as [[p|]| |]; try reflexivity; congruence. }
  cbn [obind]. destruct (histogram_hist (fun id => Ret (N.of_nat id)) N.of_nat (map pl_len es)) as (h & Eh & Hh); [reflexivity|].
  exists h. split; [exact Eh|]. now rewrite map_map in Hh.
Qed.
Lemma histogram_message_spec b l : dltit_offset b = Ret l ->
  exists h, histogram_message b = Ret h /\ hist_of (map (fun e => N.of_nat (storage_len e)) (map snd l)) h.
Proof.
  intros E. unfold histogram_message. rewrite (dltit_map b l E). cbn [obind].
  destruct (histogram_hist (fun id => Ret (N.of_nat id)) N.of_nat (map storage_len (map snd l))) as (h & Eh & Hh); [reflexivity|].
  exists h. split; [exact Eh|]. now rewrite (map_map storage_len) in Hh.
Qed.

Lemma info_order : total_order info_cmp.
Proof.
  assert (CI : forall t u, msg_type_code t = msg_type_code u -> t = u).
  { intros [[]|[]|[]|[]] [[]|[]|[]|[]]; cbn; intros H; try reflexivity; discriminate. }
  destruct pair_order as [PE PS PT]. split.
  - intros [v t] [w u]. unfold info_cmp. cbn [fst snd].
    destruct v, w, t as [t|], u as [u|]; try (split; [discriminate|intros [= ]]; fail); try (split; [intros _; reflexivity|reflexivity]);
      rewrite PE; (split; [intros H; apply CI in H; now subst|intros [= ->]; reflexivity]).
  - intros [v t] [w u]. unfold info_cmp. cbn [fst snd]. destruct v, w, t as [t|], u as [u|]; try reflexivity; apply PS.
  - intros [v t] [w u] [x s]. unfold info_cmp. cbn [fst snd].
    destruct v, w, x, t as [t|], u as [u|], s as [s|]; try discriminate; try reflexivity; apply PT.
Qed.
Definition info_of (e : storage_entry) : bool * option msg_type :=
  match extended_header (dlt e) with Ret (Some h) => msin_info (msin h) | _ => (false, None) end.
Lemma mstp_spec b l : dltit_offset b = Ret l -> Forall (fun e => full (dlt e)) (map snd l) ->
  exists h ks, mstp_info_histogram b = Ret h /\ h = map (fun k => (k, freq info_cmp info_of k (filter (fun e => is_extended_header (header_type (header (dlt e)))) (map snd l)))) ks /\
    ascending info_cmp ks /\ (forall k, In k ks <-> In k (map info_of (filter (fun e => is_extended_header (header_type (header (dlt e)))) (map snd l)))).
Proof.
  intros E F. unfold mstp_info_histogram. rewrite (dltit_map b l E). cbn [obind].
  set (es := filter (fun e => is_extended_header (header_type (header (dlt e)))) (map snd l)).
  destruct (histogram_spec info_cmp info_order (fun e => let* h := extended_header (dlt e) in let* h := unwrap h in Ret (msin_info (msin h))) info_of es) as (ks & A & IK & Er).
  - intros e I. apply filter_In in I. destruct I as [I W]. rewrite Forall_forall in F.
    destruct (full_ext (dlt e) (F e I) W) as [x Ex]. unfold info_of. rewrite Ex. reflexivity.
  - eexists. exists ks. split; [exact Er|]. auto.
Qed.
Lemma count_hello_world_ret b l : dltit_offset b = Ret l -> Forall (fun e => full (dlt e)) (map snd l) ->
  exists n, count_hello_world b = Ret n.
Proof.
  intros E F. unfold count_hello_world. rewrite (dltit_map b l E). cbn [obind].
  rewrite (filterM_all hello_predicate (fun e => match hello_predicate e with Ret r => r | _ => false end)); [now eexists|].
  intros e I. rewrite Forall_forall in F. destruct (full_payload (dlt e) (F e I)) as [p Ep].
  unfold hello_predicate. rewrite Ep. reflexivity.
Qed.
