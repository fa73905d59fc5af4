(** Every command of ripdlt on a file that does not change does what ToolsModel.v says (C124). *)
From Verif Require Import Base DltModel MatchModel GenModel ToolsModel TraceModel MappedModel MappedCmd Spec ReadSpec MappedSpec MappedCmdSpec BaseFacts DltFacts CodecFacts
  ParseFacts FindFacts IterFacts DltIterFacts ContainFacts CommandFacts ExactFacts MappedFacts MappedStill SimFacts FeedFacts CmdStill.
From Verif Require P_Mapped P_Partition.
From Coq Require Import ZifyBool ZifyNat ZifyN.
Ltac Zify.zify_post_hook ::= idtac.

Lemma alike_runs {A} (x : act A) o : alike eq x o -> runs_like x o.
Proof. intros H t. specialize (H t). destruct o; [|exact H|exact Logic.I]. destruct H as (a' & t' & E & ->). now exists t'. Qed.
Lemma runs_alike {A} (x : act A) o : runs_like x o -> alike eq x o.
Proof. intros H t. specialize (H t). destruct o; [|exact H|exact Logic.I]. destruct H as (t' & E). now exists a, t'. Qed.

(** ** Repeated searching *)
Lemma iter_skip m : 0 < length m -> forall b pos skip, find_iter_from m b pos skip = find_iter_from m (skipn skip b) (pos + skip) 0.
Proof.
  intros Hm. induction b as [|x b IH]; intros pos skip.
  - rewrite skipn_nil. cbn [find_iter_from]. rewrite (is_prefix_nil m Hm). now destruct skip.
  - destruct skip as [|k]; [now rewrite Nat.add_0_r|]. cbn [find_iter_from skipn]. rewrite IH. f_equal. lia.
Qed.
Lemma iter_find m : 0 < length m -> forall b pos, find_iter_from m b pos 0 =
  match find m b with None => [] | Some p => (pos + p) :: find_iter_from m (skipn (p + length m) b) (pos + p + length m) 0 end.
Proof.
  intros Hm. induction b as [|x b IH]; intros pos; cbn [find_iter_from find].
  - now rewrite (is_prefix_nil m Hm).
  - destruct (is_prefix m (x :: b)).
    + rewrite Nat.add_0_r. f_equal. rewrite (iter_skip m Hm). destruct m as [|y m]; [cbn in Hm; lia|]. cbn [length Nat.add]. rewrite skipn_cons. f_equal; [f_equal; lia|lia].
    + rewrite IH. destruct (find m b) as [p|]; cbn [option_map]; [|reflexivity]. f_equal; [lia|]. cbn [Nat.add skipn]. f_equal. lia.
Qed.
Lemma find_inside m b p : 0 < length m -> find m b = Some p -> p + length m <= length b.
Proof.
  intros Hm. revert p. induction b as [|x b IH]; intros p; cbn [find].
  - rewrite (is_prefix_nil m Hm). discriminate.
  - destruct (is_prefix m (x :: b)) eqn:E.
    + intros [= <-]. apply is_prefix_len in E. cbn [length] in *. lia.
    + destruct (find m b) as [q|]; cbn [option_map]; [|discriminate]. intros [= <-]. specialize (IH q eq_refl). cbn [length]. lia.
Qed.
Lemma rows_trans {K A} (m m' : list (K * A)) : rows eq m m' -> m = m'.
Proof. apply rows_eq. Qed.
Lemma split_result {K} (m m' : list (K * (list (N * nat) * nat))) : rows (pair_rel (rows eq) eq) m m' -> m = m'.
Proof.
  intros H. apply rows_eq. induction H as [|[k [a c]] [k' [a' c']] m m' [E [H1 H2]] H IH]; constructor; [|exact IH]. cbn in *. split; [exact E|]. apply rows_eq in H1. now subst.
Qed.

Section Commands.
  Variable b : bytes.
  Variable F : bytes -> nat -> option (nat * nat).
  Notation W := (still b F).
  Notation V := (still_cells b).
  Notation n := (length b).
  Notation st := (stands b).

  Lemma run_count : alike eq (m_count W n) (count b).
  Proof. unfold m_count, count. eapply count_alike; [|apply messages_provide]. lia. Qed.
  Lemma run_hello : alike eq (m_count_hello_world W V n) (count_hello_world b).
  Proof.
    unfold m_count_hello_world, count_hello_world.
    eapply alike_weak; [|intros a y H; exact H].
    assert (E : (let* it := dltit b in let* r := filterM hello_predicate it in Ret (length r)) = (let* r := (let* it := dltit b in filterM hello_predicate it) in Ret (length r))) by (destruct (dltit b); reflexivity).
    rewrite E. eapply (count_alike st _ n); [lia|]. apply filter_provides; [intros; now apply alike_hello|apply hello_predicate_nofuel|lia|apply messages_provide].
  Qed.
  Lemma hello_feed : forall k a, n - a <= k -> a <= n -> feeds eq (hello_next V n) a (find_iter_from hello_world (skipn a b) a 0) false /\ length (find_iter_from hello_world (skipn a b) a 0) <= n - a.
  Proof.
    assert (Hm : 0 < length hello_world) by (cbn; lia).
    induction k as [|k IH]; intros a H1 H2; rewrite (iter_find _ Hm); destruct (find hello_world (skipn a b)) as [p|] eqn:E.
    - apply (find_inside _ _ _ Hm) in E. rewrite skipn_length in E. lia.
    - split; [|cbn; lia]. cbn [feeds]. exists (fun s => s = a). split; [reflexivity|]. intros s -> t. unfold hello_next, follow, ask. cbn [still_cells sees_hello].
      rewrite firstn_all2 by (rewrite skipn_length; lia). rewrite E. cbn [option_map]. eexists _, _. split; reflexivity.
    - pose proof (find_inside _ _ _ Hm E) as HI. rewrite skipn_length in HI. change (length hello_world) with 11 in *. rewrite skipn_skipn'. replace (a + (p + 11)) with (a + p + 11) by lia.
      destruct (IH (a + p + 11) ltac:(lia) ltac:(lia)) as [I1 I2]. split; [|cbn [length]; lia]. cbn [feeds]. intros t. exists (a + p), (a + p + 11), (S t). split; [|split; [reflexivity|exact I1]].
      unfold hello_next, follow, ask. cbn [still_cells sees_hello]. rewrite firstn_all2 by (rewrite skipn_length; lia). rewrite E. cbn [option_map].
      destruct (Nat.leb_spec a (a + p)); [|lia]. destruct (Nat.leb_spec (a + p + 11) n); [|lia]. reflexivity.
    - split; [|cbn; lia]. cbn [feeds]. exists (fun s => s = a). split; [reflexivity|]. intros s -> t. unfold hello_next, follow, ask. cbn [still_cells sees_hello].
      rewrite firstn_all2 by (rewrite skipn_length; lia). rewrite E. cbn [option_map]. eexists _, _. split; reflexivity.
  Qed.
  Lemma run_raw : alike eq (m_count_hello_world_raw V n) (count_hello_world_raw b).
  Proof.
    unfold m_count_hello_world_raw, count_hello_world_raw. destruct (hello_feed n 0 ltac:(lia) ltac:(lia)) as [H1 H2]. cbn [skipn] in *.
    change (Ret (length (find_iter hello_world b))) with (let* l := Ret (find_iter hello_world b) in Ret (length l)).
    eapply (count_alike eq _ n); [lia|]. cbn [provides]. split; [exact (Nat.le_trans _ _ _ H2 (Nat.le_sub_l _ _))|exact H1].
  Qed.
  (** ** Grep *)
  Section Grep.
    Hypothesis FOK : forall a s e, F b a = Some (s, e) -> a <= s /\ s <= e /\ e <= n.
    Lemma rev_no_panic off : rev_search DLT b off <> Panic.
    Proof.
      unfold rev_search. destruct (N.ltb_spec (N.of_nat n) off) as [L|L]; cbn [orb]; [discriminate|]. destruct (off =? usize_max)%N; [discriminate|].
      unfold slice_to. destruct (Nat.leb_spec (N.to_nat off) n) as [L'|L']; [|lia]. cbn [obind]. change (marker DLT) with dlt_marker.
      destruct (rfind dlt_marker (firstn (N.to_nat off) b)) as [c|] eqn:Q; [|discriminate].
      assert (Hp : c + 4 <= N.to_nat off).
      { apply rfind_some in Q; [|cbn; lia]. destruct Q as [Q _]. apply is_prefix_len in Q. rewrite skipn_length, firstn_length in Q.
        change (length dlt_marker) with 4 in Q. lia. }
      unfold slice_from. destruct (Nat.leb_spec c n); [|lia]. cbn [obind]. change (try_read_valid DLT) with storage_try_read_valid. rewrite try_read_valid_parse. cbn [obind].
      destruct (parse _) as [[? ?]|]; discriminate.
    Qed.
    Lemma grep_no_panic : forall fuel off, grep_next DLT F fuel b off <> Panic.
    Proof.
      assert (GS : forall fuel off, grep_search DLT F fuel b off <> Panic).
      { induction fuel as [|f IH]; intros off; cbn [grep_search]; [discriminate|]. destruct (n <=? off); [discriminate|]. destruct (F b off) as [[s e]|]; [|discriminate].
        pose proof (rev_no_panic (N.of_nat s)) as RP. destruct (rev_search DLT b (N.of_nat s)) as [[[o v]|]| |]; cbn [obind]; try congruence.
        - destruct (_ && _); [apply IH|discriminate].
        - destruct (n <=? e); [discriminate|apply IH]. }
      intros fuel off. unfold grep_next. specialize (GS fuel off). destruct (grep_search DLT F fuel b off) as [[[o v]|]| |]; cbn [obind]; congruence.
    Qed.
    Lemma grep_provide : provides (fun v x => v = place x) (m_grep_next W n (S n)) n 0 (grep_collect F b).
    Proof.
      unfold grep_collect.
      assert (G : forall fuel off, match collect (grep_next DLT F (S n) b) fuel off with
        | Ret l => feeds (fun v x => v = place x) (m_grep_next W n (S n)) off l false /\ length l < fuel | Panic => False | Fuel => True end).
      { induction fuel as [|f IH]; intros off; cbn [collect]; [exact I|]. pose proof (grep_no_panic (S n) off) as NP.
        destruct (grep_next DLT F (S n) b off) as [[off' [x|]]| |] eqn:E; cbn [obind]; [| |congruence|exact I].
        - specialize (IH off'). destruct (collect _ f off') as [l| |]; cbn [obind]; [|contradiction|exact I]. destruct IH as [I1 I2]. split; [|cbn [length]; lia]. cbn [feeds]. intros t.
          destruct (still_grep_next b F FOK (S n) off _ E t) as (p & t' & E2 & <-). unfold moved in E2. cbn [fst snd option_map] in E2. exists (place x), off', t'. split; [exact E2|]. now split.
        - split; [|cbn; lia]. cbn [feeds]. assert (off' = off).
          { revert E. unfold grep_next. destruct (grep_search DLT F (S n) b off) as [[[o v]|]| |]; cbn [obind]; congruence. }
          subst off'. exists (fun s => s = off). split; [reflexivity|]. intros s -> t. destruct (still_grep_next b F FOK (S n) off _ E t) as (p & t' & E2 & <-). now exists off, t'. }
      specialize (G (S n) 0). destruct (collect _ (S n) 0) as [l| |]; cbn [provides]; [|contradiction|exact I]. destruct G as [G1 G2]. split; [lia|exact G1].
    Qed.
    Lemma run_grepit : alike eq (m_count_hello_world_grepit W n) (count_hello_world_grepit F b).
    Proof. unfold m_count_hello_world_grepit, count_hello_world_grepit. eapply count_alike; [|apply grep_provide]. lia. Qed.
    Lemma run_grep_histogram : alike eq (m_histogram_hello_world W n) (histogram_hello_world F b).
    Proof.
      unfold m_histogram_hello_world, histogram_hello_world.
      assert (E : (let* it := grep_collect F b in histogram N.compare (fun off => Ret (N.of_nat off / idx_bucket_size)%N) (map fst it)) =
        (let* ds := (let* it := grep_collect F b in mapM (fun x => Ret (fst x)) it) in histogram N.compare (fun off => Ret (N.of_nat off / idx_bucket_size)%N) ds)).
      { destruct (grep_collect F b) as [l| |]; cbn [obind]; try reflexivity. replace (mapM (fun x : nat * storage_entry => Ret (fst x)) l) with (Ret (map fst l)); [reflexivity|].
        induction l as [|x l IH]; cbn; [reflexivity|]. now rewrite <- IH. }
      rewrite E. eapply (histogram_alike eq _ _ _ _ n); [lia|intros x ? <-; now apply alike_done|discriminate|].
      eapply map_provides; [|discriminate|apply grep_provide]. intros x y ->. now apply alike_done.
    Qed.
  End Grep.

  (** ** Histograms *)
  Lemma given : exists l, dltit b = Ret l /\ length l <= n /\ feeds st (m_messages W n) 0 l false.
  Proof.
    destruct (dltit_offset_total b) as (lo & EO & _). pose proof (dltit_map b lo EO) as E. exists (map snd lo). split; [exact E|]. destruct (messages_feed b F _ E) as [FD HL]. now split.
  Qed.
  Lemma given_with mask (test : storage_entry -> bool) l : (forall e, test e = (0 <? N.land (bN (header_type (header (dlt e)))) mask)%N) -> dltit b = Ret l ->
    length (filter test l) <= n /\ feeds st (filter_next (m_messages W n) (fun v => m_flag W v mask) (S (S n))) 0 (filter test l) false.
  Proof. intros HT E. destruct (flagged_feed b F mask test l HT E) as [FD HL]. now split. Qed.
  Lemma split_bind {A B C} (o : outcome A) (f : A -> outcome B) (g : B -> outcome C) : (let* x := o in let* y := f x in g y) = (let* y := (let* x := o in f x) in g y).
  Proof. destruct o; reflexivity. Qed.
  Lemma run_continuous : alike eq (m_continuous_timestamp_histogram W V n) (continuous_timestamp_histogram b).
  Proof.
    unfold m_continuous_timestamp_histogram, continuous_timestamp_histogram. destruct given as (l & -> & HL & FD). cbn [obind]. rewrite split_bind.
    eapply (histogram_alike eq _ _ _ _ (S n)); [lia|intros x ? <-; now apply alike_done|discriminate|].
    eapply (map_provides (pair_rel st st)); [intros x y H; now apply (alike_secs_delta b)|apply secs_delta_no_fuel|]. unfold groupby_iter.
    eapply (group_provides st); [intros; now apply (alike_secs_pred b)|discriminate|lia|exact HL|exact FD].
  Qed.
  Lemma run_lifecycle_histogram : alike eq (m_lifecycle_histogram W V n) (lifecycle_histogram b).
  Proof.
    unfold m_lifecycle_histogram, lifecycle_histogram. destruct given as (l & E & _ & _). rewrite E. cbn [obind]. rewrite split_bind.
    destruct (given_with 16 with_ts l (fun e => eq_refl) E) as [HL FD].
    eapply (histogram_alike eq _ _ _ _ (S n)); [lia|intros x ? <-; now apply alike_done|discriminate|].
    eapply (map_provides (pair_rel st st)); [intros x y H; now apply (alike_ts_delta b)|apply ts_delta_no_fuel|]. unfold groupby_iter.
    eapply (group_provides st); [intros; now apply (alike_ecu_ts_pred b)|apply ecu_ts_pred_no_fuel|lia|exact HL|exact FD].
  Qed.
  Lemma run_mstp : alike eq (m_mstp_info_histogram W V n) (mstp_info_histogram b).
  Proof.
    unfold m_mstp_info_histogram, mstp_info_histogram. destruct given as (l & E & _ & _). rewrite E. cbn [obind].
    destruct (given_with 1 (fun e => is_extended_header (header_type (header (dlt e)))) l (fun e => eq_refl) E) as [HL FD].
    match goal with |- alike _ _ (histogram ?c ?k ?xs) => change (histogram c k xs) with (let* l := Ret xs in histogram c k l) end.
    eapply (histogram_alike st _ _ _ _ n); [lia|intros x y H; now apply (alike_info b F)|intros y; nofuel|]. now split.
  Qed.
  Lemma run_payload : alike eq (m_histogram_payload W n) (histogram_payload b).
  Proof.
    unfold m_histogram_payload, histogram_payload. rewrite split_bind.
    eapply (histogram_alike eq _ _ _ _ n); [lia|intros x ? <-; now apply alike_done|discriminate|].
    eapply (map_provides st); [intros x y H; now apply (alike_payload_length b F)|intros y; nofuel|apply messages_provide].
  Qed.
  Lemma run_message : alike eq (m_histogram_message W n) (histogram_message b).
  Proof.
    unfold m_histogram_message, histogram_message.
    assert (E : (let* it := dltit b in histogram N.compare (fun id => Ret (N.of_nat id)) (map storage_len it)) =
      (let* ds := (let* it := dltit b in mapM (fun e => Ret (storage_len e)) it) in histogram N.compare (fun id => Ret (N.of_nat id)) ds)).
    { destruct (dltit b) as [l| |]; cbn [obind]; try reflexivity. replace (mapM (fun x => Ret (storage_len x)) l) with (Ret (map storage_len l)); [reflexivity|].
      induction l as [|x l IH]; cbn; [reflexivity|]. now rewrite <- IH. }
    rewrite E. eapply (histogram_alike eq _ _ _ _ n); [lia|intros x ? <-; now apply alike_done|discriminate|].
    eapply (map_provides st); [intros x y H; now apply (alike_len b F)|discriminate|apply messages_provide].
  Qed.
  (** ** Lifecycles *)
  Lemma run_iter : alike eq (m_lifecycle_iter W V n) (lifecycle_iter b).
  Proof.
    unfold m_lifecycle_iter, lifecycle_iter. destruct given as (l & E & _ & _). rewrite E. cbn [obind]. rewrite split_bind.
    destruct (given_with 16 with_ts l (fun e => eq_refl) E) as [HL FD].
    eapply (count_alike (pair_rel st st) _ (S n)); [lia|]. eapply filter_provides; [intros x y H; now apply (alike_long b)|intros y; unfold long_enough; nofuel; apply ts_delta_no_fuel|lia|].
    unfold groupby_iter. eapply (group_provides st); [intros; now apply (alike_ts_pred b)|apply ts_pred_no_fuel|lia|exact HL|exact FD].
  Qed.
  Lemma run_itertools : alike eq (m_lifecycle_itertools W V n) (lifecycle_itertools b).
  Proof.
    unfold m_lifecycle_itertools, lifecycle_itertools. destruct given as (l & E & _ & _). rewrite E. cbn [obind]. rewrite split_bind.
    destruct (given_with 16 with_ts l (fun e => eq_refl) E) as [HL FD].
    eapply (count_alike (pair_rel st st) _ n); [lia|]. eapply filter_provides; [intros x y H; now apply (alike_long b)|intros y; unfold long_enough; nofuel; apply ts_delta_no_fuel|lia|].
    change (filterM (fun r => ts_pred (fst r) (snd r)) (tuple_windows (filter with_ts l))) with (let* l := Ret (tuple_windows (filter with_ts l)) in filterM (fun r => ts_pred (fst r) (snd r)) l).
    eapply filter_provides; [intros x y [H1 H2]; now apply (alike_ts_pred b)|intros y; apply ts_pred_no_fuel|lia|].
    split; [|now apply windows_feeds]. pose proof (windows_length (filter with_ts l)). lia.
  Qed.
  (** ** Splitting by ECU *)
  Lemma sim_lifecycle fin : exists RS : _ -> _ -> Prop, RS ((([], (tt, (GEmpty, tt))), (0, tt)), tt) ((([], (tt, (GEmpty, tt))), (0, tt)), tt) /\
    sim_reducer RS st (pair_rel (rows eq) eq) (m_lifecycle_reducer W V fin) (lifecycle_reducer fin).
  Proof.
    eexists. split; [|unfold m_lifecycle_reducer, lifecycle_reducer; eapply sim_over; [eapply sim_fork|apply sim_nil]]; cycle 1.
    - eapply sim_over; [apply (sim_split N.compare (pair_rel eq anyunit) eq eq)|].
      + intros x ? <-. now apply alike_pure.
      + exact (conj eq_refl Logic.I).
      + apply sim_countg.
      + eapply sim_compose; [|eapply sim_compose; [|apply sim_nil]]; [apply sim_map|apply sim_groupby].
        * intros x y H. unfold ts_mapping. eapply alike_follow; [apply (alike_ts_delta b F); exact H|]. intros d ? <-. now apply alike_done.
        * intros. now apply (alike_ts_pred b).
    - apply sim_countg.
    - repeat split; constructor.
  Qed.
  Lemma run_lifecycle_splitit fin : alike eq (m_lifecycle_splitit W V n fin) (lifecycle_splitit fin b).
  Proof.
    unfold m_lifecycle_splitit, lifecycle_splitit. destruct given as (l & E & _ & _). rewrite E. cbn [obind].
    destruct (given_with 16 with_ts l (fun e => eq_refl) E) as [HL FD]. destruct (sim_lifecycle fin) as (RS & R0 & SR).
    eapply alike_weak; [eapply (reduce_alike st); [|  |exact FD|apply Forall2_nil]|].
    - apply (sim_split quad_cmp RS st (pair_rel (rows eq) eq)); [|exact R0|exact SR]. intros x y H. now apply (alike_ecu b).
    - lia.
    - intros a y. apply split_result.
  Qed.
  Lemma sim_timestamp fin : exists RS : _ -> _ -> Prop, RS ((([], (tt, (([], None), (GEmpty, tt)))), (0, tt)), tt) ((([], (tt, (([], None), (GEmpty, tt)))), (0, tt)), tt) /\
    sim_reducer RS st (pair_rel (rows eq) eq) (m_timestamp_reducer V fin) (timestamp_reducer fin).
  Proof.
    eexists. split; [|unfold m_timestamp_reducer, timestamp_reducer; eapply sim_over; [eapply sim_fork|apply sim_nil]]; cycle 1.
    - eapply sim_over; [apply (sim_split N.compare (pair_rel eq anyunit) eq eq)|].
      + intros x ? <-. now apply alike_pure.
      + exact (conj eq_refl Logic.I).
      + apply sim_countg.
      + eapply sim_compose; [|eapply sim_compose; [|eapply sim_compose; [|apply sim_nil]]]; [apply sim_map|apply sim_merge|apply sim_groupby].
        * intros x y H. apply (alike_secs_delta b F). exact H.
        * intros. now apply (alike_merge b).
        * intros. now apply (alike_key b).
        * intros. now apply (alike_secs_pred b).
    - apply sim_countg.
    - repeat split; constructor.
  Qed.
  Lemma run_timestamp_splitit fin : alike eq (m_timestamp_splitit W V n fin) (timestamp_splitit fin b).
  Proof.
    unfold m_timestamp_splitit, timestamp_splitit. destruct given as (l & -> & HL & FD). cbn [obind]. destruct (sim_timestamp fin) as (RS & R0 & SR).
    eapply alike_weak; [eapply (reduce_alike st); [|  |exact FD|apply Forall2_nil]|].
    - apply (sim_split quad_cmp RS st (pair_rel (rows eq) eq)); [|exact R0|exact SR]. intros x y H. now apply (alike_ecu b).
    - lia.
    - intros a y. apply split_result.
  Qed.
End Commands.

(** ** On all cores *)
Section Parallel.
  Variable b : bytes.
  Variable F : bytes -> nat -> option (nat * nat).
  Definition still_parts (p : nat * nat) : world * cells := (still (part_of b p) F, still_cells (part_of b p)).
  Lemma in_line_inside n : forall l pos p, in_line n pos l -> In p l -> fst p < snd p <= n.
  Proof. induction l as [|[a z] l IH]; intros pos p; [contradiction|]. intros (_ & H1 & H2) [<-|H]; [exact H1|exact (IH z p H2 H)]. Qed.
  Lemma run_parts {A B} num (f : world -> cells -> nat -> act A) (g : bytes -> outcome A) (combine : list A -> B) :
    (forall b', alike eq (f (still b' F) (still_cells b') (length b')) (g b')) ->
    (let* l := partition_from DLT b num in let* rs := mapM g l in Ret (combine rs)) <> Fuel ->
    m_parts (still b F) (length b) still_parts num f combine = (let* l := partition_from DLT b num in let* rs := mapM g l in Ret (combine rs)).
  Proof.
    intros H. unfold m_parts. destruct (Nat.eq_dec num 0) as [->|NZ].
    - intros _. unfold m_partition, partition_from. cbn. reflexivity.
    - destruct (P_Mapped.C115_partition (still b F) (length b) num 0 ltac:(lia)) as (ps & t1 & EP & IL).
      destruct (P_Mapped.C117_unchanged b F) as (_ & _ & _ & _ & _ & PT).
      destruct (partition_from DLT b num) as [l| |] eqn:E; cbn [obind]; [| |congruence].
      + destruct (PT num l E 0) as (ps' & t' & E' & CUT). rewrite EP in E'. injection E' as <- <-. rewrite EP.
        assert (M : mapM g l <> Fuel -> mapM (fun p => match f (fst (still_parts p)) (snd (still_parts p)) (snd p - fst p) 0 with Ret (r, _) => Ret r | Panic => Panic | Fuel => Fuel end) ps = mapM g l).
        { rewrite <- CUT. assert (IN : forall p, In p ps -> fst p < snd p <= length b) by (intros p; now apply in_line_inside with (pos := 0)). clear - H IN.
          induction ps as [|p ps IH]; [reflexivity|]. cbn [map mapM]. change (firstn (snd p - fst p) (skipn (fst p) b)) with (part_of b p).
          specialize (H (part_of b p) 0). assert (LP : length (part_of b p) = snd p - fst p).
          { unfold part_of. specialize (IN p (or_introl eq_refl)). rewrite firstn_length, skipn_length. lia. }
          rewrite LP in H. unfold still_parts at 1 2. cbn [fst snd]. destruct (g (part_of b p)) as [r| |]; cbn [obind]; [|now rewrite H|congruence].
          destruct H as (a & t & -> & ->). cbn [obind]. intros NF. rewrite IH; [reflexivity|intros q HQ; apply IN; now right|]. intros X. rewrite X in NF. now apply NF. }
        intros NF. rewrite M; [reflexivity|]. intros X. rewrite X in NF. now apply NF.
      + exfalso. destruct (proj2 (P_Partition.C31_partition_prefix b num) ltac:(lia)) as (l & rest & El & _). congruence.
  Qed.
End Parallel.
