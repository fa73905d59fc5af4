(** Property theorems C123 and C124: ripdlt's commands on a memory mapped file (model in MappedCmd.v, vocabulary in MappedSpec.v and
    MappedCmdSpec.v).  [W] and [V] answer every single read as they like, [n] is the length of the mapping; [fin] bounds the [while] loops
    of the generator. *)
From Verif Require Import Base DltModel MatchModel GenModel ToolsModel TraceModel MappedModel MappedCmd Spec ReadSpec MappedSpec MappedCmdSpec BaseFacts MappedFacts CmdEnds CmdCommands SimFacts.
From Verif Require Import P_Mapped.
From Verif Require Samples.
From Coq Require Import ZifyBool ZifyNat ZifyN.
Import Samples(m1, m2, m3, m1_valid, m2_valid, m3_valid).
Ltac Zify.zify_post_hook ::= idtac.

Lemma end_here {A} (P Q : A -> Prop) x : ends P x -> (forall a, P a -> Q a) -> ends_with Q x.
Proof. intros H I t. specialize (H t). destruct (x t) as [[a t']| |]; split; try congruence; try contradiction. intros r t2 [= <- <-]. now apply I. Qed.
Lemma ret_here {A} (P Q : A -> Prop) x : ends P x -> tame (fun _ => True) x -> (forall a, P a -> Q a) -> returns Q x.
Proof.
  intros H T I t. specialize (H t). destruct (T t) as [NP _]. destruct (x t) as [[a t']| |]; [|congruence|contradiction]. exists a, t'. auto.
Qed.
Section Tame.
  Notation any := (fun _ => True).
  Lemma tame_done {A} (P : A -> Prop) a : P a -> tame P (done a).
  Proof. intros H. now apply safe_tame, safe_done. Qed.
  Lemma tame_count {T A} (next : T -> act (T * option A)) : (forall s, tame any (next s)) -> forall fuel s, tame any (count_items next fuel s).
  Proof.
    intros H. induction fuel as [|f IH]; intros s; cbn [count_items]; [apply tame_unknown|]. eapply tame_follow; [apply H|]. intros [s' [x|]] _; [|now apply tame_done].
    eapply tame_follow; [apply IH|]. intros k _. now apply tame_done.
  Qed.
  Lemma tame_map {T A B} (next : T -> act (T * option A)) (f : A -> act B) : (forall s, tame any (next s)) -> (forall x, tame any (f x)) -> forall s, tame any (map_next next f s).
  Proof.
    intros H HF s. unfold map_next. eapply tame_follow; [apply H|]. intros [s' [x|]] _; [|now apply tame_done]. eapply tame_follow; [apply HF|]. intros y _. now apply tame_done.
  Qed.
  Lemma tame_histogram {T A K} (next : T -> act (T * option A)) (cmp : K -> K -> comparison) key : (forall s, tame any (next s)) -> (forall x, tame any (key x)) ->
    forall fuel s, tame any (histogram_items next cmp key fuel s).
  Proof.
    intros H HK fuel s. unfold histogram_items. generalize (@nil (K * (nat * unit))). revert s. induction fuel as [|f IH]; intros s acc; cbn [reduce_items]; [apply tame_unknown|].
    eapply tame_follow; [apply H|]. intros [s' [x|]] _.
    - eapply (tame_follow any); [|intros acc' _; apply IH]. cbn [enext SplitE]. eapply (tame_follow any); [apply HK|]. intros k _. eapply (tame_follow (fun z => z = (0, tt))); [now apply (tame_done (fun z => z = (0, tt)))|].
      intros ? ->. destruct (match map_get cmp k acc with Some s => s | None => (0, tt) end) as [c u]. intros t. split; [cbn; discriminate|auto].
    - cbn [efinal SplitE]. generalize (@nil (K * nat)). induction acc as [|[k [c u]] acc IHa]; intros out; cbn [split_finalizeE]; [now apply (tame_done any)|].
      eapply (tame_follow any); [|intros r _; apply IHa]. intros t. split; [cbn; discriminate|auto].
  Qed.
End Tame.
Notation any := (fun _ => True).

Lemma messages_tame W n s : tame any (m_messages W n s).
Proof. eapply safe_tame, safe_weak; [apply safe_fallback; lia|]. auto. Qed.
Lemma grep_tame W n s : tame any (m_grep_next W n (S n) s).
Proof. intros t. split; [|auto]. apply (proj1 (C116_grep_partial W n s)). Qed.
Definition left11 (n a : nat) : nat := (n - a) / 11.
Lemma hello_safe V n a : safe (fun r => match snd r with Some _ => S (left11 n (fst r)) <= left11 n a | None => left11 n (fst r) <= left11 n a end) (hello_next V n a).
Proof.
  unfold hello_next. eapply safe_follow; [apply safe_any|]. intros [p|] _; [|apply safe_done; cbn; lia].
  destruct (Nat.leb_spec a p), (Nat.leb_spec (p + 11) n); cbn [andb]; apply safe_done; cbn [fst snd]; try lia. unfold left11.
  assert (1 * 11 + (n - (p + 11)) <= n - a) by lia. pose proof (Nat.div_le_mono _ _ 11 ltac:(lia) H1). rewrite Nat.div_add_l in H2 by lia. lia.
Qed.
Lemma rest0 n : rest n 0 < S (S n).
Proof. pose proof (rest_bound n 0). lia. Qed.
Lemma groups_bound n (s : gstate item * nat) : groups (rest n) s <= S n.
Proof. unfold groups. pose proof (rest_bound n (snd s)). destruct (fst s); cbn [pending]; lia. Qed.
Lemma quiet_lifecycle W V fin : 0 < fin -> exists pot, pot ((([], (tt, (GEmpty, tt))), (0, tt)), tt) = 0 /\ quiet pot 1 fin (m_lifecycle_reducer W V fin).
Proof.
  intros HF. unfold m_lifecycle_reducer.
  pose proof (calm_compose _ _ _ _ fin _ _ (calm_map fin (fun r => see d <- m_ts_delta W V r; done (d / 10000)%N)
    ltac:(intros x; eapply ends_follow; [apply ends_ts_delta|intros; now apply ends_done]))
    (calm_compose _ _ _ _ fin _ _ (calm_group fin (m_ts_pred W V) (ends_ts_pred W V)) (calm_nil fin))) as CH.
  pose proof (quiet_split N.compare (fun _ : nat * unit => 0) 0 fin (fun k : N => pure k) (0, tt) CountGE ltac:(intros; now apply ends_pure) eq_refl (quiet_countg fin HF)) as SP.
  pose proof (quiet_over _ _ _ _ fin _ _ (quiet_fork _ _ _ _ fin _ _ (quiet_over _ _ _ _ fin _ _ SP CH) (quiet_countg fin HF)) (calm_nil fin)) as Q.
  eexists. split; [|exact Q]. reflexivity.
Qed.
Lemma quiet_timestamp V fin : 0 < fin -> exists pot, pot ((([], (tt, (([], None), (GEmpty, tt)))), (0, tt)), tt) = 0 /\ quiet pot 3 fin (m_timestamp_reducer V fin).
Proof.
  intros HF. unfold m_timestamp_reducer.
  pose proof (calm_compose _ _ _ _ fin _ _ (calm_map fin (m_secs_delta V) (ends_secs_delta V))
    (calm_compose _ _ _ _ fin _ _ (calm_merge pair_cmp fin (m_merge V) (m_period_key V) (ends_merge V) (ends_key V))
      (calm_compose _ _ _ _ fin _ _ (calm_group fin (m_secs_pred V) (ends_secs_pred V)) (calm_nil fin)))) as CH.
  pose proof (quiet_split N.compare (fun _ : nat * unit => 0) 0 fin (fun k : N => pure k) (0, tt) CountGE ltac:(intros; now apply ends_pure) eq_refl (quiet_countg fin HF)) as SP.
  pose proof (quiet_over _ _ _ _ fin _ _ (quiet_fork _ _ _ _ fin _ _ (quiet_over _ _ _ _ fin _ _ SP CH) (quiet_countg fin HF)) (calm_nil fin)) as Q.
  eexists. split; [|exact Q]. reflexivity.
Qed.
Lemma reduce_budget {T A K St R} (next : T -> act (T * option A)) l c fin (cmp : K -> K -> comparison) key s0 (r : ReduceE nat St A R) pot f s :
  shrinks next l -> (forall x, ends any (key x)) -> pot s0 = 0 -> quiet pot c fin r -> l s < f -> c * l s < fin ->
  ends any (reduce_items next (SplitE cmp key (fun _ => pure s0) r) f s []).
Proof.
  intros SH HK H0 Q HF HC. destruct (quiet_split cmp pot c fin key s0 r HK H0 Q) as [N FN].
  eapply (reduce_ends next l SH _ (fun k m => most pot m <= c * k) any (l s)) with (k := 0); [| |exact HF|lia|cbn; lia].
  - intros k acc x HA. eapply ends_weak; [apply N|]. cbn beta. intros m Hm. nia.
  - intros k acc HA HK0. apply FN. nia.
Qed.

(** * C123: overwritten while a command runs *)
(** Three commands always return; the others return or panic, and do not run for ever. *)
Theorem C123_ends_partial : forall W V n fin, 3 * n < fin ->
  (returns (fun k => 20 * k <= n) (m_count W n) /\
   returns (fun k => 11 * k <= n) (m_count_hello_world_raw V n) /\
   returns (fun h => 20 * in_all h <= n) (m_histogram_message W n)) /\
  (ends_with (fun k => 20 * k <= n) (m_count_hello_world W V n) /\
   ends_with (fun k => 20 * k <= n) (m_lifecycle_iter W V n) /\
   ends_with (fun k => 20 * k <= n) (m_lifecycle_itertools W V n) /\
   ends_with (fun h => 20 * in_all h <= n) (m_continuous_timestamp_histogram W V n) /\
   ends_with (fun h => 20 * in_all h <= n) (m_mstp_info_histogram W V n) /\
   ends_with (fun h => 20 * in_all h <= n) (m_lifecycle_histogram W V n) /\
   ends_with (fun h => 20 * in_all h <= n) (m_histogram_payload W n) /\
   ends_with (fun _ => True) (m_lifecycle_splitit W V n fin) /\
   ends_with (fun _ => True) (m_timestamp_splitit W V n fin)).
Proof.
  intros W V n fin HF. pose proof (rest0 n) as R0. pose proof (rest_bound n 0) as RB.
  assert (R1 : forall f, S (rest n 0) <= f -> rest n 0 < f) by (intros; lia).
  assert (GT : shrinks (pull_next (filter_next (m_messages W n) (m_with_ts W) (S (S n))) (GroupByE (m_ts_pred W V)) (S (S n)) 2) (groups (rest n))).
  { apply pulled_shrink; [apply timed_shrink|apply rest_bound|apply ends_ts_pred]. }
  assert (G0 : groups (rest n) (GEmpty (T := item), 0) = rest n 0) by (unfold groups; cbn [fst snd pending]; lia).
  split; [split; [|split]|split; [|split; [|split; [|split; [|split; [|split; [|split; [|split]]]]]]]].
  - eapply ret_here; [apply (count_ends _ _ (messages_shrink W n)); exact R0|apply tame_count, messages_tame|]. apply twenty.
  - assert (SH : shrinks (hello_next V n) (left11 n)) by (intros a; apply safe_ends, hello_safe).
    assert (L0 : left11 n 0 <= n) by (unfold left11; pose proof (Nat.div_le_upper_bound (n - 0) 11 n); lia).
    eapply ret_here; [apply (count_ends _ _ SH); lia|apply tame_count; intros s; eapply safe_tame, safe_weak; [apply hello_safe|auto]|].
    cbn beta. unfold left11. intros k Hk. pose proof (Nat.mul_div_le (n - 0) 11). nia.
  - eapply ret_here; [eapply (histogram_ends _ (rest n)); [|intros; now apply ends_done|exact R0]|apply tame_histogram|].
    + intros s. apply map_shrinks; [apply messages_shrink|intros; apply ends_len].
    + apply tame_map; [apply messages_tame|]. intros x. eapply safe_tame, safe_weak; [apply safe_len|auto].
    + intros x. now apply tame_done.
    + intros h. apply twenty.
  - eapply end_here; [apply (count_ends _ _ (hello_shrink W V n)); exact R0|]. apply twenty.
  - eapply end_here; [apply (count_ends _ (groups (rest n)))|]; [|rewrite G0; exact R0|rewrite G0; apply twenty].
    apply filtered_shrink; [exact GT|apply groups_bound|apply ends_long].
  - eapply end_here; [apply (count_ends _ (fun s : option item * nat => rest n (snd s)))|]; [|exact R0|apply twenty].
    apply filtered_shrink; [apply filtered_shrink|intros s; pose proof (rest_bound n (snd s)); lia|apply ends_long];
      [intros s; apply windows_shrinks, timed_shrink|intros s; pose proof (rest_bound n (snd s)); lia|intros x; apply ends_ts_pred].
  - eapply end_here; [eapply (histogram_ends _ (groups (rest n))); [|intros; now apply ends_done|rewrite G0; exact R0]|rewrite G0; intros h; apply twenty].
    intros s. apply map_shrinks; [|apply ends_secs_delta]. apply pulled_shrink; [apply messages_shrink|apply rest_bound|apply ends_secs_pred].
  - eapply end_here; [eapply (histogram_ends _ (rest n)); [apply typed_shrink|apply ends_info|exact R0]|intros h; apply twenty].
  - eapply end_here; [eapply (histogram_ends _ (groups (rest n))); [|intros; now apply ends_done|rewrite G0; exact R0]|rewrite G0; intros h; apply twenty].
    intros s. apply map_shrinks; [|apply ends_ts_delta]. apply pulled_shrink; [apply timed_shrink|apply rest_bound|apply ends_ecu_ts_pred].
  - eapply end_here; [eapply (histogram_ends _ (rest n)); [|intros; now apply ends_done|exact R0]|intros h; apply twenty].
    intros s. apply map_shrinks; [apply messages_shrink|apply ends_payload].
  - destruct (quiet_lifecycle W V fin ltac:(lia)) as (pot & P0 & Q). eapply end_here; [|auto]. unfold m_lifecycle_splitit.
    eapply (reduce_budget _ (rest n) 1 fin _ _ _ _ pot); [apply timed_shrink|intros x; apply (ends_ask any); auto|exact P0|exact Q|exact R0|lia].
  - destruct (quiet_timestamp V fin ltac:(lia)) as (pot & P0 & Q). eapply end_here; [|auto]. unfold m_timestamp_splitit.
    eapply (reduce_budget _ (rest n) 3 fin _ _ _ _ pot); [apply messages_shrink|intros x; apply (ends_ask any); auto|exact P0|exact Q|exact R0|lia].
Qed.
Print Assumptions C123_ends_partial.
(** The two commands that search with a regular expression do not panic. *)
Theorem C123_grep_partial : forall W n, no_panic (fun _ => True) (m_count_hello_world_grepit W n) /\ no_panic (fun _ => True) (m_histogram_hello_world W n).
Proof.
  intros W n. split.
  - apply (tame_count _ (grep_tame W n)).
  - apply tame_histogram; [apply tame_map; [apply grep_tame|]|]; intros x; now apply tame_done.
Qed.
Print Assumptions C123_grep_partial.
Lemma count_collects {T A} (next : T -> act (T * option A)) : forall fuel s t, m_collect next fuel s t = Fuel -> count_items next fuel s t = Fuel.
Proof.
  induction fuel as [|f IH]; intros s t; [reflexivity|]. cbn [m_collect count_items]. unfold follow. destruct (next s t) as [[[s' [x|]] t']| |]; try discriminate; [|reflexivity].
  specialize (IH s' t'). destruct (m_collect next f s' t') as [[l t2]| |]; try discriminate. now rewrite IH.
Qed.
(** They can: [nagging] is a file on which counting never ends, however many items are counted. *)
Theorem C123_forever : (forall t a s e, sees_match nagging t a = Some (s, e) -> s < e) /\ forall fuel, count_items (m_grep_next nagging 56 57) fuel 0 0 = Fuel.
Proof. split; [apply C116_refuted|]. intros fuel. apply count_collects, C116_refuted. Qed.
Print Assumptions C123_forever.

(** On all cores: each part is read by a thread of its own. *)
Lemma part_sum n : forall ps pos, in_line n pos ps -> pos + list_sum (map (fun p => snd p - fst p) ps) <= Nat.max pos n.
Proof. induction ps as [|[a z] ps IH]; intros pos; cbn [map in_line]; [cbn; lia|]. intros (-> & H1 & H2). specialize (IH z H2). unfold list_sum in *. cbn [fold_right fst snd]. lia. Qed.
Lemma tree_sum (t : rtree nat) : reduce_tree 0 Nat.add t = list_sum (leaves t).
Proof. induction t as [|a|l IHl r IHr]; cbn [reduce_tree leaves]; [reflexivity|cbn; lia|]. rewrite list_sum_app. lia. Qed.
Lemma perm_sum l l' : Permutation.Permutation l l' -> list_sum l = list_sum l'.
Proof. intros H. unfold list_sum. induction H; cbn [fold_right] in *; lia. Qed.
Lemma parts_return W n Ws num sched f c : 0 < c -> (forall W V n, returns (fun k => c * k <= n) (f W V n)) -> 0 < num -> fair_sched sched ->
  exists k, m_multithreaded W n Ws sched num f = Ret k /\ c * k <= n.
Proof.
  intros HC HR HN FS. unfold m_multithreaded, m_parts. destruct (C115_partition W n num 0 HN) as (ps & t & -> & IL).
  assert (M : exists rs, mapM (fun p => match f (fst (Ws p)) (snd (Ws p)) (snd p - fst p) 0 with Ret (r, _) => Ret r | Panic => Panic | Fuel => Fuel end) ps = Ret rs /\
    c * list_sum rs <= list_sum (map (fun p => snd p - fst p) ps)).
  { clear IL. induction ps as [|p ps IH]; [exists []; split; [reflexivity|]; cbn; lia|]. cbn [mapM map]. destruct (HR (fst (Ws p)) (snd (Ws p)) (snd p - fst p) 0) as (r & t' & -> & HP). cbn [obind].
    destruct IH as (rs & -> & HS). cbn [obind]. exists (r :: rs). split; [reflexivity|]. unfold list_sum in *. cbn [fold_right]. nia. }
  destruct M as (rs & -> & HS). cbn [obind]. eexists. split; [reflexivity|]. rewrite tree_sum, (perm_sum _ _ (FS nat rs)). pose proof (part_sum n ps 0 IL). lia.
Qed.
Lemma parts_end {A B} W n Ws num (f : world -> cells -> nat -> act A) (combine : list A -> B) : 0 < num -> (forall W V m, m <= n -> ends any (f W V m)) -> m_parts W n Ws num f combine <> Fuel.
Proof.
  intros HN HE. unfold m_parts. destruct (C115_partition W n num 0 HN) as (ps & t & -> & IL).
  assert (M : mapM (fun p => match f (fst (Ws p)) (snd (Ws p)) (snd p - fst p) 0 with Ret (r, _) => Ret r | Panic => Panic | Fuel => Fuel end) ps <> Fuel).
  { assert (IN : forall p, In p ps -> snd p - fst p <= n) by (intros p H; apply in_line_inside with (p := p) in IL; [lia|exact H]). clear IL.
    induction ps as [|p ps IH]; [discriminate|]. cbn [mapM]. specialize (HE (fst (Ws p)) (snd (Ws p)) (snd p - fst p) (IN p (or_introl eq_refl)) 0). destruct (f _ _ _ 0) as [[r t']| |]; cbn [obind]; [|discriminate|contradiction].
    specialize (IH (fun q H => IN q (or_intror H))). destruct (mapM _ ps); cbn [obind]; [discriminate|discriminate|congruence]. }
  destruct (mapM _ ps); cbn [obind]; congruence.
Qed.
Theorem C123_parallel_partial : forall W n Ws num sched fin, 0 < num -> fair_sched sched -> 3 * n < fin ->
  (exists k, m_multithreaded W n Ws sched num (fun W _ n => m_count W n) = Ret k /\ 20 * k <= n) /\
  (exists k, m_multithreaded W n Ws sched num (fun _ V n => m_count_hello_world_raw V n) = Ret k /\ 11 * k <= n) /\
  m_multithreaded W n Ws sched num m_count_hello_world <> Fuel /\
  m_par_continuous_timestamp_histogram W n Ws sched num <> Fuel /\
  m_par_timestamp_splitit W n Ws fin sched num <> Fuel.
Proof.
  intros W n Ws num sched fin HN FS HF.
  assert (EW : forall A (P : A -> Prop) x, ends_with P x -> ends any x).
  { intros A P x H t. destruct (H t) as [H1 _]. destruct (x t) as [[a t']| |]; auto. }
  split; [|split; [|split; [|split]]].
  - apply parts_return; [lia| |exact HN|exact FS]. intros W' V' n'. exact (proj1 (proj1 (C123_ends_partial W' V' n' (S (3 * n')) ltac:(lia)))).
  - apply parts_return; [lia| |exact HN|exact FS]. intros W' V' n'. exact (proj1 (proj2 (proj1 (C123_ends_partial W' V' n' (S (3 * n')) ltac:(lia))))).
  - apply parts_end; [exact HN|]. intros W' V' m _. destruct (C123_ends_partial W' V' m (S (3 * m)) ltac:(lia)) as (_ & H & _). exact (EW _ _ _ H).
  - apply parts_end; [exact HN|]. intros W' V' m _. destruct (C123_ends_partial W' V' m (S (3 * m)) ltac:(lia)) as (_ & _ & _ & _ & H & _). exact (EW _ _ _ H).
  - apply parts_end; [exact HN|]. intros W' V' m Hm. destruct (C123_ends_partial W' V' m fin ltac:(lia)) as (_ & _ & _ & _ & _ & _ & _ & _ & _ & H). exact (EW _ _ _ H).
Qed.
Print Assumptions C123_parallel_partial.

(** ** The other commands can panic *)
Definition storage (s : byte) : bytes := [x44; x4c; x54; x01; s; x00; x00; x00; x00; x00; x00; x00; x45; x43; x55; x31].
Definition body (h ts : byte) : bytes := [h; x00; x00; x12; x00; x00; x00; ts; x41; x00; x41; x50; x50; x31; x43; x54; x58; x31].
(** Two messages with timestamp and extended header, of seconds 1 and 2. *)
Definition old : list bytes := [storage x01 ++ body x11 x01; storage x02 ++ body x11 x02].
(** The same with other flags, of seconds 5 and 2. *)
Definition new : list bytes := [storage x05 ++ body x00 x01; storage x02 ++ body x00 x02].
(** Two short messages, and one in their place. *)
Definition short : list bytes := [storage x01 ++ [x00; x00; x00; x08; x00; x00; x00; x00]; storage x02 ++ [x00; x00; x00; x08; x00; x00; x00; x00]].
Definition long : list bytes := [storage x01 ++ [x1d; x00; x00; x20] ++ repeat x00 28].
Definition overwritten (a b : list bytes) (time t : nat) : bytes := concat (if t <? time then a else b).
Lemma logs : Forall valid_message old /\ Forall valid_message new /\ Forall valid_message short /\ Forall valid_message long.
Proof. repeat split; repeat constructor; vm_compute; repeat constructor. Qed.
Lemma break_at {A} (alone : bytes -> outcome A) cmd a b time : Forall valid_message a -> Forall valid_message b -> length (concat a) = length (concat b) ->
  (exists r, alone (concat a) = Ret r) -> (exists r, alone (concat b) = Ret r) ->
  (forall F, cmd (history (overwritten a b time) F) (history_cells (overwritten a b time)) (length (concat a)) 0 = Panic) -> breaks alone cmd.
Proof.
  intros VA VB L RA RB H. exists (overwritten a b time), (length (concat a)). split; [|exact H]. intros t. unfold overwritten. destruct (t <? time).
  - split; [reflexivity|]. split; [now exists a|exact RA].
  - split; [now rewrite L|]. split; [now exists b|exact RB].
Qed.
Theorem C123_refuted :
  breaks count_hello_world m_count_hello_world /\
  breaks continuous_timestamp_histogram m_continuous_timestamp_histogram /\
  breaks mstp_info_histogram m_mstp_info_histogram /\
  breaks lifecycle_histogram m_lifecycle_histogram /\
  breaks histogram_payload (fun W _ n => m_histogram_payload W n) /\
  breaks lifecycle_iter m_lifecycle_iter /\
  breaks lifecycle_itertools m_lifecycle_itertools /\
  breaks (lifecycle_splitit 300) (fun W V n => m_lifecycle_splitit W V n 300) /\
  breaks (timestamp_splitit 300) (fun W V n => m_timestamp_splitit W V n 300).
Proof.
  destruct logs as (L1 & L2 & L3 & L4).
  split; [apply (break_at _ _ short long 2); [exact L3|exact L4|reflexivity|vm_compute; eauto|vm_compute; eauto|intros F; vm_compute; reflexivity]|].
  split; [apply (break_at _ _ old new 6); [exact L1|exact L2|reflexivity|vm_compute; eauto|vm_compute; eauto|intros F; vm_compute; reflexivity]|].
  split; [apply (break_at _ _ old new 3); [exact L1|exact L2|reflexivity|vm_compute; eauto|vm_compute; eauto|intros F; vm_compute; reflexivity]|].
  split; [apply (break_at _ _ old new 8); [exact L1|exact L2|reflexivity|vm_compute; eauto|vm_compute; eauto|intros F; vm_compute; reflexivity]|].
  split; [apply (break_at _ _ short long 2); [exact L3|exact L4|reflexivity|vm_compute; eauto|vm_compute; eauto|intros F; vm_compute; reflexivity]|].
  split; [apply (break_at _ _ old new 8); [exact L1|exact L2|reflexivity|vm_compute; eauto|vm_compute; eauto|intros F; vm_compute; reflexivity]|].
  split; [apply (break_at _ _ old new 8); [exact L1|exact L2|reflexivity|vm_compute; eauto|vm_compute; eauto|intros F; vm_compute; reflexivity]|].
  split; apply (break_at _ _ old new 8); try assumption; try reflexivity; try (vm_compute; eauto); intros F; vm_compute; reflexivity.
Qed.
Print Assumptions C123_refuted.

(** * C124: a file that does not change *)
(** Iterators, adapters and closures that take turns and read the mapping do what ToolsModel.v computes on the collected messages. *)
Theorem C124_unchanged : forall (b : bytes) F fin,
  (forall a s e, F b a = Some (s, e) -> a <= s /\ s <= e /\ e <= length b) ->
  let W := still b F in let V := still_cells b in let n := length b in
  runs_like (m_count W n) (count b) /\
  runs_like (m_count_hello_world W V n) (count_hello_world b) /\
  runs_like (m_count_hello_world_raw V n) (count_hello_world_raw b) /\
  runs_like (m_count_hello_world_grepit W n) (count_hello_world_grepit F b) /\
  runs_like (m_continuous_timestamp_histogram W V n) (continuous_timestamp_histogram b) /\
  runs_like (m_mstp_info_histogram W V n) (mstp_info_histogram b) /\
  runs_like (m_lifecycle_splitit W V n fin) (lifecycle_splitit fin b) /\
  runs_like (m_timestamp_splitit W V n fin) (timestamp_splitit fin b) /\
  runs_like (m_lifecycle_histogram W V n) (lifecycle_histogram b) /\
  runs_like (m_histogram_payload W n) (histogram_payload b) /\
  runs_like (m_histogram_message W n) (histogram_message b) /\
  runs_like (m_histogram_hello_world W n) (histogram_hello_world F b) /\
  runs_like (m_lifecycle_iter W V n) (lifecycle_iter b) /\
  runs_like (m_lifecycle_itertools W V n) (lifecycle_itertools b).
Proof.
  intros b F fin FOK W V n. unfold W, V, n. repeat match goal with |- _ /\ _ => split end; apply alike_runs;
    [apply run_count|apply run_hello|apply (run_raw b F)|now apply run_grepit|apply run_continuous|apply run_mstp|apply run_lifecycle_splitit|apply run_timestamp_splitit|
     apply run_lifecycle_histogram|apply run_payload|apply run_message|now apply run_grep_histogram|apply run_iter|apply run_itertools].
Qed.
Print Assumptions C124_unchanged.
(** On all cores. *)
Theorem C124_parallel : forall (b : bytes) F sched num fin,
  let W := still b F in let n := length b in
  let Ws := fun p => (still (part_of b p) F, still_cells (part_of b p)) in
  (multithreaded sched num count b <> Fuel -> m_multithreaded W n Ws sched num (fun W _ n => m_count W n) = multithreaded sched num count b) /\
  (multithreaded sched num count_hello_world b <> Fuel -> m_multithreaded W n Ws sched num m_count_hello_world = multithreaded sched num count_hello_world b) /\
  (multithreaded sched num count_hello_world_raw b <> Fuel ->
   m_multithreaded W n Ws sched num (fun _ V n => m_count_hello_world_raw V n) = multithreaded sched num count_hello_world_raw b) /\
  ((forall b' a s e, F b' a = Some (s, e) -> a <= s /\ s <= e /\ e <= length b') -> multithreaded sched num (count_hello_world_grepit F) b <> Fuel ->
   m_multithreaded W n Ws sched num (fun W _ n => m_count_hello_world_grepit W n) = multithreaded sched num (count_hello_world_grepit F) b) /\
  (multithreaded sched num lifecycle_iter b <> Fuel -> m_multithreaded W n Ws sched num m_lifecycle_iter = multithreaded sched num lifecycle_iter b) /\
  (par_continuous_timestamp_histogram sched num b <> Fuel ->
   m_par_continuous_timestamp_histogram W n Ws sched num = par_continuous_timestamp_histogram sched num b) /\
  (par_timestamp_splitit fin sched num b <> Fuel -> m_par_timestamp_splitit W n Ws fin sched num = par_timestamp_splitit fin sched num b).
Proof.
  intros b F sched num fin W n Ws.
  split; [|split; [|split; [|split; [|split; [|split]]]]]; [| | |intros FOK| | |]; intros NF; apply (run_parts b F num); try exact NF; intros b'.
  - apply run_count.
  - apply run_hello.
  - apply (run_raw b' F).
  - apply run_grepit. apply FOK.
  - apply run_iter.
  - apply run_continuous.
  - apply run_timestamp_splitit.
Qed.
Print Assumptions C124_parallel.
(** For example: the two messages above, and a file on which a command panics. *)
Example C124_example : lifecycle_iter (concat old) = Ret 0 /\ continuous_timestamp_histogram (concat old) = Ret [(1%N, 1)] /\ histogram_message (concat old) = Ret [(34%N, 2)] /\
  count_hello_world (storage x01 ++ [x01; x00; x00; x04]) = Panic /\
  m_continuous_timestamp_histogram (still (concat old) (fun _ _ => None)) (still_cells (concat old)) 68 0 = Ret ([(1%N, 1)], 8).
Proof. repeat split; vm_compute; reflexivity. Qed.
