(** Facts about TouchCmd.v: the commands are built from reads alone, so what holds of every read holds of every command. *)
From Verif Require Import Base DltModel MatchModel GenModel ToolsModel TraceModel MappedModel MappedCmd TouchModel TouchMore TouchCmd TouchSpec Spec ReadSpec MappedSpec MappedCmdSpec
  BaseFacts FindFacts DltFacts EditFacts TouchFacts TouchMoreFacts TouchSame TouchMoreSame.
From Coq Require Import ZifyBool ZifyNat ZifyN.
Ltac Zify.zify_post_hook ::= idtac.

(** [x] does what [y] does, or (if [K]) is killed. *)
Section Rel.
  Variable K : Prop.
  Definition rel {A} (x y : act A) : Prop := forall t, x t = y t \/ (K /\ x t = Fuel).
  Lemma rel_refl {A} (x : act A) : rel x x.
  Proof. intros t. now left. Qed.
  Lemma rel_bind {A B} (x y : act A) (f g : A -> act B) : rel x y -> (forall a, rel (f a) (g a)) -> rel (follow x f) (follow y g).
  Proof.
    intros H G t. unfold follow. destruct (H t) as [E|[k E]].
    - rewrite E. destruct (y t) as [[a t']| |]; [apply G|now left|now left].
    - right. split; [exact k|]. now rewrite E.
  Qed.
  Lemma rel_ebind {A B} (x y : eff nat A) (f g : A -> eff nat B) : rel x y -> (forall a, rel (f a) (g a)) -> rel (ebind x f) (ebind y g).
  Proof. exact (rel_bind x y f g). Qed.

  Ltac step := first
    [ apply rel_refl
    | match goal with |- rel (follow _ _) _ => apply rel_bind; [|intros] | |- rel (ebind _ _) _ => apply rel_ebind; [|intros] end
    | match goal with |- context [match ?x with _ => _ end] => is_var x; destruct x end
    | match goal with |- rel (match ?x with _ => _ end) (match ?x with _ => _ end) => destruct x end
    | eassumption
    | match goal with H : forall _, _ |- _ => apply H end ].
  Ltac steps := repeat (cbv beta iota zeta; step).

  Section Iter.
    Context {T A : Type}.
    Variables x y : T -> act (T * option A).
    Hypothesis NX : forall s, rel (x s) (y s).
    Lemma rel_filter p q : (forall v, rel (p v) (q v)) -> forall fuel s, rel (filter_next x p fuel s) (filter_next y q fuel s).
    Proof. intros H. induction fuel as [|f IH]; intros s; [apply rel_refl|]. cbn [filter_next]. steps. Qed.
    Lemma rel_map {B} (f g : A -> act B) s : (forall v, rel (f v) (g v)) -> rel (map_next x f s) (map_next y g s).
    Proof. intros H. unfold map_next. steps. Qed.
    Lemma rel_windows s : rel (windows_next x s) (windows_next y s).
    Proof. unfold windows_next. destruct s as [[v|] s]; cbn [fst snd]; steps. Qed.
    Lemma rel_counting : forall fuel s, rel (count_items x fuel s) (count_items y fuel s).
    Proof. induction fuel as [|f IH]; intros s; [apply rel_refl|]. cbn [count_items]. steps. Qed.
    Definition relR {S I R} (a b : ReduceE nat S I R) : Prop := (forall s v, rel (enext a s v) (enext b s v)) /\ (forall s, rel (efinal a s) (efinal b s)).
    Definition relA {S I Q} (a b : AdaptE nat S I Q) : Prop := (forall s v, rel (eadapt a s v) (eadapt b s v)) /\ (forall s, rel (efinalize a s) (efinalize b s)).
    Lemma rel_reduce {R Acc} (r q : ReduceE nat Acc A R) : relR r q -> forall fuel s acc, rel (reduce_items x r fuel s acc) (reduce_items y q fuel s acc).
    Proof. intros [H1 H2]. induction fuel as [|f IH]; intros s acc; [apply rel_refl|]. cbn [reduce_items]. steps. Qed.
    Lemma rel_from_finalize {S Q} (a b : AdaptE nat S A Q) : relA a b -> forall fuel s, rel (from_finalizeE a fuel s) (from_finalizeE b fuel s).
    Proof. intros [H1 H2]. induction fuel as [|f IH]; intros s; [apply rel_refl|]. cbn [from_finalizeE]. steps. Qed.
    Lemma rel_pull {S Q} (a b : AdaptE nat S A Q) fin : relA a b -> forall fuel st, rel (pull_next x a fuel fin st) (pull_next y b fuel fin st).
    Proof.
      intros H. pose proof (rel_from_finalize a b H fin) as F. destruct H as [H1 H2]. induction fuel as [|f IH]; intros st; [apply rel_refl|]. cbn [pull_next]. steps.
    Qed.
  End Iter.

  Lemma relA_nil {I} : relA (@NilE nat I) NilE.
  Proof. split; intros; apply rel_refl. Qed.
  Lemma relA_map {I Q} (f g : I -> eff nat Q) : (forall v, rel (f v) (g v)) -> relA (MapE f) (MapE g).
  Proof. intros H. split; cbn [MapE eadapt efinalize]; intros; steps. Qed.
  Lemma relA_group {I} (f g : I -> I -> eff nat bool) : (forall v w, rel (f v w) (g v w)) -> relA (GroupByE f) (GroupByE g).
  Proof. intros H. split; cbn [GroupByE eadapt efinalize]; intros s; intros; destruct s; steps. Qed.
  Lemma rel_merge_find {V I} (f g : I -> I -> eff nat (option I)) : (forall v w, rel (f v w) (g v w)) -> forall x (m : list (V * I)), rel (merge_findE f x m) (merge_findE g x m).
  Proof. intros H x. induction m as [|[k v] m IH]; [apply rel_refl|]. cbn [merge_findE]. steps. Qed.
  Lemma relA_merge {V I} (cmp : V -> V -> comparison) (f g : I -> I -> eff nat (option I)) h k :
    (forall v w, rel (f v w) (g v w)) -> (forall v, rel (h v) (k v)) -> relA (MergeE cmp f h) (MergeE cmp g k).
  Proof. intros H G. pose proof (@rel_merge_find V I f g H) as M. split; cbn [MergeE eadapt efinalize]; intros [m it]; intros; steps. Qed.
  Lemma relA_adapter {S1 S2 I M Q} (i1 j1 : AdaptE nat S1 M Q) (i2 j2 : AdaptE nat S2 I M) fuel : relA i1 j1 -> relA i2 j2 -> relA (AdapterE i1 i2 fuel) (AdapterE j1 j2 fuel).
  Proof.
    intros [A1 A2] [B1 B2]. assert (F : forall fuel s1 s2, rel (compose_finalizeE i1 i2 fuel s1 s2) (compose_finalizeE j1 j2 fuel s1 s2)).
    { clear fuel. induction fuel as [|f IH]; intros s1 s2; [apply rel_refl|]. cbn [compose_finalizeE]. steps. }
    split; cbn [AdapterE eadapt efinalize]; intros [s1 s2]; intros; steps.
  Qed.
  Lemma relR_refl {S I R} (a : ReduceE nat S I R) : relR a a.
  Proof. split; intros; apply rel_refl. Qed.
  Lemma relR_fork {S1 S2 I R1 R2} c (a1 b1 : ReduceE nat S1 I R1) (a2 b2 : ReduceE nat S2 I R2) : relR a1 b1 -> relR a2 b2 -> relR (ForkE c a1 a2) (ForkE c b1 b2).
  Proof. intros [A1 A2] [B1 B2]. split; cbn [ForkE enext efinal]; intros; steps. Qed.
  Lemma relR_split {V S I R} (cmp : V -> V -> comparison) (f g : I -> eff nat V) new (a b : ReduceE nat S I R) :
    (forall v, rel (f v) (g v)) -> relR a b -> relR (SplitE cmp f new a) (SplitE cmp g new b).
  Proof.
    intros H [A1 A2]. assert (F : forall m acc, rel (split_finalizeE cmp a m acc) (split_finalizeE cmp b m acc)).
    { induction m as [|[k v] m IH]; intros acc; [apply rel_refl|]. cbn [split_finalizeE]. steps. }
    split; cbn [SplitE enext efinal]; intros; steps.
  Qed.
  Lemma relR_over {S1 S2 I M R} (i j : ReduceE nat S1 M R) (a b : AdaptE nat S2 I M) fuel : relR i j -> relA a b -> relR (ReducerOverE i a fuel) (ReducerOverE j b fuel).
  Proof.
    intros [A1 A2] [B1 B2]. assert (F : forall fuel s1 s2, rel (reducer_finalizeE i a fuel s1 s2) (reducer_finalizeE j b fuel s1 s2)).
    { clear fuel. induction fuel as [|f IH]; intros s1 s2; [apply rel_refl|]. cbn [reducer_finalizeE]. steps. }
    split; cbn [ReducerOverE enext efinal]; intros; [destruct s as [s1 s2]|]; steps.
  Qed.
  Lemma rel_histogram {T A V} (x y : T -> act (T * option A)) (cmp : V -> V -> comparison) f g fuel s :
    (forall s, rel (x s) (y s)) -> (forall v, rel (f v) (g v)) -> rel (histogram_items x cmp f fuel s) (histogram_items y cmp g fuel s).
  Proof. intros H G. apply rel_reduce; [exact H|]. apply relR_split; [exact G|apply relR_refl]. Qed.
End Rel.

Ltac rstep := first
  [ apply rel_refl
  | match goal with |- rel _ (follow _ _) _ => apply rel_bind; [|intros] | |- rel _ (ebind _ _) _ => apply rel_ebind; [|intros] end
  | match goal with |- context [match ?x with _ => _ end] => is_var x; destruct x end
  | match goal with |- rel _ (match ?x with _ => _ end) (match ?x with _ => _ end) => destruct x end
  | eassumption
  | match goal with H : forall _, _ |- _ => apply H end ].
Ltac rsteps := repeat (cbv beta iota zeta; rstep).

(** What can be said if nothing is killed because everything can be read, or if it does not matter why something is killed. *)
Lemma rel_alive K {A} (p : peek A) (m : act A) : sim p m -> (K \/ lives p) -> rel K (alive p) m.
Proof.
  intros H D t. unfold alive. destruct (H t) as [E|E].
  - right. rewrite E. destruct D as [k|D]; [now split|]. now elim (D t).
  - left. destruct (m t) as [[a t']| |]; now rewrite E.
Qed.
Lemma rel_alive_same {A} (p q : peek A) : same p q -> rel True (alive p) (alive q).
Proof.
  intros H t. unfold alive. specialize (H t). destruct (p t) as [[a t']| | |] eqn:E; try (left; rewrite H by discriminate; reflexivity). right. now split.
Qed.

(** A command over a mapping of which not everything can be read, and the same command if everything can be. *)
Section Commands.
  Variable K : Prop.
  Variables (W : world) (V : cells) (n : nat) (P : reading).
  Hypothesis HK : K \/ forall t p, reads P t p = true.
  Notation rel := (rel K).
  Lemma rel_peeks {A} a k (f : nat -> A) : rel (peeks P a k f) (ask f).
  Proof. apply rel_alive; [apply sim_look|]. destruct HK as [k'|H]; [now left|]. right. apply lives_look; [exact (fun _ _ => 0)|]. intros; apply H. Qed.
  Lemma rel_hello_in a z : rel (hello_in V P a z) (ask (fun t => sees_hello V t a z)).
  Proof.
    intros t. unfold hello_in. cbv zeta. set (e := match sees_hello V t a z with Some p => _ | None => z end).
    assert (R : rel (alive (look (reads P) a e (fun _ => sees_hello V t a z))) (ask (fun _ => sees_hello V t a z))).
    { apply rel_alive; [apply sim_look|]. destruct HK as [k'|H]; [now left|]. right. apply lives_look; [exact (fun _ _ => 0)|]. intros; apply H. }
    exact (R t).
  Qed.
  Lemma rel_flag v k : rel (alive (t_flag W (reads P) v k)) (m_flag W v k).
  Proof. apply rel_alive; [apply sim_flag|]. destruct HK as [k'|H]; [now left|]. right. apply lives_look; [exact (fun _ _ => 0)|]. intros; apply H. Qed.
  Lemma lives_get' : (forall t p, reads P t p = true) -> forall o, lives (t_get (reads P) o).
  Proof. intros H o t. unfold t_get. destruct o as [[a k]|]; [|discriminate]. rewrite (proj2 (forallb_forall _ _)); [discriminate|]. intros; apply H. Qed.
  Ltac live := repeat first
    [ apply lives_back
    | match goal with |- lives (next_peek _ _) => apply lives_bind; [|intros] end
    | match goal with |- lives (t_flag _ _ _ _) => unfold t_flag end
    | match goal with |- lives (t_tail_from _ _) => unfold t_tail_from end
    | match goal with H : forall _ _, _ = true |- lives (look _ _ _ _) => apply (lives_look _ (fun _ _ => 0)); intros; apply H end
    | match goal with H : forall _ _, _ = true |- lives (t_get _ _) => apply (lives_get' H) end
    | match goal with |- context [match ?x with _ => _ end] => destruct x end
    | progress cbv zeta
    | (intros ?; discriminate) ].
  Lemma rel_timestamp v : rel (alive (t_timestamp W (reads P) v)) (m_timestamp W v).
  Proof. apply rel_alive; [apply sim_timestamp|]. destruct HK as [k'|H]; [now left|]. right. unfold t_timestamp. live. Qed.
  Lemma rel_ecu_id v : rel (alive (t_ecu_id W (reads P) v)) (m_ecu_id W v).
  Proof. apply rel_alive; [apply sim_ecu_id|]. destruct HK as [k'|H]; [now left|]. right. unfold t_ecu_id. live. Qed.
  Lemma rel_extended v : rel (alive (t_extended_header W (reads P) v)) (m_extended_header W v).
  Proof. apply rel_alive; [apply sim_extended|]. destruct HK as [k'|H]; [now left|]. right. unfold t_extended_header. live. Qed.
  Lemma rel_payload v : rel (alive (t_payload W (reads P) v)) (m_payload W v).
  Proof. apply rel_alive; [apply sim_payload|]. destruct HK as [k'|H]; [now left|]. right. unfold t_payload. live. Qed.
  Lemma rel_len v : rel (alive (t_len W (reads P) v)) (m_len W v).
  Proof. apply rel_alive; [apply sim_len|]. destruct HK as [k'|H]; [now left|]. right. unfold t_len, t_length. live. Qed.
  Lemma rel_messages s : rel (c_messages W n P s) (m_messages W n s).
  Proof. apply rel_alive; [apply sim_fallback|]. destruct HK as [k'|H]; [now left|]. right. apply lives_fallback. intros; apply H. Qed.
  Lemma rel_grepped s : rel (grepped W n P s) (m_grep_next W n (S n) s).
  Proof. apply rel_alive; [apply sim_grep_next|]. destruct HK as [k'|H]; [now left|]. right. intros t. apply (finds_grep_next W n (reads P) (reach P) (rreach P) (looks_at P) (fun t p _ => H t p) (S n) s t). Qed.
  Lemma rel_secs v : rel (c_secs V P v) (m_secs V v).
  Proof. unfold c_secs, m_secs. rsteps. apply rel_peeks. Qed.
  Lemma rel_ecu v : rel (c_ecu V P v) (m_ecu V v).
  Proof. unfold c_ecu, m_ecu. apply rel_peeks. Qed.
  Lemma rel_number p q : rel p q -> rel (c_number V P p) (m_number V q).
  Proof. intros H. unfold c_number, m_number. rsteps. apply rel_peeks. Qed.
  Lemma rel_time v : rel (c_time W V P v) (m_time W V v).
  Proof. apply rel_number, rel_timestamp. Qed.
  Lemma rel_ecu_number v : rel (c_ecu_number W V P v) (m_ecu_number W V v).
  Proof. apply rel_number, rel_ecu_id. Qed.
  Lemma rel_hello_predicate v : rel (c_hello_predicate W V P v) (m_hello_predicate W V v).
  Proof. unfold c_hello_predicate, m_hello_predicate. pose proof rel_secs; pose proof rel_time; pose proof rel_ecu_number; pose proof rel_payload; pose proof rel_extended. rsteps. apply rel_hello_in. Qed.
  Lemma rel_secs_pred a b : rel (c_secs_pred V P a b) (m_secs_pred V a b).
  Proof. unfold c_secs_pred, m_secs_pred. pose proof rel_secs; pose proof rel_time; pose proof rel_ecu_number; pose proof rel_payload; pose proof rel_extended. rsteps. Qed.
  Lemma rel_secs_delta r : rel (c_secs_delta V P r) (m_secs_delta V r).
  Proof. unfold c_secs_delta, m_secs_delta. pose proof rel_secs; pose proof rel_time; pose proof rel_ecu_number; pose proof rel_payload; pose proof rel_extended. rsteps. Qed.
  Lemma rel_ts_pred a b : rel (c_ts_pred W V P a b) (m_ts_pred W V a b).
  Proof. unfold c_ts_pred, m_ts_pred. pose proof rel_secs; pose proof rel_time; pose proof rel_ecu_number; pose proof rel_payload; pose proof rel_extended. rsteps. Qed.
  Lemma rel_ecu_ts_pred a b : rel (c_ecu_ts_pred W V P a b) (m_ecu_ts_pred W V a b).
  Proof. unfold c_ecu_ts_pred, m_ecu_ts_pred. pose proof rel_secs; pose proof rel_time; pose proof rel_ecu_number; pose proof rel_payload; pose proof rel_extended. pose proof rel_ts_pred. rsteps. Qed.
  Lemma rel_ts_delta r : rel (c_ts_delta W V P r) (m_ts_delta W V r).
  Proof. unfold c_ts_delta, m_ts_delta. pose proof rel_secs; pose proof rel_time; pose proof rel_ecu_number; pose proof rel_payload; pose proof rel_extended. rsteps. Qed.
  Lemma rel_with_ts v : rel (c_with_ts W P v) (m_with_ts W v).
  Proof. apply rel_flag. Qed.
  Lemma rel_with_ext v : rel (c_with_ext W P v) (m_with_ext W v).
  Proof. apply rel_flag. Qed.
  Lemma rel_info a : rel (c_info V P a) (m_info V a).
  Proof. unfold c_info, m_info. rsteps; apply rel_peeks. Qed.
  Lemma rel_info_key v : rel (c_info_key W V P v) (m_info_key W V v).
  Proof. unfold c_info_key, m_info_key. pose proof rel_secs; pose proof rel_time; pose proof rel_ecu_number; pose proof rel_payload; pose proof rel_extended. pose proof rel_info. rsteps. Qed.
  Lemma rel_max a b : rel (c_max V P a b) (m_max V a b).
  Proof. unfold c_max, m_max. pose proof rel_secs; pose proof rel_time; pose proof rel_ecu_number; pose proof rel_payload; pose proof rel_extended. rsteps. Qed.
  Lemma rel_merge a b : rel (c_merge V P a b) (m_merge V a b).
  Proof. unfold c_merge, m_merge. pose proof rel_secs; pose proof rel_time; pose proof rel_ecu_number; pose proof rel_payload; pose proof rel_extended. pose proof rel_max. rsteps. Qed.
  Lemma rel_period_key r : rel (c_period_key V P r) (m_period_key V r).
  Proof. unfold c_period_key, m_period_key. pose proof rel_secs; pose proof rel_time; pose proof rel_ecu_number; pose proof rel_payload; pose proof rel_extended. rsteps. Qed.
  Lemma rel_long_enough r : rel (c_long_enough W V P r) (m_long_enough W V r).
  Proof. unfold c_long_enough, m_long_enough. pose proof rel_ts_delta. rsteps. Qed.
  Lemma rel_hello_next a : rel (c_hello_next V n P a) (hello_next V n a).
  Proof. unfold c_hello_next, hello_next. rsteps. apply rel_hello_in. Qed.
  Lemma rel_timed s : rel (filter_next (c_messages W n P) (c_with_ts W P) (S (S n)) s) (filter_next (m_messages W n) (m_with_ts W) (S (S n)) s).
  Proof. apply rel_filter; [exact rel_messages|exact rel_with_ts]. Qed.
  Lemma rel_count : rel (c_count W n P) (m_count W n).
  Proof. apply rel_counting. exact rel_messages. Qed.
  Lemma rel_count_hello_world : rel (c_count_hello_world W V n P) (m_count_hello_world W V n).
  Proof. apply rel_counting. apply rel_filter; [exact rel_messages|exact rel_hello_predicate]. Qed.
  Lemma rel_count_hello_world_raw : rel (c_count_hello_world_raw V n P) (m_count_hello_world_raw V n).
  Proof. apply rel_counting. exact rel_hello_next. Qed.
  Lemma rel_count_hello_world_grepit : rel (c_count_hello_world_grepit W n P) (m_count_hello_world_grepit W n).
  Proof. apply rel_counting. exact rel_grepped. Qed.
  Lemma rel_continuous_timestamp_histogram : rel (c_continuous_timestamp_histogram W V n P) (m_continuous_timestamp_histogram W V n).
  Proof. apply rel_histogram; [|intros; apply rel_refl]. intros s. apply rel_map; [|exact rel_secs_delta]. intros s'. apply rel_pull; [exact rel_messages|]. apply relA_group, rel_secs_pred. Qed.
  Lemma rel_mstp_info_histogram : rel (c_mstp_info_histogram W V n P) (m_mstp_info_histogram W V n).
  Proof. apply rel_histogram; [|exact rel_info_key]. apply rel_filter; [exact rel_messages|exact rel_with_ext]. Qed.
  Lemma rel_lifecycle_reducer fin : relR K (c_lifecycle_reducer W V P fin) (m_lifecycle_reducer W V fin).
  Proof.
    unfold c_lifecycle_reducer, m_lifecycle_reducer. cbv zeta. apply relR_over; [|apply relA_nil]. apply relR_fork; [|apply relR_refl]. apply relR_over; [apply relR_refl|].
    apply relA_adapter; [apply relA_map; intros; pose proof rel_ts_delta; rsteps|]. apply relA_adapter; [apply relA_group, rel_ts_pred|apply relA_nil].
  Qed.
  Lemma rel_lifecycle_splitit fin : rel (c_lifecycle_splitit W V n P fin) (m_lifecycle_splitit W V n fin).
  Proof. apply rel_reduce; [exact rel_timed|]. apply relR_split; [exact rel_ecu|apply rel_lifecycle_reducer]. Qed.
  Lemma rel_timestamp_reducer fin : relR K (c_timestamp_reducer V P fin) (m_timestamp_reducer V fin).
  Proof.
    unfold c_timestamp_reducer, m_timestamp_reducer. cbv zeta. apply relR_over; [|apply relA_nil]. apply relR_fork; [|apply relR_refl]. apply relR_over; [apply relR_refl|].
    apply relA_adapter; [apply relA_map, rel_secs_delta|]. apply relA_adapter; [apply relA_merge; [exact rel_merge|exact rel_period_key]|].
    apply relA_adapter; [apply relA_group, rel_secs_pred|apply relA_nil].
  Qed.
  Lemma rel_timestamp_splitit fin : rel (c_timestamp_splitit W V n P fin) (m_timestamp_splitit W V n fin).
  Proof. apply rel_reduce; [exact rel_messages|]. apply relR_split; [exact rel_ecu|apply rel_timestamp_reducer]. Qed.
  Lemma rel_lifecycle_histogram : rel (c_lifecycle_histogram W V n P) (m_lifecycle_histogram W V n).
  Proof. apply rel_histogram; [|intros; apply rel_refl]. intros s. apply rel_map; [|exact rel_ts_delta]. intros s'. apply rel_pull; [exact rel_timed|]. apply relA_group, rel_ecu_ts_pred. Qed.
  Lemma rel_histogram_payload : rel (c_histogram_payload W n P) (m_histogram_payload W n).
  Proof. apply rel_histogram; [|intros; apply rel_refl]. intros s. apply rel_map; [exact rel_messages|]. intros v. pose proof rel_payload. rsteps. Qed.
  Lemma rel_histogram_message : rel (c_histogram_message W n P) (m_histogram_message W n).
  Proof. apply rel_histogram; [|intros; apply rel_refl]. intros s. apply rel_map; [exact rel_messages|exact rel_len]. Qed.
  Lemma rel_histogram_hello_world : rel (c_histogram_hello_world W n P) (m_histogram_hello_world W n).
  Proof. apply rel_histogram; [|intros; apply rel_refl]. intros s. apply rel_map; [exact rel_grepped|]. intros; apply rel_refl. Qed.
  Lemma rel_lifecycle_iter : rel (c_lifecycle_iter W V n P) (m_lifecycle_iter W V n).
  Proof. apply rel_counting. apply rel_filter; [|exact rel_long_enough]. intros s. apply rel_pull; [exact rel_timed|]. apply relA_group, rel_ts_pred. Qed.
  Lemma rel_lifecycle_itertools : rel (c_lifecycle_itertools W V n P) (m_lifecycle_itertools W V n).
  Proof. apply rel_counting. apply rel_filter; [|exact rel_long_enough]. apply rel_filter; [|intros r; apply rel_ts_pred]. intros s. apply rel_windows. exact rel_timed. Qed.
End Commands.

Lemma occ_range_any m b b' k : firstn (length m) (skipn k b') = firstn (length m) (skipn k b) -> occ m b' k = occ m b k.
Proof.
  intros E. apply Bool.eq_iff_eq_true. unfold occ. rewrite !is_prefix_firstn. now rewrite E.
Qed.
Lemma u32le_same b b' a : (forall i, i < 4 -> nth (a + i) b x00 = nth (a + i) b' x00) -> u32le_at b a = u32le_at b' a.
Proof. intros H. unfold u32le_at, byte_at. assert (H0 : nth a b x00 = nth a b' x00) by (rewrite <- (Nat.add_0_r a); apply H; lia). rewrite ?H0, ?H by lia. reflexivity. Qed.
Lemma u32be_same b b' a : (forall i, i < 4 -> nth (a + i) b x00 = nth (a + i) b' x00) -> u32be_at b a = u32be_at b' a.
Proof. intros H. unfold u32be_at, byte_at. assert (H0 : nth a b x00 = nth a b' x00) by (rewrite <- (Nat.add_0_r a); apply H; lia). rewrite ?H0, ?H by lia. reflexivity. Qed.
Lemma skipn_skipn' {A} (l : list A) : forall i j, skipn i (skipn j l) = skipn (j + i) l.
Proof. induction l as [|x l IH]; intros i j; [now rewrite !skipn_nil|]. destruct j as [|j]; [reflexivity|]. cbn [skipn Nat.add]. apply IH. Qed.

(** Commands over two mappings that agree on what can be read of one of them. *)
Section Same.
  Variables (mem mem' : nat -> bytes) (F F' : bytes -> nat -> option (nat * nat)) (n : nat) (P : reading).
  Hypothesis LEN : forall t, length (mem t) = n /\ length (mem' t) = n.
  Hypothesis AGREE : forall t p, reads P t p = true -> nth p (mem t) x00 = nth p (mem' t) x00.
  Hypothesis REGEX : forall t a, (forall p, p < n -> looks_at P t a p = true -> nth p (mem t) x00 = nth p (mem' t) x00) -> F' (mem' t) a = F (mem t) a.
  Notation W := (history mem F).
  Notation W' := (history mem' F').
  Notation V := (history_cells mem).
  Notation V' := (history_cells mem').
  Notation rel := (rel True).
  Notation L := (same_len mem mem' n LEN).
  Lemma same_peeks {A} a k (f g : nat -> A) : (forall t, (forall p, a <= p < a + k -> nth p (mem t) x00 = nth p (mem' t) x00) -> f t = g t) ->
    rel (peeks P a k f) (peeks P a k g).
  Proof. intros H. apply rel_alive_same. apply (same_look mem mem' F F' n (reads P) (reach P) LEN AGREE). exact H. Qed.
  Lemma same_hello_in a z : rel (hello_in V P a z) (hello_in V' P a z).
  Proof.
    intros t. unfold hello_in. cbv zeta. cbn [history_cells sees_hello]. unfold alive, look.
    destruct (find hello_world (firstn (z - a) (skipn a (mem t)))) as [k|] eqn:E; cbn [option_map].
    - assert (B : a + k + 11 <= z).
      { apply find_some in E; [|cbn; lia]. destruct E as [E _]. apply occ_firstn_inv in E; [|cbn; lia]. destruct E as [E _]. change (length hello_world) with 11 in E. lia. }
      rewrite (proj2 (Nat.leb_le _ _) B). set (e := Nat.max (a + k + 11) (Nat.min z (hreach P t a))).
      destruct (forallb (reads P t) (seq a (e - a))) eqn:R; [|now right].
      assert (Q : forall p, a <= p < a + k + 11 -> nth p (mem t) x00 = nth p (mem' t) x00).
      { intros p Hp. apply AGREE. rewrite forallb_forall in R. apply R, in_seq. unfold e. lia. }
      left. assert (E' : find hello_world (firstn (z - a) (skipn a (mem' t))) = Some k).
      { apply find_some; [cbn; lia|]. apply find_some in E; [|cbn; lia]. destruct E as [E1 E2].
        assert (O : forall j, j <= k -> occ hello_world (firstn (z - a) (skipn a (mem' t))) j = occ hello_world (firstn (z - a) (skipn a (mem t))) j).
        { intros j Hj. apply occ_range_any. change (length hello_world) with 11. rewrite !skipn_firstn_comm, !firstn_firstn, !skipn_skipn'.
          replace (Nat.min 11 (z - a - j)) with (a + j + 11 - (a + j)) by lia. symmetry. apply slice_same; [apply L|]. intros q Hq. apply Q. lia. }
        split; [now rewrite O|]. intros j Hj. rewrite O by lia. now apply E2. }
      rewrite E'. cbn [option_map]. rewrite (proj2 (Nat.leb_le _ _) B). fold e. now rewrite R.
    - destruct (forallb (reads P t) (seq a (z - a))) eqn:R; [|now right]. left.
      assert (E' : firstn (z - a) (skipn a (mem' t)) = firstn (z - a) (skipn a (mem t))).
      { symmetry. apply slice_same; [apply L|]. intros p Hp. apply AGREE. rewrite forallb_forall in R. apply R, in_seq. lia. }
      rewrite E', E. cbn [option_map]. now rewrite R.
  Qed.
  Ltac sames := repeat first
    [ apply same_refl
    | match goal with |- same (next_peek _ _) _ => apply same_bind; [|intros] end
    | apply (same_flag mem mem' F F' n (reads P) (reach P) LEN AGREE)
    | match goal with |- same (match ?x with _ => _ end) (match ?x with _ => _ end) => destruct x end
    | progress cbv zeta ].
  Lemma rel_flag2 v k : rel (alive (t_flag W (reads P) v k)) (alive (t_flag W' (reads P) v k)).
  Proof. apply rel_alive_same. sames. Qed.
  Lemma rel_timestamp2 v : rel (alive (t_timestamp W (reads P) v)) (alive (t_timestamp W' (reads P) v)).
  Proof. apply rel_alive_same. unfold t_timestamp. sames. Qed.
  Lemma rel_ecu_id2 v : rel (alive (t_ecu_id W (reads P) v)) (alive (t_ecu_id W' (reads P) v)).
  Proof. apply rel_alive_same. unfold t_ecu_id. sames. Qed.
  Lemma rel_extended2 v : rel (alive (t_extended_header W (reads P) v)) (alive (t_extended_header W' (reads P) v)).
  Proof. apply rel_alive_same. unfold t_extended_header. sames. Qed.
  Lemma rel_payload2 v : rel (alive (t_payload W (reads P) v)) (alive (t_payload W' (reads P) v)).
  Proof. apply rel_alive_same. unfold t_payload. sames. Qed.
  Lemma rel_len2 v : rel (alive (t_len W (reads P) v)) (alive (t_len W' (reads P) v)).
  Proof. apply rel_alive_same. exact (same_entry_len mem mem' F F' n (reads P) (reach P) LEN AGREE v). Qed.
  Lemma rel_messages2 s : rel (c_messages W n P s) (c_messages W' n P s).
  Proof. apply rel_alive_same. exact (same_fallback mem mem' F F' n (reads P) (reach P) LEN AGREE (S (S n)) s). Qed.
  Lemma rel_grepped2 s : rel (grepped W n P s) (grepped W' n P s).
  Proof. apply rel_alive_same. exact (same_grep_next mem mem' F F' n (reads P) (reach P) (rreach P) (looks_at P) LEN AGREE REGEX (S n) s). Qed.
  Lemma rel_secs2 v : rel (c_secs V P v) (c_secs V' P v).
  Proof. unfold c_secs. rsteps. apply same_peeks. intros t H. cbn [history_cells sees_secs]. apply u32le_same. intros i Hi. apply H. lia. Qed.
  Lemma rel_ecu2 v : rel (c_ecu V P v) (c_ecu V' P v).
  Proof. unfold c_ecu. apply same_peeks. intros t H. cbn [history_cells sees_quad]. unfold quad_at, byte_at. rewrite !H by lia. reflexivity. Qed.
  Lemma rel_number2 p q : rel p q -> rel (c_number V P p) (c_number V' P q).
  Proof. intros H. unfold c_number. rsteps. apply same_peeks. intros t H'. cbn [history_cells sees_word]. apply u32be_same. intros i Hi. apply H'. lia. Qed.
  Lemma rel_time2 v : rel (c_time W V P v) (c_time W' V' P v).
  Proof. apply rel_number2, rel_timestamp2. Qed.
  Lemma rel_ecu_number2 v : rel (c_ecu_number W V P v) (c_ecu_number W' V' P v).
  Proof. apply rel_number2, rel_ecu_id2. Qed.
  Lemma rel_hello_predicate2 v : rel (c_hello_predicate W V P v) (c_hello_predicate W' V' P v).
  Proof. unfold c_hello_predicate. pose proof rel_secs2; pose proof rel_time2; pose proof rel_ecu_number2; pose proof rel_payload2; pose proof rel_extended2. rsteps. apply same_hello_in. Qed.
  Lemma rel_secs_pred2 a b : rel (c_secs_pred V P a b) (c_secs_pred V' P a b).
  Proof. unfold c_secs_pred. pose proof rel_secs2; pose proof rel_time2; pose proof rel_ecu_number2; pose proof rel_payload2; pose proof rel_extended2. rsteps. Qed.
  Lemma rel_secs_delta2 r : rel (c_secs_delta V P r) (c_secs_delta V' P r).
  Proof. unfold c_secs_delta. pose proof rel_secs2; pose proof rel_time2; pose proof rel_ecu_number2; pose proof rel_payload2; pose proof rel_extended2. rsteps. Qed.
  Lemma rel_ts_pred2 a b : rel (c_ts_pred W V P a b) (c_ts_pred W' V' P a b).
  Proof. unfold c_ts_pred. pose proof rel_secs2; pose proof rel_time2; pose proof rel_ecu_number2; pose proof rel_payload2; pose proof rel_extended2. rsteps. Qed.
  Lemma rel_ecu_ts_pred2 a b : rel (c_ecu_ts_pred W V P a b) (c_ecu_ts_pred W' V' P a b).
  Proof. unfold c_ecu_ts_pred. pose proof rel_secs2; pose proof rel_time2; pose proof rel_ecu_number2; pose proof rel_payload2; pose proof rel_extended2. pose proof rel_ts_pred2. rsteps. Qed.
  Lemma rel_ts_delta2 r : rel (c_ts_delta W V P r) (c_ts_delta W' V' P r).
  Proof. unfold c_ts_delta. pose proof rel_secs2; pose proof rel_time2; pose proof rel_ecu_number2; pose proof rel_payload2; pose proof rel_extended2. rsteps. Qed.
  Lemma rel_with_ts2 v : rel (c_with_ts W P v) (c_with_ts W' P v).
  Proof. apply rel_flag2. Qed.
  Lemma rel_with_ext2 v : rel (c_with_ext W P v) (c_with_ext W' P v).
  Proof. apply rel_flag2. Qed.
  Lemma rel_info2 a : rel (c_info V P a) (c_info V' P a).
  Proof. unfold c_info. rsteps; apply same_peeks; intros t H; cbn [history_cells sees_byte]; apply H; lia. Qed.
  Lemma rel_info_key2 v : rel (c_info_key W V P v) (c_info_key W' V' P v).
  Proof. unfold c_info_key. pose proof rel_secs2; pose proof rel_time2; pose proof rel_ecu_number2; pose proof rel_payload2; pose proof rel_extended2. pose proof rel_info2. rsteps. Qed.
  Lemma rel_max2 a b : rel (c_max V P a b) (c_max V' P a b).
  Proof. unfold c_max. pose proof rel_secs2; pose proof rel_time2; pose proof rel_ecu_number2; pose proof rel_payload2; pose proof rel_extended2. rsteps. Qed.
  Lemma rel_merge2 a b : rel (c_merge V P a b) (c_merge V' P a b).
  Proof. unfold c_merge. pose proof rel_secs2; pose proof rel_time2; pose proof rel_ecu_number2; pose proof rel_payload2; pose proof rel_extended2. pose proof rel_max2. rsteps. Qed.
  Lemma rel_period_key2 r : rel (c_period_key V P r) (c_period_key V' P r).
  Proof. unfold c_period_key. pose proof rel_secs2; pose proof rel_time2; pose proof rel_ecu_number2; pose proof rel_payload2; pose proof rel_extended2. rsteps. Qed.
  Lemma rel_long_enough2 r : rel (c_long_enough W V P r) (c_long_enough W' V' P r).
  Proof. unfold c_long_enough. pose proof rel_ts_delta2. rsteps. Qed.
  Lemma rel_hello_next2 a : rel (c_hello_next V n P a) (c_hello_next V' n P a).
  Proof. unfold c_hello_next. rsteps. apply same_hello_in. Qed.
  Lemma rel_timed2 s : rel (filter_next (c_messages W n P) (c_with_ts W P) (S (S n)) s) (filter_next (c_messages W' n P) (c_with_ts W' P) (S (S n)) s).
  Proof. apply rel_filter; [exact rel_messages2|exact rel_with_ts2]. Qed.
  Lemma rel_count2 : rel (c_count W n P) (c_count W' n P).
  Proof. apply rel_counting. exact rel_messages2. Qed.
  Lemma rel_count_hello_world2 : rel (c_count_hello_world W V n P) (c_count_hello_world W' V' n P).
  Proof. apply rel_counting. apply rel_filter; [exact rel_messages2|exact rel_hello_predicate2]. Qed.
  Lemma rel_count_hello_world_raw2 : rel (c_count_hello_world_raw V n P) (c_count_hello_world_raw V' n P).
  Proof. apply rel_counting. exact rel_hello_next2. Qed.
  Lemma rel_count_hello_world_grepit2 : rel (c_count_hello_world_grepit W n P) (c_count_hello_world_grepit W' n P).
  Proof. apply rel_counting. exact rel_grepped2. Qed.
  Lemma rel_continuous_timestamp_histogram2 : rel (c_continuous_timestamp_histogram W V n P) (c_continuous_timestamp_histogram W' V' n P).
  Proof. apply rel_histogram; [|intros; apply rel_refl]. intros s. apply rel_map; [|exact rel_secs_delta2]. intros s'. apply rel_pull; [exact rel_messages2|]. apply relA_group, rel_secs_pred2. Qed.
  Lemma rel_mstp_info_histogram2 : rel (c_mstp_info_histogram W V n P) (c_mstp_info_histogram W' V' n P).
  Proof. apply rel_histogram; [|exact rel_info_key2]. apply rel_filter; [exact rel_messages2|exact rel_with_ext2]. Qed.
  Lemma rel_lifecycle_reducer2 fin : relR True (c_lifecycle_reducer W V P fin) (c_lifecycle_reducer W' V' P fin).
  Proof.
    unfold c_lifecycle_reducer. cbv zeta. apply relR_over; [|apply relA_nil]. apply relR_fork; [|apply relR_refl]. apply relR_over; [apply relR_refl|].
    apply relA_adapter; [apply relA_map; intros; pose proof rel_ts_delta2; rsteps|]. apply relA_adapter; [apply relA_group, rel_ts_pred2|apply relA_nil].
  Qed.
  Lemma rel_lifecycle_splitit2 fin : rel (c_lifecycle_splitit W V n P fin) (c_lifecycle_splitit W' V' n P fin).
  Proof. apply rel_reduce; [exact rel_timed2|]. apply relR_split; [exact rel_ecu2|apply rel_lifecycle_reducer2]. Qed.
  Lemma rel_timestamp_reducer2 fin : relR True (c_timestamp_reducer V P fin) (c_timestamp_reducer V' P fin).
  Proof.
    unfold c_timestamp_reducer. cbv zeta. apply relR_over; [|apply relA_nil]. apply relR_fork; [|apply relR_refl]. apply relR_over; [apply relR_refl|].
    apply relA_adapter; [apply relA_map, rel_secs_delta2|]. apply relA_adapter; [apply relA_merge; [exact rel_merge2|exact rel_period_key2]|].
    apply relA_adapter; [apply relA_group, rel_secs_pred2|apply relA_nil].
  Qed.
  Lemma rel_timestamp_splitit2 fin : rel (c_timestamp_splitit W V n P fin) (c_timestamp_splitit W' V' n P fin).
  Proof. apply rel_reduce; [exact rel_messages2|]. apply relR_split; [exact rel_ecu2|apply rel_timestamp_reducer2]. Qed.
  Lemma rel_lifecycle_histogram2 : rel (c_lifecycle_histogram W V n P) (c_lifecycle_histogram W' V' n P).
  Proof. apply rel_histogram; [|intros; apply rel_refl]. intros s. apply rel_map; [|exact rel_ts_delta2]. intros s'. apply rel_pull; [exact rel_timed2|]. apply relA_group, rel_ecu_ts_pred2. Qed.
  Lemma rel_histogram_payload2 : rel (c_histogram_payload W n P) (c_histogram_payload W' n P).
  Proof. apply rel_histogram; [|intros; apply rel_refl]. intros s. apply rel_map; [exact rel_messages2|]. intros v. pose proof rel_payload2. rsteps. Qed.
  Lemma rel_histogram_message2 : rel (c_histogram_message W n P) (c_histogram_message W' n P).
  Proof. apply rel_histogram; [|intros; apply rel_refl]. intros s. apply rel_map; [exact rel_messages2|exact rel_len2]. Qed.
  Lemma rel_histogram_hello_world2 : rel (c_histogram_hello_world W n P) (c_histogram_hello_world W' n P).
  Proof. apply rel_histogram; [|intros; apply rel_refl]. intros s. apply rel_map; [exact rel_grepped2|]. intros; apply rel_refl. Qed.
  Lemma rel_lifecycle_iter2 : rel (c_lifecycle_iter W V n P) (c_lifecycle_iter W' V' n P).
  Proof. apply rel_counting. apply rel_filter; [|exact rel_long_enough2]. intros s. apply rel_pull; [exact rel_timed2|]. apply relA_group, rel_ts_pred2. Qed.
  Lemma rel_lifecycle_itertools2 : rel (c_lifecycle_itertools W V n P) (c_lifecycle_itertools W' V' n P).
  Proof. apply rel_counting. apply rel_filter; [|exact rel_long_enough2]. apply rel_filter; [|intros r; apply rel_ts_pred2]. intros s. apply rel_windows. exact rel_timed2. Qed.
End Same.

(** * Which bytes counting needs *)
Section Keys.
  Variables (W : world) (n : nat) (reads : nat -> nat -> bool) (reach : nat -> nat -> nat).
  Lemma look_read {A} a z (f : nat -> A) t r : look reads a z f t = Back r -> forall p, a <= p < z -> reads t p = true.
  Proof.
    unfold look. destruct (forallb (reads t) (seq a (z - a))) eqn:E; [|discriminate]. intros _ p Hp. rewrite forallb_forall in E. apply E, in_seq. lia.
  Qed.
  Lemma back_bind {A B} (x : peek A) (f : A -> peek B) t r : next_peek x f t = Back r -> exists a u, x t = Back (a, u) /\ f a u = Back r.
  Proof. unfold next_peek. destruct (x t) as [[a u]| | |]; try discriminate. eauto. Qed.
  Lemma fallback_keys : forall fuel off t s v u, t_fallback_next W n reads reach fuel off t = Back ((s, Some v), u) ->
    forall p, key_byte (fst v) p -> exists t, reads t p = true.
  Proof.
    induction fuel as [|f IH]; intros off t s v u E; [discriminate|]. cbn [t_fallback_next] in E. destruct (n <=? off + 4); [discriminate E|].
    apply back_bind in E. destruct E as (? & t1 & _ & E). apply back_bind in E. destruct E as (mk & t2 & LM & E). destruct mk.
    - apply back_bind in E. destruct E as (? & t3 & _ & E). apply back_bind in E. destruct E as (r & t4 & R & E). destruct r as [[k w]|]; [|discriminate E].
      unfold back in E. injection E as _ <- _. unfold t_read in R. destruct (n - off <? 16); [discriminate R|]. destruct (n - off - 16 <? 4); [discriminate R|].
      apply back_bind in R. destruct R as (l & t5 & LN & R). destruct (_ || _); [discriminate R|]. unfold back in R. injection R as _ <- _.
      apply back_bind in LN. destruct LN as (l' & t6 & LN & _). cbn [fst]. intros p [K|K]; [exists t1; exact (look_read _ _ _ _ _ LM p K)|exists t3; exact (look_read _ _ _ _ _ LN p K)].
    - apply back_bind in E. destruct E as (? & t3 & _ & E). apply back_bind in E. destruct E as (r & t4 & _ & E). destruct r as [q|]; [|discriminate E].
      destruct (q - off =? 0); [discriminate E|]. eapply IH; exact E.
  Qed.
  Lemma collect_keys fuel : forall g s t v, In v (fst (t_collect (t_fallback_next W n reads reach fuel) g s t)) ->
    forall p, key_byte (fst v) p -> exists t, reads t p = true.
  Proof.
    induction g as [|g IH]; intros s t v; [intros []|]. cbn [t_collect]. destruct (t_fallback_next W n reads reach fuel s t) as [[[s' [w|]] u]| | |] eqn:E; try (intros []; fail).
    destruct (t_collect _ g s' u) as [l e] eqn:C. cbn [fst]. intros [<-|I].
    - eapply fallback_keys. exact E.
    - apply (IH s' u v). now rewrite C.
  Qed.
End Keys.
(** Counting is collecting. *)
  Lemma count_collect {T A} (x : T -> peek (T * option A)) : forall g s t,
    match t_collect x g s t with
    | (l, Back _) => forall h, g <= h -> exists u, count_items (fun s => alive (x s)) h s t = Ret (length l, u)
    | (_, Killed) => forall h, g <= h -> count_items (fun s => alive (x s)) h s t = Fuel
    | _ => True
    end.
  Proof.
    induction g as [|g IH]; intros s t; [exact Logic.I|]. cbn [t_collect]. destruct (x s t) as [[[s' [w|]] u]| | |] eqn:E.
    - specialize (IH s' u). destruct (t_collect x g s' u) as [l [[]| | |]]; try exact Logic.I; intros [|h] Hh; try lia; cbn [count_items]; unfold follow, alive at 1; rewrite E.
      + destruct (IH h ltac:(lia)) as [u' ->]. unfold done. cbn [length]. eauto.
      + now rewrite (IH h ltac:(lia)).
    - intros [|h] Hh; [lia|]. cbn [count_items]. unfold follow, alive at 1. rewrite E. unfold done. cbn [length]. eauto.
    - exact Logic.I.
    - exact Logic.I.
    - intros [|h] Hh; [lia|]. cbn [count_items]. unfold follow, alive at 1. now rewrite E.
  Qed.
