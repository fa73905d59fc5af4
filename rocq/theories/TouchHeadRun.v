(** Facts for C136: the commands on a log of which only the headers can be read. *)
From Verif Require Import Base DltModel MatchModel GenModel ToolsModel TraceModel MappedModel MappedCmd TouchModel TouchMore TouchCmd TouchSpec Spec ReadSpec MappedSpec MappedCmdSpec
  TouchHeadSpec BaseFacts FindFacts DltFacts IterFacts DltIterFacts MappedFacts MappedStill TouchFacts TouchMoreFacts TouchCmdFacts TouchCmdInside TouchHeadFacts P_Touch.
From Coq Require Import ZifyBool ZifyNat ZifyN.
Ltac Zify.zify_post_hook ::= idtac.

Section Heads.
  Variables (buf : bytes) (FA : bytes -> nat -> option (nat * nat)) (P : reading) (l : list (nat * storage_entry)).
  Hypothesis LOG : dltit_offset buf = Ret l.
  Hypothesis BB : back_to_back 0 (places l).
  Hypothesis END : length buf <= list_sum (map (fun x => storage_len (snd x)) l) + 4.
  Hypothesis RD : forall t o v p, In (o, v) l -> o <= p < headers_end buf o -> p < o + storage_len v -> reads P t p = true.
  Notation W := (still buf FA).
  Notation V := (still_cells buf).
  Notation n := (length buf).
  Definition good (v : nat * nat) : Prop :=
    20 <= snd v /\ forall t p, fst v <= p < headers_end buf (fst v) -> p < fst v + snd v -> reads P t p = true.
  Definition good2 (r : item * item) : Prop := good (fst r) /\ good (snd r).

  Lemma ends_order o : o + 20 <= time_at buf o /\ time_at buf o <= extended_at buf o /\ extended_at buf o <= headers_end buf o.
  Proof. unfold headers_end, extended_at, time_at. lia. Qed.
  Lemma q_peeks {A} v a k (f : nat -> A) : good v -> fst v <= a -> a + k <= headers_end buf (fst v) -> a + k <= fst v + snd v -> relQ yes (peeks P a k f) (ask f).
  Proof. intros [G1 G2] H1 H2 H3. apply q_alive; [apply sim_look| |easy]. apply (lives_look _ (fun _ _ => 0)). intros; apply G2; lia. Qed.
  Definition bit (v : nat * nat) (m : N) : bool := (0 <? N.land (bN (nth (fst v + 16) buf x00)) m)%N.
  Lemma lives_flag {A} v m (f : bool -> peek A) : good v -> lives (f (bit v m)) -> lives (next_peek (t_flag W (reads P) v m) f).
  Proof.
    intros [G1 G2] H t. pose proof (ends_order (fst v)). unfold next_peek, t_flag, look. rewrite (proj2 (forallb_forall _ _)); [apply H|]. intros p I. apply in_seq in I. apply G2; lia.
  Qed.
  Lemma gets_flag {A} (Q : A -> Prop) v m (f : bool -> act A) : gets Q (f (bit v m)) -> gets Q (follow (m_flag W v m) f).
  Proof. intros H t a t' E. apply (H (S t) a t'). exact E. Qed.
  Lemma q_flag v m : good v -> relQ yes (alive (t_flag W (reads P) v m)) (m_flag W v m).
  Proof.
    intros [G1 G2]. pose proof (ends_order (fst v)). apply q_alive; [apply sim_flag| |easy]. apply (lives_look _ (fun _ _ => 0)). intros; apply G2; lia.
  Qed.
  Lemma q_len v : good v -> relQ yes (alive (t_len W (reads P) v)) (m_len W v).
  Proof.
    intros [G1 G2]. pose proof (ends_order (fst v)). apply q_alive; [apply sim_len| |easy]. unfold t_len, t_length. repeat (apply lives_bind; [|intros; apply lives_back]).
    apply (lives_look _ (fun _ _ => 0)). intros; apply G2; lia.
  Qed.
  Lemma lives_tail v k : lives (t_tail_from v k).
  Proof. intros t. unfold t_tail_from. destruct (_ <? _); discriminate. Qed.
  (** Places that an accessor finds, of bytes that can be read. *)
  Definition seen (q : nat * nat) : Prop := forall t p, fst q <= p < fst q + snd q -> reads P t p = true.
  Definition fours (o : option (nat * nat)) : Prop := opt (fun q => seen q /\ snd q = 4) o.
  Lemma place_seen v k : good v -> fst v + 20 + k + 4 <= headers_end buf (fst v) -> fours (m_place v k 4).
  Proof.
    intros [G1 G2] H q. unfold m_place, m_tail. destruct (Nat.ltb_spec (snd v - 20 - k) 4); [discriminate|]. intros [= <-]. split; [|reflexivity].
    intros t p. cbn [fst snd]. intros Hp. apply G2; lia.
  Qed.
  Lemma lives_get o : fours o -> lives (t_get (reads P) o).
  Proof.
    intros H t. unfold t_get. destruct o as [[a k]|]; [|discriminate]. apply opt_inv in H. destruct H as [H E].
    rewrite (proj2 (forallb_forall _ _)); [discriminate|]. intros p I. apply in_seq in I. apply H. cbn [fst snd]. lia.
  Qed.
  Ltac bits v := unfold headers_end, extended_at, time_at, four, has;
    destruct (flag_bit (nth (fst v + 16) buf x00)) as (B1 & B4 & B8 & B16); rewrite <- ?B1, <- ?B4, <- ?B8, <- ?B16;
    change (0 <? N.land (bN (nth (fst v + 16) buf x00)) 1)%N with (bit v 1); change (0 <? N.land (bN (nth (fst v + 16) buf x00)) 4)%N with (bit v 4);
    change (0 <? N.land (bN (nth (fst v + 16) buf x00)) 8)%N with (bit v 8); change (0 <? N.land (bN (nth (fst v + 16) buf x00)) 16)%N with (bit v 16).
  Lemma q_timestamp v : good v -> relQ fours (alive (t_timestamp W (reads P) v)) (m_timestamp W v).
  Proof.
    intros G. assert (PL : bit v 16 = true -> fours (m_place v ((if bit v 4 then 4 else 0) + (if bit v 8 then 4 else 0)) 4)).
    { intros X. apply place_seen; [exact G|]. bits v. rewrite X. lia. }
    apply q_alive; [apply sim_timestamp| |].
    - unfold t_timestamp. apply lives_flag; [exact G|]. destruct (bit v 16) eqn:X; [|apply lives_back]. do 2 (apply lives_flag; [exact G|]). cbv zeta.
      destruct (_ <? _); [apply lives_back|]. apply lives_bind; [apply lives_tail|]. intros _. now apply lives_get, PL.
    - unfold m_timestamp. apply (gets_flag fours). destruct (bit v 16) eqn:X; [|apply gets_done, opt_none]. do 2 apply gets_flag. cbv zeta.
      destruct (_ <? _); [apply gets_done, opt_none|]. apply (gets_follow fours). intros _. now apply gets_done, PL.
  Qed.
  Lemma q_ecu_id v : good v -> relQ fours (alive (t_ecu_id W (reads P) v)) (m_ecu_id W v).
  Proof.
    intros G. assert (PL : bit v 4 = true -> fours (m_place v 0 4)).
    { intros X. apply place_seen; [exact G|]. bits v. rewrite X. lia. }
    apply q_alive; [apply sim_ecu_id| |].
    - unfold t_ecu_id. apply lives_flag; [exact G|]. destruct (bit v 4) eqn:X; [|apply lives_back]. destruct (_ <? _); [intros t; discriminate|]. now apply lives_get, PL.
    - unfold m_ecu_id. apply (gets_flag fours). destruct (bit v 4) eqn:X; [|apply gets_done, opt_none]. destruct (_ <? _); [apply gets_crash|]. now apply gets_done, PL.
  Qed.
  Lemma q_extended v : good v -> relQ (opt (fun q => forall t, reads P t (fst q) = true)) (alive (t_extended_header W (reads P) v)) (m_extended_header W v).
  Proof.
    intros G. apply q_alive; [apply sim_extended| |].
    - unfold t_extended_header. apply lives_flag; [exact G|]. destruct (bit v 1) eqn:X; [|apply lives_back]. do 3 (apply lives_flag; [exact G|]). cbv zeta.
      apply lives_bind; [apply lives_tail|]. intros _. apply lives_back.
    - unfold m_extended_header. apply (gets_flag (opt (fun q => forall t, reads P t (fst q) = true))). destruct (bit v 1) eqn:X; [|apply gets_done, opt_none]. do 3 apply gets_flag. cbv zeta.
      apply (gets_follow (opt (fun q => forall t, reads P t (fst q) = true))). intros _. apply gets_done. intros q. unfold m_place, m_tail. destruct (Nat.ltb_spec (snd v - 20 - ((if bit v 4 then 4 else 0) + (if bit v 8 then 4 else 0) + (if bit v 16 then 4 else 0))) 10); [discriminate|].
      intros [= <-] t. cbn [fst]. destruct G as [G1 G2]. apply G2; [|lia]. bits v. rewrite X. lia.
  Qed.
  Lemma q_payload v : good v -> relQ yes (alive (t_payload W (reads P) v)) (m_payload W v).
  Proof.
    intros G. apply q_alive; [apply sim_payload| |easy]. unfold t_payload. do 4 (apply lives_flag; [exact G|]). cbv zeta. destruct (bit v 1).
    - apply lives_bind; [apply lives_tail|]. intros _. destruct (m_place _ _ _); [|apply lives_back]. destruct (_ <? _); apply lives_back.
    - destruct (_ <? _); apply lives_back.
  Qed.
  Lemma q_number p q : relQ fours p q -> relQ yes (c_number V P p) (m_number V q).
  Proof.
    intros H. unfold c_number, m_number. eapply relQ_bind; [exact H|]. intros [[a k]|] Q; [|now apply relQ_done]. apply opt_inv in Q. destruct Q as [Q1 Q2]. cbn [fst snd] in *. subst k.
    eapply (relQ_bind yes); [|intros x _; now apply relQ_done]. apply q_alive; [apply sim_look| |easy]. apply (lives_look _ (fun _ _ => 0)). intros t i Hi. apply Q1. cbn [fst snd]. lia.
  Qed.
  Lemma q_secs v : good v -> relQ yes (c_secs V P v) (m_secs V v).
  Proof. intros G. pose proof (ends_order (fst v)). pose proof (proj1 G). unfold c_secs, m_secs. eapply relQ_bind; [apply (q_peeks v); [exact G|lia|lia|lia]|]. intros x _. now apply relQ_done. Qed.
  Lemma q_ecu v : good v -> relQ yes (c_ecu V P v) (m_ecu V v).
  Proof. intros G. pose proof (ends_order (fst v)). pose proof (proj1 G). apply (q_peeks v); [exact G|lia|lia|lia]. Qed.
  Lemma q_info a : (forall t, reads P t a = true) -> relQ yes (c_info V P a) (m_info V a).
  Proof.
    intros H. assert (Q : forall A (f : nat -> A), relQ yes (peeks P a 1 f) (ask f)).
    { intros A f. apply q_alive; [apply sim_look| |easy]. apply (lives_look _ (fun _ _ => 0)). intros t p Hp. replace p with a by lia. apply H. }
    unfold c_info, m_info. do 3 (eapply relQ_bind; [apply Q|]; intros ? _). now apply relQ_done.
  Qed.
  Lemma q_time v : good v -> relQ yes (c_time W V P v) (m_time W V v).
  Proof. intros H. now apply q_number, q_timestamp. Qed.
  Lemma q_ecu_number v : good v -> relQ yes (c_ecu_number W V P v) (m_ecu_number W V v).
  Proof. intros H. now apply q_number, q_ecu_id. Qed.
  Lemma q_same {A} (x : act A) : relQ yes x x.
  Proof. intros t. now split. Qed.
  Lemma q_unwrap {A} (G : A -> Prop) o : opt G o -> relQ G (c_unwrap o) (m_unwrap o).
  Proof. intros H. destruct o; [apply relQ_done; now apply opt_inv|apply relQ_crash]. Qed.
  Ltac q := repeat first
    [ apply relQ_done; exact Logic.I
    | match goal with |- relQ _ (follow _ _) _ => apply (relQ_bind yes); [|intros ? ?] end
    | apply q_secs; assumption | apply q_time; assumption | apply q_ecu_number; assumption
    | match goal with |- relQ yes (if ?x then _ else _) _ => destruct x end
    | apply q_same ].
  Lemma q_secs_pred a b : good a -> good b -> relQ yes (c_secs_pred V P a b) (m_secs_pred V a b).
  Proof. intros. unfold c_secs_pred, m_secs_pred. q. Qed.
  Lemma q_secs_delta r : good2 r -> relQ yes (c_secs_delta V P r) (m_secs_delta V r).
  Proof. intros [? ?]. unfold c_secs_delta, m_secs_delta. q. Qed.
  Lemma q_ts_pred a b : good a -> good b -> relQ yes (c_ts_pred W V P a b) (m_ts_pred W V a b).
  Proof. intros. unfold c_ts_pred, m_ts_pred. q. Qed.
  Lemma q_ecu_ts_pred a b : good a -> good b -> relQ yes (c_ecu_ts_pred W V P a b) (m_ecu_ts_pred W V a b).
  Proof. intros. unfold c_ecu_ts_pred, m_ecu_ts_pred. q. now apply q_ts_pred. Qed.
  Lemma q_ts_delta r : good2 r -> relQ yes (c_ts_delta W V P r) (m_ts_delta W V r).
  Proof.
    intros [? ?]. unfold c_ts_delta, m_ts_delta. eapply relQ_bind; [now apply q_time|]. intros o1 _. eapply relQ_bind; [apply (q_unwrap yes); easy|]. intros t1 _.
    eapply relQ_bind; [now apply q_time|]. intros o0 _. eapply relQ_bind; [apply (q_unwrap yes); easy|]. intros t0 _. apply q_same.
  Qed.
  Lemma q_long_enough r : good2 r -> relQ yes (c_long_enough W V P r) (m_long_enough W V r).
  Proof. intros H. unfold c_long_enough, m_long_enough. eapply relQ_bind; [now apply q_ts_delta|]. intros d _. now apply relQ_done. Qed.
  Lemma q_info_key v : good v -> relQ yes (c_info_key W V P v) (m_info_key W V v).
  Proof.
    intros H. unfold c_info_key, m_info_key. eapply relQ_bind; [now apply q_extended|]. intros o F. eapply relQ_bind; [exact (q_unwrap _ _ F)|]. intros p G. cbv beta in G. now apply q_info.
  Qed.
  Lemma q_max a b : good a -> good b -> relQ good (c_max V P a b) (m_max V a b).
  Proof.
    intros. unfold c_max, m_max. eapply relQ_bind; [now apply q_secs|]. intros sa _. eapply relQ_bind; [now apply q_secs|]. intros sb _. apply relQ_done. destruct (sb <=? sa)%N; assumption.
  Qed.
  Lemma q_merge a b : good2 a -> good2 b -> relQ (opt good2) (c_merge V P a b) (m_merge V a b).
  Proof.
    intros [? ?] [? ?]. unfold c_merge, m_merge. cbv zeta. apply (relQ_bind yes); [q|]. intros [|] _.
    - eapply relQ_bind; [now apply q_max|]. intros m Gm. apply relQ_done, opt_some. now split.
    - apply (relQ_bind yes); [q|]. intros [|] _; [|apply relQ_done, opt_none]. eapply relQ_bind; [now apply q_max|]. intros m Gm. apply relQ_done, opt_some. now split.
  Qed.
  Lemma q_period_key r : good2 r -> relQ yes (c_period_key V P r) (m_period_key V r).
  Proof. intros [? ?]. unfold c_period_key, m_period_key. q. Qed.

  (** Where the iterator stands: at a message of the log, with the rest of the log before it. *)
  Definition stands (off : nat) : Prop := exists l2, incl l2 l /\ dchain buf off l2 /\ back_to_back off (places l2) /\ length buf <= off + list_sum (map (fun x => storage_len (snd x)) l2) + 4.
  Lemma stands_0 : stands 0.
  Proof. exists l. split; [now intros x|]. split; [now apply dltit_offset_chain|]. split; [exact BB|lia]. Qed.
  Lemma q_messages : moves stands good (c_messages W n P) (m_messages W n).
  Proof.
    intros off (l2 & IN & CH & B2 & E2). assert (H : forall t, exists r t', t_fallback_next W n (reads P) (reach P) (S (S n)) off t = Back (r, t') /\ gives stands good r).
    { intros t. destruct l2 as [|[k v] l2].
      - cbn [list_sum map fold_right] in E2. cbn [t_fallback_next]. destruct (Nat.leb_spec n (off + 4)) as [_|]; [|lia]. eexists (off, None), t. split; [reflexivity|]. split; [|apply opt_none].
        exists []. cbn [fst list_sum map fold_right]. repeat split; [exact IN|exact CH|lia].
      - cbn [places map fst snd back_to_back] in B2. destruct B2 as [E B2]. inversion CH as [| |off' k' len v' l' FM PA CH']; subst. destruct (parse_place buf off len v PA) as (E1 & E3 & E4 & E5). pose proof (place_small buf off len v PA) as SM.
        assert (OC : occurs_at the_pattern buf off) by (destruct FM as (_ & O & _); apply (occ_occurs dlt_marker buf off); [cbn; lia|exact O]).
        rewrite E1 in B2. assert (GD : good (off, storage_len v)). { split; cbn [fst snd]; [lia|]. intros u p H1 H2. eapply RD; [apply IN; now left|exact H1|exact H2]. }
        destruct (fallback_here W n (reads P) (reach P) off (storage_len v) ltac:(lia) ltac:(lia) ltac:(lia)) with (f := S n) (t := t) as [t' N].
        + intros u. cbn [still sees_marker]. rewrite occ_marker. apply FM.
        + intros u. cbn [still sees_length]. lia.
        + intros u p Hp. destruct GD as [G1 G2]. cbn [fst snd] in *. pose proof (ends_order off). unfold key_byte in Hp. apply G2; lia.
        + exists (off + storage_len v, Some (off, storage_len v)), t'. split; [exact N|]. split; cbn [fst snd]; [|now apply opt_some].
          rewrite E1. exists l2. split; [intros x Hx; apply IN; now right|]. split; [exact CH'|]. split; [exact B2|]. cbn [map list_sum fold_right snd] in E2. fold (list_sum (map (fun x => storage_len (snd x)) l2)) in E2. rewrite E1 in E2. lia. }
    apply q_alive; [apply sim_fallback| |].
    - intros t. destruct (H t) as (r & t' & N & _). rewrite N. discriminate.
    - intros t a t' E. destruct (H t) as (r & t2 & N & G). destruct (sim_fallback W n (reads P) (reach P) (S (S n)) off t) as [K|K]; [congruence|].
      unfold m_messages in E. rewrite E, N in K. injection K as <- _. exact G.
  Qed.
  Lemma q_timed : moves stands good (filter_next (c_messages W n P) (c_with_ts W P) (S (S n))) (filter_next (m_messages W n) (m_with_ts W) (S (S n))).
  Proof. apply q_filter; [exact q_messages|]. intros v G. now apply q_flag. Qed.
  Lemma q_secs_groups : moves (fun st => in_group good (fst st) /\ stands (snd st)) good2
    (pull_next (c_messages W n P) (GroupByE (c_secs_pred V P)) (S (S n)) 2) (pull_next (m_messages W n) (GroupByE (m_secs_pred V)) (S (S n)) 2).
  Proof. apply (q_pull stands good _ _ q_messages (in_group good) good2). apply okA_group. exact q_secs_pred. Qed.
  Lemma q_ts_groups f g : (forall v w, good v -> good w -> relQ yes (f v w) (g v w)) -> moves (fun st => in_group good (fst st) /\ stands (snd st)) good2
    (pull_next (filter_next (c_messages W n P) (c_with_ts W P) (S (S n))) (GroupByE f) (S (S n)) 2)
    (pull_next (filter_next (m_messages W n) (m_with_ts W) (S (S n))) (GroupByE g) (S (S n)) 2).
  Proof. intros H. apply (q_pull stands good _ _ q_timed (in_group good) good2). now apply okA_group. Qed.
  Lemma q_lifecycle_reducer fin : exists IS, IS ((([], (tt, (GEmpty, tt))), (0, tt)), tt) /\ okR IS good (c_lifecycle_reducer W V P fin) (m_lifecycle_reducer W V fin).
  Proof.
    eexists. split; [|unfold c_lifecycle_reducer, m_lifecycle_reducer; cbv zeta; eapply okR_over; [|apply okA_nil]; apply okR_fork; [|apply okR_count];
      eapply okR_over; [apply (okR_split yes (yes (A := N))); [intros; apply q_same|exact Logic.I|apply okR_count]|]; eapply okA_adapter; [apply okA_map|eapply okA_adapter; [apply okA_group|apply okA_nil]]].
    - cbn [fst snd]. repeat split; try exact Logic.I. constructor.
    - intros r G. eapply relQ_bind; [now apply q_ts_delta|]. intros d _. now apply relQ_done.
    - exact q_ts_pred.
  Qed.
  Lemma q_timestamp_reducer fin : exists IS, IS ((([], (tt, (([], None), (GEmpty, tt)))), (0, tt)), tt) /\ okR IS good (c_timestamp_reducer V P fin) (m_timestamp_reducer V fin).
  Proof.
    eexists. split; [|unfold c_timestamp_reducer, m_timestamp_reducer; cbv zeta; eapply okR_over; [|apply okA_nil]; apply okR_fork; [|apply okR_count];
      eapply okR_over; [apply (okR_split yes (yes (A := N))); [intros; apply q_same|exact Logic.I|apply okR_count]|];
      eapply okA_adapter; [apply okA_map|eapply okA_adapter; [apply okA_merge|eapply okA_adapter; [apply okA_group|apply okA_nil]]]].
    - cbn [fst snd]. repeat split; try exact Logic.I; try constructor. apply opt_none.
    - exact q_secs_delta.
    - exact q_merge.
    - exact q_period_key.
    - exact q_secs_pred.
  Qed.

  Lemma heads_count t : c_count W n P t = m_count W n t.
  Proof. apply (q_count stands good _ _ q_messages (S (S n)) 0 stands_0). Qed.
  Lemma heads_continuous_timestamp_histogram t : c_continuous_timestamp_histogram W V n P t = m_continuous_timestamp_histogram W V n t.
  Proof.
    revert t. intros t. apply (q_histogram (fun st => in_group good (fst st) /\ stands (snd st)) yes); [|intros; apply q_same|split; [exact Logic.I|exact stands_0]]. apply (q_map _ _ _ _ q_secs_groups). exact q_secs_delta.
  Qed.
  Lemma heads_mstp_info_histogram t : c_mstp_info_histogram W V n P t = m_mstp_info_histogram W V n t.
  Proof. apply (q_histogram stands good); [|exact q_info_key|exact stands_0]. apply q_filter; [exact q_messages|]. intros v G. now apply q_flag. Qed.
  Lemma heads_lifecycle_splitit fin t : c_lifecycle_splitit W V n P fin t = m_lifecycle_splitit W V n fin t.
  Proof.
    destruct (q_lifecycle_reducer fin) as (IS & J & H). apply (q_reduce stands good _ _ q_timed (values IS)); [|exact stands_0|constructor]. apply okR_split; [exact q_ecu|exact J|exact H].
  Qed.
  Lemma heads_timestamp_splitit fin t : c_timestamp_splitit W V n P fin t = m_timestamp_splitit W V n fin t.
  Proof.
    destruct (q_timestamp_reducer fin) as (IS & J & H). apply (q_reduce stands good _ _ q_messages (values IS)); [|exact stands_0|constructor]. apply okR_split; [exact q_ecu|exact J|exact H].
  Qed.
  Lemma heads_lifecycle_histogram t : c_lifecycle_histogram W V n P t = m_lifecycle_histogram W V n t.
  Proof.
    apply (q_histogram (fun st => in_group good (fst st) /\ stands (snd st)) yes); [|intros; apply q_same|split; [exact Logic.I|exact stands_0]]. apply (q_map _ _ _ _ (q_ts_groups _ _ q_ecu_ts_pred)). exact q_ts_delta.
  Qed.
  Lemma heads_histogram_payload t : c_histogram_payload W n P t = m_histogram_payload W n t.
  Proof.
    apply (q_histogram stands yes); [|intros; apply q_same|exact stands_0]. apply (q_map _ _ _ _ q_messages). intros v G. eapply relQ_bind; [now apply q_payload|]. intros p _. now apply relQ_done.
  Qed.
  Lemma heads_histogram_message t : c_histogram_message W n P t = m_histogram_message W n t.
  Proof. apply (q_histogram stands yes); [|intros; apply q_same|exact stands_0]. apply (q_map _ _ _ _ q_messages). exact q_len. Qed.
  Lemma heads_lifecycle_iter t : c_lifecycle_iter W V n P t = m_lifecycle_iter W V n t.
  Proof. apply (q_count _ _ _ _ (q_filter _ _ _ _ (q_ts_groups _ _ q_ts_pred) _ _ q_long_enough _)). split; [exact Logic.I|exact stands_0]. Qed.
  Lemma heads_lifecycle_itertools t : c_lifecycle_itertools W V n P t = m_lifecycle_itertools W V n t.
  Proof.
    apply (q_count (fun s => opt good (fst s) /\ stands (snd s)) good2); [|split; [apply opt_none|exact stands_0]]. apply q_filter; [|exact q_long_enough].
    apply q_filter; [exact (q_windows _ _ _ _ q_timed)|]. intros r [G1 G2]. now apply q_ts_pred.
  Qed.
End Heads.
