(** What the closures of ripdlt read from a file that does not change (C124). *)
From Verif Require Import Base DltModel MatchModel GenModel ToolsModel TraceModel MappedModel MappedCmd Spec ReadSpec MappedSpec MappedCmdSpec BaseFacts DltFacts CodecFacts
  ParseFacts FindFacts IterFacts DltIterFacts ContainFacts CommandFacts ExactFacts MappedFacts MappedStill SimFacts FeedFacts.
From Verif Require P_Mapped.
From Coq Require Import ZifyBool ZifyNat ZifyN.
Ltac Zify.zify_post_hook ::= idtac.

Lemma safe_alike {A B} (R : A -> B -> Prop) x y : safe (fun a => R a y) x -> alike R x (Ret y).
Proof. exact (fun H => H). Qed.
Lemma timestamp_no_fuel e : timestamp e <> Fuel.
Proof.
  unfold timestamp. cbv zeta. destruct (is_with_timestamp _); [|discriminate].
  match goal with |- context [slice_from ?l ?o] => unfold slice_from; destruct (o <=? length l) end; destruct (length (tail e) <? _); cbn; discriminate.
Qed.
Lemma ecu_id_no_fuel e : ecu_id e <> Fuel.
Proof. unfold ecu_id. cbv zeta. destruct (is_with_ecu_id _); [|discriminate]. unfold slice_to. destruct (4 <=? length (tail e)); cbn; discriminate. Qed.
Lemma slice_from_no_fuel b a : slice_from b a <> Fuel.
Proof. unfold slice_from. destruct (a <=? length b); discriminate. Qed.
Lemma payload_no_fuel e : payload e <> Fuel.
Proof.
  unfold payload. cbv zeta. set (o := ext_offset _).
  assert (FI : forall o, (if length (tail e) <? o then Ret None else let* s := slice_from (tail e) o in Ret (Some s)) <> Fuel).
  { intros o'. destruct (_ <? _); [discriminate|]. pose proof (slice_from_no_fuel (tail e) o'). destruct (slice_from (tail e) o'); cbn; congruence. }
  destruct (is_extended_header _); [|apply FI]. pose proof (slice_from_no_fuel (tail e) o). destruct (slice_from (tail e) o) as [s| |]; cbn [obind]; [|discriminate|congruence].
  destruct (ext_header_from_prefix s); [apply FI|discriminate].
Qed.
Lemma extended_no_fuel e : extended_header e <> Fuel.
Proof.
  unfold extended_header. cbv zeta. destruct (negb _); [discriminate|]. set (o := ext_offset _). pose proof (slice_from_no_fuel (tail e) o). destruct (slice_from (tail e) o); cbn; congruence.
Qed.
Lemma unwrap_no_fuel {A} (o : option A) : unwrap o <> Fuel.
Proof. destruct o; discriminate. Qed.
Lemma sub_no_fuel a b : u32_sub a b <> Fuel.
Proof. unfold u32_sub. destruct (_ <=? _)%N; discriminate. Qed.
Lemma bind_no_fuel {A B} (o : outcome A) (f : A -> outcome B) : o <> Fuel -> (forall a, f a <> Fuel) -> obind o f <> Fuel.
Proof. intros H1 H2. destruct o; cbn; [apply H2|discriminate|congruence]. Qed.
Ltac nofuel := repeat first [discriminate | apply timestamp_no_fuel | apply ecu_id_no_fuel | apply payload_no_fuel | apply extended_no_fuel | apply unwrap_no_fuel | apply sub_no_fuel
  | apply bind_no_fuel; [|intros ?] | match goal with |- (if ?c then _ else _) <> Fuel => destruct c end].
Lemma ts_pred_no_fuel a b : ts_pred a b <> Fuel.
Proof. unfold ts_pred. nofuel. Qed.
Lemma ecu_ts_pred_no_fuel a b : ecu_ts_pred a b <> Fuel.
Proof. unfold ecu_ts_pred. nofuel. Qed.
Lemma ts_delta_no_fuel r : ts_delta r <> Fuel.
Proof. unfold ts_delta. nofuel. Qed.
Lemma secs_delta_no_fuel r : secs_delta r <> Fuel.
Proof. unfold secs_delta. nofuel. Qed.

Lemma u32le_lt b k : (u32le_at b k < 4294967296)%N.
Proof.
  unfold u32le_at, byte_at. pose proof (Strings.Byte.to_N_bounded (nth k b x00)). pose proof (Strings.Byte.to_N_bounded (nth (k + 1) b x00)).
  pose proof (Strings.Byte.to_N_bounded (nth (k + 2) b x00)). pose proof (Strings.Byte.to_N_bounded (nth (k + 3) b x00)). lia.
Qed.
Lemma u32be_lt b k : (u32be_at b k < 4294967296)%N.
Proof.
  unfold u32be_at, byte_at. pose proof (Strings.Byte.to_N_bounded (nth k b x00)). pose proof (Strings.Byte.to_N_bounded (nth (k + 1) b x00)).
  pose proof (Strings.Byte.to_N_bounded (nth (k + 2) b x00)). pose proof (Strings.Byte.to_N_bounded (nth (k + 3) b x00)). lia.
Qed.

Section Closures.
  Variable b : bytes.
  Variable F : bytes -> nat -> option (nat * nat).
  Notation W := (still b F).
  Notation V := (still_cells b).
  Notation n := (length b).

  (** The message at this place. *)
  Definition stands (v : item) (e : storage_entry) : Prop := exists m, message_at b (fst v) m /\ e = entry_of m /\ snd v = length m.

  Lemma message_byte k m i : message_at b k m -> i < length m -> nth (k + i) b x00 = nth i m x00.
  Proof. intros [_ O] H. now apply P_Mapped.at_skipn. Qed.
  Lemma message_20 k m : message_at b k m -> 20 <= length m.
  Proof. intros [H _]. exact (proj1 (proj2 H)). Qed.
  Lemma alike_secs v e : stands v e -> alike eq (m_secs V v) (Ret (esecs e)).
  Proof.
    intros (m & M & -> & L). unfold m_secs. apply safe_alike. eapply safe_follow; [apply (safe_ask (eq (u32le_at b (fst v + 4)))); reflexivity|]. intros x <-. apply safe_done.
    rewrite N.mod_small by apply u32le_lt. pose proof (message_20 _ _ M). unfold esecs. cbn [entry_of sheader secs]. unfold u32le_at, byte_at. rewrite <- !Nat.add_assoc.
    rewrite !(message_byte _ _ _ M) by lia. reflexivity.
  Qed.
  Lemma alike_ecu v e : stands v e -> alike eq (m_ecu V v) (Ret (ecu (sheader e))).
  Proof.
    intros (m & M & -> & L). unfold m_ecu. apply safe_alike. apply safe_ask. intros t. cbn [still_cells sees_quad entry_of sheader ecu]. unfold quad_at. pose proof (message_20 _ _ M).
    rewrite <- !Nat.add_assoc. rewrite !(message_byte _ _ _ M) by lia. reflexivity.
  Qed.
  Lemma alike_flag v e mask : stands v e -> alike eq (m_flag W v mask) (Ret (0 <? N.land (bN (header_type (header (dlt e)))) mask)%N).
  Proof.
    intros (m & M & -> & L). unfold m_flag. apply safe_alike. eapply safe_follow; [apply (safe_ask (eq (bN (nth (fst v + 16) b x00)))); reflexivity|]. intros x <-. apply safe_done.
    pose proof (message_20 _ _ M). rewrite (message_byte _ _ _ M) by lia. reflexivity.
  Qed.
  Lemma alike_number x (o : outcome (option N)) : does_as (fun p => Some (u32be_at b (fst p))) o x -> alike eq (m_number V x) o.
  Proof.
    intros H t. specialize (H t). unfold m_number, follow. destruct o as [r| |]; [|now rewrite H|exact I]. destruct H as (p & t' & -> & <-). destruct p as [p|].
    - unfold ask, follow, done. cbn [still_cells sees_word]. rewrite N.mod_small by apply u32be_lt. now eexists _, _.
    - now exists None, t'.
  Qed.
  Lemma alike_time v e : stands v e -> alike eq (m_time W V v) (timestamp (dlt e)).
  Proof.
    intros (m & M & -> & L). unfold m_time. apply alike_number. destruct (P_Mapped.C118_unchanged b F (fst v) m M) as (_ & H & _). rewrite <- L in H. now destruct v.
  Qed.
  Lemma alike_ecu_number v e : stands v e -> alike eq (m_ecu_number W V v) (ecu_id (dlt e)).
  Proof.
    intros (m & M & -> & L). unfold m_ecu_number. apply alike_number. destruct (P_Mapped.C118_unchanged b F (fst v) m M) as (H & _). rewrite <- L in H. now destruct v.
  Qed.
  Lemma alike_unwrap {A} (o : option A) : alike eq (m_unwrap o) (unwrap o).
  Proof. destruct o; cbn; [now apply alike_done|apply alike_crash]. Qed.
  Lemma alike_sub x y : alike eq (m_sub x y) (u32_sub x y).
  Proof. unfold m_sub, u32_sub. destruct (y <=? x)%N; [now apply alike_done|apply alike_crash]. Qed.
  Lemma alike_payload v e : stands v e -> alike (fun p o => match p with Some p => o = Some (firstn (snd p) (skipn (fst p) b)) | None => o = None end) (m_payload W v) (payload (dlt e)).
  Proof.
    intros (m & M & -> & L) t. destruct (P_Mapped.C118_unchanged b F (fst v) m M) as (_ & _ & _ & H). rewrite <- L in H.
    replace (fst v, snd v) with v in H by now destruct v. specialize (H t). destruct (payload _) as [r| |]; [|exact H|exact I]. destruct H as (p & t' & E & <-). exists p, t'. split; [exact E|].
    destruct p; reflexivity.
  Qed.
  (** the place of the payload lies in the message, its length is that of the slice *)
  Lemma payload_inside v t p t' : 20 <= snd v -> m_payload W v t = Ret (Some p, t') -> fst p + snd p = fst v + snd v.
  Proof.
    intros H. unfold m_payload, follow, m_flag, ask, follow, done, m_tail_from, m_place, crash. cbn [fst snd].
    repeat match goal with |- context [if ?c then _ else _] => destruct c eqn:?; cbn [fst snd] end; try discriminate; intros [= <- _]; cbn [fst snd]; unfold m_tail in *; lia.
  Qed.
  Lemma extended_inside v t p t' : 20 <= snd v -> m_extended_header W v t = Ret (Some p, t') -> fst p + 10 <= fst v + snd v.
  Proof.
    intros H. unfold m_extended_header, follow, m_flag, ask, follow, done, m_tail_from, m_place, crash. cbn [fst snd].
    repeat match goal with |- context [if ?c then _ else _] => destruct c eqn:?; cbn [fst snd] end; try discriminate; intros [= <- _]; cbn [fst snd]; unfold m_tail in *; lia.
  Qed.
  Lemma alike_payload_length v e : stands v e -> alike eq (see p <- m_payload W v; done (match p with Some p => snd p | None => 0 end))
    (let* p := payload (dlt e) in Ret (match p with Some s => length s | None => 0 end)).
  Proof.
    intros H t. pose proof (alike_payload v e H t) as AL. destruct H as (m & M & -> & L). unfold follow. destruct (payload _) as [r| |]; cbn [obind]; [|now rewrite AL|exact I].
    destruct AL as (p & t' & E & HR). rewrite E. eexists _, _. split; [reflexivity|]. pose proof (message_20 _ _ M) as M20. destruct p as [p|]; subst r; [|reflexivity].
    pose proof (payload_inside v t p t' ltac:(lia) E). rewrite firstn_length, skipn_length.
    destruct M as [_ (pre & post & EB & EL)]. assert (length b = length pre + (length m + length post)) by (rewrite EB, !app_length; reflexivity). lia.
  Qed.
  Lemma alike_hello v e : stands v e -> alike eq (m_hello_predicate W V v) (hello_predicate e).
  Proof.
    intros H. unfold m_hello_predicate, hello_predicate. eapply alike_follow; [now apply alike_payload|]. intros p o HO.
    destruct p as [p|]; subst o; cbn [m_unwrap unwrap obind]; [|intros t; reflexivity].
    intros t. unfold follow, done, ask. cbn [still_cells sees_hello]. replace (fst p + snd p - fst p) with (snd p) by lia.
    eexists _, _. split; [reflexivity|]. set (s := firstn (snd p) (skipn (fst p) b)).
    pose proof (find_iter_from_nil hello_world s 0 ltac:(cbn; lia)) as FN. unfold find_iter. destruct (find hello_world s) as [x|]; cbn [option_map].
    - destruct (find_iter_from hello_world s 0 0); [|reflexivity]. discriminate (proj1 FN eq_refl).
    - now rewrite (proj2 FN eq_refl).
  Qed.
  Lemma alike_info v e : stands v e -> alike eq (m_info_key W V v) (let* h := extended_header (dlt e) in let* h := unwrap h in Ret (msin_info (msin h))).
  Proof.
    intros H t. destruct H as (m & M & -> & L). destruct (P_Mapped.C118_unchanged b F (fst v) m M) as (_ & _ & H & _). rewrite <- L in H.
    replace (fst v, snd v) with v in H by now destruct v. specialize (H t). unfold m_info_key, follow. destruct (extended_header _) as [r| |]; cbn [obind]; [|now rewrite H|exact I].
    destruct H as (p & t' & E & HR). rewrite E. destruct p as [p|]; [|subst r; reflexivity].
    pose proof (message_20 _ _ M) as M20. pose proof (extended_inside v t p t' ltac:(lia) E) as IN.
    assert (HB : fst p + 10 <= n).
    { destruct M as [_ (pre & post & EB & EL)]. assert (length b = length pre + (length m + length post)) by (rewrite EB, !app_length; reflexivity). lia. }
    subst r. pose proof (skipn_length (fst p) b) as SL. assert (NT : nth 0 (skipn (fst p) b) x00 = nth (fst p) b x00) by (rewrite nth_skipn_x; f_equal; lia).
    destruct (skipn (fst p) b) as [|c0 [|c1 [|c2 [|c3 [|c4 [|c5 [|c6 [|c7 [|c8 [|c9 r]]]]]]]]]]; cbn [length] in SL; try lia.
    cbn [ext_header_from_prefix unwrap obind m_unwrap done]. unfold m_info, follow, ask, done. cbn [still_cells sees_byte nth] in *. rewrite <- NT.
    eexists _, _. split; [reflexivity|]. reflexivity.
  Qed.
  Lemma alike_len v e : stands v e -> alike eq (m_len W v) (Ret (storage_len e)).
  Proof.
    intros (m & M & -> & L). destruct v as [k z]. cbn [fst snd] in *. subst z. pose proof (dcand_entry b k m M) as [_ P].
    pose proof (still_len b F k (length m, entry_of m) P) as SL. cbn [snd] in SL. pose proof (parse_place b k (length m) (entry_of m) P) as (E & _). rewrite E in SL.
    apply safe_alike. rewrite E. eapply safe_weak; [exact SL|]. auto.
  Qed.

  (** ** Predicates on pairs *)
  Notation stands2 := (pair_rel stands stands).
  Lemma alike_ts_pred x x' y y' : stands x y -> stands x' y' -> alike eq (m_ts_pred W V x x') (ts_pred y y').
  Proof.
    intros H H'. unfold m_ts_pred, ts_pred. eapply alike_follow; [now apply alike_time|]. intros t1 ? <-. eapply alike_follow; [now apply alike_time|]. intros t2 ? <-. now apply alike_done.
  Qed.
  Lemma alike_ecu_ts_pred x x' y y' : stands x y -> stands x' y' -> alike eq (m_ecu_ts_pred W V x x') (ecu_ts_pred y y').
  Proof.
    intros H H'. unfold m_ecu_ts_pred, ecu_ts_pred. eapply alike_follow; [now apply alike_ecu_number|]. intros t1 ? <-. eapply alike_follow; [now apply alike_ecu_number|]. intros t2 ? <-.
    destruct (opt_eqb t1 t2); [now apply alike_ts_pred|now apply alike_done].
  Qed.
  Lemma alike_secs_pred x x' y y' : stands x y -> stands x' y' -> alike eq (m_secs_pred V x x') (secs_pred y y').
  Proof.
    intros H H'. unfold m_secs_pred, secs_pred.
    change (Ret (esecs y <=? esecs y')%N) with (let* sb := Ret (esecs y') in let* sa := Ret (esecs y) in Ret (sa <=? sb)%N).
    eapply alike_follow; [now apply alike_secs|]. intros t1 ? <-. eapply alike_follow; [now apply alike_secs|]. intros t2 ? <-. now apply alike_done.
  Qed.
  Lemma alike_ts_delta r q : stands2 r q -> alike eq (m_ts_delta W V r) (ts_delta q).
  Proof.
    intros [H0 H1]. unfold m_ts_delta, ts_delta. eapply alike_follow; [now apply alike_time|]. intros o1 ? <-. eapply alike_follow; [now apply alike_unwrap|]. intros t1 ? <-.
    eapply alike_follow; [now apply alike_time|]. intros o0 ? <-. eapply alike_follow; [now apply alike_unwrap|]. intros t0 ? <-. apply alike_sub.
  Qed.
  Lemma alike_secs_delta r q : stands2 r q -> alike eq (m_secs_delta V r) (secs_delta q).
  Proof.
    intros [H0 H1]. unfold m_secs_delta, secs_delta.
    change (u32_sub (esecs (snd q)) (esecs (fst q))) with (let* s1 := Ret (esecs (snd q)) in let* s0 := Ret (esecs (fst q)) in u32_sub s1 s0).
    eapply alike_follow; [now apply alike_secs|]. intros t1 ? <-. eapply alike_follow; [now apply alike_secs|]. intros t2 ? <-. apply alike_sub.
  Qed.
  Lemma alike_long r q : stands2 r q -> alike eq (m_long_enough W V r) (long_enough q).
  Proof. intros H. unfold m_long_enough, long_enough. eapply alike_follow; [now apply alike_ts_delta|]. intros d ? <-. now apply alike_done. Qed.
  Lemma secs_now v e t : stands v e -> exists t', m_secs V v t = Ret (esecs e, t').
  Proof. intros H. destruct (alike_secs v e H t) as (a & t' & E & ->). now exists t'. Qed.
  Lemma alike_max x x' y y' : stands x y -> stands x' y' -> alike stands (m_max V x x') (Ret (max_secs y y')).
  Proof.
    intros H H' t. unfold m_max, follow. destruct (secs_now x y t H) as [t1 E1]. rewrite E1. destruct (secs_now x' y' t1 H') as [t2 E2]. rewrite E2.
    eexists _, _. split; [reflexivity|]. unfold max_secs. destruct (esecs y' <=? esecs y)%N; assumption.
  Qed.
  Lemma alike_merge p p' q q' : stands2 p q -> stands2 p' q' -> alike (option_rel stands2) (m_merge V p p') (Ret (merge_overlapping q q')).
  Proof.
    intros [H0 H1] [H0' H1'] t.
    assert (OV : forall (x x' : item * item) (y y' : storage_entry * storage_entry) (k : bool -> act (option (item * item))) t, stands2 x y -> stands2 x' y' -> exists t',
      (see r <- (see b0 <- m_secs V (fst x'); see a0 <- m_secs V (fst x);
                 if (a0 <=? b0)%N then see b0 <- m_secs V (fst x'); see a1 <- m_secs V (snd x); done (b0 <=? a1)%N else done false); k r) t
      = k ((esecs (fst y) <=? esecs (fst y')) && (esecs (fst y') <=? esecs (snd y)))%N t').
    { clear H0 H1 H0' H1'. clear t. intros x x' y y' k t [A0 A1] [B0 B1]. unfold follow. destruct (secs_now _ _ t B0) as [t1 E1]. rewrite E1. destruct (secs_now _ _ t1 A0) as [t2 E2]. rewrite E2.
      destruct (esecs (fst y) <=? esecs (fst y'))%N; cbn [andb].
      - destruct (secs_now _ _ t2 B0) as [t3 E3]. rewrite E3. destruct (secs_now _ _ t3 A1) as [t4 E4]. rewrite E4. now exists t4.
      - now exists t2. }
    unfold m_merge, merge_overlapping. cbv zeta.
    destruct (OV p p' q q' (fun r => if r then see m <- m_max V (snd p) (snd p'); done (Some (fst p, m)) else
       see second <- (see b0 <- m_secs V (fst p); see a0 <- m_secs V (fst p'); if (a0 <=? b0)%N then see b0 <- m_secs V (fst p); see a1 <- m_secs V (snd p'); done (b0 <=? a1)%N else done false);
       if second then see m <- m_max V (snd p) (snd p'); done (Some (fst p', m)) else done None) t (conj H0 H1) (conj H0' H1')) as [t1 E1]. rewrite E1. clear E1.
    destruct (_ && _)%N eqn:C1.
    - unfold follow. destruct (alike_max (snd p) (snd p') (snd q) (snd q') H1 H1' t1) as (m & t2 & E2 & HM). rewrite E2. eexists _, _. split; [reflexivity|]. split; cbn; assumption.
    - destruct (OV p' p q' q (fun second => if second then see m <- m_max V (snd p) (snd p'); done (Some (fst p', m)) else done None) t1 (conj H0' H1') (conj H0 H1)) as [t2 E2]. rewrite E2. clear E2.
      destruct ((esecs (fst q') <=? esecs (fst q)) && (esecs (fst q) <=? esecs (snd q')))%N.
      + unfold follow. destruct (alike_max (snd p) (snd p') (snd q) (snd q') H1 H1' t2) as (m & t3 & E3 & HM). rewrite E3. eexists _, _. split; [reflexivity|]. split; cbn; assumption.
      + eexists _, _. split; [reflexivity|]. exact I.
  Qed.
  Lemma alike_key r q : stands2 r q -> alike eq (m_period_key V r) (Ret (period_key q)).
  Proof.
    intros [H0 H1] t. unfold m_period_key, follow. destruct (secs_now _ _ t H0) as [t1 E1]. rewrite E1. destruct (secs_now _ _ t1 H1) as [t2 E2]. rewrite E2. now eexists _, _.
  Qed.

  (** ** Sources *)
  Lemma placed_stands v x : v = place x -> (exists k, dcand b (fst x) k (snd x)) -> stands v (snd x).
  Proof.
    intros -> [k C]. pose proof C as [_ P]. apply dcand_iff in C. destruct C as (m & M & L & D). exists m. cbn [place fst snd]. split; [exact M|].
    pose proof (message_20 _ _ M) as M20. assert (E : snd x = entry_of m) by now apply denotes_entry_of_iff. split; [exact E|].
    destruct (parse_place b (fst x) k (snd x) P) as (EL & _). lia.
  Qed.
  Lemma collect_length {T A} (next : T -> outcome (T * option A)) : forall fuel s l, collect next fuel s = Ret l -> length l < fuel.
  Proof.
    induction fuel as [|f IH]; intros s l E; [discriminate|]. cbn [collect] in E. destruct (next s) as [[s' [x|]]| |]; cbn [obind] in E; try discriminate.
    - destruct (collect next f s') as [l'| |] eqn:C; cbn [obind] in E; try discriminate. injection E as <-. cbn [length]. specialize (IH _ _ C). lia.
    - injection E as <-. cbn. lia.
  Qed.
  Lemma messages_feed l : dltit b = Ret l -> feeds stands (m_messages W n) 0 l false /\ length l <= n.
  Proof.
    intros E. destruct (dltit_offset_total b) as (lo & EO & C). rewrite (dltit_map b lo EO) in E. injection E as <-. rewrite map_length.
    assert (E' : collect (fallback_next DLT (S (S n)) b) (S n) 0 = Ret lo).
    { apply (collect_chain_iff DLT parse dlt_lawful b n (S n) 0 lo); [lia|exact C]. }
    split; [|apply collect_length in E'; lia]. clear EO C. revert E'. generalize (S n) at 2. generalize 0. intros off fuel. revert off lo.
    induction fuel as [|f IH]; intros off lo E; [discriminate|]. cbn [collect] in E. pose proof (fallback_next_fb DLT parse dlt_lawful n b off) as FB.
    pose proof (fb_step_chain DLT parse dlt_lawful b off) as ST. rewrite FB in E. cbn [obind] in E. destruct (fb DLT parse b off) as [off' [x|]] eqn:EF.
    - destruct (collect _ f off') as [lo'| |] eqn:C'; [|discriminate|discriminate]. cbn [obind] in E. injection E as <-. cbn [map feeds]. intros t.
      destruct (still_fallback b F (S (S n)) off _ FB t) as (p & t' & E2 & <-). unfold moved in E2. cbn [fst snd option_map] in E2.
      exists (place x), off', t'. split; [exact E2|]. destruct x as [k v]. destruct ST as (n1 & _ & CD & _).
      split; [apply (placed_stands (place (k, v)) (k, v)); [reflexivity|]; now exists n1|]. now apply IH.
    - injection E as <-. cbn [map feeds]. destruct ST as [_ ST]. apply rests_intro. intros t.
      destruct (still_fallback b F (S (S n)) off _ FB t) as (p & t' & E2 & <-). unfold moved in E2. cbn [fst snd option_map] in E2. exists off', t'. split; [exact E2|].
      exists (fun o => o = off'). split; [reflexivity|]. intros o -> t2. pose proof (fallback_next_fb DLT parse dlt_lawful n b off') as FB2. rewrite ST in FB2.
      destruct (still_fallback b F (S (S n)) off' _ FB2 t2) as (p & t3 & E3 & <-). unfold moved in E3. cbn [fst snd option_map] in E3. exists off', t3. now split.
  Qed.
  Lemma messages_provide : provides stands (m_messages W n) n 0 (dltit b).
  Proof.
    destruct (dltit_offset_total b) as (lo & EO & _). pose proof (dltit_map b lo EO) as E. rewrite E. destruct (messages_feed _ E) as [FD HL]. now split.
  Qed.
  (** messages with a timestamp *)
  Lemma filterM_pure {A} (f : A -> bool) l : filterM (fun x => Ret (f x)) l = Ret (filter f l).
  Proof. induction l as [|x l IH]; cbn; [reflexivity|]. rewrite IH. cbn. now destruct (f x). Qed.
  Lemma flagged_feed (mask : N) (test : storage_entry -> bool) l : (forall e, test e = (0 <? N.land (bN (header_type (header (dlt e)))) mask)%N) -> dltit b = Ret l ->
    feeds stands (filter_next (m_messages W n) (fun v => m_flag W v mask) (S (S n))) 0 (filter test l) false /\ length (filter test l) <= n.
  Proof.
    intros HT E. assert (PR : provides stands (filter_next (m_messages W n) (fun v => m_flag W v mask) (S (S n))) n 0 (let* l := dltit b in filterM (fun e => Ret (test e)) l)).
    { apply filter_provides; [|discriminate|lia|apply messages_provide]. intros x y H. rewrite HT. now apply alike_flag. }
    rewrite E in PR. cbn [obind] in PR. rewrite filterM_pure in PR. destruct PR as [HL FD]. now split.
  Qed.
End Closures.
