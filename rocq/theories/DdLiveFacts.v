(** Facts for C128: dd_dlt while its input is open. *)
From Verif Require Import Base DltModel MatchModel GenModel ToolsModel DdModel DdLive Spec BaseFacts DltFacts CodecFacts ParseFacts FindFacts IterFacts DltIterFacts DdFacts.
From Coq Require Import Lia ZifyBool ZifyNat ZifyN.
Ltac Zify.zify_post_hook ::= idtac.

Definition grows (w w' : line_writer) : Prop := (exists d, sent w' = sent w ++ d) /\ (lw_ok w -> lw_ok w').
Lemma grows_refl w : grows w w.
Proof. split; [exists []; now rewrite app_nil_r|auto]. Qed.
Lemma grows_trans w w' w'' : grows w w' -> grows w' w'' -> grows w w''.
Proof. intros [[d E] O] [[d' E'] O']. split; [exists (d ++ d'); now rewrite E', E, app_assoc|auto]. Qed.
Lemma write_grows v w buf : grows w (write_ v w buf).
Proof.
  split; [|intros O; now apply write_spec]. unfold write_, lw_write. destruct (rfind [x0a] buf) as [i|].
  - cbn [fst flush_buf sent pending]. eexists. now rewrite <- !app_assoc.
  - assert (F : exists d, sent (flush_if_completed_line w) = sent w ++ d).
    { unfold flush_if_completed_line. destruct (rev (pending w)) as [|c r]; [exists []; now rewrite app_nil_r|].
      destruct (byte_eqb c x0a); [now exists (pending w)|exists []; now rewrite app_nil_r]. }
    destruct F as [d F]. set (w1 := flush_if_completed_line w) in *. unfold bw_write.
    destruct (_ <? _); [exists d; exact F|]. destruct (_ <? _), (_ <=? _); cbn [fst flush_buf sent]; rewrite F; eexists; now rewrite <- ?app_assoc.
Qed.
Lemma message_grows v A m e a psize count buf w : grows w (fst (dd_message v A m e a psize count buf w)).
Proof.
  unfold dd_message. destruct (obind _ _) as [[[sh h] eh]| |]; try apply grows_refl.
  set (w1 := write_ v w _). assert (G1 : grows w w1) by apply write_grows. set (w2 := write_ v w1 _). assert (G2 : grows w w2) by (eapply grows_trans; [exact G1|apply write_grows]).
  destruct (checked m u32_mod (count * 100)) as [ts| |]; try exact G2.
  set (w3 := write_ v w2 _). set (w4 := write_ v w3 _). set (w5 := write_ v w4 _).
  assert (G5 : grows w w5) by (eapply grows_trans; [exact G2|]; eapply grows_trans; [apply write_grows|]; eapply grows_trans; apply write_grows).
  destruct (checked m u32_mod (count + 1)); exact G5.
Qed.
Lemma loop_grows v A m e a psize : forall fuel count input w out en, dd_loop v fuel A m e a psize count input w = Ret (out, en) -> exists d, out = sent w ++ d.
Proof.
  induction fuel as [|fuel IH]; intros count input w out en H; [discriminate|]. cbn [dd_loop] in H.
  destruct (_ <? _); [injection H as <- _; now exists (pending w)|].
  pose proof (message_grows v A m e a psize count (firstn (N.to_nat psize) input) w) as [[d G] _]. destruct (dd_message _ _ _ _ _ _ _ _ _) as [w' [c'|]]; cbn [fst] in G.
  - apply IH in H. destruct H as [d' ->]. exists (d ++ d'). now rewrite G, app_assoc.
  - injection H as <- _. unfold at_exit. exists (d ++ pending w'). now rewrite G, app_assoc.
Qed.

(** The input goes on. *)
Lemma loop_more v A m e a psize more : forall fuel fuel' count input w,
  match live_loop v fuel A m e a psize count input w with
  | Ret (Waiting x) => (forall out en, dd_loop v fuel' A m e a psize count (input ++ more) w = Ret (out, en) -> exists d, out = x ++ d) /\
      (forall y, live_loop v fuel' A m e a psize count (input ++ more) w = Ret (Waiting y) -> exists d, y = x ++ d) /\
      (forall y en, live_loop v fuel' A m e a psize count (input ++ more) w = Ret (Over y en) -> exists d, y = x ++ d)
  | Ret (Over x en) => fuel <= fuel' -> dd_loop v fuel' A m e a psize count (input ++ more) w = Ret (x, en) /\
      live_loop v fuel' A m e a psize count (input ++ more) w = Ret (Over x en)
  | _ => True
  end.
Proof.
  induction fuel as [|fuel IH]; intros fuel' count input w; [exact I|]. cbn [live_loop].
  destruct (Nat.ltb_spec (length input) (N.to_nat psize)) as [L|L].
  - split; [intros out en H; now apply loop_grows in H|]. clear L IH fuel. generalize (input ++ more). intros i.
    enough (G : forall fuel' count i w r, live_loop v fuel' A m e a psize count i w = Ret r -> exists d, match r with Waiting y => y | Over y _ => y end = sent w ++ d).
    { split; [intros y H; exact (G _ _ _ _ _ H)|intros y en H; exact (G _ _ _ _ _ H)]. }
    clear. induction fuel' as [|f IH]; intros count i w r H; [discriminate|]. cbn [live_loop] in H.
    destruct (_ <? _); [injection H as <-; exists []; now rewrite app_nil_r|].
    pose proof (message_grows v A m e a psize count (firstn (N.to_nat psize) i) w) as [[d G] _]. destruct (dd_message _ _ _ _ _ _ _ _ _) as [w' [c'|]]; cbn [fst] in G.
    + apply IH in H. destruct H as [d' H]. exists (d ++ d'). now rewrite H, G, app_assoc.
    + injection H as <-. unfold at_exit. exists (d ++ pending w'). now rewrite G, app_assoc.
  - destruct fuel' as [|fuel'].
    { cbn [dd_loop live_loop]. destruct (dd_message _ _ _ _ _ _ _ _ _) as [w' [c'|]]; [|intros; lia].
      destruct (live_loop _ _ _ _ _ _ _ _ _ _) as [[x|x en]| |]; try exact I; [|intros; lia]. repeat split; discriminate. }
    cbn [dd_loop live_loop]. destruct (Nat.ltb_spec (length (input ++ more)) (N.to_nat psize)) as [L2|_]; [rewrite app_length in L2; lia|].
    rewrite (firstn_app _ input more), (skipn_app _ input more). replace (N.to_nat psize - length input) with 0 by lia. cbn [firstn skipn]. rewrite app_nil_r.
    destruct (dd_message _ _ _ _ _ _ _ _ _) as [w' [c'|]]; [|intros _; now split].
    specialize (IH fuel' c' (skipn (N.to_nat psize) input) w'). destruct (live_loop v fuel A m e a psize c' _ w') as [[x|x en]| |]; try exact I; [exact IH|]. intros Hf. apply IH. lia.
Qed.

(** The input ends here. *)
Lemma loop_ends v A m e a psize : forall fuel count input w, lw_ok w ->
  match live_loop v fuel A m e a psize count input w with
  | Ret (Waiting x) => exists held n, dd_loop v fuel A m e a psize count input w = Ret (x ++ held, DdDone n) /\ length held <= lw_capacity
  | Ret (Over x en) => dd_loop v fuel A m e a psize count input w = Ret (x, en)
  | Panic => False
  | Fuel => dd_loop v fuel A m e a psize count input w = Fuel
  end.
Proof.
  induction fuel as [|fuel IH]; intros count input w OK; [reflexivity|]. cbn [live_loop dd_loop].
  destruct (_ <? _); [exists (pending w), count; split; [reflexivity|exact OK]|].
  pose proof (message_grows v A m e a psize count (firstn (N.to_nat psize) input) w) as [_ G]. destruct (dd_message _ _ _ _ _ _ _ _ _) as [w' [c'|]]; cbn [fst] in G.
  - apply IH. now apply G.
  - reflexivity.
Qed.

(** Nothing stays in the buffer. *)
Definition flushes (c : bytes) : Prop := (exists c0, c = c0 ++ [x0a]) \/ (1024 <= length c /\ ~ In x0a c).
Lemma write_flushes v w c : lw_ok w -> flushes c -> pending (write_ v w c) = [].
Proof.
  intros OK [(c0 & ->)|[L N]]; unfold write_, lw_write.
  - assert (R : rfind [x0a] (c0 ++ [x0a]) = Some (length c0)).
    { apply rfind_some; [cbn; lia|]. split.
      - rewrite skipn_app, skipn_all, Nat.sub_diag. reflexivity.
      - intros k Hk. rewrite skipn_all2 by (rewrite app_length; cbn [length]; lia). reflexivity. }
    rewrite R. cbn [fst flush_buf pending app length]. rewrite skipn_all2 by (rewrite app_length; cbn [length]; lia). cbn [length]. destruct v; cbn [Nat.min]; rewrite ?Nat.min_0_r; cbn [firstn].
    + reflexivity.
    + destruct (_ <=? _); reflexivity.
  - assert (R : rfind [x0a] c = None).
    { apply rfind_none; [cbn; lia|]. intros k. destruct (occ [x0a] c k) eqn:O; [|reflexivity]. exfalso. apply N. apply skipn_nl in O.
      rewrite <- (firstn_skipn k c), O. apply in_or_app. right. now left. }
    rewrite R. destruct (completed_exit w OK) as [_ OK1]. revert OK1. generalize (flush_if_completed_line w). intros w1 OK1. unfold bw_write, lw_ok in *. unfold lw_capacity in *.
    destruct (Nat.ltb_spec (length c) (Pos.to_nat 1024 - length (pending w1))); [lia|]. destruct (Nat.leb_spec (Pos.to_nat 1024) (length c)); [|lia].
    destruct (Nat.ltb_spec (Pos.to_nat 1024 - length (pending w1)) (length c)); cbn [fst flush_buf pending]; [reflexivity|]. apply length_zero_iff_nil. lia.
Qed.
Lemma message_flushes v A m e a psize count c w w' n : lw_ok w -> flushes c -> dd_message v A m e a psize count c w = (w', Some n) -> pending w' = [].
Proof.
  intros OK F. unfold dd_message. destruct (obind _ _) as [[[sh h] eh]| |]; try discriminate.
  destruct (checked m u32_mod (count * 100)) as [ts| |]; try discriminate. destruct (checked m u32_mod (count + 1)) as [n'| |]; try discriminate. intros H. injection H as <- _.
  apply write_flushes; [|exact F]. repeat (apply write_grows; try exact OK).
Qed.
Lemma loop_flushes v A m e a psize rest : (N.of_nat (length rest) < psize)%N -> forall chunks c fuel count w out n, lw_ok w -> Forall (fun c => N.of_nat (length c) = psize) (chunks ++ [c]) -> flushes c ->
  dd_loop v fuel A m e a psize count (concat (chunks ++ [c]) ++ rest) w = Ret (out, DdDone n) -> live_loop v fuel A m e a psize count (concat (chunks ++ [c]) ++ rest) w = Ret (Waiting out).
Proof.
  intros LR. assert (STEP : forall (c x : bytes), N.of_nat (length c) = psize -> firstn (N.to_nat psize) (c ++ x) = c /\ skipn (N.to_nat psize) (c ++ x) = x /\ (length (c ++ x) <? N.to_nat psize) = false).
  { intros c x Hc. replace (N.to_nat psize) with (length c) by lia. split; [now rewrite firstn_app, firstn_all, Nat.sub_diag, app_nil_r|].
    split; [now rewrite skipn_app, skipn_all, Nat.sub_diag|]. apply Nat.ltb_ge. rewrite app_length. lia. }
  induction chunks as [|c0 cs IH]; intros c fuel count w out n OK F FL H.
  - cbn [app concat] in *. rewrite app_nil_r in *. pose proof (Forall_inv F : N.of_nat (length c) = psize) as Hc. destruct (STEP c rest Hc) as (S1 & S2 & S3). destruct fuel as [|fuel]; [discriminate|].
    cbn [dd_loop live_loop] in *. rewrite S1, S2, S3 in *. destruct (dd_message v A m e a _ count c w) as [w' [c'|]] eqn:E; [|discriminate].
    apply message_flushes in E; [|exact OK|exact FL]. destruct fuel as [|fuel]; [discriminate|]. cbn [dd_loop live_loop] in *.
    destruct (Nat.ltb_spec (length rest) (N.to_nat psize)) as [_|?]; [|lia]. injection H as <- _. unfold at_exit. now rewrite E, app_nil_r.
  - cbn [app concat] in *. rewrite <- app_assoc in *. pose proof (Forall_inv F : N.of_nat (length c0) = psize) as Hc. pose proof (Forall_inv_tail F) as F'. destruct (STEP c0 (concat (cs ++ [c]) ++ rest) Hc) as (S1 & S2 & S3). destruct fuel as [|fuel]; [discriminate|].
    cbn [dd_loop live_loop] in *. rewrite S1, S2, S3 in *. pose proof (message_grows v A m e a psize count c0 w) as [_ G].
    destruct (dd_message v A m e a psize count c0 w) as [w' [c'|]] eqn:E; [|discriminate]. cbn [fst] in G. eapply IH; [now apply G|exact F'|exact FL|exact H].
Qed.

(** A release build goes on for ever. *)
Lemma release_message v A e a psize count buf w : lw_ok w ->
  exists w' n, dd_message v A Release (quad_bytes e) (quad_bytes a) psize count buf w = (w', Some n) /\ lw_ok w' /\ length (at_exit w) + 34 <= length (at_exit w').
Proof.
  intros OK. unfold dd_message. rewrite !quad_ok. cbn [obind].
  assert (CK : forall md n, exists r, checked Release md n = Ret r) by (intros md n; unfold checked; destruct (_ <? _)%N; eexists; reflexivity).
  destruct (CK u16_mod (4 + 10 + 4 + psize)%N) as [len ->]. destruct (CK u32_mod (count * 100)%N) as [ts ->]. destruct (CK u32_mod (count + 1)%N) as [n ->]. cbn [obind].
  set (shb := storage_header_as_bytes _). set (hb := std_header_as_bytes _). set (eb := ext_header_as_bytes _). set (tb := be32_bytes _).
  destruct (write_spec v w shb OK) as [E1 OK1]. destruct (write_spec v _ hb OK1) as [E2 OK2].
  destruct (write_spec v _ tb OK2) as [E3 OK3]. destruct (write_spec v _ eb OK3) as [E4 OK4].
  destruct (write_spec v _ buf OK4) as [E5 OK5]. do 2 eexists. split; [reflexivity|]. split; [exact OK5|]. rewrite E5, E4, E3, E2, E1.
  assert (LL : length shb = 16 /\ length hb = 4 /\ length tb = 4 /\ length eb = 10).
  { unfold shb, hb, tb, eb, storage_header_as_bytes, std_header_as_bytes, ext_header_as_bytes, storage_header_new, std_header_new, ext_header_new.
    cbn [pattern secs msecs ecu header_type message_counter std_length msin noar apid ctid]. destruct e, a. repeat split; reflexivity. }
  destruct LL as (L1 & L2 & L3 & L4).
  rewrite (accepted_fits v eb), (accepted_fits v tb), (accepted_fits v hb), (accepted_fits v shb) by (apply small_fits; lia).
  rewrite !app_length, L1, L2, L3, L4. lia.
Qed.
Lemma release_loop v A e a psize : (0 < psize)%N -> forall fuel count input w, lw_ok w -> length input < fuel ->
  exists x, live_loop v fuel A Release (quad_bytes e) (quad_bytes a) psize count input w = Ret (Waiting x) /\
    length (at_exit w) + 34 * (length input / N.to_nat psize) <= length x + lw_capacity.
Proof.
  intros HP. induction fuel as [|fuel IH]; intros count input w OK Hf; [lia|]. cbn [live_loop].
  destruct (Nat.ltb_spec (length input) (N.to_nat psize)) as [L|L].
  - eexists. split; [reflexivity|]. rewrite Nat.div_small by exact L. unfold at_exit. rewrite app_length. unfold lw_ok in OK. lia.
  - destruct (release_message v A e a psize count (firstn (N.to_nat psize) input) w OK) as (w' & n & -> & OK' & G).
    destruct (IH n (skipn (N.to_nat psize) input) w' OK') as (x & E & Lx); [rewrite skipn_length; lia|]. exists x. split; [exact E|].
    rewrite skipn_length in Lx. replace (length input) with (1 * N.to_nat psize + (length input - N.to_nat psize)) by lia. rewrite Nat.div_add_l by lia. lia.
Qed.
