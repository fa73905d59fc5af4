(** Facts about headers, flags, accessors and message types of DltModel.v. *)
From Verif Require Import Base DltModel MatchModel Spec BaseFacts DltFacts.
From Coq Require Import ZifyBool ZifyNat ZifyN.
Ltac Zify.zify_post_hook ::= Z.div_mod_to_equations.

(** * Codecs *)
Lemma std_header_round h rest : (std_length h < 65536)%N ->
  std_header_from_prefix (std_header_as_bytes h ++ rest) = Some h.
Proof.
  destruct h as [t c l]. cbn [std_length]. intros H.
  cbn [std_header_as_bytes header_type message_counter std_length be16_bytes app std_header_from_prefix].
  unfold std_header_new. now rewrite be16_of_bytes.
Qed.
Lemma std_header_bytes b h : std_header_from_prefix b = Some h ->
  std_header_as_bytes h = firstn 4 b.
Proof.
  intros H. do 4 (destruct b as [|? b]; [discriminate|]). injection H as <-.
  unfold std_header_as_bytes, std_header_new. cbn [header_type message_counter std_length].
  now rewrite be16_bytes_be16.
Qed.

Lemma storage_header_round h rest :
  (secs h < 4294967296)%N -> (-2147483648 <= msecs h < 2147483648)%Z ->
  storage_header_from_prefix (storage_header_as_bytes h ++ rest) = Some h.
Proof.
  destruct h as [[p0 p1 p2 p3] s ms [e0 e1 e2 e3]]. cbn [secs msecs]. intros Hs Hm.
  unfold storage_header_as_bytes. cbn [pattern secs msecs ecu quad_bytes le32_bytes be32_bytes rev app storage_header_from_prefix].
  unfold storage_header_new, le32. rewrite be32_of_bytes by exact Hs.
  rewrite be32_of_bytes by apply u32_of_i32_lt. now rewrite i32_of_u32_of_i32.
Qed.
Lemma storage_header_bytes b h : storage_header_from_prefix b = Some h ->
  storage_header_as_bytes h = firstn 16 b.
Proof.
  intros H. do 16 (destruct b as [|? b]; [discriminate|]). injection H as <-.
  unfold storage_header_as_bytes, storage_header_new. cbn [pattern secs msecs ecu].
  rewrite u32_of_i32_of_u32 by (unfold le32; apply be32_lt).
  now rewrite !le32_bytes_le32.
Qed.

Lemma ext_header_round h rest :
  ext_header_from_prefix (ext_header_as_bytes h ++ rest) = Some h.
Proof. now destruct h as [m n [a0 a1 a2 a3] [c0 c1 c2 c3]]. Qed.
Lemma ext_header_bytes b h : ext_header_from_prefix b = Some h ->
  ext_header_as_bytes h = firstn 10 b.
Proof.
  intros H. do 10 (destruct b as [|? b]; [discriminate|]). injection H as <-. reflexivity.
Qed.
Lemma ext_header_some b : 10 <= length b -> exists h, ext_header_from_prefix b = Some h.
Proof. intros H. do 10 peel b. cbn. eauto. Qed.
Lemma ext_header_none b : length b < 10 -> ext_header_from_prefix b = None.
Proof.
  intros H. do 10 (destruct b as [|? b]; [reflexivity|]). cbn [length] in H. lia.
Qed.

(** * Header type flags *)
Definition flags_ok (h : byte) : bool :=
  eqb (is_extended_header h) (flag h 0) && eqb (is_msb_first h) (flag h 1) &&
  eqb (is_with_ecu_id h) (flag h 2) && eqb (is_with_session_id h) (flag h 3) &&
  eqb (is_with_timestamp h) (flag h 4) &&
  (bN (htyp_version h) =? bN h / 32)%N &&
  byte_eqb (htyp_new (is_extended_header h) (is_msb_first h) (is_with_ecu_id h)
              (is_with_session_id h) (is_with_timestamp h) (htyp_version h)) h.
Lemma flags_sweep h : flags_ok h = true.
Proof. revert h. apply byte_sweep. vm_compute. reflexivity. Qed.

Lemma flags_spec h :
  is_extended_header h = flag h 0 /\ is_msb_first h = flag h 1 /\ is_with_ecu_id h = flag h 2 /\
  is_with_session_id h = flag h 3 /\ is_with_timestamp h = flag h 4 /\
  bN (htyp_version h) = (bN h / 32)%N /\
  htyp_new (is_extended_header h) (is_msb_first h) (is_with_ecu_id h)
              (is_with_session_id h) (is_with_timestamp h) (htyp_version h) = h.
Proof.
  pose proof (flags_sweep h) as H. unfold flags_ok in H.
  repeat rewrite andb_true_iff in H. destruct H as [[[[[[A B] C] D] E] F] G].
  apply eqb_prop in A, B, C, D, E. apply N.eqb_eq in F.
  destruct (byte_eqb_spec (htyp_new (is_extended_header h) (is_msb_first h) (is_with_ecu_id h)
              (is_with_session_id h) (is_with_timestamp h) (htyp_version h)) h); [|discriminate].
  repeat split; assumption.
Qed.

Definition htyp_ok (v : byte) : bool :=
  forallb (fun a => forallb (fun b => forallb (fun c => forallb (fun d => forallb (fun e =>
    let h := htyp_new a b c d e v in
    eqb (is_extended_header h) a && eqb (is_msb_first h) b && eqb (is_with_ecu_id h) c &&
    eqb (is_with_session_id h) d && eqb (is_with_timestamp h) e &&
    (bN (htyp_version h) =? bN v mod 8)%N)
    [true; false]) [true; false]) [true; false]) [true; false]) [true; false].
Lemma htyp_sweep v : htyp_ok v = true.
Proof. revert v. apply byte_sweep. vm_compute. reflexivity. Qed.

Lemma htyp_new_spec a b c d e v :
  let h := htyp_new a b c d e v in
  is_extended_header h = a /\ is_msb_first h = b /\ is_with_ecu_id h = c /\
  is_with_session_id h = d /\ is_with_timestamp h = e /\
  bN (htyp_version h) = (bN v mod 8)%N.
Proof.
  intros h. pose proof (htyp_sweep v) as H. unfold htyp_ok in H.
  assert (I : forall x, In x [true; false]) by (intros []; cbn; tauto).
  rewrite forallb_forall in H. specialize (H a (I a)).
  rewrite forallb_forall in H. specialize (H b (I b)).
  rewrite forallb_forall in H. specialize (H c (I c)).
  rewrite forallb_forall in H. specialize (H d (I d)).
  rewrite forallb_forall in H. specialize (H e (I e)).
  cbv zeta in H. fold h in H.
  repeat rewrite andb_true_iff in H. destruct H as [[[[[A B] C] D] E] F].
  apply eqb_prop in A, B, C, D, E. apply N.eqb_eq in F. tauto.
Qed.

(** * Accessors *)
Lemma ext_offset_announced h : ext_offset h = announced h.
Proof.
  unfold ext_offset, announced.
  destruct (flags_spec h) as (_ & _ & -> & -> & -> & _).
  destruct (flag h 2), (flag h 3), (flag h 4); reflexivity.
Qed.

Lemma u32_prefix_some b : 4 <= length b -> u32_from_prefix b = Some (u32be_at b 0).
Proof.
  intros H. do 4 peel b. cbn [u32_from_prefix]. f_equal.
  unfold be32, u32be_at, byte_at, bN. cbn [nth Nat.add]. lia.
Qed.
Lemma u32_prefix_none b : length b < 4 -> u32_from_prefix b = None.
Proof.
  intros H. do 4 (destruct b as [|? b]; [reflexivity|]). cbn [length] in H. lia.
Qed.

(** Exact behaviour of the four accessors on an arbitrary entry. *)
Lemma ecu_id_exact e :
  ecu_id e = if flag (header_type (header e)) 2 then
               if length (tail e) <? 4 then Panic else Ret (Some (u32be_at (tail e) 0))
             else Ret None.
Proof.
  unfold ecu_id. destruct (flags_spec (header_type (header e))) as (_ & _ & -> & _).
  destruct (flag (header_type (header e)) 2); [|reflexivity].
  unfold slice_to. destruct (Nat.ltb_spec (length (tail e)) 4) as [H|H].
  - destruct (Nat.leb_spec 4 (length (tail e))); [lia|reflexivity].
  - destruct (Nat.leb_spec 4 (length (tail e))); [|lia]. cbn [obind]. f_equal.
    rewrite u32_prefix_some by (rewrite firstn_length; lia).
    revert H. generalize (tail e) as b. intros b H. do 4 peel b. reflexivity.
Qed.

Definition ts_offset (h : byte) : nat :=
  (if flag h 2 then 4 else 0) + (if flag h 3 then 4 else 0).

Lemma timestamp_exact e :
  timestamp e =
    let h := header_type (header e) in
    Ret (if flag h 4 && (ts_offset h + 4 <=? length (tail e))
         then Some (u32be_at (skipn (ts_offset h) (tail e)) 0) else None).
Proof.
  unfold timestamp. cbv zeta. set (h := header_type (header e)).
  destruct (flags_spec h) as (_ & _ & -> & -> & -> & _).
  destruct (flag h 4); cbn [andb]; [|reflexivity].
  replace (if flag h 3 then (if flag h 2 then 0 + 4 else 0) + 4 else if flag h 2 then 0 + 4 else 0)
    with (ts_offset h) by (unfold ts_offset; destruct (flag h 2), (flag h 3); reflexivity).
  destruct (Nat.ltb_spec (length (tail e)) (ts_offset h)) as [H|H].
  - destruct (Nat.leb_spec (ts_offset h + 4) (length (tail e))); [lia|reflexivity].
  - rewrite slice_from_ok by exact H. cbn [obind]. f_equal.
    destruct (Nat.leb_spec (ts_offset h + 4) (length (tail e))).
    + apply u32_prefix_some. rewrite skipn_length. lia.
    + apply u32_prefix_none. rewrite skipn_length. lia.
Qed.

Lemma extended_header_exact e :
  extended_header e =
    let h := header_type (header e) in
    if flag h 0 then
      if length (tail e) <? announced h then Panic
      else Ret (ext_header_from_prefix (skipn (announced h) (tail e)))
    else Ret None.
Proof.
  unfold extended_header. cbv zeta. set (h := header_type (header e)).
  rewrite ext_offset_announced. destruct (flags_spec h) as (-> & _).
  destruct (flag h 0); cbn [negb]; [|reflexivity].
  unfold slice_from. destruct (Nat.ltb_spec (length (tail e)) (announced h)).
  - destruct (Nat.leb_spec (announced h) (length (tail e))); [lia|reflexivity].
  - destruct (Nat.leb_spec (announced h) (length (tail e))); [reflexivity|lia].
Qed.

Lemma payload_exact e :
  payload e =
    let h := header_type (header e) in
    if flag h 0 then
      if length (tail e) <? announced h then Panic
      else Ret (if length (tail e) <? announced h + 10 then None
                else Some (skipn (announced h + 10) (tail e)))
    else Ret (if length (tail e) <? announced h then None
              else Some (skipn (announced h) (tail e))).
Proof.
  unfold payload. cbv zeta. set (h := header_type (header e)).
  rewrite ext_offset_announced. destruct (flags_spec h) as (-> & _).
  unfold ext_header_size.
  destruct (flag h 0).
  - destruct (Nat.ltb_spec (length (tail e)) (announced h)) as [H|H].
    + unfold slice_from. destruct (Nat.leb_spec (announced h) (length (tail e))); [lia|reflexivity].
    + rewrite slice_from_ok by exact H. cbn [obind].
      destruct (Nat.ltb_spec (length (tail e)) (announced h + 10)) as [K|K].
      * now rewrite ext_header_none by (rewrite skipn_length; lia).
      * destruct (ext_header_some (skipn (announced h) (tail e))) as [x ->]; [rewrite skipn_length; lia|].
        now rewrite slice_from_ok by exact K.
  - destruct (Nat.ltb_spec (length (tail e)) (announced h)) as [H|H]; [reflexivity|].
    now rewrite slice_from_ok by exact H.
Qed.

(** * Layout *)
Lemma u32be_at_app a b : length a = 4 -> u32be_at (a ++ b) 0 = u32be_at a 0.
Proof.
  intros H. unfold u32be_at, byte_at. now rewrite !app_nth1 by lia.
Qed.
Lemma skipn_app_exact {A} (a b : list A) n : length a = n -> skipn n (a ++ b) = b.
Proof. intros <-. rewrite skipn_app, Nat.sub_diag, skipn_all. reflexivity. Qed.
Lemma firstn_app_exact {A} (a b : list A) n : length a = n -> firstn n (a ++ b) = a.
Proof. intros <-. rewrite firstn_app, Nat.sub_diag, firstn_all. cbn. apply app_nil_r. Qed.

Lemma field4_len o : field4 o -> length (opt_bytes o) = if present o then 4 else 0.
Proof. destruct o as [b|]; cbn; [intros H; now apply H|reflexivity]. Qed.

Lemma accessors_layout e ecu seid ts ext pl :
  field4 ecu -> field4 seid -> field4 ts ->
  flag (header_type (header e)) 0 = present ext ->
  flag (header_type (header e)) 2 = present ecu ->
  flag (header_type (header e)) 3 = present seid ->
  flag (header_type (header e)) 4 = present ts ->
  tail e = opt_bytes ecu ++ opt_bytes seid ++ opt_bytes ts ++ ext_bytes ext ++ pl ->
  ecu_id e = Ret (option_map (fun b => u32be_at b 0) ecu) /\
  timestamp e = Ret (option_map (fun b => u32be_at b 0) ts) /\
  extended_header e = Ret ext /\
  payload e = Ret (Some pl).
Proof.
  intros He Hs Ht F0 F2 F3 F4 T.
  rewrite ecu_id_exact, timestamp_exact, extended_header_exact, payload_exact. cbv zeta.
  assert (A : announced (header_type (header e)) = length (opt_bytes ecu ++ opt_bytes seid ++ opt_bytes ts)).
  { unfold announced. rewrite F2, F3, F4. rewrite !app_length, !field4_len by assumption. lia. }
  assert (O : ts_offset (header_type (header e)) = length (opt_bytes ecu ++ opt_bytes seid)).
  { unfold ts_offset. rewrite F2, F3. rewrite !app_length, !field4_len by assumption. lia. }
  assert (SA : skipn (announced (header_type (header e))) (tail e) = ext_bytes ext ++ pl).
  { rewrite T, !app_assoc. rewrite <- (app_assoc _ (ext_bytes ext) pl).
    apply skipn_app_exact. rewrite A. now rewrite !app_assoc. }
  assert (SO : skipn (ts_offset (header_type (header e))) (tail e) = opt_bytes ts ++ ext_bytes ext ++ pl).
  { rewrite T, app_assoc. apply skipn_app_exact. now rewrite O. }
  assert (LA : announced (header_type (header e)) + length (ext_bytes ext ++ pl) = length (tail e)).
  { rewrite A, T. rewrite !app_length. lia. }
  split; [|split; [|split]].
  - rewrite F2. destruct ecu as [b|]; cbn [present option_map]; [|reflexivity].
    assert (length b = 4) by now apply He.
    assert (4 <= length (tail e)) by (rewrite T; cbn [opt_bytes]; rewrite app_length; lia).
    destruct (Nat.ltb_spec (length (tail e)) 4); [lia|].
    rewrite T. cbn [opt_bytes]. now rewrite u32be_at_app.
  - rewrite F4. destruct ts as [b|]; cbn [present option_map andb]; [|reflexivity].
    assert (length b = 4) by now apply Ht.
    assert (ts_offset (header_type (header e)) + 4 <= length (tail e)).
    { rewrite O, T. cbn [opt_bytes]. rewrite !app_length. lia. }
    destruct (Nat.leb_spec (ts_offset (header_type (header e)) + 4) (length (tail e))); [|lia].
    rewrite SO. cbn [opt_bytes]. now rewrite u32be_at_app.
  - rewrite F0. destruct ext as [x|]; cbn [present]; [|reflexivity].
    destruct (Nat.ltb_spec (length (tail e)) (announced (header_type (header e)))); [lia|].
    f_equal. rewrite SA. cbn [ext_bytes].
    exact (ext_header_round x pl).
  - rewrite F0. destruct ext as [x|]; cbn [present].
    + assert (length (ext_bytes (Some x)) = 10) by (destruct x as [? ? [] []]; reflexivity).
      rewrite app_length in LA.
      destruct (Nat.ltb_spec (length (tail e)) (announced (header_type (header e)))); [lia|].
      destruct (Nat.ltb_spec (length (tail e)) (announced (header_type (header e)) + 10)); [lia|].
      f_equal. f_equal. rewrite <- skipn_skipn', SA. now apply skipn_app_exact.
    + destruct (Nat.ltb_spec (length (tail e)) (announced (header_type (header e)))); [lia|].
      rewrite SA. reflexivity.
Qed.

(** * Message types *)
(** [n] with bits 5 and 7 cleared. *)
Definition drop57 (n : N) : N := (n mod 32 + 64 * ((n / 64) mod 2))%N.

Definition msg_type_eqb (a b : msg_type) : bool :=
  match a, b with
  | TypeLog i, TypeLog j => N.eqb (log_code i) (log_code j)
  | TypeAppTrace i, TypeAppTrace j => N.eqb (trace_code i) (trace_code j)
  | TypeNwTrace i, TypeNwTrace j => N.eqb (nw_code i) (nw_code j)
  | TypeControl i, TypeControl j => N.eqb (ctl_code i) (ctl_code j)
  | _, _ => false
  end.
Lemma msg_type_eqb_eq a b : msg_type_eqb a b = true <-> a = b.
Proof.
  split.
  - destruct a as [i|i|i|i], b as [j|j|j|j]; cbn; try discriminate; destruct i, j; cbn; try discriminate; reflexivity.
  - intros ->. destruct b as [i|i|i|i]; destruct i; reflexivity.
Qed.
Definition omt_eqb (a b : option msg_type) : bool :=
  match a, b with Some x, Some y => msg_type_eqb x y | None, None => true | _, _ => false end.
Lemma omt_eqb_eq a b : omt_eqb a b = true <-> a = b.
Proof.
  destruct a as [x|], b as [y|]; cbn; try (split; congruence).
  rewrite msg_type_eqb_eq. split; congruence.
Qed.

Lemma message_type_exact b :
  is_verbose b = flag b 0 /\ message_type b = standard_type (drop57 (bN b)).
Proof.
  assert (H : eqb (is_verbose b) (flag b 0) &&
              omt_eqb (message_type b) (standard_type (drop57 (bN b))) = true).
  { revert b. apply (byte_sweep (fun b => eqb (is_verbose b) (flag b 0) &&
      omt_eqb (message_type b) (standard_type (drop57 (bN b))))). vm_compute. reflexivity. }
  apply andb_true_iff in H. destruct H as [H1 H2].
  apply eqb_prop in H1. apply omt_eqb_eq in H2. tauto.
Qed.

(** Where the decoder agrees with the standard. *)
Definition agrees (b : byte) : bool := omt_eqb (message_type b) (standard_type (bN b)).
Lemma message_type_agrees b :
  flag b 5 = false -> flag b 7 = false -> message_type b = standard_type (bN b).
Proof.
  assert (H : flag b 5 || flag b 7 || agrees b = true).
  { revert b. apply (byte_sweep (fun b => flag b 5 || flag b 7 || agrees b)).
    vm_compute. reflexivity. }
  intros H5 H7. rewrite H5, H7 in H. cbn in H. now apply omt_eqb_eq.
Qed.
Lemma message_type_differs b :
  flag b 5 || flag b 7 = true -> standard_type (bN b) <> None ->
  message_type b <> standard_type (bN b).
Proof.
  assert (H : negb (flag b 5 || flag b 7) || omt_eqb None (standard_type (bN b)) || negb (agrees b) = true).
  { revert b. apply (byte_sweep (fun b => negb (flag b 5 || flag b 7) || omt_eqb None (standard_type (bN b)) || negb (agrees b))).
    vm_compute. reflexivity. }
  intros HF HN E. rewrite HF in H. cbn [negb orb] in H.
  apply orb_true_iff in H. destruct H as [H|H].
  - apply omt_eqb_eq in H. congruence.
  - apply negb_true_iff in H. unfold agrees in H. apply omt_eqb_eq in E. congruence.
Qed.

Definition all_types : list msg_type :=
  map TypeLog [LogFatal; LogError; LogWarn; LogInfo; LogDebug; LogVerbose] ++
  map TypeAppTrace [TraceVariable; TraceFunctionIn; TraceFunctionOut; TraceState; TraceVfb] ++
  map TypeNwTrace [NwIpc; NwCan; NwFlexray; NwMost; NwEthernet; NwSomeip] ++
  map TypeControl [CtlRequest; CtlResponse].
Lemma all_types_complete t : In t all_types.
Proof. destruct t as [i|i|i|i]; destruct i; cbn; tauto. Qed.

Definition uniform (a : byte) : ctor_addrs := {| addr_log := a; addr_app := a; addr_nw := a; addr_ctl := a |}.
Lemma create_uniform A v t : create_message_type A v t = create_message_type (uniform (addr_of A t)) v t.
Proof. destruct t; reflexivity. Qed.

Definition round_ok (a : byte) (v : bool) (t : msg_type) : bool :=
  let r := msin_info (create_message_type (uniform a) v t) in
  eqb (fst r) v && omt_eqb (snd r) (Some t).
Definition round_expected (a : byte) (t : msg_type) : bool :=
  ((bN a mod 8 =? fst (numbers t)) && (N.land (snd (numbers t)) 2 =? 0))%N.

Lemma round_sweep a v t :
  round_ok a v t = round_expected a t /\
  fst (msin_info (create_message_type (uniform a) v t)) = v.
Proof.
  assert (H : forallb (fun v => forallb (fun t => eqb (round_ok a v t) (round_expected a t) &&
      eqb (fst (msin_info (create_message_type (uniform a) v t))) v) all_types)
              [true; false] = true).
  { revert a. apply (byte_sweep (fun a => forallb (fun v => forallb (fun t => eqb (round_ok a v t) (round_expected a t) &&
      eqb (fst (msin_info (create_message_type (uniform a) v t))) v) all_types) [true; false])).
    vm_compute. reflexivity. }
  rewrite forallb_forall in H. specialize (H v). assert (I : In v [true; false]) by (destruct v; cbn; tauto).
  specialize (H I). rewrite forallb_forall in H. specialize (H t (all_types_complete t)).
  apply andb_true_iff in H. destruct H as [H1 H2]. apply eqb_prop in H1, H2. tauto.
Qed.

Lemma create_info_exact A v t :
  fst (msin_info (create_message_type A v t)) = v /\
  (msin_info (create_message_type A v t) = (v, Some t) <->
   (bN (addr_of A t) mod 8 = fst (numbers t) /\ N.land (snd (numbers t)) 2 = 0)%N).
Proof.
  rewrite create_uniform. destruct (round_sweep (addr_of A t) v t) as [H1 H2].
  split; [exact H2|].
  unfold round_ok, round_expected in H1.
  rewrite H2, eqb_reflx in H1. cbn [andb] in H1.
  rewrite <- !N.eqb_eq, <- andb_true_iff, <- H1, omt_eqb_eq.
  rewrite (surjective_pairing (msin_info _)), H2. cbn [fst snd]. split; congruence.
Qed.
