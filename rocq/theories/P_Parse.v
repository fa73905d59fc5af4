(** Property theorems C01-C10: parsing, headers, accessors, message types. *)
From Verif Require Import Base DltModel Spec Samples DltFacts CodecFacts ParseFacts.

(** C01: parsing returns on every slice. *)
Theorem C01_parse_total : forall b : bytes,
  (exists r, storage_try_read b = Ret r) /\ (exists r, storage_try_read_valid b = Ret r) /\
  (exists r, entry_try_read b = Ret r).
Proof. exact parse_total. Qed.
Print Assumptions C01_parse_total.

(** C02: exact acceptance condition and content. *)
Theorem C02_parse_exact : forall (b : bytes) (n : nat) (e : storage_entry),
  storage_try_read b = Ret (Some (n, e)) <->
  (firstn 4 b = the_pattern /\ 20 <= length b /\
   (4 <= u16_at b 18)%N /\ n = 16 + N.to_nat (u16_at b 18) /\ n <= length b /\
   denotes e (firstn n b)).
Proof. exact parse_exact. Qed.
Print Assumptions C02_parse_exact.

Theorem C02_parse_len : forall (b : bytes) (n : nat) (e : storage_entry),
  storage_try_read b = Ret (Some (n, e)) -> storage_len e = n.
Proof. exact parse_len_exact. Qed.
Print Assumptions C02_parse_len.

(** The same for a message without storage header. *)
Theorem C02_entry_exact : forall (b : bytes) (n : nat) (e : dlt_entry),
  entry_try_read b = Ret (Some (n, e)) <->
  (4 <= length b /\ (4 <= u16_at b 2)%N /\ n = N.to_nat (u16_at b 2) /\ n <= length b /\
   header_type (header e) = nth 0 b x00 /\ message_counter (header e) = nth 1 b x00 /\
   std_length (header e) = u16_at b 2 /\ tail e = skipn 4 (firstn n b)).
Proof. exact entry_parse_exact. Qed.
Print Assumptions C02_entry_exact.

Example C02_example :
  exists e, storage_try_read (m1 ++ m2) = Ret (Some (length m1, e)) /\
            secs (sheader e) = 10%N /\ tail (dlt e) = skipn 20 m1 /\ length m1 = 45.
Proof. eexists. vm_compute. repeat split. Qed.
Example C02_example_reject :
  storage_try_read m_corrupt = Ret None /\ storage_try_read (firstn 44 m1) = Ret None /\
  storage_try_read (x00 :: m1) = Ret None.
Proof. vm_compute. repeat split. Qed.

(** C03: only the consumed bytes matter; every shorter prefix is rejected. *)
Theorem C03_parse_local : forall (b : bytes) (n : nat) (e : storage_entry),
  storage_try_read b = Ret (Some (n, e)) ->
  (forall b', firstn n b' = firstn n b -> storage_try_read b' = Ret (Some (n, e))) /\
  (forall k, k < n -> storage_try_read (firstn k b) = Ret None).
Proof. exact parse_local. Qed.
Print Assumptions C03_parse_local.
(** The same for a message without storage header. *)
Theorem C03_entry_local : forall (b : bytes) (n : nat) (e : dlt_entry),
  entry_try_read b = Ret (Some (n, e)) ->
  (forall b', firstn n b' = firstn n b -> entry_try_read b' = Ret (Some (n, e))) /\
  (forall k, k < n -> entry_try_read (firstn k b) = Ret None).
Proof.
  intros b n e H. pose proof H as H0. apply entry_parse_exact in H0. destruct H0 as (A & B & C & D & E & F & G & T). split.
  - intros b' Q. assert (Hn : 4 <= n) by lia.
    assert (L : n <= length b'). { apply (f_equal (@length byte)) in Q. rewrite !firstn_length in Q. lia. }
    assert (U : forall i, i < n -> nth i b' x00 = nth i b x00).
    { intros i Hi. rewrite <- (firstn_skipn n b'), <- (firstn_skipn n b), Q.
      rewrite !app_nth1 by (rewrite firstn_length; lia). reflexivity. }
    assert (W : u16_at b' 2 = u16_at b 2). { rewrite <- (u16_at_firstn b' n), <- (u16_at_firstn b n) by lia. now rewrite Q. }
    apply entry_parse_exact. rewrite !U, W, Q by lia. repeat split; auto; lia.
  - intros k K. destruct (parse_total (firstn k b)) as (_ & _ & [r R]). rewrite R.
    destruct r as [[n' e']|]; [|reflexivity]. exfalso. apply entry_parse_exact in R.
    destruct R as (A' & B' & C' & D' & _). rewrite firstn_length in A', D'. rewrite u16_at_firstn in B', C' by lia. lia.
Qed.
Print Assumptions C03_entry_local.

Example C03_example : exists e, storage_try_read m_nested = Ret (Some (length m_nested, e)).
Proof. eexists. vm_compute. reflexivity. Qed.

(** C04: header round trips. *)
Theorem C04_storage_header_roundtrip : forall (p e : quad) (s : N) (us : Z) (rest : bytes),
  (s < 2 ^ 32)%N -> (- 2 ^ 31 <= us < 2 ^ 31)%Z ->
  let b := storage_header_as_bytes (storage_header_new p s us e) in
  length b = 16 /\ firstn 4 b = quad_bytes p /\ u32le_at b 4 = s /\
  (Z.of_N (u32le_at b 8) = us mod 2 ^ 32)%Z /\ skipn 12 b = quad_bytes e /\
  storage_header_from_prefix (b ++ rest) =
    Some {| pattern := p; secs := s; msecs := us; ecu := e |}.
Proof. exact storage_header_roundtrip. Qed.
Print Assumptions C04_storage_header_roundtrip.

Theorem C04_std_header_roundtrip : forall (ht mc : byte) (len : N) (rest : bytes),
  (len < 2 ^ 16)%N ->
  let b := std_header_as_bytes (std_header_new ht mc len) in
  length b = 4 /\ firstn 2 b = [ht; mc] /\ u16_at b 2 = len /\
  std_header_from_prefix (b ++ rest) =
    Some {| header_type := ht; message_counter := mc; std_length := len |}.
Proof. exact std_header_roundtrip. Qed.
Print Assumptions C04_std_header_roundtrip.

Theorem C04_ext_header_roundtrip : forall (m n : byte) (a c : quad) (rest : bytes),
  let b := ext_header_as_bytes (ext_header_new m n a c) in
  b = [m; n] ++ quad_bytes a ++ quad_bytes c /\
  ext_header_from_prefix (b ++ rest) = Some {| msin := m; noar := n; apid := a; ctid := c |}.
Proof. exact ext_header_roundtrip. Qed.
Print Assumptions C04_ext_header_roundtrip.

Theorem C04_bytes_roundtrip : forall b : bytes,
  (16 <= length b ->
     exists h, storage_header_from_prefix b = Some h /\ storage_header_as_bytes h = firstn 16 b) /\
  (4 <= length b ->
     exists h, std_header_from_prefix b = Some h /\ std_header_as_bytes h = firstn 4 b) /\
  (10 <= length b ->
     exists h, ext_header_from_prefix b = Some h /\ ext_header_as_bytes h = firstn 10 b).
Proof. exact bytes_roundtrip. Qed.
Print Assumptions C04_bytes_roundtrip.

Example C04_example :
  storage_header_as_bytes (storage_header_new quad_ECU1 305419896 (-2) quad_ECU1) =
  [x45; x43; x55; x31; x78; x56; x34; x12; xfe; xff; xff; xff; x45; x43; x55; x31].
Proof. vm_compute. reflexivity. Qed.

(** C05: the header type byte. *)
Theorem C05_htyp_build_query : forall (ext msb ecu ses ts : bool) (version : byte),
  let h := htyp_new ext msb ecu ses ts version in
  is_extended_header h = ext /\ is_msb_first h = msb /\ is_with_ecu_id h = ecu /\
  is_with_session_id h = ses /\ is_with_timestamp h = ts /\
  (Strings.Byte.to_N (htyp_version h) = Strings.Byte.to_N version mod 8)%N.
Proof. exact htyp_new_spec. Qed.
Print Assumptions C05_htyp_build_query.

Theorem C05_htyp_query_build : forall h : byte,
  is_extended_header h = flag h 0 /\ is_msb_first h = flag h 1 /\ is_with_ecu_id h = flag h 2 /\
  is_with_session_id h = flag h 3 /\ is_with_timestamp h = flag h 4 /\
  (Strings.Byte.to_N (htyp_version h) = Strings.Byte.to_N h / 32)%N /\
  htyp_new (is_extended_header h) (is_msb_first h) (is_with_ecu_id h)
           (is_with_session_id h) (is_with_timestamp h) (htyp_version h) = h.
Proof. exact flags_spec. Qed.
Print Assumptions C05_htyp_query_build.

Example C05_example : htyp_new true false false false true x01 = x31.
Proof. vm_compute. reflexivity. Qed.

(** C06: optional fields are found where the header type says. *)
Theorem C06_accessors_layout : forall (m rest : bytes) (ecu seid ts : option bytes)
    (ext : option ext_header) (pl : bytes),
  valid_message m ->
  field4 ecu -> field4 seid -> field4 ts ->
  flag (nth 16 m x00) 0 = present ext -> flag (nth 16 m x00) 2 = present ecu ->
  flag (nth 16 m x00) 3 = present seid -> flag (nth 16 m x00) 4 = present ts ->
  skipn 20 m = opt_bytes ecu ++ opt_bytes seid ++ opt_bytes ts ++ ext_bytes ext ++ pl ->
  exists e, storage_try_read (m ++ rest) = Ret (Some (length m, e)) /\
    ecu_id (dlt e) = Ret (option_map (fun b => u32be_at b 0) ecu) /\
    timestamp (dlt e) = Ret (option_map (fun b => u32be_at b 0) ts) /\
    extended_header (dlt e) = Ret ext /\
    payload (dlt e) = Ret (Some pl).
Proof. exact layout_accessors. Qed.
Print Assumptions C06_accessors_layout.

Example C06_example :
  let ext := {| msin := x41; noar := x00; apid := Quad x41 x50 x50 x31; ctid := Quad x43 x54 x58 x31 |} in
  valid_message m1 /\ flag (nth 16 m1 x00) 0 = true /\ flag (nth 16 m1 x00) 2 = false /\
  flag (nth 16 m1 x00) 3 = false /\ flag (nth 16 m1 x00) 4 = true /\
  skipn 20 m1 = opt_bytes None ++ opt_bytes None ++ opt_bytes (Some [x00; x00; x01; x00]) ++
                ext_bytes (Some ext) ++ hello.
Proof. split; [exact m1_valid|]. vm_compute. repeat split. Qed.

(** C07: the exact condition under which each accessor panics; false as stated. *)
Theorem C07_accessors_panic_exactly_partial : forall e : dlt_entry,
  (ecu_id e = Panic <-> flag (header_type (header e)) 2 = true /\ length (tail e) < 4) /\
  timestamp e <> Panic /\
  (extended_header e = Panic <->
     flag (header_type (header e)) 0 = true /\ length (tail e) < announced (header_type (header e))) /\
  (payload e = Panic <->
     flag (header_type (header e)) 0 = true /\ length (tail e) < announced (header_type (header e))) /\
  ecu_id e <> Fuel /\ timestamp e <> Fuel /\ extended_header e <> Fuel /\ payload e <> Fuel.
Proof. exact accessors_panic_iff. Qed.
Print Assumptions C07_accessors_panic_exactly_partial.

Theorem C07_refuted : exists (b : bytes) (n : nat) (e : storage_entry),
  storage_try_read b = Ret (Some (n, e)) /\
  ecu_id (dlt e) = Panic /\ extended_header (dlt e) = Panic /\ payload (dlt e) = Panic.
Proof. exact accessors_panic_witness. Qed.
Print Assumptions C07_refuted.

(** C08: bits 5 and 7 of the message info byte are ignored; the rest is as in the standard. *)
Theorem C08_decode_exact_partial : forall b : byte,
  let n := Strings.Byte.to_N b in
  is_verbose b = flag b 0 /\
  msin_info b = (flag b 0, standard_type (n mod 32 + 64 * ((n / 64) mod 2))) /\
  message_type b = standard_type (n mod 32 + 64 * ((n / 64) mod 2)) /\
  (flag b 5 = false -> flag b 7 = false -> message_type b = standard_type n) /\
  (flag b 5 || flag b 7 = true -> standard_type n <> None -> message_type b <> standard_type n).
Proof. exact decode_exact. Qed.
Print Assumptions C08_decode_exact_partial.

Theorem C08_refuted : exists b : byte,
  standard_type (Strings.Byte.to_N b) = Some (TypeLog LogWarn) /\
  message_type b = Some (TypeLog LogFatal).
Proof. exact decode_witness. Qed.
Print Assumptions C08_refuted.

(** C09: round trip of message types: exactly when the constructor's address ends in the
    type number and the info number has bit 1 clear; so it fails in every build. *)
Theorem C09_create_info_exact_partial : forall (A : ctor_addrs) (v : bool) (t : msg_type),
  fst (msin_info (create_message_type A v t)) = v /\
  (msin_info (create_message_type A v t) = (v, Some t) <->
   (Strings.Byte.to_N (addr_of A t) mod 8 = fst (numbers t) /\ N.land (snd (numbers t)) 2 = 0)%N).
Proof. exact create_info_exact. Qed.
Print Assumptions C09_create_info_exact_partial.

Theorem C09_refuted : forall A : ctor_addrs, exists (v : bool) (t : msg_type),
  msin_info (create_message_type A v t) <> (v, Some t).
Proof. exact create_info_fails. Qed.
Print Assumptions C09_refuted.

Example C09_example :  (* log messages of level info survive if the address is 8-aligned *)
  msin_info (create_message_type (uniform x40) true (TypeLog LogInfo)) = (true, Some (TypeLog LogInfo)) /\
  msin_info (create_message_type (uniform x40) true (TypeControl CtlRequest)) = (true, Some (TypeLog LogFatal)).
Proof. vm_compute. split; reflexivity. Qed.

(** C10: lengths are bounded by 65551, which exceeds max_len = 65535. *)
Theorem C10_len_bound_partial :
  N.of_nat dlt_max_len = 65535%N /\
  (forall b n e, storage_try_read b = Ret (Some (n, e)) -> (20 <= N.of_nat (storage_len e) <= 65551)%N) /\
  (forall b n e, entry_try_read b = Ret (Some (n, e)) -> entry_len e = n /\ (4 <= N.of_nat n <= 65535)%N).
Proof.
  assert (M : N.of_nat dlt_max_len = 65535%N) by (unfold dlt_max_len; apply N2Nat.id).
  split; [exact M|]. split; [exact parsed_len_le|]. intros b n e H. destruct (entry_len_le b n e H) as [E L]. split; [exact E|].
  rewrite <- E. split.
  { unfold entry_try_read in H. destruct (std_header_from_prefix b) as [h|]; [|discriminate H]. cbv zeta in H. unfold std_header_size in H.
    destruct (Nat.ltb_spec (std_header_length h) 4) as [Q|Q]; [discriminate H|]. cbn [orb] in H.
    destruct (length b <? std_header_length h); [discriminate H|]. destruct (slice b 4 (std_header_length h)); [|discriminate H|discriminate H].
    cbn [obind] in H. injection H as <- <-. lia. }
   rewrite <- M. revert L. generalize dlt_max_len. intros. lia.
Qed.
Print Assumptions C10_len_bound_partial.

Theorem C10_refuted : exists b n e,
  storage_try_read b = Ret (Some (n, e)) /\ (N.of_nat dlt_max_len < N.of_nat (storage_len e))%N.
Proof. destruct too_long as (b & n & e & H & L). exists b, n, e. split; [exact H|]. revert L. generalize dlt_max_len. intros. lia. Qed.
Print Assumptions C10_refuted.
