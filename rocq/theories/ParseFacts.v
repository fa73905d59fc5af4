(** Lemmas in the form used by P_Parse.v. *)
From Verif Require Import Base DltModel MatchModel Spec BaseFacts DltFacts CodecFacts.
From Coq Require Import ZifyBool ZifyNat ZifyN.
Ltac Zify.zify_post_hook ::= Z.div_mod_to_equations.

Lemma parse_total : forall b,
  (exists r, storage_try_read b = Ret r) /\ (exists r, storage_try_read_valid b = Ret r) /\
  (exists r, entry_try_read b = Ret r).
Proof.
  intros b. split; [|split].
  - rewrite try_read_parse. eauto.
  - rewrite try_read_valid_parse. eauto.
  - apply entry_try_read_total.
Qed.

Lemma parse_exact : forall b n e,
  storage_try_read b = Ret (Some (n, e)) <->
  (firstn 4 b = the_pattern /\ 20 <= length b /\
   (4 <= u16_at b 18)%N /\ n = 16 + N.to_nat (u16_at b 18) /\ n <= length b /\
   denotes e (firstn n b)).
Proof.
  intros b n e. rewrite try_read_parse. destruct (is_prefix dlt_marker b) eqn:P.
  - assert (P' := P). rewrite is_prefix_firstn in P'. cbn [dlt_marker length] in P'.
    split.
    + intros H. assert (H' : parse b = Some (n, e)) by congruence.
      apply parse_some_iff in H'. destruct H' as (A & B & C & ->).
      repeat split; try lia; try exact P'; apply denotes_entry_of; rewrite firstn_length; lia.
    + intros (_ & H20 & H4 & Hn & Hl & D). f_equal. apply parse_some_iff.
      repeat split; try lia. apply denotes_entry_of_iff; [rewrite firstn_length; lia|exact D].
  - split; [discriminate|]. intros (A & _).
    assert (is_prefix dlt_marker b = true) by now apply is_prefix_firstn. congruence.
Qed.

Lemma parse_len_exact : forall b n e,
  storage_try_read b = Ret (Some (n, e)) -> storage_len e = n.
Proof.
  intros b n e. rewrite try_read_parse. destruct (is_prefix dlt_marker b); [|discriminate].
  intros H. apply (parse_len b). congruence.
Qed.

Lemma entry_parse_exact : forall b n e,
  entry_try_read b = Ret (Some (n, e)) <->
  (4 <= length b /\ (4 <= u16_at b 2)%N /\ n = N.to_nat (u16_at b 2) /\ n <= length b /\
   header_type (header e) = nth 0 b x00 /\ message_counter (header e) = nth 1 b x00 /\
   std_length (header e) = u16_at b 2 /\ tail e = skipn 4 (firstn n b)).
Proof.
  intros b n e. rewrite entry_try_read_iff.
  assert (S : forall k, 4 <= k -> k <= length b -> firstn (k - 4) (skipn 4 b) = skipn 4 (firstn k b)).
  { intros k H H'. rewrite skipn_firstn_comm. reflexivity. }
  destruct e as [[t c l] tl]. cbn [header tail header_type message_counter std_length].
  split.
  - intros (A & B & C & D & ->). injection D as -> -> ->. rewrite S by lia. repeat split; lia.
  - intros (A & B & -> & D & -> & -> & -> & ->). rewrite S by lia. repeat split; lia.
Qed.

Lemma parse_local : forall b n e,
  storage_try_read b = Ret (Some (n, e)) ->
  (forall b', firstn n b' = firstn n b -> storage_try_read b' = Ret (Some (n, e))) /\
  (forall k, k < n -> storage_try_read (firstn k b) = Ret None).
Proof.
  intros b n e H. split.
  - intros b' E. apply try_read_iff in H. destruct H as (m & rest & -> & V & L & D).
    apply try_read_iff. exists m, (skipn n b').
    rewrite (firstn_app_exact m rest n L) in E.
    rewrite <- E. rewrite firstn_skipn. rewrite E. auto.
  - intros k Hk. destruct (parse_total (firstn k b)) as ([r R] & _). rewrite R.
    destruct r as [[n' e']|]; [|reflexivity]. exfalso.
    apply parse_exact in R, H. destruct R as (_ & A & B & C & D & _), H as (_ & A' & B' & C' & D' & _).
    rewrite firstn_length in A, D.
    rewrite u16_at_firstn in C by lia. lia.
Qed.

Lemma layout_accessors : forall m rest ecu seid ts ext pl,
  valid_message m ->
  field4 ecu -> field4 seid -> field4 ts ->
  flag (nth 16 m x00) 0 = present ext -> flag (nth 16 m x00) 2 = present ecu ->
  flag (nth 16 m x00) 3 = present seid -> flag (nth 16 m x00) 4 = present ts ->
  skipn 20 m = opt_bytes ecu ++ opt_bytes seid ++ opt_bytes ts ++ ext_bytes ext ++ pl ->
  exists e, storage_try_read (m ++ rest) = Ret (Some (length m, e)) /\
    ecu_id (dlt e) = Ret (option_map (fun b => u32be_at b 0) ecu) /\
    timestamp (dlt e) = Ret (option_map (fun b => u32be_at b 0) ts) /\
    extended_header (dlt e) = Ret ext /\
    payload (dlt e) = Ret (Some pl).
Proof.
  intros m rest ecu seid ts ext pl V He Hs Ht F0 F2 F3 F4 T.
  exists (entry_of m). split.
  - apply try_read_iff. exists m, rest.
    split; [reflexivity|]. split; [exact V|]. split; [reflexivity|].
    apply denotes_entry_of. apply V.
  - now apply (accessors_layout (dlt (entry_of m)) ecu seid ts ext pl).
Qed.

(** Panic conditions. *)
Lemma accessors_panic_iff : forall e : dlt_entry,
  (ecu_id e = Panic <-> flag (header_type (header e)) 2 = true /\ length (tail e) < 4) /\
  timestamp e <> Panic /\
  (extended_header e = Panic <->
     flag (header_type (header e)) 0 = true /\ length (tail e) < announced (header_type (header e))) /\
  (payload e = Panic <->
     flag (header_type (header e)) 0 = true /\ length (tail e) < announced (header_type (header e))) /\
  ecu_id e <> Fuel /\ timestamp e <> Fuel /\ extended_header e <> Fuel /\ payload e <> Fuel.
Proof.
  intros e. rewrite ecu_id_exact, timestamp_exact, extended_header_exact, payload_exact. cbv zeta.
  set (h := header_type (header e)).
  destruct (flag h 0), (flag h 2); repeat bdestr; repeat split;
    try discriminate; try tauto; try lia; intros [? ?]; try discriminate; lia.
Qed.

Lemma parsed_len_le : forall b n e,
  storage_try_read b = Ret (Some (n, e)) -> (20 <= N.of_nat (storage_len e) <= 65551)%N.
Proof.
  intros b n e H. rewrite (parse_len_exact b n e H).
  apply parse_exact in H. pose proof (u16_at_lt b 18). lia.
Qed.
Lemma entry_len_le : forall b n e,
  entry_try_read b = Ret (Some (n, e)) -> entry_len e = n /\ entry_len e <= dlt_max_len.
Proof.
  intros b n e H. apply entry_parse_exact in H.
  destruct H as (_ & A & B & _ & _ & _ & C & _).
  unfold entry_len, std_header_length. rewrite C.
  pose proof (u16_at_lt b 2). split; [lia|]. unfold dlt_max_len. lia.
Qed.

(** A message of any announced length. *)
Definition big_message (L : N) : bytes :=
  [x44; x4c; x54; x01] ++ repeat x00 12 ++ [x00; x00] ++ be16_bytes L ++ repeat x00 (N.to_nat L - 4).
Lemma big_message_valid L : (4 <= L < 65536)%N ->
  valid_message (big_message L) /\ length (big_message L) = 16 + N.to_nat L.
Proof.
  intros H.
  assert (E : length (big_message L) = 16 + N.to_nat L).
  { unfold big_message, be16_bytes. rewrite !app_length, !repeat_length. cbn [length]. lia. }
  split; [|exact E]. split; [reflexivity|]. rewrite E. split; [lia|].
  unfold u16_at, byte_at, big_message. cbn [app repeat nth Nat.add be16_bytes].
  fold (bN (u8 (L / 256))) (bN (u8 L)). rewrite !bN_u8. lia.
Qed.

Lemma too_long : exists b n e,
  storage_try_read b = Ret (Some (n, e)) /\ dlt_max_len < storage_len e.
Proof.
  destruct (big_message_valid 65535) as [V E]; [lia|].
  exists (big_message 65535), (length (big_message 65535)), (entry_of (big_message 65535)).
  assert (R : storage_try_read (big_message 65535) =
              Ret (Some (length (big_message 65535), entry_of (big_message 65535)))).
  { apply try_read_iff. exists (big_message 65535), []. rewrite app_nil_r.
    split; [reflexivity|]. split; [exact V|]. split; [reflexivity|].
    apply denotes_entry_of, V. }
  split; [exact R|]. rewrite (parse_len_exact _ _ _ R), E. unfold dlt_max_len. lia.
Qed.

Lemma storage_header_roundtrip : forall (p e : quad) (s : N) (us : Z) (rest : bytes),
  (s < 2 ^ 32)%N -> (- 2 ^ 31 <= us < 2 ^ 31)%Z ->
  let b := storage_header_as_bytes (storage_header_new p s us e) in
  length b = 16 /\ firstn 4 b = quad_bytes p /\ u32le_at b 4 = s /\
  (Z.of_N (u32le_at b 8) = us mod 2 ^ 32)%Z /\ skipn 12 b = quad_bytes e /\
  storage_header_from_prefix (b ++ rest) =
    Some {| pattern := p; secs := s; msecs := us; ecu := e |}.
Proof.
  intros p e s us rest Hs Hu b.
  change (2 ^ 32)%N with 4294967296%N in Hs. change (2 ^ 32)%Z with 4294967296%Z.
  change (2 ^ 31)%Z with 2147483648%Z in Hu.
  assert (R : storage_header_from_prefix (b ++ rest) =
    Some {| pattern := p; secs := s; msecs := us; ecu := e |})
    by (apply storage_header_round; cbn [secs msecs storage_header_new]; lia).
  destruct p as [p0 p1 p2 p3], e as [e0 e1 e2 e3].
  assert (S : u32le_at b 4 = s /\ u32le_at b 8 = u32_of_i32 us).
  { unfold b, u32le_at, byte_at, storage_header_as_bytes, storage_header_new, le32_bytes, be32_bytes.
    cbn [pattern secs msecs ecu quad_bytes rev app nth Nat.add].
    repeat match goal with |- context [Strings.Byte.to_N ?x] => fold (bN x) end.
    rewrite !bN_u8. pose proof (u32_of_i32_lt us). split; lia. }
  destruct S as [S1 S2].
  split; [reflexivity|]. split; [reflexivity|]. split; [exact S1|].
  split; [rewrite S2; unfold u32_of_i32; lia|]. split; [reflexivity|exact R].
Qed.

Lemma std_header_roundtrip : forall (ht mc : byte) (len : N) (rest : bytes),
  (len < 2 ^ 16)%N ->
  let b := std_header_as_bytes (std_header_new ht mc len) in
  length b = 4 /\ firstn 2 b = [ht; mc] /\ u16_at b 2 = len /\
  std_header_from_prefix (b ++ rest) =
    Some {| header_type := ht; message_counter := mc; std_length := len |}.
Proof.
  intros ht mc len rest H b. change (2 ^ 16)%N with 65536%N in H.
  split; [reflexivity|]. split; [reflexivity|]. split.
  - unfold b, u16_at, byte_at, std_header_as_bytes, std_header_new, be16_bytes.
    cbn [header_type message_counter std_length nth Nat.add].
    fold (bN (u8 (len / 256))) (bN (u8 len)). rewrite !bN_u8. lia.
  - apply std_header_round. cbn. lia.
Qed.

Lemma ext_header_roundtrip : forall (m n : byte) (a c : quad) (rest : bytes),
  let b := ext_header_as_bytes (ext_header_new m n a c) in
  b = [m; n] ++ quad_bytes a ++ quad_bytes c /\
  ext_header_from_prefix (b ++ rest) = Some {| msin := m; noar := n; apid := a; ctid := c |}.
Proof. intros m n a c rest b. split; [reflexivity|]. apply ext_header_round. Qed.

Lemma bytes_roundtrip : forall b : bytes,
  (16 <= length b ->
     exists h, storage_header_from_prefix b = Some h /\ storage_header_as_bytes h = firstn 16 b) /\
  (4 <= length b ->
     exists h, std_header_from_prefix b = Some h /\ std_header_as_bytes h = firstn 4 b) /\
  (10 <= length b ->
     exists h, ext_header_from_prefix b = Some h /\ ext_header_as_bytes h = firstn 10 b).
Proof.
  intros b. split; [|split]; intros H.
  - pose proof (storage_header_long b H) as E. eexists. split; [exact E|].
    now apply storage_header_bytes.
  - assert (exists h, std_header_from_prefix b = Some h) as [h E] by (do 4 peel b; cbn; eauto).
    exists h. split; [exact E|]. now apply std_header_bytes.
  - destruct (ext_header_some b H) as [h E]. exists h. split; [exact E|]. now apply ext_header_bytes.
Qed.

Lemma accessors_panic_witness : exists (b : bytes) (n : nat) (e : storage_entry),
  storage_try_read b = Ret (Some (n, e)) /\
  ecu_id (dlt e) = Panic /\ extended_header (dlt e) = Panic /\ payload (dlt e) = Panic.
Proof.
  exists ([x44; x4c; x54; x01] ++ repeat x00 12 ++ [x25; x06; x00; x05; xaa]), 21. eexists.
  vm_compute. repeat split.
Qed.

Lemma decode_exact : forall b : byte,
  let n := Strings.Byte.to_N b in
  is_verbose b = flag b 0 /\
  msin_info b = (flag b 0, standard_type (n mod 32 + 64 * ((n / 64) mod 2))) /\
  message_type b = standard_type (n mod 32 + 64 * ((n / 64) mod 2)) /\
  (flag b 5 = false -> flag b 7 = false -> message_type b = standard_type n) /\
  (flag b 5 || flag b 7 = true -> standard_type n <> None -> message_type b <> standard_type n).
Proof.
  intros b n. destruct (message_type_exact b) as [A B].
  split; [exact A|]. split; [unfold msin_info; now rewrite A, B|]. split; [exact B|].
  split; [apply message_type_agrees|apply message_type_differs].
Qed.

Lemma decode_witness : exists b : byte,
  standard_type (Strings.Byte.to_N b) = Some (TypeLog LogWarn) /\
  message_type b = Some (TypeLog LogFatal).
Proof. exists x31. vm_compute. split; reflexivity. Qed.

Lemma create_info_fails : forall A : ctor_addrs, exists (v : bool) (t : msg_type),
  msin_info (create_message_type A v t) <> (v, Some t).
Proof.
  intros A. exists true, (TypeLog LogError). intros H.
  apply create_info_exact in H. destruct H as [_ H]. discriminate H.
Qed.

Lemma len_bounds :
  (forall b n e, storage_try_read b = Ret (Some (n, e)) -> (20 <= N.of_nat (storage_len e) <= 65551)%N) /\
  (forall b n e, entry_try_read b = Ret (Some (n, e)) -> entry_len e = n /\ entry_len e <= dlt_max_len).
Proof. split; [exact parsed_len_le|exact entry_len_le]. Qed.
