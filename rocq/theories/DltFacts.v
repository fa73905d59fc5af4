(** Facts about DltModel.v. *)
From Verif Require Import Base DltModel MatchModel Spec BaseFacts.
From Coq Require Import ZifyBool ZifyNat ZifyN.
Ltac Zify.zify_post_hook ::= Z.div_mod_to_equations.

(** Split off the first bytes of [b], given a length bound in the context. *)
Ltac peel b :=
  destruct b as [|? b]; [cbn [length] in *; lia|].

(** The entry shown by the first bytes of [m]. *)
Definition entry_of (m : bytes) : storage_entry := {|
  sheader := {| pattern := Quad (nth 0 m x00) (nth 1 m x00) (nth 2 m x00) (nth 3 m x00);
                secs := u32le_at m 4;
                msecs := i32_of_u32 (u32le_at m 8);
                ecu := Quad (nth 12 m x00) (nth 13 m x00) (nth 14 m x00) (nth 15 m x00) |};
  dlt := {| header := {| header_type := nth 16 m x00; message_counter := nth 17 m x00;
                         std_length := u16_at m 18 |};
            tail := skipn 20 m |}
|}.

Lemma u16_at_lt m k : (u16_at m k < 65536)%N.
Proof.
  unfold u16_at, byte_at. fold (bN (nth k m x00)) (bN (nth (k+1) m x00)).
  pose proof (bN_lt (nth k m x00)). pose proof (bN_lt (nth (k + 1) m x00)). lia.
Qed.
Lemma u32le_at_lt m k : (u32le_at m k < 4294967296)%N.
Proof.
  unfold u32le_at, byte_at.
  fold (bN (nth k m x00)) (bN (nth (k+1) m x00)) (bN (nth (k+2) m x00)) (bN (nth (k+3) m x00)).
  pose proof (bN_lt (nth k m x00)). pose proof (bN_lt (nth (k + 1) m x00)).
  pose proof (bN_lt (nth (k+2) m x00)). pose proof (bN_lt (nth (k + 3) m x00)). lia.
Qed.

Lemma denotes_entry_of m : 20 <= length m -> denotes (entry_of m) m.
Proof.
  intros H. do 20 peel m.
  unfold denotes. cbn [entry_of sheader dlt pattern secs msecs ecu header header_type
    message_counter std_length tail].
  repeat split; try reflexivity.
  - apply i32_of_u32_mod, u32le_at_lt.
  - apply i32_of_u32_range, u32le_at_lt.
  - apply i32_of_u32_range, u32le_at_lt.
Qed.

Lemma i32_unique x y :
  (x mod 4294967296 = y mod 4294967296 -> -2147483648 <= x < 2147483648 ->
   -2147483648 <= y < 2147483648 -> x = y)%Z.
Proof. lia. Qed.

Lemma denotes_fun e e' m : denotes e m -> denotes e' m -> e = e'.
Proof.
  intros (P1 & S1 & M1 & R1 & E1 & H1 & C1 & L1 & T1) (P2 & S2 & M2 & R2 & E2 & H2 & C2 & L2 & T2).
  destruct e as [[p s ms ec] [[ht mc l] tl]], e' as [[p' s' ms' ec'] [[ht' mc' l'] tl']].
  cbn [sheader dlt pattern secs msecs ecu header header_type message_counter std_length tail] in *.
  assert (ms = ms') by (apply i32_unique; lia).
  assert (p = p').
  { destruct p, p'. cbn in P1, P2. rewrite <- P2 in P1. congruence. }
  assert (ec = ec').
  { destruct ec, ec'. cbn in E1, E2. rewrite <- E2 in E1. congruence. }
  subst. f_equal; f_equal; congruence.
Qed.

Lemma denotes_entry_of_iff e m : 20 <= length m -> (denotes e m <-> e = entry_of m).
Proof.
  intros H. split; intros D.
  - eapply denotes_fun; [exact D|]. now apply denotes_entry_of.
  - subst. now apply denotes_entry_of.
Qed.

(** The parser as a total function. *)
Definition parse (b : bytes) : option (nat * storage_entry) :=
  if length b <? 20 then None
  else
    let L := N.to_nat (u16_at b 18) in
    if (L <? 4) || (length b <? 16 + L) then None
    else Some (16 + L, entry_of (firstn (16 + L) b)).

Lemma entry_of_firstn b n : 20 <= n -> n <= length b ->
  entry_of (firstn n b) =
  {| sheader := sheader (entry_of b);
     dlt := {| header := header (dlt (entry_of b)); tail := firstn (n - 20) (skipn 20 b) |} |}.
Proof.
  intros Hn Hb. replace n with (20 + (n - 20)) at 1 by lia.
  do 20 peel b. reflexivity.
Qed.

Lemma storage_header_short b : length b < 16 -> storage_header_from_prefix b = None.
Proof.
  intros H. do 16 (destruct b as [|? b]; [reflexivity|]). cbn [length] in H. lia.
Qed.
Lemma std_header_short b : length b < 4 -> std_header_from_prefix b = None.
Proof.
  intros H. do 4 (destruct b as [|? b]; [reflexivity|]). cbn [length] in H. lia.
Qed.

Lemma storage_header_long b : 16 <= length b ->
  storage_header_from_prefix b = Some (sheader (entry_of b)).
Proof.
  intros H. do 16 peel b. cbn [storage_header_from_prefix entry_of sheader nth].
  unfold storage_header_new. do 2 f_equal.
  - unfold le32, be32, u32le_at, byte_at. cbn [nth Nat.add]. unfold bN. lia.
  - f_equal. unfold le32, be32, u32le_at, byte_at. cbn [nth Nat.add]. unfold bN. lia.
Qed.
Lemma std_header_long b : 20 <= length b ->
  std_header_from_prefix (skipn 16 b) = Some (header (dlt (entry_of b))).
Proof.
  intros H. do 20 peel b. cbn [skipn std_header_from_prefix entry_of dlt header nth].
  unfold std_header_new. do 2 f_equal.
  unfold be16, u16_at, byte_at. cbn [nth Nat.add]. unfold bN. lia.
Qed.

Lemma try_read_valid_parse b : storage_try_read_valid b = Ret (parse b).
Proof.
  unfold storage_try_read_valid, parse.
  destruct (Nat.ltb_spec (length b) 20) as [H|H].
  - destruct (le_lt_dec 16 (length b)) as [H16|H16].
    + rewrite (storage_header_long b H16).
      rewrite slice_from_ok by (unfold storage_header_size; lia).
      cbn [obind]. unfold entry_try_read.
      rewrite std_header_short; [reflexivity|].
      rewrite skipn_length. unfold storage_header_size. lia.
    + now rewrite storage_header_short.
  - rewrite storage_header_long by lia.
    rewrite slice_from_ok by (unfold storage_header_size; lia).
    cbn [obind]. unfold entry_try_read. unfold storage_header_size.
    rewrite std_header_long by lia.
    unfold std_header_length, std_header_size. cbn [entry_of dlt header std_length].
    set (L := N.to_nat (u16_at b 18)).
    assert (E : (length (skipn 16 b) <? L) = (length b <? 16 + L)).
    { rewrite skipn_length. do 2 bdestr; auto; lia. }
    rewrite E.
    destruct ((L <? 4) || (length b <? 16 + L)) eqn:C; [reflexivity|].
    apply orb_false_iff in C. destruct C as [C1 C2].
    apply Nat.ltb_ge in C1, C2.
    rewrite slice_ok by (rewrite ?skipn_length; lia).
    cbn [obind]. rewrite (entry_of_firstn b (16 + L)) by lia.
    rewrite skipn_skipn'. cbn [Nat.add sheader dlt header entry_of].
    replace (16 + L - 20) with (L - 4) by lia. reflexivity.
Qed.

Lemma is_prefix_firstn m b : is_prefix m b = true <-> firstn (length m) b = m.
Proof.
  revert b. induction m as [|x m IH]; intros b; cbn [is_prefix length firstn].
  - tauto.
  - destruct b as [|y b].
    + split; discriminate.
    + rewrite andb_true_iff, IH. destruct (byte_eqb_spec x y) as [->|Hn].
      * split; [intros [_ H]; congruence | intros H; split; congruence].
      * split; [intros [H _]; discriminate | intros H; congruence].
Qed.
Lemma is_prefix_app m b : is_prefix m b = true <-> exists post, b = m ++ post.
Proof.
  rewrite is_prefix_firstn. split.
  - intros H. exists (skipn (length m) b). rewrite <- H at 1. now rewrite firstn_skipn.
  - intros [post ->]. rewrite firstn_app, Nat.sub_diag, firstn_all. cbn. apply app_nil_r.
Qed.
Lemma is_prefix_len m b : is_prefix m b = true -> length m <= length b.
Proof. rewrite is_prefix_app. intros [p ->]. rewrite app_length. lia. Qed.

Lemma try_read_parse b :
  storage_try_read b = Ret (if is_prefix dlt_marker b then parse b else None).
Proof.
  unfold storage_try_read. destruct (Nat.ltb_spec (length b) 4) as [H|H].
  - destruct (is_prefix dlt_marker b) eqn:E; [|reflexivity].
    apply is_prefix_len in E. cbn in E. lia.
  - rewrite slice_ok by lia. cbn [obind skipn Nat.sub].
    destruct (bytes_eqb_spec (firstn 4 b) dlt_marker) as [E|E]; cbn [negb].
    + assert (P : is_prefix dlt_marker b = true) by now apply is_prefix_firstn.
      rewrite P. apply try_read_valid_parse.
    + destruct (is_prefix dlt_marker b) eqn:P; [|reflexivity].
      exfalso. apply E. now apply is_prefix_firstn in P.
Qed.

Lemma parse_some_iff b n e :
  parse b = Some (n, e) <->
  20 <= n /\ n <= length b /\ u16_at b 18 = N.of_nat (n - 16) /\ e = entry_of (firstn n b).
Proof.
  unfold parse. destruct (Nat.ltb_spec (length b) 20) as [H|H].
  - split; [discriminate|lia].
  - set (L := N.to_nat (u16_at b 18)).
    destruct ((L <? 4) || (length b <? 16 + L)) eqn:C.
    + split; [discriminate|]. intros (A & B & D & _). exfalso.
      apply orb_true_iff in C. destruct C as [C|C]; apply Nat.ltb_lt in C; lia.
    + apply orb_false_iff in C. destruct C as [C1 C2]. apply Nat.ltb_ge in C1, C2.
      split.
      * intros E. injection E as <- <-. repeat split; try lia.
      * intros (A & B & D & ->). assert (n = 16 + L) by lia. now subst n.
Qed.

Lemma u16_at_firstn b n k : k + 2 <= n -> u16_at (firstn n b) k = u16_at b k.
Proof.
  intros H. unfold u16_at, byte_at.
  assert (F : forall i, i < n -> nth i (firstn n b) x00 = nth i b x00).
  { clear. intros i Hi. revert b i Hi. induction n as [|n IH]; intros [|x b] [|i] Hi; cbn; try lia; auto.
    apply IH. lia. }
  rewrite !F by lia. reflexivity.
Qed.

Lemma firstn_4_firstn (b : bytes) n : 4 <= n -> firstn 4 (firstn n b) = firstn 4 b.
Proof. intros H. rewrite firstn_firstn. f_equal. lia. Qed.

Lemma u16_at_app m rest k : k + 2 <= length m -> u16_at (m ++ rest) k = u16_at m k.
Proof.
  intros H. unfold u16_at, byte_at. now rewrite !app_nth1 by lia.
Qed.

(** Reading at the marker: the exact acceptance condition. *)
Lemma parse_marker_iff b n e :
  is_prefix dlt_marker b = true ->
  (parse b = Some (n, e) <->
   exists m rest, b = m ++ rest /\ valid_message m /\ length m = n /\ denotes e m).
Proof.
  intros P. rewrite parse_some_iff. split.
  - intros (A & B & C & ->). exists (firstn n b), (skipn n b).
    assert (Ln : length (firstn n b) = n) by (rewrite firstn_length; lia).
    split; [now rewrite firstn_skipn|]. split; [|split; [exact Ln|]].
    + split; [|split].
      * rewrite firstn_4_firstn by lia. now apply is_prefix_firstn in P.
      * lia.
      * rewrite u16_at_firstn by lia. rewrite Ln. lia.
    + apply denotes_entry_of. lia.
  - intros (m & rest & -> & (V1 & V2 & V3) & <- & D).
    split; [lia|]. rewrite app_length. split; [lia|]. split.
    + rewrite u16_at_app by lia. exact V3.
    + rewrite firstn_app, Nat.sub_diag, firstn_all. cbn. rewrite app_nil_r.
      now apply denotes_entry_of_iff.
Qed.

Lemma try_read_iff b n e :
  storage_try_read b = Ret (Some (n, e)) <->
  exists m rest, b = m ++ rest /\ valid_message m /\ length m = n /\ denotes e m.
Proof.
  rewrite try_read_parse. destruct (is_prefix dlt_marker b) eqn:P.
  - split.
    + intros H. apply parse_marker_iff; [exact P|]. congruence.
    + intros H. f_equal. apply parse_marker_iff; assumption.
  - split; [discriminate|].
    intros (m & rest & -> & (V1 & V2 & V3) & _). exfalso.
    assert (is_prefix dlt_marker (m ++ rest) = true).
    { apply is_prefix_firstn. rewrite firstn_app.
      change (length dlt_marker) with 4.
      replace (4 - length m) with 0 by lia. cbn [firstn]. now rewrite app_nil_r. }
    congruence.
Qed.

Lemma storage_len_denotes e m : valid_message m -> denotes e m -> storage_len e = length m.
Proof.
  intros (_ & V2 & V3) (_ & _ & _ & _ & _ & _ & _ & L & _).
  unfold storage_len, std_header_length, storage_header_size. rewrite L, V3. lia.
Qed.

Lemma parse_len b n e : parse b = Some (n, e) -> storage_len e = n.
Proof.
  rewrite parse_some_iff. intros (A & B & C & ->).
  unfold storage_len, std_header_length, storage_header_size.
  cbn [entry_of dlt header std_length]. rewrite u16_at_firstn by lia. rewrite C. lia.
Qed.

(** Determinism of the decomposition into a valid message and the rest. *)
Lemma valid_prefix_unique m rest m' rest' :
  m ++ rest = m' ++ rest' -> valid_message m -> valid_message m' -> m = m' /\ rest = rest'.
Proof.
  intros E V V'.
  assert (L : length m = length m').
  { assert (u16_at m 18 = u16_at m' 18).
    { rewrite <- (u16_at_app m rest) by (destruct V as (_&?&_); lia).
      rewrite E. apply u16_at_app. destruct V' as (_&?&_); lia. }
    destruct V as (_&?&?), V' as (_&?&?). lia. }
  split.
  - apply (f_equal (firstn (length m))) in E.
    rewrite firstn_app, Nat.sub_diag, firstn_all in E. cbn in E.
    rewrite L, firstn_app, Nat.sub_diag, firstn_all in E. cbn in E.
    now rewrite !app_nil_r in E.
  - apply (f_equal (skipn (length m))) in E.
    rewrite skipn_app, Nat.sub_diag, skipn_all in E. cbn in E.
    rewrite L, skipn_app, Nat.sub_diag, skipn_all in E. now cbn in E.
Qed.

(** Plain [DltEntry] (without storage header). *)
Lemma entry_try_read_total b : exists r, entry_try_read b = Ret r.
Proof.
  unfold entry_try_read. destruct (std_header_from_prefix b) as [h|]; [|eauto].
  destruct ((std_header_length h <? std_header_size) || (length b <? std_header_length h)) eqn:C; [eauto|].
  apply orb_false_iff in C. destruct C as [C1 C2]. apply Nat.ltb_ge in C1, C2.
  rewrite slice_ok by lia. cbn. eauto.
Qed.

Lemma entry_try_read_iff b n e :
  entry_try_read b = Ret (Some (n, e)) <->
  4 <= n /\ n <= length b /\ u16_at b 2 = N.of_nat n /\
  header e = {| header_type := nth 0 b x00; message_counter := nth 1 b x00; std_length := u16_at b 2 |} /\
  tail e = firstn (n - 4) (skipn 4 b).
Proof.
  unfold entry_try_read. destruct (le_lt_dec 4 (length b)) as [H|H].
  - assert (Hh : std_header_from_prefix b =
      Some {| header_type := nth 0 b x00; message_counter := nth 1 b x00; std_length := u16_at b 2 |}).
    { do 4 peel b. cbn [std_header_from_prefix nth]. unfold std_header_new. do 2 f_equal.
      unfold be16, u16_at, byte_at. cbn [nth Nat.add]. unfold bN. lia. }
    rewrite Hh. unfold std_header_length, std_header_size. cbn [std_length].
    set (L := N.to_nat (u16_at b 2)).
    destruct ((L <? 4) || (length b <? L)) eqn:C.
    + split; [discriminate|]. intros (A & B & D & _). exfalso.
      apply orb_true_iff in C. destruct C as [C|C]; apply Nat.ltb_lt in C; lia.
    + apply orb_false_iff in C. destruct C as [C1 C2]. apply Nat.ltb_ge in C1, C2.
      rewrite slice_ok by lia. cbn [obind]. split.
      * intros E. injection E as <- <-. cbn [header tail]. repeat split; lia.
      * intros (A & B & D & E1 & E2). assert (n = L) by lia. subst n.
        destruct e as [eh et]. cbn [header tail] in *. now subst.
  - rewrite std_header_short by lia. split; [discriminate|lia].
Qed.
