(** dd_dlt (C46-C48, C55, C56). *)
From Verif Require Import Base DltModel MatchModel GenModel ToolsModel DdModel Spec BaseFacts DltFacts CodecFacts ParseFacts FindFacts IterFacts DltIterFacts.
From Coq Require Import ZifyBool ZifyNat ZifyN.
Ltac Zify.zify_post_hook ::= Z.div_mod_to_equations.

(** * The line writer *)
Definition taken (v : std_version) (tail : bytes) : bytes :=
  match v with
  | TakesSome => firstn lw_capacity tail
  | TakesNone => if lw_capacity <=? length tail then [] else tail
  end.
Definition accepted (v : std_version) (buf : bytes) : bytes :=
  match rfind [x0a] buf with
  | None => buf
  | Some i => firstn (i + 1) buf ++ taken v (skipn (i + 1) buf)
  end.
Definition lw_ok (w : line_writer) : Prop := length (pending w) <= lw_capacity.

Lemma cap_pos : 0 < lw_capacity.
Proof. unfold lw_capacity. lia. Qed.
Lemma flush_exit w : at_exit (flush_buf w) = at_exit w.
Proof. unfold at_exit, flush_buf. cbn. now rewrite app_nil_r. Qed.
Lemma bw_spec w buf : lw_ok w -> at_exit (fst (bw_write w buf)) = at_exit w ++ buf /\ lw_ok (fst (bw_write w buf)).
Proof.
  unfold lw_ok, bw_write. intros OK. generalize cap_pos. generalize dependent lw_capacity. intros cap OK CP.
  destruct (Nat.ltb_spec (length buf) (cap - length (pending w))) as [L|L].
  - cbn [fst at_exit sent pending]. unfold at_exit. cbn [sent pending]. rewrite app_assoc, app_length. split; [reflexivity|lia].
  - destruct (Nat.ltb_spec (cap - length (pending w)) (length buf)) as [L1|L1];
      destruct (Nat.leb_spec cap (length buf)) as [L2|L2]; cbn [fst]; unfold at_exit, flush_buf; cbn [sent pending app length].
    + rewrite app_nil_r. split; [reflexivity|lia].
    + split; [now rewrite <- app_assoc|lia].
    + assert (E : pending w = []) by (apply length_zero_iff_nil; lia). rewrite E, !app_nil_r. cbn. split; [reflexivity|lia].
    + rewrite app_length, app_assoc. split; [reflexivity|lia].
Qed.
Lemma completed_exit w : lw_ok w -> at_exit (flush_if_completed_line w) = at_exit w /\ lw_ok (flush_if_completed_line w).
Proof.
  intros OK. unfold flush_if_completed_line. destruct (rev (pending w)) as [|c r]; [auto|].
  destruct (byte_eqb c x0a); [|auto]. split; [apply flush_exit|]. unfold lw_ok. cbn. lia.
Qed.
Lemma taken_min (tail : bytes) : firstn (Nat.min lw_capacity (length tail)) tail = firstn lw_capacity tail.
Proof.
  destruct (Nat.min_spec lw_capacity (length tail)) as [[L ->]|[L ->]]; [reflexivity|].
  rewrite firstn_all. symmetry. now apply firstn_all2.
Qed.
Lemma write_spec v w buf : lw_ok w -> at_exit (write_ v w buf) = at_exit w ++ accepted v buf /\ lw_ok (write_ v w buf).
Proof.
  intros OK. unfold write_, lw_write, accepted. destruct (rfind [x0a] buf) as [i|].
  - cbn [fst flush_buf sent pending app length]. rewrite Nat.sub_0_r. unfold at_exit, lw_ok. cbn [sent pending].
    rewrite <- !app_assoc. unfold taken. destruct v; [|destruct (Nat.leb_spec lw_capacity (length (skipn (i + 1) buf)))].
    + rewrite taken_min. split; [reflexivity|]. rewrite firstn_length. lia.
    + split; [reflexivity|]. cbn [firstn length]. apply Nat.le_0_l.
    + rewrite taken_min, (firstn_all2 (skipn (i + 1) buf)) by (apply Nat.lt_le_incl; assumption). split; [reflexivity|]. apply Nat.lt_le_incl; assumption.
  - destruct (completed_exit w OK) as [E OK']. destruct (bw_spec (flush_if_completed_line w) buf OK') as [E1 OK1].
    split; [now rewrite E1, E|exact OK1].
Qed.
Lemma skipn_nl b k : occ [x0a] b k = true -> skipn k b = x0a :: skipn (k + 1) b.
Proof.
  intros O. apply is_prefix_app in O. destruct O as [p E]. rewrite E. cbn [app]. f_equal.
  rewrite <- skipn_skipn', E. reflexivity.
Qed.
Lemma nl_occ b : In x0a b -> exists k, occ [x0a] b k = true.
Proof.
  intros I. apply in_split in I. destruct I as (l1 & l2 & ->). exists (length l1).
  rewrite skipn_app, skipn_all, Nat.sub_diag. reflexivity.
Qed.
Lemma accepted_fits v buf : line_fits buf -> accepted v buf = buf.
Proof.
  intros F. unfold accepted. destruct (rfind [x0a] buf) as [i|] eqn:R; [|reflexivity].
  apply rfind_some in R; [|cbn; lia]. destruct R as [O L]. pose proof (skipn_nl _ _ O) as Q.
  enough (length (skipn (i + 1) buf) < 1024) as L1.
  { unfold taken. unfold lw_capacity. rewrite (firstn_all2 (skipn (i + 1) buf)) by lia.
    destruct (Nat.leb_spec (Pos.to_nat 1024) (length (skipn (i + 1) buf))); [lia|]. destruct v; apply firstn_skipn. }
  apply (F (firstn i buf)).
  - cbn [app]. rewrite <- Q. symmetry. apply firstn_skipn.
  - intros I. apply nl_occ in I. destruct I as [k K]. rewrite occ_skipn in K. specialize (L (i + 1 + k) ltac:(lia)). congruence.
Qed.
Lemma short_fits buf : length buf <= 1024 -> line_fits buf.
Proof. intros L pre post E _. apply (f_equal (@length byte)) in E. rewrite !app_length in E. cbn [length] in E. lia. Qed.

(** * Messages *)
Definition dd_type (A : ctor_addrs) : byte := create_message_type A true (TypeLog LogInfo).
Definition wire (A : ctor_addrs) (e a : quad) (len count : N) (pl : bytes) : bytes :=
  the_pattern ++ le32_bytes (count / 100) ++ le32_bytes (count mod 100 * 10000) ++ quad_bytes e ++
  [x31; u8 count] ++ be16_bytes len ++ be32_bytes (count * 100 mod u32_mod) ++
  [dd_type A; x00] ++ quad_bytes a ++ quad_bytes a ++ pl.

Lemma quad_ok q : quad_of_slice (quad_bytes q) = Ret q.
Proof. now destruct q. Qed.
Lemma checked_ok m md n : (m = Release \/ (n < md)%N) -> checked m md n = Ret (if (n <? md)%N then n else (n mod md)%N).
Proof. intros H. unfold checked. destruct (N.ltb_spec n md); [reflexivity|]. destruct H as [->|H]; [reflexivity|lia]. Qed.
Lemma small_fits b : length b <= 40 -> line_fits b.
Proof. intros. apply short_fits. lia. Qed.
Lemma us_bytes c : (c < 100)%N -> u32_of_i32 (Z.of_N c * 10000) = (c * 10000)%N.
Proof. intros H. unfold u32_of_i32. lia. Qed.

Lemma dd_message_spec v A m e a psize count buf w len : lw_ok w ->
  checked m u16_mod (4 + 10 + 4 + psize) = Ret len ->
  (m = Release \/ (count * 100 < u32_mod)%N) -> (count + 1 < u32_mod)%N ->
  exists w', dd_message v A m (quad_bytes e) (quad_bytes a) psize count buf w = (w', Some (count + 1)%N) /\
    lw_ok w' /\ at_exit w' = at_exit w ++ wire A e a len count (accepted v buf).
Proof.
  intros OK CL CT CC. unfold dd_message. rewrite !quad_ok. cbn [obind]. rewrite CL. cbn [obind].
  assert (T : checked m u32_mod (count * 100) = Ret (count * 100 mod u32_mod)%N).
  { rewrite checked_ok by exact CT. destruct (N.ltb_spec (count * 100) u32_mod); [|reflexivity]. now rewrite N.mod_small. }
  rewrite T. rewrite checked_ok by (right; exact CC). destruct (N.ltb_spec (count + 1) u32_mod); [|lia].
  set (shb := storage_header_as_bytes _). set (hb := std_header_as_bytes _). set (eb := ext_header_as_bytes _).
  set (tb := be32_bytes _).
  destruct (write_spec v w shb OK) as [E1 OK1]. destruct (write_spec v _ hb OK1) as [E2 OK2].
  destruct (write_spec v _ tb OK2) as [E3 OK3]. destruct (write_spec v _ eb OK3) as [E4 OK4].
  destruct (write_spec v _ buf OK4) as [E5 OK5].
  eexists. split; [reflexivity|]. split; [exact OK5|]. rewrite E5, E4, E3, E2, E1.
  rewrite (accepted_fits v eb), (accepted_fits v tb), (accepted_fits v hb), (accepted_fits v shb);
    try (apply small_fits; vm_compute; destruct e; destruct a; cbn; lia).
  rewrite <- !app_assoc. f_equal. unfold shb, hb, tb, eb, wire.
  unfold storage_header_as_bytes, storage_header_new, std_header_as_bytes, std_header_new, ext_header_as_bytes, ext_header_new.
  cbn [pattern secs msecs ecu header_type message_counter std_length msin noar apid ctid].
  rewrite us_bytes by (apply N.mod_lt; discriminate).
  change (htyp_new true false false false true x01) with x31. fold (dd_type A).
  cbn [quad_bytes the_pattern app]. rewrite <- !app_assoc. reflexivity.
Qed.

Fixpoint wires (v : std_version) (A : ctor_addrs) (e a : quad) (len count : N) (chunks : list bytes) : list bytes :=
  match chunks with
  | [] => []
  | c :: cs => wire A e a len count (accepted v c) :: wires v A e a len (count + 1) cs
  end.

Lemma dd_loop_spec v A m e a psize len rest : checked m u16_mod (4 + 10 + 4 + psize) = Ret len ->
  (N.of_nat (length rest) < psize)%N ->
  forall chunks count w fuel, lw_ok w -> Forall (fun c => N.of_nat (length c) = psize) chunks ->
  (m = Release \/ ((count + N.of_nat (length chunks)) * 100 < u32_mod + 100)%N) -> (count + N.of_nat (length chunks) < u32_mod)%N ->
  length chunks < fuel ->
  dd_loop v fuel A m (quad_bytes e) (quad_bytes a) psize count (concat chunks ++ rest) w =
    Ret (at_exit w ++ concat (wires v A e a len count chunks), DdDone (count + N.of_nat (length chunks))).
Proof.
  intros CL LR. induction chunks as [|c cs IH]; intros count w fuel OK F CT CC Hf; destruct fuel as [|fuel]; try lia; cbn [dd_loop].
  - cbn [concat app length wires]. destruct (Nat.ltb_spec (length rest) (N.to_nat psize)); [|lia].
    rewrite app_nil_r. do 3 f_equal. lia.
  - inversion F as [|x y F1 F2]; subst x y. cbn [concat]. rewrite <- app_assoc.
    destruct (Nat.ltb_spec (length (c ++ concat cs ++ rest)) (N.to_nat psize)) as [L|_]; [rewrite app_length in L; lia|].
    replace (N.to_nat psize) with (length c) by lia.
    rewrite firstn_app, firstn_all, Nat.sub_diag, skipn_app, skipn_all, Nat.sub_diag. cbn [firstn skipn app]. rewrite app_nil_r.
    cbn [length] in *.
    destruct (dd_message_spec v A m e a psize count c w len OK CL) as (w' & -> & OK' & E');
      [destruct CT as [CT|CT]; [now left|right; lia]|lia|].
    rewrite IH; [|exact OK'|exact F2|destruct CT as [CT|CT]; [now left|right; lia]|lia|lia]. cbn [wires concat]. rewrite E', <- app_assoc. do 3 f_equal. lia.
Qed.

(** * Reading back *)
Lemma wire_len A e a len count pl : length (wire A e a len count pl) = 34 + length pl.
Proof. unfold wire. destruct e, a. reflexivity. Qed.
Lemma wire_u16 A e a len count pl : (len < u16_mod)%N -> u16_at (wire A e a len count pl) 18 = len.
Proof.
  intros H. unfold wire, u16_at, byte_at. destruct e, a. unfold le32_bytes, be32_bytes, be16_bytes, the_pattern.
  cbn [rev quad_bytes app nth Nat.add]. fold (bN (u8 (len / 256))) (bN (u8 len)). rewrite !bN_u8. unfold u16_mod in H. lia.
Qed.
Lemma wire_valid A e a len count pl : (len < u16_mod)%N -> len = N.of_nat (18 + length pl) -> valid_message (wire A e a len count pl).
Proof.
  intros H ->. split; [reflexivity|]. rewrite wire_len, wire_u16 by exact H. split; lia.
Qed.

Lemma u8_self b : u8 (bN b) = b.
Proof. apply u8_eq. pose proof (bN_lt b). rewrite N.mod_small; lia. Qed.
(** What the reader sees in such a message. *)
Lemma wire_entry A e a len count pl : (len < u16_mod)%N -> (count < u32_mod)%N ->
  let x := entry_of (wire A e a len count pl) in
  ecu (sheader x) = e /\ secs (sheader x) = (count / 100)%N /\ msecs (sheader x) = Z.of_N (count mod 100 * 10000) /\
  message_counter (header (dlt x)) = u8 count /\ std_length (header (dlt x)) = len /\
  timestamp (dlt x) = Ret (Some (count * 100 mod u32_mod)%N) /\
  extended_header (dlt x) = Ret (Some {| msin := dd_type A; noar := x00; apid := a; ctid := a |}) /\
  payload (dlt x) = Ret (Some pl).
Proof.
  intros Hl Hc x.
  assert (HT : (count * 100 mod u32_mod < 4294967296)%N) by (apply N.mod_lt; discriminate).
  assert (HS : (count / 100 < 4294967296)%N) by (unfold u32_mod in Hc; lia).
  assert (HU : (count mod 100 * 10000 < 4294967296)%N) by lia.
  pose proof (wire_u16 A e a len count pl Hl) as W16.
  assert (LE : forall n (y : bytes), u32le_at (the_pattern ++ le32_bytes n ++ y) 4 = le32 (u8 n) (u8 (n / 256)) (u8 (n / 65536)) (u8 (n / 16777216))).
  { intros n y. unfold le32, be32, u32le_at, byte_at, le32_bytes, be32_bytes, the_pattern. cbn [rev app nth Nat.add]. unfold bN. lia. }
  assert (LE' : forall n n' (y : bytes), u32le_at (the_pattern ++ le32_bytes n ++ le32_bytes n' ++ y) 8 = le32 (u8 n') (u8 (n' / 256)) (u8 (n' / 65536)) (u8 (n' / 16777216))).
  { intros n n' y. unfold le32, be32, u32le_at, byte_at, le32_bytes, be32_bytes, the_pattern. cbn [rev app nth Nat.add]. unfold bN. lia. }
  assert (TL : tail (dlt x) = be32_bytes (count * 100 mod u32_mod) ++ [dd_type A; x00] ++ quad_bytes a ++ quad_bytes a ++ pl)
    by (unfold x, wire; destruct e, a; reflexivity).
  assert (HT31 : header_type (header (dlt x)) = x31) by (unfold x, wire; destruct e, a; reflexivity).
  split; [unfold x, wire; destruct e, a; reflexivity|].
  split; [unfold x; cbn [entry_of sheader secs]; unfold wire; rewrite LE; unfold le32; now apply be32_of_bytes|].
  split.
  { unfold x. cbn [entry_of sheader msecs]. unfold wire. rewrite LE'. unfold le32. rewrite be32_of_bytes by exact HU.
    unfold i32_of_u32. destruct (N.ltb_spec (count mod 100 * 10000) 2147483648); [reflexivity|lia]. }
  split; [unfold x, wire; destruct e, a; reflexivity|]. split; [exact W16|].
  set (ts := (count * 100 mod u32_mod)%N) in *.
  split.
  { unfold timestamp. rewrite HT31, TL. change (is_with_timestamp x31) with true. change (is_with_ecu_id x31) with false.
    change (is_with_session_id x31) with false. cbv iota zeta. unfold slice_from.
    change (0 <=? length (be32_bytes ts ++ [dd_type A; x00] ++ quad_bytes a ++ quad_bytes a ++ pl)) with true.
    cbn [length app be32_bytes skipn obind u32_from_prefix].
    destruct (Nat.ltb_spec (Datatypes.S (Datatypes.S (Datatypes.S (Datatypes.S (Datatypes.S (Datatypes.S (length (quad_bytes a ++ quad_bytes a ++ pl)))))))) 0); [lia|].
    do 2 f_equal. now apply be32_of_bytes. }
  split.
  { unfold extended_header. rewrite HT31, TL. change (is_extended_header x31) with true. change (ext_offset x31) with 4.
    cbn [negb]. unfold slice_from, be32_bytes. destruct a. reflexivity. }
  unfold payload. rewrite HT31, TL. change (is_extended_header x31) with true. change (ext_offset x31) with 4. cbv iota zeta.
  unfold slice_from, be32_bytes. destruct a. cbn [app quad_bytes length Nat.leb skipn obind ext_header_from_prefix Nat.add ext_header_size Nat.ltb].
  reflexivity.
Qed.
Lemma wires_nth v A e a len chunks : forall count i c, nth_error chunks i = Some c ->
  nth_error (wires v A e a len count chunks) i = Some (wire A e a len (count + N.of_nat i) (accepted v c)).
Proof.
  induction chunks as [|c0 cs IH]; intros count [|i] c H; try discriminate H; cbn [wires nth_error] in *.
  - injection H as <-. now rewrite N.add_0_r.
  - rewrite (IH _ _ _ H). do 2 f_equal. lia.
Qed.
Lemma wires_length v A e a len chunks : forall count, length (wires v A e a len count chunks) = length chunks.
Proof. induction chunks as [|c cs IH]; intros count; cbn [wires length]; [reflexivity|now rewrite IH]. Qed.
Lemma with_offsets_nth (ms : list bytes) n : Forall (fun m => length m = n) ms -> forall k i m, nth_error ms i = Some m ->
  nth_error (with_offsets (@length byte) k ms) i = Some (k + i * n, m).
Proof.
  induction 1 as [|m0 ms L F IH]; intros k [|i] m H; try discriminate H; cbn [with_offsets nth_error] in *.
  - injection H as <-. do 2 f_equal. lia.
  - rewrite (IH (k + length m0) i m H). do 2 f_equal. rewrite L. lia.
Qed.

(** * The size argument *)
Lemma digit_some c d : digit c = Some d <-> (d < 10)%N /\ c = u8 (48 + d).
Proof.
  unfold digit. split.
  - destruct (N.leb_spec 48 (bN c)); [|discriminate]. destruct (N.leb_spec (bN c) 57); [|discriminate]. cbn [andb].
    intros [= <-]. split; [lia|]. replace (48 + (bN c - 48))%N with (bN c) by lia. symmetry. apply u8_self.
  - intros [H ->]. rewrite bN_u8. rewrite N.mod_small by lia.
    destruct (N.leb_spec 48 (48 + d)); [|lia]. destruct (N.leb_spec (48 + d) 57); [|lia]. cbn [andb]. f_equal. lia.
Qed.
Definition value (ds : list N) (acc : N) : N := fold_left (fun n d => (10 * n + d)%N) ds acc.
Lemma value_mono ds : forall acc, (acc <= value ds acc)%N.
Proof. induction ds as [|d ds IH]; intros acc; cbn [value fold_left]; [lia|]. specialize (IH (10 * acc + d)%N). unfold value in IH. lia. Qed.
Lemma digits_some b : forall acc n, digits b acc = Some n <->
  exists ds, Forall (fun d => (d < 10)%N) ds /\ b = numeral ds /\ value ds acc = n /\ (ds = [] \/ (n < u16_mod)%N).
Proof.
  induction b as [|c b IH]; intros acc n; cbn [digits].
  - split.
    + intros [= <-]. exists []. repeat split; auto.
    + intros ([|d ds] & _ & E & V & _); [cbn in V; now rewrite V|discriminate].
  - split.
    + destruct (digit c) as [d|] eqn:D; [|discriminate]. apply digit_some in D. destruct D as [Hd ->]. cbv zeta.
      destruct (N.ltb_spec (acc * 10 + d) u16_mod) as [L|]; [|discriminate]. intros H. apply IH in H.
      destruct H as (ds & F & -> & V & B). exists (d :: ds). split; [now constructor|]. split; [reflexivity|].
      cbn [value fold_left]. replace (10 * acc + d)%N with (acc * 10 + d)%N by lia. split; [exact V|]. right.
      destruct B as [->|B]; [cbn in V; now rewrite <- V|exact B].
    + intros ([|d ds] & F & E & V & B); [discriminate|]. change (numeral (d :: ds)) with (u8 (48 + d) :: numeral ds) in E.
      assert (Ec : c = u8 (48 + d)) by congruence. assert (Eb : b = numeral ds) by congruence. subst c b.
      inversion F as [|x y Hd F']; subst x y. rewrite (proj2 (digit_some (u8 (48 + d)) d)) by auto. cbv zeta.
      cbn [value fold_left] in V. pose proof (value_mono ds (10 * acc + d)%N) as M. unfold value in M.
      destruct B as [B|B]; [discriminate|]. replace (acc * 10 + d)%N with (10 * acc + d)%N by lia.
      destruct (N.ltb_spec (10 * acc + d) u16_mod) as [L|L]; [|lia]. apply IH. exists ds. repeat split; auto.
Qed.
Lemma plus_not_digit ds c r : Forall (fun d => (d < 10)%N) ds -> numeral ds = c :: r -> c <> x2b.
Proof.
  destruct ds as [|d ds]; [discriminate|]. intros F E. inversion F as [|x y Hd _]; subst x y. change (numeral (d :: ds)) with (u8 (48 + d) :: numeral ds) in E.
  assert (Ec : u8 (48 + d) = c) by congruence. subst c.
  intros Q. apply (f_equal bN) in Q. rewrite bN_u8, N.mod_small in Q by lia. change (bN x2b) with 43%N in Q. lia.
Qed.
Lemma parse_u16_exact b n : parse_u16 b = Some n <->
  exists ds, ds <> [] /\ Forall (fun d => (d < 10)%N) ds /\ (b = numeral ds \/ b = x2b :: numeral ds) /\ decimal ds = n /\ (n < 65536)%N.
Proof.
  assert (D : forall b, b <> [] -> (digits b 0 = Some n <->
    exists ds, ds <> [] /\ Forall (fun d => (d < 10)%N) ds /\ b = numeral ds /\ decimal ds = n /\ (n < 65536)%N)).
  { intros b0 NE. rewrite digits_some. split.
    - intros (ds & F & E & V & B). exists ds. assert (ds <> []) by (intros ->; now apply NE).
      repeat split; auto. destruct B as [->|B]; [congruence|exact B].
    - intros (ds & NE' & F & E & V & B). exists ds. repeat split; auto. }
  assert (NP : forall b0, b0 <> [] -> (forall c r, b0 = c :: r -> c <> x2b) -> (digits b0 0 = Some n <->
    exists ds, ds <> [] /\ Forall (fun d => (d < 10)%N) ds /\ (b0 = numeral ds \/ b0 = x2b :: numeral ds) /\ decimal ds = n /\ (n < 65536)%N)).
  { intros b0 NE NP. rewrite (D b0 NE). split.
    - intros (ds & A1 & A2 & A3 & A4). exists ds. tauto.
    - intros (ds & A1 & A2 & [A3|A3] & A4); [exists ds; tauto|]. exfalso. now apply (NP _ _ A3). }
  destruct b as [|c r].
  - cbn [parse_u16]. split; [discriminate|]. intros (ds & NE & _ & [E|E] & _); [|discriminate]. destruct ds; [congruence|discriminate].
  - destruct (byte_eqb_spec c x2b) as [->|NE].
    + destruct r as [|c1 r]; cbn [parse_u16].
      * split; [discriminate|]. intros (ds & NE & F & [E|E] & _).
        -- symmetry in E. now apply (plus_not_digit ds _ _ F) in E.
        -- injection E as E. destruct ds; [congruence|discriminate].
      * rewrite D by discriminate. split.
        -- intros (ds & A1 & A2 & A3 & A4). exists ds. rewrite A3. tauto.
        -- intros (ds & A1 & A2 & [A3|A3] & A4); [symmetry in A3; now apply (plus_not_digit ds _ _ A2) in A3|].
           injection A3 as A3. exists ds. tauto.
    + replace (parse_u16 (c :: r)) with (digits (c :: r) 0).
      * apply NP; [discriminate|]. intros c' r' [= <- _]. exact NE.
      * destruct c; try reflexivity. congruence.
Qed.
