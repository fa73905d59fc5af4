(** Property C140: what one damaged message costs its readers. *)
From Coq Require Import Sorted.
From Verif Require Import LayoutFacts FindFacts ReadSpec Base CodecFacts DltModel MatchModel Spec Samples DltIterFacts ReadFacts AppendFacts.

Lemma firstn_cat {A} (x y : list A) : firstn (length x) (x ++ y) = x.
Proof. rewrite firstn_app, Nat.sub_diag, firstn_all. apply app_nil_r. Qed.

(** The only marker in [d], if any, is at its start. *)
Definition only_at_start (d : bytes) : Prop := forall k, occurs_at the_pattern d k -> k = 0.

(** The messages of [ms] that begin at [o] or later. *)
Definition from_offset (o : nat) (ms : list (nat * bytes)) : list (nat * bytes) :=
  filter (fun p => o <=? fst p) ms.

Lemma with_offsets_cat (ms1 ms2 : list bytes) : forall k,
  with_offsets (@length byte) k (ms1 ++ ms2) =
  with_offsets (@length byte) k ms1 ++ with_offsets (@length byte) (k + length (concat ms1)) ms2.
Proof.
  induction ms1 as [|m ms IH]; intros k; cbn [app with_offsets concat length]; [now rewrite Nat.add_0_r|].
  rewrite IH, app_length, Nat.add_assoc. reflexivity.
Qed.
Lemma with_offsets_from (ms : list bytes) : forall k o, o <= k -> from_offset o (with_offsets (@length byte) k ms) = with_offsets (@length byte) k ms.
Proof.
  induction ms as [|m ms IH]; intros k o H; [reflexivity|]. unfold from_offset in *. cbn [with_offsets filter fst].
  destruct (Nat.leb_spec o k); [|lia]. now rewrite IH by lia.
Qed.

(** Cutting [c] bytes off such a file leaves garbage without a marker and the later messages. *)
Lemma cut_clean (ms : list bytes) : Forall only_at_start ms -> forall c k,
  exists g rest, skipn c (concat ms) = g ++ concat rest /\ ~ occurs_in the_pattern g /\ (exists front, ms = front ++ rest) /\
    (c <= length (concat ms) -> with_offsets (@length byte) (k + c + length g) rest = from_offset (k + c) (with_offsets (@length byte) k ms)).
Proof.
  induction 1 as [|m ms C F IH]; intros c k.
  - exists [], []. split; [now rewrite skipn_nil|]. split; [exact not_in_nil|]. split; [now exists []|]. reflexivity.
  - destruct (Nat.eq_dec c 0) as [->|Hc].
    + exists [], (m :: ms). split; [reflexivity|]. split; [exact not_in_nil|]. split; [now exists []|]. intros _. cbn [length].
      rewrite !Nat.add_0_r. now rewrite with_offsets_from.
    + destruct (le_lt_dec (length m) c) as [L|L].
      * destruct (IH (c - length m) (k + length m)) as (g & rest & E & N & (fr & ->) & W). exists g, rest. split; [|split; [exact N|split; [now exists (m :: fr)|]]].
        -- cbn [concat]. now rewrite skipn_app, skipn_all2 by exact L.
        -- cbn [concat]. rewrite app_length. intros H. replace (k + c) with (k + length m + (c - length m)) by lia. rewrite W by lia.
           unfold from_offset. cbn [with_offsets filter fst]. destruct (Nat.leb_spec (k + length m + (c - length m)) k); [|reflexivity].
           exfalso. lia.
      * exists (skipn c m), ms. split; [|split; [|split; [now exists [m]|]]].
        -- cbn [concat]. rewrite skipn_app. now replace (c - length m) with 0 by lia.
        -- intros [i (p & q & E & L')]. assert (X : c + i = 0); [|lia]. apply C. exists (firstn c m ++ p), q. split.
           ++ rewrite <- app_assoc, <- E. symmetry. apply firstn_skipn.
           ++ rewrite app_length, firstn_length. lia.
        -- intros _. rewrite skipn_length. unfold from_offset. cbn [with_offsets filter fst]. destruct (Nat.leb_spec (k + c) k); [lia|].
           replace (k + c + (length m - c)) with (k + length m) by lia. symmetry. apply with_offsets_from. lia.
Qed.

Definition after_gap (g : bytes) (ms : list bytes) : list (bytes * bytes) :=
  match ms with [] => [] | m :: ms' => (g, m) :: bare ms' end.
Definition gap_end (g : bytes) (ms : list bytes) : bytes := match ms with [] => g | _ => [] end.
Lemma after_gap_layout g ms : layout (after_gap g ms) (gap_end g ms) = g ++ concat ms.
Proof. destruct ms as [|m ms]; cbn [after_gap gap_end layout concat]; [now rewrite app_nil_r|]. now rewrite layout_bare. Qed.
Lemma after_gap_placed g ms k : placed k (after_gap g ms) = with_offsets (@length byte) (k + length g) ms.
Proof. destruct ms as [|m ms]; [reflexivity|]. cbn [after_gap placed with_offsets]. now rewrite placed_bare. Qed.
Lemma after_gap_ok g ms : ~ occurs_in the_pattern g -> Forall valid_message ms -> parts_ok (after_gap g ms) /\ ~ occurs_in the_pattern (gap_end g ms).
Proof.
  intros N F. destruct F as [|m ms V F]; cbn [after_gap gap_end]; [split; [constructor|exact N]|].
  split; [|exact not_in_nil]. constructor; [now split|now apply bare_ok].
Qed.
Lemma bare_layout_app ms parts last : layout (bare ms ++ parts) last = concat ms ++ layout parts last.
Proof. induction ms as [|m ms IH]; [reflexivity|]. cbn. rewrite <- app_assoc. f_equal. exact IH. Qed.
Lemma bare_placed_app ms parts : forall k, placed k (bare ms ++ parts) = with_offsets (@length byte) k ms ++ placed (k + length (concat ms)) parts.
Proof.
  induction ms as [|m ms IH]; intros k; cbn [bare map app placed with_offsets concat length]; [now rewrite Nat.add_0_r|].
  rewrite Nat.add_0_r, app_length, Nat.add_assoc. f_equal. apply IH.
Qed.

(** Messages [ms1], garbage, messages [ms2]. *)
Lemma gap_read ms1 g ms2 : Forall valid_message ms1 -> ~ occurs_in the_pattern g -> Forall valid_message ms2 ->
  exists l, dltit_offset (concat ms1 ++ g ++ concat ms2) = Ret l /\
    shows l (with_offsets (@length byte) 0 ms1 ++ with_offsets (@length byte) (length (concat ms1) + length g) ms2).
Proof.
  intros F1 N F2. destruct (after_gap_ok g ms2 N F2) as [OK NL].
  destruct (layout_read (bare ms1 ++ after_gap g ms2) (gap_end g ms2)) as (l & E & S & _); [apply Forall_app; split; [now apply bare_ok|exact OK]|exact NL|].
  exists l. rewrite bare_layout_app, after_gap_layout in E. split; [exact E|].
  rewrite bare_placed_app, after_gap_placed in S. exact S.
Qed.

Lemma no_start_no_marker d : only_at_start d -> firstn 4 d <> the_pattern -> ~ occurs_in the_pattern d.
Proof.
  intros C N [i O]. rewrite (C i O) in O. destruct O as (p & q & -> & L). destruct p; [|discriminate]. apply N. reflexivity.
Qed.

Lemma occurs_in_front x ms i : Forall valid_message ms -> i < length x ->
  occurs_at the_pattern (x ++ concat ms) i -> occurs_at the_pattern x i.
Proof.
  intros F Hi O. destruct F as [|m ms V F]; [cbn [concat] in O; now rewrite app_nil_r in O|].
  assert (O' := O). apply occ_occurs in O'; [|cbn; lia].
  assert (Q : occ dlt_marker (x ++ concat (m :: ms)) (length x) = true).
  { apply occ_occurs; [cbn; lia|]. destruct V as (V & V20 & _). exists x, (skipn 4 m ++ concat ms). split; [|reflexivity].
    cbn [concat]. rewrite app_assoc with (l := the_pattern). rewrite <- V, firstn_skipn. reflexivity. }
  pose proof (no_overlap_occ dlt_marker _ i (length x) dlt_marker_no_overlap O' Q Hi) as L. change (length dlt_marker) with 4 in L.
  destruct O as (p & q & E & <-). exists p, (firstn (length x - length p - 4) q).
  split; [|reflexivity].
  apply (f_equal (firstn (length x))) in E. rewrite firstn_cat in E. rewrite E at 1.
  rewrite firstn_app, firstn_all2 by lia. f_equal. rewrite firstn_app, firstn_all2 by (cbn [the_pattern length]; lia). reflexivity.
Qed.
Lemma covered (ms : list bytes) : forall k i, k <= i < k + length (concat ms) ->
  exists j m, In (j, m) (with_offsets (@length byte) k ms) /\ j <= i < j + length m.
Proof.
  induction ms as [|m ms IH]; intros k i H; cbn [concat length] in H; [lia|]. rewrite app_length in H. cbn [with_offsets].
  destruct (le_lt_dec (k + length m) i) as [L|L].
  - destruct (IH (k + length m) i ltac:(lia)) as (j & m' & I & J). exists j, m'. split; [now right|exact J].
  - exists k, m. split; [now left|lia].
Qed.

Lemma greedy_intro b ms :
  StronglySorted (fun p q => fst p + length (snd p) <= fst q) ms ->
  (forall k m, In (k, m) ms -> message_at b k m) ->
  (forall i m, message_at b i m -> exists k m', In (k, m') ms /\ k <= i < k + length m') -> greedy b 0 ms.
Proof.
  intros SS A B. split; [intros k m I; split; [lia|now apply A]|]. split; [exact SS|].
  intros i m M _. destruct (B i m M) as (k & m' & I & J). destruct (Nat.eq_dec i k) as [->|N].
  - left. now rewrite (message_at_fun b k m m' M (A k m' I)).
  - right. exists k, m'. split; [exact I|lia].
Qed.

Lemma gap_search ms1 g ms2 : Forall valid_message ms1 -> only_at_start g -> Forall valid_message ms2 ->
  (g <> [] -> forall m, ~ message_at (concat ms1 ++ g ++ concat ms2) (length (concat ms1)) m) ->
  exists l, search_all (concat ms1 ++ g ++ concat ms2) = Ret l /\
    shows l (with_offsets (@length byte) 0 ms1 ++ with_offsets (@length byte) (length (concat ms1) + length g) ms2).
Proof.
  intros F1 C F2 H. set (b := concat ms1 ++ g ++ concat ms2) in *.
  assert (Eb : b = layout (bare ms1 ++ after_gap g ms2) (gap_end g ms2)) by (unfold b; now rewrite bare_layout_app, after_gap_layout).
  assert (VS : Forall (fun p => valid_message (snd p)) (bare ms1 ++ after_gap g ms2)).
  { apply Forall_app. split; [unfold bare; apply Forall_map; exact F1|]. destruct F2 as [|m ms V F]; [constructor|].
    constructor; [exact V|unfold bare; apply Forall_map; exact F]. }
  destruct (search_exact b 0 (S (length b)) (S (length b)) ltac:(lia) ltac:(lia)) as (l & ms & E & Sh & _ & U).
  exists l. split; [exact E|]. rewrite <- after_gap_placed, <- (Nat.add_0_l (length (concat ms1))), <- bare_placed_app.
  match goal with |- shows l ?x => replace x with ms; [exact Sh|symmetry; apply U] end. apply greedy_intro.
  - apply placed_sorted.
  - intros k m I. rewrite Eb. now apply placed_message.
  - intros i m [V O]. rewrite bare_placed_app, after_gap_placed, Nat.add_0_l.
    destruct (le_lt_dec (length (concat ms1)) i) as [L|L].
    2: { destruct (covered ms1 0 i ltac:(lia)) as (j & m' & I & J). exists j, m'. split; [apply in_or_app; now left|exact J]. }
    destruct (le_lt_dec (length (concat ms1) + length g) i) as [L2|L2].
    + assert (H0 : i < length b). { destruct O as (p & q & E' & <-). rewrite E', !app_length. destruct V as (_ & V & _). lia. }
      unfold b in H0. rewrite !app_length in H0.
      destruct (covered ms2 (length (concat ms1) + length g) i ltac:(lia)) as (j & m' & I & J). exists j, m'. split; [apply in_or_app; now right|exact J].
    + exfalso. assert (i = length (concat ms1)).
      { assert (X : i - length (concat ms1) = 0); [|lia]. apply C. apply (occurs_in_front g ms2); [exact F2|lia|].
        destruct V as (V & _). destruct O as (p & q & E' & <-). unfold b in E'.
        exists (skipn (length (concat ms1)) p), (skipn 4 m ++ q). split; [|apply skipn_length].
        apply (f_equal (skipn (length (concat ms1)))) in E'. rewrite (skipn_app_exact (concat ms1) _ _ eq_refl) in E'. rewrite E'.
        rewrite skipn_app. replace (length (concat ms1) - length p) with 0 by lia. cbn [skipn]. f_equal.
        rewrite app_assoc. f_equal. rewrite <- V. symmetry. apply firstn_skipn. }
      subst i. apply (H ltac:(intros ->; cbn [length] in L2; lia) m). now split.
Qed.

(** A message [m] at the damaged place: behind it garbage without a marker and the later messages. *)
Lemma overwritten ms1 ms2 d m : Forall valid_message ms2 -> Forall only_at_start ms2 -> only_at_start d ->
  message_at (concat ms1 ++ d ++ concat ms2) (length (concat ms1)) m ->
  exists g rest, d ++ concat ms2 = m ++ g ++ concat rest /\ ~ occurs_in the_pattern g /\ Forall valid_message rest /\
    with_offsets (@length byte) (length (concat ms1) + length m + length g) rest =
    from_offset (length (concat ms1) + length m) (with_offsets (@length byte) (length (concat ms1) + length d) ms2).
Proof.
  intros F2 C2 Cd.
  intros [V (p & q & E & Lp)].
  assert (Ep : p = concat ms1 /\ d ++ concat ms2 = m ++ q).
  { split; [apply (f_equal (firstn (length p))) in E|apply (f_equal (skipn (length p))) in E].
    - rewrite Lp in E at 1. rewrite (firstn_cat (concat ms1)), (firstn_cat p) in E. congruence.
    - rewrite Lp in E at 1. rewrite (skipn_app_exact (concat ms1) _ _ eq_refl), (skipn_app_exact p _ _ eq_refl) in E. congruence. }
  destruct Ep as [-> Ed]. clear E Lp.
  destruct (cut_clean (d :: ms2) ltac:(now constructor) (length m) (length (concat ms1))) as (g & rest & Eg & N & (fr & Efr) & W).
  cbn [concat] in Eg, W. rewrite Ed in Eg, W. rewrite (skipn_app_exact m q _ eq_refl) in Eg. subst q.
  specialize (W ltac:(rewrite !app_length; lia)).
  assert (L20 : 20 <= length m) by apply V.
  assert (FR : Forall valid_message rest).
  { destruct fr as [|d' fr]; cbn [app] in Efr.
    - exfalso. subst rest. cbn [concat] in Ed. apply (f_equal (@length byte)) in Ed. rewrite !app_length in Ed. lia.
    - injection Efr as _ ->. now apply Forall_app in F2. }
  exists g, rest. split; [exact Ed|]. split; [exact N|]. split; [exact FR|]. rewrite W.
  unfold from_offset at 1. cbn [with_offsets filter fst]. destruct (Nat.leb_spec (length (concat ms1) + length m) (length (concat ms1))); [lia|reflexivity].
Qed.

(** Reading: a message overwritten by any bytes [d] (with no further marker in them).
    If the marker is gone, exactly that message is lost. If the bytes there read as a
    message [m], it is delivered, and the messages it reaches into are lost with it.
    Otherwise everything after it is lost. *)
Theorem C140_reading : forall (ms1 ms2 : list bytes) (d : bytes),
  Forall valid_message ms1 -> Forall valid_message ms2 -> Forall only_at_start ms2 -> only_at_start d ->
  let k := length (concat ms1) in
  let b := concat ms1 ++ d ++ concat ms2 in
  let earlier := with_offsets (@length byte) 0 ms1 in
  let later := with_offsets (@length byte) (k + length d) ms2 in
  (firstn 4 d <> the_pattern ->
     exists l, dltit_offset b = Ret l /\ shows l (earlier ++ later)) /\
  (forall m, message_at b k m ->
     exists l, dltit_offset b = Ret l /\ shows l (earlier ++ (k, m) :: from_offset (k + length m) later)) /\
  (firstn 4 d = the_pattern -> (forall m, ~ message_at b k m) ->
     exists l, dltit_offset b = Ret l /\ shows l earlier).
Proof.
  intros ms1 ms2 d F1 F2 C2 Cd. cbv zeta. split; [|split].
  - intros N. apply gap_read; [exact F1|now apply no_start_no_marker|exact F2].
  - intros m M. destruct (overwritten ms1 ms2 d m F2 C2 Cd M) as (g & rest & Ed & N & FR & W). rewrite Ed. destruct M as [V _].
    destruct (gap_read (ms1 ++ [m]) g rest) as (l & El & S); [apply Forall_app; split; [exact F1|now constructor]|exact N|exact FR|].
    exists l. rewrite concat_app in El, S. cbn [concat] in El, S. rewrite app_nil_r in El, S. rewrite <- app_assoc in El.
    split; [exact El|]. rewrite with_offsets_cat, app_length, W, <- app_assoc in S. exact S.
  - intros P NM. destruct (corrupt_stops (bare ms1) [] (d ++ concat ms2)) as (l & El & S); [now apply bare_ok|exact not_in_nil| | |].
    + assert (4 <= length d). { apply (f_equal (@length byte)) in P. rewrite firstn_length in P. change (length the_pattern) with 4 in P. lia. }
      rewrite firstn_app. replace (4 - length d) with 0 by lia. cbn [firstn]. now rewrite app_nil_r.
    + apply unreadable_try_read. intros m rest E V. apply (NM m). split; [exact V|]. exists (concat ms1), rest. now rewrite E.
    + exists l. cbn [app] in El. rewrite placed_bare in S. split; [|exact S].
      rewrite <- El. f_equal. rewrite <- (app_nil_r (bare ms1)) at 1. now rewrite bare_layout_app.
Qed.
Print Assumptions C140_reading.


(** Searching: likewise, but bytes that do not read cost only the damaged message. *)
Theorem C140_searching : forall (ms1 ms2 : list bytes) (d : bytes),
  Forall valid_message ms1 -> Forall valid_message ms2 -> Forall only_at_start ms2 -> only_at_start d ->
  let k := length (concat ms1) in
  let b := concat ms1 ++ d ++ concat ms2 in
  let earlier := with_offsets (@length byte) 0 ms1 in
  let later := with_offsets (@length byte) (k + length d) ms2 in
  ((forall m, ~ message_at b k m) \/ d = [] ->
     exists l, search_all b = Ret l /\ shows l (earlier ++ later)) /\
  (forall m, message_at b k m ->
     exists l, search_all b = Ret l /\ shows l (earlier ++ (k, m) :: from_offset (k + length m) later)).
Proof.
  intros ms1 ms2 d F1 F2 C2 Cd. cbv zeta. split.
  - intros NM. apply gap_search; [exact F1|exact Cd|exact F2|intros D; destruct NM as [NM|NM]; [exact NM|congruence]].
  - intros m M. destruct (overwritten ms1 ms2 d m F2 C2 Cd M) as (g & rest & Ed & N & FR & W). rewrite Ed. destruct M as [V _].
    destruct (gap_search (ms1 ++ [m]) g rest) as (l & El & S); [apply Forall_app; split; [exact F1|now constructor]|intros i O; exfalso; apply N; now exists i|exact FR| |].
    + intros G m' [(V' & V20 & _) (p & q & E & Lp)]. apply N. rewrite <- (Nat.add_0_r (length _)) in Lp.
      destruct (occurs_in_front g rest 0 FR) as (p' & q' & E' & L'); [destruct g; [congruence|cbn; lia]| |exists 0, p', q'; now split].
      exists [], (skipn 4 m' ++ q). split; [|reflexivity]. cbn [app]. apply (f_equal (skipn (length (concat (ms1 ++ [m]))))) in E.
      rewrite (skipn_app_exact (concat (ms1 ++ [m])) _ _ eq_refl) in E. rewrite E, (skipn_app_exact p) by lia.
      rewrite <- V'. rewrite app_assoc. now rewrite firstn_skipn.
    + exists l. rewrite concat_app in El, S. cbn [concat] in El, S. rewrite app_nil_r in El, S. rewrite <- app_assoc in El.
      split; [exact El|]. rewrite with_offsets_cat, app_length, W, <- app_assoc in S. exact S.
Qed.
Print Assumptions C140_searching.

(** Damage that leaves the marker and a fitting length (in time, identifier, header or payload): no other message changes. *)
Theorem C140_content : forall (ms1 ms2 : list bytes) (d : bytes),
  Forall valid_message ms1 -> Forall valid_message ms2 -> Forall only_at_start ms2 -> only_at_start d -> valid_message d ->
  let k := length (concat ms1) in
  let b := concat ms1 ++ d ++ concat ms2 in
  exists l l', dltit_offset b = Ret l /\ search_all b = Ret l' /\
    shows l (with_offsets (@length byte) 0 (ms1 ++ d :: ms2)) /\ shows l' (with_offsets (@length byte) 0 (ms1 ++ d :: ms2)).
Proof.
  intros ms1 ms2 d F1 F2 C2 Cd V. cbv zeta.
  assert (M : message_at (concat ms1 ++ d ++ concat ms2) (length (concat ms1)) d) by (split; [exact V|now exists (concat ms1), (concat ms2)]).
  destruct (C140_reading ms1 ms2 d F1 F2 C2 Cd) as (_ & R & _). destruct (R d M) as (l & E & Sh).
  destruct (C140_searching ms1 ms2 d F1 F2 C2 Cd) as (_ & R'). destruct (R' d M) as (l' & E' & Sh').
  exists l, l'. split; [exact E|]. split; [exact E'|]. rewrite with_offsets_cat. cbn [with_offsets Nat.add].
  rewrite with_offsets_from in Sh, Sh' by lia. now split.
Qed.
Print Assumptions C140_content.

Lemma only_at_start_check d : forallb (fun i => negb (occ dlt_marker d (Datatypes.S i))) (seq 0 (length d)) = true -> only_at_start d.
Proof.
  intros H [|i] O; [reflexivity|]. exfalso. rewrite forallb_forall in H.
  assert (L : i < length d) by (destruct O as (p & q & E & L); apply (f_equal (@length byte)) in E; rewrite !app_length in E; lia).
  apply occ_occurs in O; [|cbn; lia]. specialize (H i ltac:(apply in_seq; lia)). change the_pattern with dlt_marker in O. rewrite O in H. discriminate.
Qed.

(** The second of three messages: its marker lost; its length larger than it is, so that it reaches into the third; its length too small to be one. *)
Definition m2_marker : bytes := x00 :: skipn 1 m2.
Definition m2_longer : bytes := firstn 19 m2 ++ [x0b] ++ skipn 20 m2.
Definition m2_short : bytes := firstn 19 m2 ++ [x03] ++ skipn 20 m2.
Example C140_example :
  Forall valid_message [m1] /\ Forall valid_message [m3] /\ Forall only_at_start [m3] /\
  only_at_start m2_marker /\ firstn 4 m2_marker <> the_pattern /\
  only_at_start m2_longer /\ (exists m, message_at (concat [m1] ++ m2_longer ++ concat [m3]) (length m1) m /\ length m = length m2 + 4 /\
    from_offset (length m1 + length m) (with_offsets (@length byte) (length m1 + length m2_longer) [m3]) = []) /\
  only_at_start m2_short /\ firstn 4 m2_short = the_pattern /\ storage_try_read (m2_short ++ m3) = Ret None.
Proof.
  split; [constructor; [exact m1_valid|constructor]|]. split; [constructor; [exact m3_valid|constructor]|].
  split; [constructor; [apply only_at_start_check; reflexivity|constructor]|].
  split; [apply only_at_start_check; reflexivity|]. split; [discriminate|].
  split; [apply only_at_start_check; reflexivity|]. split.
  - exists (m2_longer ++ firstn 4 m3). split; [|split; reflexivity]. split; [vm_compute; repeat split; lia|].
    exists m1, (skipn 4 m3). now split.
  - split; [apply only_at_start_check; reflexivity|]. split; reflexivity.
Qed.
