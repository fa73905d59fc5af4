(** Property theorems C24-C28, C50: pattern search. The regular expression engine is any
    [find_at] that is [leftmost] for a matching relation [M] (Spec.v). *)
From Verif Require Import Base DltModel MatchModel GenModel ToolsModel Spec Samples BaseFacts DltFacts FindFacts IterFacts DltIterFacts LayoutFacts GrepFacts GrepTools.
From Coq Require Import Sorted.

Lemma hit_spec M b off k v : hit M b off k v ->
  exists m s t, message_at b k m /\ denotes v m /\ M b s t /\ off <= s /\ inside (k, m) s t /\
    forall j, occurs_at the_pattern b j -> j + 4 <= s -> j <= k.
Proof.
  intros (n & s & e & C & A1 & A2 & A3 & A4 & A5 & A6). apply dcand_iff in C.
  destruct C as (m & C1 & <- & C2). exists m, s, e.
  split; [exact C1|]. split; [exact C2|]. split; [exact A2|]. split; [exact A1|].
  split; [split; [exact A3|exact A5]|].
  intros j O. apply A6. apply occ_occurs; [cbn; lia|exact O].
Qed.

(** C24 *)
Theorem C24_grep_sound : forall (M : matcher) find_at, leftmost M find_at ->
  forall b : bytes, (N.of_nat (length b) < 2 ^ 64 - 1)%N ->
  forall fuel off off' k e, grep_next DLT find_at fuel b off = Ret (off', Some (k, e)) ->
  exists m s t, message_at b k m /\ denotes e m /\ off' = k + length m /\
    M b s t /\ off <= s /\ inside (k, m) s t /\
    forall j, occurs_at the_pattern b j -> j + 4 <= s -> j <= k.
Proof.
  intros M fa LM b Hb fuel off off' k e H.
  destruct (grep_next_sound M fa LM b Hb _ _ _ _ _ H) as [Ht ->].
  destruct (hit_spec _ _ _ _ _ Ht) as (m & s & t & A & B & C & D & E & F). exists m, s, t.
  split; [exact A|]. split; [exact B|]. split; [now rewrite (storage_len_denotes e m (proj1 A) B)|].
  auto.
Qed.
Print Assumptions C24_grep_sound.

Example C24_example : leftmost (literal hello) (find_literal hello) /\
  exists e, grep_next DLT (find_literal hello) 200 (m2 ++ m1 ++ m2) 0 = Ret (68, Some (23, e)).
Proof. split; [apply literal_leftmost; cbn; lia|]. eexists. vm_compute. reflexivity. Qed.

(** C25: no panic for any pattern; termination for patterns without empty matches. *)
Theorem C25_grep_no_panic_partial : forall (M : matcher) find_at, leftmost M find_at ->
  forall b : bytes, (N.of_nat (length b) < 2 ^ 64 - 1)%N ->
  forall fuel off, grep_next DLT find_at fuel b off <> Panic.
Proof. intros M fa LM b Hb. exact (grep_next_no_panic M fa LM b Hb). Qed.
Print Assumptions C25_grep_no_panic_partial.

Theorem C25_grep_terminates_partial : forall (M : matcher) find_at, leftmost M find_at ->
  forall b : bytes, (N.of_nat (length b) < 2 ^ 64 - 1)%N -> never_empty M b ->
  forall off, exists l,
    collect (grep_next DLT find_at (S (length b)) b) (S (length b)) off = Ret l.
Proof.
  intros M fa LM b Hb NE off.
  destruct (grep_collect_run M fa LM b Hb (S (length b)) NE ltac:(lia) (S (length b)) off ltac:(lia)) as (l & E & _).
  now exists l.
Qed.
Print Assumptions C25_grep_terminates_partial.

(** The empty pattern never returns, even on a valid message. *)
Theorem C25_refuted : exists (M : matcher) find_at, leftmost M find_at /\
  valid_message m1 /\ forall fuel, grep_next DLT find_at fuel m1 0 = Fuel.
Proof.
  exists (fun b s e => s = e /\ s <= length b), (fun _ off => Some (off, off)).
  split; [exact empty_leftmost|]. split; [exact m1_valid|]. exact empty_diverges.
Qed.
Print Assumptions C25_refuted.

(** C26: strictly increasing for patterns without empty matches. *)
Theorem C26_grep_increasing_partial : forall (M : matcher) find_at, leftmost M find_at ->
  forall b : bytes, (N.of_nat (length b) < 2 ^ 64 - 1)%N -> never_empty M b ->
  forall off l, collect (grep_next DLT find_at (S (length b)) b) (S (length b)) off = Ret l ->
  StronglySorted (fun x y => fst x < fst y) l.
Proof.
  intros M fa LM b Hb NE off l H.
  destruct (grep_collect_run M fa LM b Hb (S (length b)) NE ltac:(lia) (S (length b)) off ltac:(lia)) as (l' & E & _ & S).
  congruence.
Qed.
Print Assumptions C26_grep_increasing_partial.

(** The pattern (?m)$ on a message followed by a line feed: the same message for ever. *)
Theorem C26_refuted : exists find_at b e, leftmost end_of_line find_at /\
  forall n, calls (grep_next DLT find_at (S (length b)) b) n 0 = Ret (repeat (Some (0, e)) n).
Proof.
  exists find_eol, m_eol, (entry_of m2). split; [exact eol_leftmost|].
  change (S (length m_eol)) with 25. intros n.
  assert (A : grep_next DLT find_eol 25 m_eol 0 = Ret (23, Some (0, entry_of m2))) by (vm_compute; reflexivity).
  assert (B : grep_next DLT find_eol 25 m_eol 23 = Ret (23, Some (0, entry_of m2))) by (vm_compute; reflexivity).
  assert (C : forall n, calls (grep_next DLT find_eol 25 m_eol) n 23 = Ret (repeat (Some (0, entry_of m2)) n)).
  { clear n. induction n as [|n IH]; [reflexivity|]. cbn [calls]. rewrite B, IH. reflexivity. }
  destruct n as [|n]; [reflexivity|]. cbn [calls]. rewrite A, C. reflexivity.
Qed.
Print Assumptions C26_refuted.

(** C27: exact on files whose markers are the message starts, for patterns without empty
    matches and without matches that cross a message border or a marker; "content" is
    everything behind the marker, not only the payload. *)
Theorem C27_grep_exact_partial : forall (M : matcher) find_at, leftmost M find_at ->
  forall parts last, (N.of_nat (length (layout parts last)) < 2 ^ 64 - 1)%N ->
  clean parts last -> never_empty M (layout parts last) ->
  no_crossing M (layout parts last) (placed 0 parts) ->
  exists l sel, grep_collect find_at (layout parts last) = Ret l /\ shows l sel /\
    StronglySorted (fun x y => fst x < fst y) sel /\
    forall p, In p sel <-> In p (placed 0 parts) /\
                           exists s e, M (layout parts last) s e /\ inside p s e.
Proof.
  intros M fa LM parts last Hb CL NE NC. unfold grep_collect.
  destruct (grep_collect_exact M fa LM parts last Hb CL NE NC (S (length (layout parts last))) ltac:(lia)
     (S (length (layout parts last))) 0 ltac:(lia)) as (sel & E & S & I).
  exists (entries sel), sel. split; [exact E|]. split; [|split; [exact S|]].
  - apply entries_shows, Forall_forall. intros [k m] H. apply I in H. destruct H as [H _].
    apply (placed_message parts last k m (proj1 CL) H).
  - intros p. rewrite I. split; intros [A (s & e & B)]; (split; [exact A|]); exists s, e.
    + split; apply B.
    + split; [apply B|]. split; [lia|apply B].
Qed.
Print Assumptions C27_grep_exact_partial.

(** In particular: a literal needle without the bytes 'D' 'L' 'T' 0x01, in a file of messages. *)
Theorem C27_literal_exact_partial : forall (needle : bytes) (ms : list bytes),
  needle <> [] -> (forall c, In c needle -> ~ In c the_pattern) ->
  Forall valid_message ms ->
  (forall k, occurs_at the_pattern (concat ms) k -> exists m, In (k, m) (with_offsets (@length byte) 0 ms)) ->
  (N.of_nat (length (concat ms)) < 2 ^ 64 - 1)%N ->
  exists l sel, grep_collect (find_literal needle) (concat ms) = Ret l /\ shows l sel /\
    StronglySorted (fun x y => fst x < fst y) sel /\
    forall k m, In (k, m) sel <-> In (k, m) (with_offsets (@length byte) 0 ms) /\ occurs_in needle (skipn 4 m).
Proof.
  intros needle ms Hn0 Hf V C Hb.
  assert (Hn : 0 < length needle) by (destruct needle; [congruence|cbn; lia]).
  assert (VB : Forall (fun p => valid_message (snd p)) (bare ms)).
  { unfold bare. rewrite Forall_forall in *. intros p I. apply in_map_iff in I. destruct I as (m & <- & I).
    cbn. now apply V. }
  rewrite <- (layout_bare ms) in *. rewrite <- (placed_bare ms 0) in *.
  assert (NE : never_empty (literal needle) (layout (bare ms) [])) by (intros s e [_ ->]; lia).
  destruct (C27_grep_exact_partial (literal needle) (find_literal needle) (literal_leftmost needle Hn)
     (bare ms) [] Hb (conj VB C) NE (literal_no_crossing needle Hn Hf ms V)) as (l & sel & A & B & S & I).
  exists l, sel. split; [exact A|]. split; [exact B|]. split; [exact S|].
  intros k m. rewrite I. split; intros [X Y]; (split; [exact X|]).
  - apply (has_literal needle (bare ms) [] k m Hn VB X). destruct Y as (s & e & Y1 & Y2).
    exists s, e. split; [exact Y1|]. split; [lia|exact Y2].
  - apply (has_literal needle (bare ms) [] k m Hn VB X) in Y. destruct Y as (s & e & Y1 & _ & Y2).
    now exists s, e.
Qed.
Print Assumptions C27_literal_exact_partial.

Lemma clean_check ms :
  forallb (fun k => implb (is_prefix dlt_marker (skipn k (concat ms)))
                          (existsb (fun p => fst p =? k) (with_offsets (@length byte) 0 ms)))
          (seq 0 (length (concat ms))) = true ->
  forall k, occurs_at the_pattern (concat ms) k -> exists m, In (k, m) (with_offsets (@length byte) 0 ms).
Proof.
  intros H k O. apply occ_occurs in O; [|cbn; lia].
  pose proof (occ_len the_pattern _ _ ltac:(cbn; lia) O) as L. cbn [length the_pattern] in L.
  rewrite forallb_forall in H. specialize (H k). rewrite in_seq in H. specialize (H ltac:(lia)).
  change dlt_marker with the_pattern in H. rewrite O in H. cbn [implb] in H.
  apply existsb_exists in H. destruct H as ([k' m] & I & E). cbn in E. apply Nat.eqb_eq in E. subst k'.
  now exists m.
Qed.
Example C27_example : exists l, grep_collect (find_literal hello) (concat [m2; m1; m3; m1]) = Ret l /\
  map fst l = [23; 104] /\
  (forall c, In c hello -> ~ In c the_pattern) /\
  (forall k, occurs_at the_pattern (concat [m2; m1; m3; m1]) k ->
     exists m, In (k, m) (with_offsets (@length byte) 0 [m2; m1; m3; m1])).
Proof.
  eexists. split; [vm_compute; reflexivity|]. split; [reflexivity|]. split.
  - intros c H. assert (X : forallb (fun c => forallb (fun d => negb (byte_eqb c d)) the_pattern) hello = true) by reflexivity.
    rewrite forallb_forall in X. specialize (X c H). rewrite forallb_forall in X. intros I. specialize (X c I).
    rewrite byte_eqb_refl in X. discriminate.
  - apply clean_check. vm_compute. reflexivity.
Qed.

(** Against the payload: a match in a header is reported, and a match behind marker bytes in
    the same payload is missed. *)
Theorem C27_refuted :
  (exists needle m e p, needle <> [] /\ valid_message m /\ denotes e m /\
     payload (dlt e) = Ret (Some p) /\ ~ occurs_in needle p /\
     grep_collect (find_literal needle) m = Ret [(0, e)]) /\
  (exists needle m e p, needle <> [] /\ valid_message m /\ denotes e m /\
     payload (dlt e) = Ret (Some p) /\ occurs_in needle p /\
     grep_collect (find_literal needle) m = Ret []).
Proof.
  split.
  - exists [x45; x43; x55; x31], m2, (entry_of m2), [x01; x02; x03].
    split; [discriminate|]. split; [exact m2_valid|]. split; [apply denotes_entry_of, m2_valid|].
    split; [vm_compute; reflexivity|]. split; [|vm_compute; reflexivity].
    intros (k & O). apply occ_occurs in O; [|cbn; lia].
    apply occ_len in O; [|cbn; lia]. cbn in O. lia.
  - exists hello, (plain_message x0b (the_pattern ++ hello)), (entry_of (plain_message x0b (the_pattern ++ hello))),
      (the_pattern ++ hello).
    assert (V : valid_message (plain_message x0b (the_pattern ++ hello))) by (vm_compute; repeat split; lia).
    split; [discriminate|]. split; [exact V|]. split; [apply denotes_entry_of, V|].
    split; [vm_compute; reflexivity|]. split; [|vm_compute; reflexivity].
    exists 4, the_pattern, []. split; reflexivity.
Qed.
Print Assumptions C27_refuted.

(** C28: what is yielded is a message and the group 1 span of a match inside it, behind the
    marker; no panic; the cursor becomes message offset + absolute end of the group. *)
Theorem C28_capture_sound_partial : forall (M : matcher) captures_at, leftmost_capture M captures_at ->
  forall b : bytes, (N.of_nat (length b) < 2 ^ 64 - 1)%N ->
  forall fuel off,
  capture_next DLT captures_at fuel b off <> Panic /\
  forall off' k gs ge, capture_next DLT captures_at fuel b off = Ret (off', Some (k, (gs, ge))) ->
  off' = k + ge /\
  exists m s t, message_at b k m /\ M b s t /\ off <= s /\ s <= gs <= ge /\ ge <= t /\ inside (k, m) s t.
Proof.
  intros M ca LM b Hb fuel off. split; [apply (capture_next_no_panic M ca LM b Hb)|].
  intros off' k gs ge H. destruct (capture_next_sound M ca LM b Hb _ _ _ _ _ _ H) as [Ht ->].
  split; [reflexivity|]. destruct Ht as (n & v & s & e & C & A1 & A2 & A3 & A4 & A5 & A6 & A7 & A8).
  apply dcand_iff in C. destruct C as (m & C1 & <- & C2). exists m, s, e.
  split; [exact C1|]. split; [exact A2|]. split; [exact A1|]. split; [lia|]. split; [exact A6|].
  split; [exact A3|exact A7].
Qed.
Print Assumptions C28_capture_sound_partial.

Theorem C28_capture_terminates_partial : forall (M : matcher) captures_at, leftmost_capture M captures_at ->
  forall b : bytes, (N.of_nat (length b) < 2 ^ 64 - 1)%N -> never_empty M b ->
  (forall off s e gs ge, captures_at b off = Some ((s, e), Some (gs, ge)) -> gs < ge) ->
  forall off, exists l,
  collect (capture_next DLT captures_at (S (length b)) b) (S (length b)) off = Ret l.
Proof.
  intros M ca LM b Hb NE GE off.
  destruct (capture_collect_run M ca LM b Hb (S (length b)) NE GE ltac:(lia) (S (length b)) off ltac:(lia)) as (l & E & _).
  now exists l.
Qed.
Print Assumptions C28_capture_terminates_partial.

(** The pattern (needle). *)
Definition capture_literal (m : bytes) (b : bytes) (off : nat) : option ((nat * nat) * option (nat * nat)) :=
  option_map (fun r => (r, Some r)) (find_literal m b off).
Lemma capture_literal_leftmost m : 0 < length m -> leftmost_capture (literal m) (capture_literal m).
Proof.
  intros Hm. split.
  - intros b off H. unfold capture_literal. pose proof (literal_leftmost m Hm b off H) as L.
    destruct (find_literal m b off) as [[s e]|]; exact L.
  - intros b off s e gs ge H. unfold capture_literal, find_literal in H.
    destruct (find m (skipn off b)); [|discriminate]. injection H as <- <- <- <-. lia.
Qed.
(** Three messages that match; the third is skipped. *)
Theorem C28_refuted : exists captures_at l,
  leftmost_capture (literal hello) captures_at /\
  Forall valid_message [m1; m1; m1] /\ occurs_in hello m1 /\
  (forall k m, In (k, m) (with_offsets (@length byte) 0 [m1; m1; m1]) -> m = m1) /\
  collect (capture_next DLT captures_at 200 (concat [m1; m1; m1])) 200 0 = Ret l /\
  map fst l = [0; 45].
Proof.
  exists (capture_literal hello). eexists. split; [apply capture_literal_leftmost; cbn; lia|].
  split; [repeat constructor; apply m1_valid|].
  split; [exists 34, (firstn 34 m1), []; split; reflexivity|].
  split; [intros k m [H|[H|[H|[]]]]; congruence|].
  split; [vm_compute; reflexivity|]. reflexivity.
Qed.
Print Assumptions C28_refuted.

(** C50: the two counts agree on clean files in which the pattern's matches are inside single
    messages and occur exactly in the messages whose payload contains "Hello World". *)
Theorem C50_counts_agree_partial : forall (M : matcher) find_at parts last, leftmost M find_at ->
  (N.of_nat (length (layout parts last)) < 2 ^ 64 - 1)%N ->
  clean parts last -> never_empty M (layout parts last) ->
  no_crossing M (layout parts last) (placed 0 parts) ->
  (forall k m e, In (k, m) (placed 0 parts) -> denotes e m ->
     exists p, payload (dlt e) = Ret (Some p) /\
       ((exists s t, M (layout parts last) s t /\ inside (k, m) s t) <-> occurs_in hello p)) ->
  exists n, count_hello_world (layout parts last) = Ret n /\
            count_hello_world_grepit find_at (layout parts last) = Ret n.
Proof. exact counts_agree. Qed.
Print Assumptions C50_counts_agree_partial.

Example C50_example :
  count_hello_world (concat [m2; m1; m3; m1]) = Ret 2 /\
  count_hello_world_grepit (find_literal hello) (concat [m2; m1; m3; m1]) = Ret 2.
Proof. split; vm_compute; reflexivity. Qed.

(** In general they differ: the pattern H.* World also matches other text. *)
Theorem C50_refuted : forall (dotstar : bytes -> Prop) find_at,
  (forall c, (32 <= Strings.Byte.to_N c < 127)%N -> dotstar [c]) ->
  leftmost (h_star_world dotstar) find_at ->
  valid_message m_hi /\
  count_hello_world m_hi = Ret 0 /\ count_hello_world_grepit find_at m_hi = Ret 1.
Proof.
  intros ds fa D LM. split; [exact m_hi_valid|]. apply (counts_differ ds fa); [|exact LM].
  apply D. cbn. lia.
Qed.
Print Assumptions C50_refuted.
