(** Property theorems C101-C104: how much work the iterators, the search and the partitioner do. Vocabulary in
    CostSpec.v; the functions [.._work] of CostModel.v return what the functions of MatchModel.v return, along with
    the number of steps (calls) and of bytes passed over by marker searches. *)
From Verif Require Import Base DltModel MatchModel ToolsModel CostModel Spec CostSpec BaseFacts DltFacts CodecFacts ParseFacts FindFacts IterFacts DltIterFacts LayoutFacts
  ContainFacts PartitionFacts GrepFacts CostFacts CostIter CostRev CostPart Samples.
From Verif Require P_Grep.
Ltac Zify.zify_post_hook ::= idtac.

(** C101: reading is linear: two steps for each message and two at the end, and no byte is passed over twice. *)
Theorem C101_reading_linear : forall b : bytes, exists l c,
  reading_work b = Ret (l, c) /\ dltit_offset b = Ret l /\ steps c <= 2 * length l + 2 /\ scanned c <= length b.
Proof.
  intros b. destruct (dltit_offset_total b) as (l & E & _). exists l.
  destruct (spends_erase (reading_work b) l _ (eq_trans (collect_erase _ _ (fallback_erase DLT b 2) _ 0) E) (reading_spends b (S (length b)) 0 ltac:(lia))) as (c & C & C1 & C2).
  exists c. repeat split; try assumption. lia.
Qed.
Print Assumptions C101_reading_linear.
Example C101_example : exists l, reading_work (m1 ++ [x00; x00] ++ m2) = Ret (l, {| steps := 4; scanned := 6 |}) /\ length l = 2.
Proof. eexists. vm_compute. split; reflexivity. Qed.

(** C102: linear time for searching is false: on zeros, both directions pass over more than [n * n / 8] bytes. *)
Theorem C102_search_refuted : forall k : nat, exists b l c,
  searching_work b = Ret (l, c) /\ search_all b = Ret l /\ k * length b < scanned c.
Proof.
  intros k. set (b := repeat x00 (8 * k + 8)). exists b.
  assert (Lb : length b = 8 * k + 8) by apply repeat_length. destruct (search_all_schain b) as (l & E & _). exists l.
  assert (S : spends (searching_work b) (fun _ c => k * length b < scanned c)).
  { unfold searching_work. rewrite Lb at 2. cbn [collect_work]. apply spends_bind. eapply spends_weaken; [apply (search_square b (zeros_no_marker _)); lia|].
    intros [o [x|]] c C; rewrite Lb in C; [apply spends_bind|apply spends_done; rewrite Lb; cbn [steps scanned cost_add no_cost]; nia].
    unfold spends. destruct (collect_work _ _ _) as [[l' d]| |]; trivial. apply spends_done. rewrite Lb. cbn [steps scanned cost_add no_cost]. nia. }
  destruct (spends_erase (searching_work b) l _ (eq_trans (collect_erase _ _ (search_erase DLT b _) _ 0) E) S) as (c & C & C1). exists c. now repeat split.
Qed.
Print Assumptions C102_search_refuted.
Theorem C102_backward_refuted : forall k : nat, (N.of_nat k < 2 ^ 60)%N -> exists b l c,
  backward_work b = Ret (l, c) /\ collect (rev_next DLT (S (length b)) b) (S (length b)) (N.of_nat (length b)) = Ret l /\ k * length b < scanned c.
Proof.
  intros k Hk. set (b := repeat x00 (8 * k + 8)). exists b.
  assert (Lb : length b = 8 * k + 8) by apply repeat_length. assert (Hb : (N.of_nat (length b) < usize_max)%N) by (rewrite Lb; unfold usize_max; change (2 ^ 60)%N with 1152921504606846976%N in Hk; lia).
  destruct (reverse_all b Hb) as (l & E & _). exists l.
  assert (S : spends (backward_work b) (fun _ c => k * length b < scanned c)).
  { unfold backward_work. rewrite Lb at 2. cbn [collect_work]. apply spends_bind. eapply spends_weaken; [apply (rev_square b Hb (zeros_no_marker _)); lia|].
    intros [o [x|]] c C; rewrite Lb in C; [apply spends_bind|apply spends_done; rewrite Lb; cbn [steps scanned cost_add no_cost]; nia].
    unfold spends. destruct (collect_work _ _ _) as [[l' d]| |]; trivial. apply spends_done. rewrite Lb. cbn [steps scanned cost_add no_cost]. nia. }
  destruct (spends_erase (backward_work b) l _ (eq_trans (collect_erase _ _ (rev_erase DLT b _) _ _) E) S) as (c & C & C1). exists c. now repeat split.
Qed.
Print Assumptions C102_backward_refuted.

(** C102: never worse than that: at most a step for every four bytes, and the whole slice for each. *)
Theorem C102_search_quadratic_partial : forall b : bytes, exists l c,
  searching_work b = Ret (l, c) /\ search_all b = Ret l /\ 4 * steps c <= length b + 4 /\ scanned c <= steps c * length b.
Proof.
  intros b. destruct (search_all_schain b) as (l & E & _). exists l.
  destruct (spends_erase (searching_work b) l _ (eq_trans (collect_erase _ _ (search_erase DLT b _) _ 0) E) (searching_spends b _ (S (length b)) 0 ltac:(lia))) as (c & C & C1 & C2).
  rewrite Nat.sub_0_r in *. exists c. now repeat split.
Qed.
Print Assumptions C102_search_quadratic_partial.
Theorem C102_backward_quadratic_partial : forall b : bytes, (N.of_nat (length b) < 2 ^ 64 - 1)%N -> exists l c,
  backward_work b = Ret (l, c) /\ collect (rev_next DLT (S (length b)) b) (S (length b)) (N.of_nat (length b)) = Ret l /\
  4 * steps c <= length b + 4 /\ scanned c <= steps c * length b.
Proof.
  intros b Hb. destruct (reverse_all b Hb) as (l & E & _). exists l.
  destruct (spends_erase (backward_work b) l _ (eq_trans (collect_erase _ _ (rev_erase DLT b _) _ _) E) (backward_spends b _ Hb (S (length b)) (length b) ltac:(lia))) as (c & C & C1 & C2).
  exists c. now repeat split.
Qed.
Print Assumptions C102_backward_quadratic_partial.

(** C102: linear in files of messages: a step for each, and quadratic at most in the garbage behind the last one. *)
Theorem C102_search_file_partial : forall parts last, parts_ok parts -> ~ occurs_in the_pattern last ->
  exists l c, searching_work (layout parts last) = Ret (l, c) /\ search_all (layout parts last) = Ret l /\
    steps c <= length parts + length last / 4 + 1 /\
    scanned c <= length (layout parts []) + (length last / 4 + 1) * length last.
Proof.
  intros parts last P N. destruct (search_all_schain (layout parts last)) as (l & E & _). exists l.
  destruct (spends_erase (searching_work (layout parts last)) l _ (eq_trans (collect_erase _ _ (search_erase DLT _ _) _ 0) E)
    (layout_search parts [] last (S (length (layout parts last))) (length (layout parts last)) P N)) as (c & C & C1 & C2).
  exists c. repeat split; assumption.
Qed.
Print Assumptions C102_search_file_partial.
Example C102_search_file_example : exists l, searching_work (layout [([x00], m1); ([], m2); ([], m3)] []) = Ret (l, {| steps := 4; scanned := 13 |}) /\ length l = 3.
Proof. eexists. vm_compute. split; reflexivity. Qed.
Theorem C102_backward_file_partial : forall ms, clean (bare ms) [] -> ms <> [] -> (N.of_nat (length (concat ms)) < 2 ^ 64 - 1)%N ->
  exists l c, backward_work (concat ms) = Ret (l, c) /\
    collect (rev_next DLT (S (length (concat ms))) (concat ms)) (S (length (concat ms))) (N.of_nat (length (concat ms))) = Ret l /\
    steps c <= length l + 1 /\ scanned c <= length (concat ms).
Proof.
  intros ms [V C] NE Hb. destruct (reverse_all (concat ms) Hb) as (l & E & _). exists l. rewrite layout_bare in C.
  assert (G : forall k, occ dlt_marker (concat ms) k = true -> parse (skipn k (concat ms)) <> None).
  { intros k O. destruct (C k) as [m M]; [apply (occ_occurs the_pattern); [cbn; lia|exact O]|]. pose proof (placed_message _ [] k m V M) as MA. rewrite layout_bare in MA.
    destruct (dcand_entry _ _ _ MA) as [_ ->]. discriminate. }
  assert (Z : occ dlt_marker (concat ms) 0 = true).
  { destruct ms as [|m ms]; [congruence|]. inversion V as [|x y Vm _]; subst. cbn [concat skipn]. now apply valid_is_prefix. }
  destruct (spends_erase (backward_work (concat ms)) l _ (eq_trans (collect_erase _ _ (rev_erase DLT _ _) _ _) E)
    (backward_linear (concat ms) (S (length (concat ms))) Hb G Z (S (length (concat ms))) (length (concat ms)) (or_introl eq_refl))) as (c & K & K1 & K2).
  exists c. now repeat split.
Qed.
Print Assumptions C102_backward_file_partial.

(** C103: partitioning in reasonable time is false: twenty bytes more for each piece and third of a doubling. In a
    file of [60 * k * num] bytes, finding the first cut takes [2 ^ k] calls. *)
Theorem C103_refuted : forall k num : nat, 0 < k -> 2 <= num ->
  exists l c, partition_work DLT (overlapping (3 * k * num)) num = Ret (l, c) /\ partition_from DLT (overlapping (3 * k * num)) num = Ret l /\
    length (overlapping (3 * k * num)) = 60 * k * num /\ 2 ^ k <= steps c.
Proof.
  intros k num Hk Hn. set (n := 3 * k * num). set (F := overlapping n). assert (LF : length F = 20 * n) by apply overlapping_length.
  destruct (partition_pieces F num ltac:(lia)) as (l & rest & E & _). exists l.
  assert (S : spends (partition_work DLT F num) (fun _ c => 2 ^ k <= steps c)).
  { unfold partition_work. destruct (Nat.eqb_spec num 0); [lia|]. assert (SZ : length F / num = 20 * (3 * k)) by (rewrite LF; unfold n; replace (20 * (3 * k * num)) with (20 * (3 * k) * num) by lia; apply Nat.div_mul; lia).
    rewrite SZ. cbn [partition_loop_work]. destruct (Nat.ltb_spec (length F) 0); [lia|]. destruct (Nat.ltb_spec (length F) (20 * (3 * k))) as [B|B]; [unfold n in *; nia|]. cbn [orb].
    apply spends_bind. destruct (exponential n k) as (A0 & _ & _). specialize (A0 ltac:(unfold n; nia)). eapply spends_weaken; [apply A0; lia|]. intros r c [C1 _].
    assert (W : forall (x : work (list bytes)), spends x (fun _ d => 2 ^ k <= steps (cost_add c d))) by (intros [[? d]| |]; cbn [spends steps cost_add]; trivial; lia).
    apply W. }
  destruct (spends_erase _ l _ (eq_trans (partition_erase DLT F num) E) S) as (c & C & C1). exists c. split; [exact C|]. split; [exact E|]. split; [|exact C1].
  rewrite LF. unfold n. lia.
Qed.
Print Assumptions C103_refuted.
Example C103_example : exists l c, partition_work DLT (overlapping 30) 2 = Ret (l, c) /\ (steps c = 238 /\ length l = 2).
Proof. do 2 eexists. split; [vm_compute; reflexivity|]. vm_compute. split; reflexivity. Qed.
(** C103: without overlaps, two calls for each piece and two at the end. *)
Theorem C103_clean_partial : forall parts last num, clean parts last -> 0 < num ->
  exists l c, partition_work DLT (layout parts last) num = Ret (l, c) /\ partition_from DLT (layout parts last) num = Ret l /\
    steps c <= 2 * length l + 2 /\ scanned c <= steps c * length (layout parts last).
Proof.
  intros parts last num CL Hn. set (F := layout parts last). destruct (partition_pieces F num ltac:(lia)) as (l & rest & E & _). exists l.
  assert (S : spends (partition_work DLT F num) (fun l c => steps c <= 2 * length l + 2 /\ scanned c <= steps c * length F)).
  { unfold partition_work. destruct (Nat.eqb_spec num 0); [lia|]. apply spends_both; [apply partition_spends; exact (clean_disjoint parts last CL)|apply partition_scanned]. }
  destruct (spends_erase _ l _ (eq_trans (partition_erase DLT F num) E) S) as (c & C & C1 & C2). exists c. now repeat split.
Qed.
Print Assumptions C103_clean_partial.
(** C103: whatever the file, two to the number of messages that lead on to one another for each piece, and once
    more at the end. Without overlaps that number is one. *)
Theorem C103_overlap_partial : forall b num k, 0 < num -> led_back b k ->
  exists l c, partition_work DLT b num = Ret (l, c) /\ partition_from DLT b num = Ret l /\
    steps c <= (length l + 1) * 2 ^ k /\ scanned c <= steps c * length b.
Proof.
  intros b num k Hn H. destruct (partition_pieces b num ltac:(lia)) as (l & rest & E & _). exists l.
  assert (S : spends (partition_work DLT b num) (fun l c => steps c <= (length l + 1) * 2 ^ k /\ scanned c <= steps c * length b)).
  { unfold partition_work. destruct (Nat.eqb_spec num 0); [lia|]. apply spends_both; [exact (partition_depth b k H _ _ _ _)|apply partition_scanned]. }
  destruct (spends_erase _ l _ (eq_trans (partition_erase DLT b num) E) S) as (c & C & C1 & C2). exists c. now repeat split.
Qed.
Print Assumptions C103_overlap_partial.
(** C103: every byte string has such a number: that of its messages. *)
Theorem C103_messages_partial : forall b num starts, 0 < num -> (forall i m, message_at b i m -> In i starts) ->
  exists l c, partition_work DLT b num = Ret (l, c) /\ partition_from DLT b num = Ret l /\ steps c <= (length l + 1) * 2 ^ length starts.
Proof.
  intros b num starts Hn H. destruct (C103_overlap_partial b num (length starts) Hn) as (l & c & A & B & C & _).
  - intros p. exists starts. split; [reflexivity|]. split; [intros i m M _; exact (H i m M)|intros j i m _ M _; exact (H i m M)].
  - exists l, c. now repeat split.
Qed.
Print Assumptions C103_messages_partial.
(** The number of the messages of a file whose markers are all messages is one. *)
Lemma clean_led_back parts last : clean parts last -> led_back (layout parts last) 1.
Proof.
  intros CL p. pose proof (clean_disjoint parts last CL) as D.
  assert (U : forall i m i' m', message_at (layout parts last) i m -> message_at (layout parts last) i' m' -> i < p < i + length m -> i' < p < i' + length m' -> i = i').
  { intros i m i' m' M M' L L'. pose proof (D _ _ _ _ _ _ (dcand_entry _ _ _ M) (dcand_entry _ _ _ M')). pose proof (D _ _ _ _ _ _ (dcand_entry _ _ _ M') (dcand_entry _ _ _ M)). lia. }
  assert (N : forall i m j mj, message_at (layout parts last) i m -> message_at (layout parts last) j mj -> ~ i < j < i + length m).
  { intros i m j mj M Mj L. pose proof (D _ _ _ _ _ _ (dcand_entry _ _ _ M) (dcand_entry _ _ _ Mj)). lia. }
  assert (X : (exists i m, message_at (layout parts last) i m /\ i < p < i + length m) \/ ~ (exists i m, message_at (layout parts last) i m /\ i < p < i + length m)).
  { destruct (covered_dec (layout parts last) p p) as [(i & m & L & M & C)|X]; [left; exists i, m; repeat split; try apply M; lia|]. right. intros (i & m & M & L). apply X. exists i, m. repeat split; try apply M; lia. }
  destruct X as [(i & m & M & L)|X].
  - exists [i]. split; [reflexivity|]. split; [intros i' m' M' L'; left; exact (U _ _ _ _ M M' L L')|]. intros j i' m' [<-|[]] M' L'. destruct (N _ _ _ _ M' M L').
  - exists []. split; [cbn; lia|]. split; [intros i m M L; destruct X; now exists i, m|intros j i m []].
Qed.

(** C104: linear time for grep is false, the work of the regular expression engine apart: a pattern that matches
    every byte, on zeros. *)
Theorem C104_refuted : forall k : nat, (N.of_nat k < 2 ^ 60)%N -> exists M find_at, leftmost M find_at /\ (forall b, never_empty M b) /\
  exists b l c, grepping_work find_at b = Ret (l, c) /\ grep_collect find_at b = Ret l /\ k * length b < scanned c.
Proof.
  intros k Hk. set (M := fun (b : bytes) s e => e = S s /\ s < length b). exists M, any_byte.
  assert (LM : leftmost M any_byte).
  { intros b off H. unfold any_byte. destruct (Nat.ltb_spec off (length b)) as [K|K].
    - repeat split; try lia; intros; lia.
    - intros s' e' ? [_ ?]. lia. }
  assert (NE : forall b, never_empty M b) by (intros b s e [-> _]; lia). split; [exact LM|]. split; [exact NE|].
  set (b := repeat x00 (2 * k + 2)). exists b. assert (Lb : length b = 2 * k + 2) by apply repeat_length.
  assert (Hb : (N.of_nat (length b) < usize_max)%N) by (rewrite Lb; unfold usize_max; change (2 ^ 60)%N with 1152921504606846976%N in Hk; lia).
  destruct (P_Grep.C25_grep_terminates_partial M any_byte LM b Hb (NE b) 0) as (l & E). exists l.
  assert (S : spends (grepping_work any_byte b) (fun _ c => k * length b < scanned c)).
  { unfold grepping_work. rewrite Lb at 2. cbn [collect_work]. apply spends_bind. unfold grep_work at 1. apply spends_bind.
    eapply spends_weaken; [apply (grep_square b Hb (zeros_no_marker _)); lia|]. intros r c C. cbn beta in C. rewrite Lb in C.
    assert (W : forall (A : Type) (x : work A) e, spends x (fun _ d => k * length b < scanned (cost_add (cost_add c e) d))) by (intros A [[? d]| |] e; cbn [spends scanned cost_add]; trivial; rewrite Lb; nia).
    destruct r as [[o v]|]; apply spends_done; apply W. }
  destruct (spends_erase (grepping_work any_byte b) l _ (eq_trans (collect_erase _ _ (grep_erase DLT any_byte b _) _ 0) E) S) as (c & C & C1). exists c. now repeat split.
Qed.
Print Assumptions C104_refuted.
Theorem C104_quadratic_partial : forall M find_at, leftmost M find_at -> forall b : bytes, never_empty M b -> (N.of_nat (length b) < 2 ^ 64 - 1)%N ->
  exists l c, grepping_work find_at b = Ret (l, c) /\ grep_collect find_at b = Ret l /\ steps c <= length b + 1 /\ scanned c <= steps c * length b.
Proof.
  intros M fa LM b NE Hb. destruct (P_Grep.C25_grep_terminates_partial M fa LM b Hb NE 0) as (l & E). exists l.
  assert (FA : forall off s e, off <= length b -> fa b off = Some (s, e) -> off <= s /\ s < e /\ e <= length b).
  { intros off s e H F. specialize (LM b off H). rewrite F in LM. destruct LM as (? & ? & ? & Q & _). pose proof (NE s e Q). lia. }
  assert (FR : forall s, s <= length b -> match rfind dlt_marker (firstn s b) with Some k => s - k | None => s end <= length b) by (intros s Hs; destruct (rfind _ _); lia).
  destruct (spends_erase (grepping_work fa b) l _ (eq_trans (collect_erase _ _ (grep_erase DLT fa b _) _ 0) E)
    (grepping_spends fa b Hb FA (length b) FR (S (length b)) (S (length b)) 0 ltac:(lia))) as (c & C & C1 & C2).
  exists c. now repeat split.
Qed.
Print Assumptions C104_quadratic_partial.
(** C104: in a file of messages of at most [L] bytes each step looks at [L + 3] bytes at most. *)
Theorem C104_file_partial : forall M find_at, leftmost M find_at -> forall ms L, Forall valid_message ms -> Forall (fun m => length m <= L) ms ->
  never_empty M (concat ms) -> (N.of_nat (length (concat ms)) < 2 ^ 64 - 1)%N ->
  exists l c, grepping_work find_at (concat ms) = Ret (l, c) /\ grep_collect find_at (concat ms) = Ret l /\
    steps c <= length (concat ms) + 1 /\ scanned c <= steps c * (L + 3).
Proof.
  intros M fa LM ms L V HL NE Hb. set (b := concat ms) in *. destruct (P_Grep.C25_grep_terminates_partial M fa LM b Hb NE 0) as (l & E). exists l.
  assert (FA : forall off s e, off <= length b -> fa b off = Some (s, e) -> off <= s /\ s < e /\ e <= length b).
  { intros off s e H F. specialize (LM b off H). rewrite F in LM. destruct LM as (? & ? & ? & Q & _). pose proof (NE s e Q). lia. }
  destruct (spends_erase (grepping_work fa b) l _ (eq_trans (collect_erase _ _ (grep_erase DLT fa b _) _ 0) E)
    (grepping_spends fa b Hb FA (L + 3) (marker_near ms L V HL) (S (length b)) (S (length b)) 0 ltac:(lia))) as (c & C & C1 & C2).
  exists c. now repeat split.
Qed.
Print Assumptions C104_file_partial.
Example C104_file_example : exists l, grepping_work (find_literal hello) (m1 ++ m2 ++ m1) = Ret (l, {| steps := 3; scanned := 68 |}) /\ length l = 2.
Proof. eexists. vm_compute. split; reflexivity. Qed.
(** The hypotheses of C102_backward_file_partial and C103_clean_partial. *)
Example C103_clean_example : clean (bare [m2; m1; m3; m1]) [] /\
  (exists l, backward_work (concat [m2; m1; m3; m1]) = Ret (l, {| steps := 5; scanned := 149 |}) /\ length l = 4) /\
  (exists l, partition_work DLT (layout (bare [m2; m1; m3; m1]) []) 2 = Ret (l, {| steps := 4; scanned := 360 |}) /\ length l = 2).
Proof.
  split; [|split; eexists; vm_compute; split; reflexivity]. split.
  - repeat constructor; cbn [snd]; first [exact m1_valid|exact m2_valid|exact m3_valid].
  - rewrite layout_bare, placed_bare. apply P_Grep.clean_check. vm_compute. reflexivity.
Qed.
(** The hypothesis of C103_overlap_partial for a file whose messages do not overlap. *)
Example C103_overlap_example : led_back (layout (bare [m2; m1; m3; m1]) []) 1 := clean_led_back _ _ (proj1 C103_clean_example).
(** The hypothesis of C103_messages_partial for a file whose messages do. *)
Example C103_messages_example : forall i m, message_at (overlapping 4) i m -> In i [0; 20; 40; 60].
Proof.
  intros i m M. destruct (dcand_entry _ _ _ M) as [O _]. apply overlapping_occ in O. destruct O as (j & L & ->).
  do 4 (destruct j as [|j]; [cbn; tauto|]). lia.
Qed.
