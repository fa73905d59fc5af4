(** Property theorem C133: ripdlt on machines with words of 32 bits (vocabulary in Words32Spec.v and Spec.v). *)
From Coq Require Import String Permutation.
From Verif Require Import Base DltModel MatchModel GenModel ToolsModel MainModel DdModel WordModel ToolsWord Spec Samples WordSpec CommandSpec Words32Spec BaseFacts DltFacts ParseFacts FindFacts
  IterFacts DltIterFacts PartitionFacts GenFacts GroupFacts MapFacts MergeFacts TreeFacts ToolFacts TotalFacts CommandFacts ExactFacts WordFacts ToolsWordFacts P_Tools P_Commands P_ToolsWord.
From Coq Require Import ZifyBool ZifyNat ZifyN.

Definition durations_commands : list string := ["histogram_timestamp"; "par_histogram_timestamp"]%string.

(** * The whole report *)
Lemma report_fuel b ls : report_32 b ls <> Fuel.
Proof. destruct ls as [|l ls]; [discriminate|]. cbn [report_32]. destruct (line_32 b l); try discriminate. now destruct (report_32 b ls). Qed.
Lemma report_cons b l ls : report_32 b (l :: ls) = (let* x := line_32 b l in let* xs := report_32 b ls in Ret (x :: xs)).
Proof.
  cbn [report_32]. assert (L : line_32 b l <> Fuel) by (destruct l; cbn [line_32]; try discriminate; destruct (hi =? 4294967296)%N; [destruct b|]; discriminate).
  pose proof (report_fuel b ls). destruct (line_32 b l); cbn [obind]; [|reflexivity|contradiction]. destruct (report_32 b ls); cbn [obind]; [reflexivity|reflexivity|contradiction].
Qed.
Lemma buckets_32 m h : usize_width m = Bits32 -> Forall (fun kv => fst kv < u32_mod)%N h ->
  print_buckets_word m h = report_32 (build m) (print_buckets h).
Proof.
  intros W. induction 1 as [|[k v] h L F IH]; [reflexivity|]. cbn [fst] in L.
  unfold print_buckets. cbn [map fst snd]. fold (print_buckets h). rewrite report_cons, <- IH. unfold print_buckets_word. cbn [mapM fst snd line_32].
  assert (U : usize_mod m = 4294967296%N) by (unfold usize_mod, bits; rewrite W; reflexivity). unfold add, checked. rewrite U. unfold u32_mod in L.
  destruct (k + 1 =? 4294967296)%N eqn:Q.
  - replace (k + 1 <? 4294967296)%N with false by lia. replace (k + 1)%N with 4294967296%N by lia. now destruct (build m).
  - replace (k + 1 <? 4294967296)%N with true by lia. reflexivity.
Qed.

(** C133.  On a machine with words of 32 bits, in either build, on every buffer Rust can hold there: the two
    commands that print durations in seconds print what they print with unbounded numbers, but for a row for
    2^32 - 1 seconds: a debug build panics in front of it, a release build gives it the upper bound 0. *)
Theorem C133_durations_partial : forall m M name b, usize_width m = Bits32 -> fair_sched (sched M) -> (word_len b < 2147483648)%N ->
  In name durations_commands ->
  run_command_word m M name b = (let* ls := run_command M name b in report_32 (build m) ls).
Proof.
  intros m M name b W Fs L I. assert (Hb : small m b) by (unfold small, slice_max, bits; rewrite W; cbn; lia). destruct (iterate b) as [es E].
  assert (RC : forall l ls, (forall lo hi n, l <> LBucket lo hi n) -> report_32 (build m) (l :: ls) = (let* xs := report_32 (build m) ls in Ret (l :: xs)))
    by (intros l ls N; rewrite report_cons; destruct l; try reflexivity; now destruct (N lo hi n)).
  destruct I as [<-|[<-|[]]]; unfold run_command_word, run_command; cbn [String.eqb Ascii.eqb Bool.eqb]; cbv zeta.
  - rewrite (continuous_words m b Hb es E). destruct (continuous_timestamp_histogram b) as [h| |] eqn:Q; cbn [obind]; try reflexivity.
    rewrite buckets_32 by (exact W || now apply continuous_keys in Q). now rewrite RC.
  - rewrite (slices_words m M b Hb), (par_hist_words m M Fs b Hb). destruct (slices_line M b) as [sl| |] eqn:SL; cbn [obind]; try reflexivity.
    destruct (par_continuous_timestamp_histogram (sched M) (cores M) b) as [h| |] eqn:Q; cbn [obind]; try reflexivity.
    rewrite buckets_32 by (exact W || now apply (par_keys M Fs) in Q). rewrite RC, RC; [now destruct (report_32 _ _)| |discriminate].
    unfold slices_line in SL. destruct (partition_from _ _ _); try discriminate. injection SL as <-. discriminate.
Qed.
Print Assumptions C133_durations_partial.

(** All other commands give the same report and panic in the same cases. *)
Theorem C133_others_partial : forall m M name b, usize_width m = Bits32 -> fair_sched (sched M) -> (word_len b < 2147483648)%N ->
  ~ In name durations_commands -> run_command_word m M name b = run_command M name b.
Proof. intros m M name b W Fs L N. apply C94_command; [exact Fs|unfold slice_max, bits; rewrite W; cbn; lia|now right]. Qed.
Print Assumptions C133_others_partial.

(** * Files without messages from the last second of 32 bits *)
Lemma continuous_late b h x : continuous_timestamp_histogram b = Ret h -> (forall k msg, message_at b k msg -> (u32le_at msg 4 < x)%N) -> Forall (fun kv => fst kv < x)%N h.
Proof.
  intros H A. destruct (dltit_total b) as (l & El & E). destruct (continuous_spec b l El) as (h' & Eh & Q). assert (h' = h) by congruence. subst h'.
  apply hist_of_table in Q. apply (table_keys _ _ _ _ (fun k => (k < x)%N) Q). intros v I. unfold durations in I. apply in_map_iff in I. destruct I as ([a z] & <- & I).
  apply grouped_in in I. destruct I as [_ I]. apply in_map_iff in I. destruct I as ([k z'] & <- & I). cbn [snd] in *.
  destruct (iteration_genuine b l El) as [G _]. destruct (G k z' I) as (msg & MA & (_ & D2 & _) & _). specialize (A k msg MA).
  unfold secs_diff, esecs. cbn [fst snd]. rewrite D2. lia.
Qed.
Lemma concat_in (x : bytes) : forall l, In x l -> exists pre post, concat l = pre ++ x ++ post.
Proof.
  induction l as [|y l IH]; [intros []|]. intros [->|I]; [exists [], (concat l); reflexivity|]. destruct (IH I) as (pre & post & E).
  exists (y ++ pre), post. cbn [concat]. rewrite E, app_assoc. reflexivity.
Qed.
Lemma par_late M b h x : fair_sched (sched M) -> par_continuous_timestamp_histogram (sched M) (cores M) b = Ret h ->
  (forall k msg, message_at b k msg -> (u32le_at msg 4 < x)%N) -> Forall (fun kv => fst kv < x)%N h.
Proof.
  intros Fs. unfold par_continuous_timestamp_histogram. destruct (partition_from DLT b (cores M)) as [l| |] eqn:E; cbn [obind]; try discriminate.
  destruct (mapM _ l) as [rs| |] eqn:Er; cbn [obind]; try discriminate. intros H A. injection H as <-. apply (tree_keys (fun k => (k < x)%N)).
  apply Forall_forall. intros h I. apply (Permutation_in _ (Fs _ rs)) in I. destruct (mapM_in _ _ _ _ Er I) as (s & Is & Es).
  apply (continuous_late s h x Es). intros k msg MA. destruct (cores M) as [|num] eqn:C; [discriminate|]. destruct (partition_pieces b (S num) ltac:(lia)) as (l' & rest & E' & _ & Q).
  assert (l' = l) by congruence. subst l'. destruct (concat_in s l Is) as (pre & post & P). apply (A (length pre + k) msg). rewrite Q, P, <- !app_assoc. now apply message_in_slice.
Qed.

(** If no message of the file is from the second 2^32 - 1, every command gives the same report. *)
Theorem C133_years_partial : forall m M name b, usize_width m = Bits32 -> fair_sched (sched M) -> (word_len b < 2147483648)%N ->
  (forall k msg, message_at b k msg -> u32le_at msg 4 <> 4294967295%N) ->
  run_command_word m M name b = run_command M name b.
Proof.
  intros m M name b W Fs L A. assert (Hb : small m b) by (unfold small, slice_max, bits; rewrite W; cbn; lia). apply run_words; [exact Fs|exact Hb|].
  assert (A' : forall k msg, message_at b k msg -> (u32le_at msg 4 < 4294967295)%N) by (intros k msg MA; specialize (A k msg MA); pose proof (u32le_lt msg 4); unfold u32_mod in *; lia).
  assert (U : usize_mod m = 4294967296%N) by (unfold usize_mod, bits; rewrite W; reflexivity).
  intros h [[-> Q]|[-> Q]]; [apply continuous_late with (x := 4294967295%N) in Q|apply par_late with (x := 4294967295%N) in Q]; try assumption;
    (eapply Forall_impl; [|exact Q]); cbn beta; intros; rewrite U; lia.
Qed.
Print Assumptions C133_years_partial.

(** * A file on which the reports differ: two messages, one from 1970-01-01, one from 2106-02-07 *)
Definition stamped (secs : bytes) : bytes := [x44; x4c; x54; x01] ++ secs ++ [x07; x00; x00; x00; x45; x43; x55; x31; x20; x05; x00; x05; x2a].
Definition file_1970_2106 : bytes := stamped [x00; x00; x00; x00] ++ stamped [xff; xff; xff; xff].

Theorem C133_refuted : valid_message (stamped [x00; x00; x00; x00]) /\ valid_message (stamped [xff; xff; xff; xff]) /\
  let heading := LHeading "Durations of periods where DLT storage header timestamps are continuous:" in
  run_command (lab []) "histogram_timestamp" file_1970_2106 = Ret [heading; LBucket 4294967295 4294967296 1] /\
  run_command_word (Build_target Bits64 Release) (lab []) "histogram_timestamp" file_1970_2106 = Ret [heading; LBucket 4294967295 4294967296 1] /\
  run_command_word (Build_target Bits32 Release) (lab []) "histogram_timestamp" file_1970_2106 = Ret [heading; LBucket 4294967295 0 1] /\
  run_command_word (Build_target Bits32 Debug) (lab []) "histogram_timestamp" file_1970_2106 = Panic.
Proof. split; [vm_compute; repeat split; lia|]. split; [vm_compute; repeat split; lia|]. repeat split; vm_compute; reflexivity. Qed.
Print Assumptions C133_refuted.

(** The hypotheses of C133_years_partial: messages of the years around 1970. *)
Example C133_example : fair_sched (sched (lab [])) /\ (word_len (m1 ++ m2) < 2147483648)%N /\
  (forall k msg, message_at (m1 ++ m2) k msg -> u32le_at msg 4 <> 4294967295%N) /\
  run_command_word (Build_target Bits32 Debug) (lab []) "histogram_timestamp" (m1 ++ m2) = run_command (lab []) "histogram_timestamp" (m1 ++ m2).
Proof.
  split; [apply lab_machine|]. split; [vm_compute; reflexivity|]. split; [|vm_compute; reflexivity].
  intros k msg MA. pose proof (message_at_prefix _ _ _ MA) as [L O]. destruct MA as [(_ & Lm & _) (u & v & E & Lu)].
  assert (K : In k [0; 45]).
  { assert (C : forallb (fun k => negb (occ dlt_marker (m1 ++ m2) k) || existsb (Nat.eqb k) [0; 45]) (seq 0 70) = true) by (vm_compute; reflexivity).
    rewrite forallb_forall in C. specialize (C k). rewrite O in C. cbn [negb orb] in C. change (length (m1 ++ m2)) with 68 in L.
    destruct (existsb (Nat.eqb k) [0; 45]) eqn:X; [|discriminate C; apply in_seq; lia].
    apply existsb_exists in X. destruct X as (y & Iy & Ey). apply Nat.eqb_eq in Ey. now subst y. }
  assert (P : u32le_at msg 4 = u32le_at (m1 ++ m2) (k + 4)).
  { rewrite E, <- Lu. unfold u32le_at, byte_at. rewrite <- !Nat.add_assoc, !app_nth2_plus, !app_nth1 by lia. reflexivity. }
  rewrite P. destruct K as [<-|[<-|[]]]; vm_compute; discriminate.
Qed.
