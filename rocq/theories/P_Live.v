(** Property theorem C108: reading a file while others append to it (vocabulary in LiveSpec.v). *)
From Coq Require Import String.
From Verif Require Import Base DltModel MatchModel GenModel ToolsModel DdModel MainModel InModel InSpec LiveSpec Spec EditSpec CommandSpec
  Samples BaseFacts DltIterFacts InFacts P_DD P_Edit P_Exact P_In.

Lemma appended_later h i : appended_to h -> forall n, exists d, h (i + n) = h i ++ d.
Proof.
  intros A n. induction n as [|n [d IH]]; [exists []; now rewrite Nat.add_0_r, app_nil_r|].
  rewrite Nat.add_succ_r. destruct (A (i + n)) as [d' ->]. exists (d ++ d'). now rewrite IH, app_assoc.
Qed.

Lemma live_delivers h : appended_to h -> forall i p evs e fine, answers h i p evs e fine -> p <= length (h i) ->
  i <= e /\ exists b, delivers evs b /\ firstn p (h i) ++ b = (if fine then h e else firstn (p + length b) (h e)).
Proof.
  intros A i p evs e fine H. induction H as [i p more L|i p more|i p evs e fine H IH|i p d rest evs e fine ND SK H IH]; intros LP.
  - split; [lia|]. exists []. split; [constructor|]. rewrite app_nil_r. apply firstn_all2. exact L.
  - split; [lia|]. exists []. split; [constructor|]. cbn [length]. now rewrite Nat.add_0_r, app_nil_r.
  - destruct (A i) as [x X]. destruct IH as [LE (b & D & E)]; [rewrite X, app_length; lia|]. split; [lia|]. exists b. split; [now constructor|].
    rewrite <- E, X, firstn_app. replace (p - length (h i)) with 0 by lia. now rewrite firstn_O, app_nil_r.
  - destruct (A i) as [x X]. assert (LD : p + length d <= length (h i)).
    { apply (f_equal (@List.length byte)) in SK. rewrite skipn_length, app_length in SK. lia. }
    destruct IH as [LE (b & D & E)]; [rewrite X, app_length; lia|]. split; [lia|]. exists (d ++ b). split; [now constructor|].
    rewrite app_length, !Nat.add_assoc. rewrite <- E, X, firstn_app. replace (p + length d - length (h i)) with 0 by lia. rewrite firstn_O, app_nil_r.
    rewrite app_assoc. f_equal. rewrite <- (firstn_skipn p (h i)) at 2. rewrite SK, firstn_app, firstn_length.
    replace (Nat.min p (length (h i))) with p by lia. replace (p + length d - p) with (length d) by lia.
    rewrite (firstn_all2 (firstn p (h i))) by (rewrite firstn_length; lia). f_equal. rewrite firstn_app, Nat.sub_diag, firstn_O, app_nil_r. now rewrite firstn_all.
Qed.

(** The buffer is the file as it was at one moment, that of the last read; so it holds all that was there
    when the file was opened.  After an error it is a beginning of that. *)
Theorem C108_snapshot : forall (h : nat -> bytes) (sizes : nat -> nat) (evs : list event) (e : nat) (fine : bool),
  appended_to h -> (forall i, 0 < sizes i) -> answers h 0 0 evs e fine ->
  exists b, read_file_in false sizes evs = Ret (IoOk (BufRead b)) /\
    (fine = true -> b = h e /\ exists d, b = h 0 ++ d) /\
    (fine = false -> b = firstn (length b) (h e)).
Proof.
  intros h sizes evs e fine A HS H. destruct (live_delivers h A 0 0 evs e fine H ltac:(lia)) as [_ (b & D & E)].
  exists b. split; [apply (C98_read_file sizes evs b HS D)|]. cbn [firstn app] in E. split; intros ->; [|exact E].
  split; [exact E|]. rewrite E. exact (appended_later h 0 A e).
Qed.
Print Assumptions C108_snapshot.

(** The entries of the buffer are those of the file, as it is at the end, which were complete at that moment. *)
Theorem C108_entries : forall (h : nat -> bytes) (sizes : nat -> nat) (evs : list event) (e last : nat) (fine : bool),
  appended_to h -> (forall i, 0 < sizes i) -> answers h 0 0 evs e fine -> e <= last ->
  exists b l ms l', read_file_in false sizes evs = Ret (IoOk (BufRead b)) /\
    dltit_offset (h last) = Ret l /\ shows l ms /\ (forall k m, In (k, m) ms -> message_at (h last) k m) /\
    dltit_offset b = Ret l' /\ shows l' (within (length b) ms).
Proof.
  intros h sizes evs e last fine A HS H LE. destruct (live_delivers h A 0 0 evs e fine H ltac:(lia)) as [_ (b & D & E)].
  destruct (appended_later h e A (last - e)) as [d P]. replace (e + (last - e)) with last in P by lia.
  assert (BP : b = firstn (length b) (h last)).
  { cbn [firstn app] in E. rewrite P, firstn_app. destruct fine.
    - rewrite E. rewrite Nat.sub_diag, firstn_O, app_nil_r, firstn_all. reflexivity.
    - assert (L : length b <= length (h e)) by (apply (f_equal (@List.length byte)) in E; rewrite firstn_length in E; cbn in E; lia).
      replace (length b - length (h e)) with 0 by lia. rewrite firstn_O, app_nil_r. exact E. }
  destruct (C89_cut (h last)) as (l & ms & E1 & SH & MA & CUT). destruct (CUT (length b)) as (l' & E2 & SH').
  exists b, l, ms, l'. split; [apply (C98_read_file sizes evs b HS D)|]. split; [exact E1|]. split; [exact SH|]. split; [exact MA|].
  rewrite <- BP in E2. now split.
Qed.
Print Assumptions C108_entries.

(** So the number that count prints never falls while the file grows. *)
Theorem C108_count_grows : forall (M : machine) (b d : bytes), exists n n',
  run_command M "count" b = Ret [LCount n] /\ run_command M "count" (b ++ d) = Ret [LCount n'] /\ n <= n'.
Proof.
  intros M b d. destruct (C89_cut (b ++ d)) as (l & ms & E & SH & _ & CUT). destruct (CUT (length b)) as (l' & E' & SH').
  rewrite firstn_app, Nat.sub_diag, firstn_O, app_nil_r, firstn_all in E'.
  exists (length l'), (length l). split; [|split].
  - rewrite (C59_count M _ _ (DltIterFacts.dltit_map _ _ E')), map_length. reflexivity.
  - rewrite (C59_count M _ _ (DltIterFacts.dltit_map _ _ E)), map_length. reflexivity.
  - assert (L1 : length l' = length (within (length b) ms)) by (clear - SH'; unfold shows in SH'; induction SH'; cbn; congruence).
    assert (L2 : length l = length ms) by (clear - SH; unfold shows in SH; induction SH; cbn; congruence).
    rewrite L1, L2. unfold within. clear. induction ms as [|p ms IH]; cbn [filter length]; [lia|]. destruct (_ <=? _); cbn [length]; lia.
Qed.
Print Assumptions C108_count_grows.

(** Reading the output of dd_dlt while it is being written (a beginning of it of growing length, up to all):
    exactly the messages that have been written completely at that moment, with their payloads. *)
Theorem C108_dd_dlt : forall v A mode (e a : quad) psize size more chunks rest fuel out n (written : nat -> nat) sizes evs moment,
  says size psize -> (1 <= psize <= 65517)%N ->
  Forall (fun c => N.of_nat (length c) = psize) chunks -> (N.of_nat (length rest) < psize)%N ->
  Forall line_fits chunks -> in_budget mode (length chunks) -> length chunks < fuel ->
  dd_dlt v fuel A mode (quad_bytes e :: quad_bytes a :: size :: more) (concat chunks ++ rest) = Ret (out, DdDone n) ->
  (forall i, written i <= written (S i)) -> (forall i, 0 < sizes i) ->
  answers (fun i => firstn (written i) out) 0 0 evs moment true ->
  exists b l, read_file_in false sizes evs = Ret (IoOk (BufRead b)) /\ dltit_offset b = Ret l /\
    length l = Nat.min (length chunks) (written moment / (34 + N.to_nat psize)) /\
    forall i c, i < length l -> nth_error chunks i = Some c ->
      exists x, nth_error l i = Some (i * (34 + N.to_nat psize), x) /\ payload (dlt x) = Ret (Some c).
Proof.
  intros v A mode e a psize size more chunks rest fuel out n written sizes evs moment SZ Hp F LR FL B Hf R MO HS H.
  assert (AP : appended_to (fun i => firstn (written i) out)).
  { intros i. exists (firstn (written (S i) - written i) (skipn (written i) out)). cbn beta. specialize (MO i).
    rewrite <- (firstn_skipn (written i) (firstn (written (S i)) out)). f_equal; [|now rewrite skipn_firstn_comm].
    rewrite firstn_firstn. f_equal. lia. }
  destruct (C108_snapshot _ sizes evs moment true AP HS H) as (b & E & S & _). destruct (S eq_refl) as [-> _].
  destruct (C55_killed v A mode e a psize size more chunks rest fuel out n (written moment) SZ Hp F LR FL B Hf R) as (l & D & L & P).
  exists (firstn (written moment) out), l. now repeat split.
Qed.
Print Assumptions C108_dd_dlt.

(** A file that grows from one message to two and a half while it is read in pieces of at most 30 bytes. *)
Definition growing (i : nat) : bytes := firstn (45 + 20 * i) (m1 ++ m1 ++ firstn 25 m1).
Example C108_example : exists b l, answers growing 0 0 [Delivers (firstn 30 m1); Interrupted; Delivers (skipn 30 m1 ++ firstn 40 m1); Delivers (skipn 40 m1 ++ firstn 15 m1); Delivers (firstn 10 (skipn 15 m1)); Delivers []] 5 true /\
  read_file_in false (fun _ => 30) [Delivers (firstn 30 m1); Interrupted; Delivers (skipn 30 m1 ++ firstn 40 m1); Delivers (skipn 40 m1 ++ firstn 15 m1); Delivers (firstn 10 (skipn 15 m1)); Delivers []] = Ret (IoOk (BufRead b)) /\
  b = growing 5 /\ dltit_offset b = Ret l /\ map fst l = [0; 45].
Proof.
  do 2 eexists. split; [|split; [vm_compute; reflexivity|]].
  - eapply (answers_bytes _ 0 0 _ (skipn 30 m1)); [discriminate|vm_compute; reflexivity|].
    apply answers_signal. eapply (answers_bytes _ 2); [discriminate|vm_compute; reflexivity|].
    eapply (answers_bytes _ 3); [discriminate|vm_compute; reflexivity|]. eapply (answers_bytes _ 4 _ _ []); [discriminate|vm_compute; reflexivity|]. apply answers_end. vm_compute. lia.
  - split; [vm_compute; reflexivity|]. split; [vm_compute; reflexivity|reflexivity].
Qed.
(** Without the condition the buffer can be a mixture: a file overwritten between two reads. *)
Example C108_condition_needed : exists (h : nat -> bytes) evs b, ~ appended_to h /\ answers h 0 0 evs 2 true /\
  read_file_in false (fun _ => 4) evs = Ret (IoOk (BufRead b)) /\ forall i, b <> h i.
Proof.
  exists (fun i => match i with 0 => [x61; x61] | _ => [x62; x62] end), [Delivers [x61]; Delivers [x62]; Delivers []], [x61; x62].
  split; [|split; [|split; [reflexivity|]]].
  - intros A. destruct (A 0) as [d E]. discriminate.
  - eapply (answers_bytes _ 0 0 _ [x61]); [discriminate|reflexivity|]. eapply (answers_bytes _ 1 _ _ []); [discriminate|reflexivity|].
    apply answers_end. cbn. lia.
  - intros [|[|i]]; discriminate.
Qed.
