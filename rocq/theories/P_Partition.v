(** Property theorems C29-C34: containment search and partitioning. *)
From Verif Require Import Base DltModel MatchModel GenModel ToolsModel Spec Samples BaseFacts DltFacts FindFacts IterFacts DltIterFacts LayoutFacts GrepTools ContainFacts PartitionFacts.
From Coq Require Import Sorted Permutation.
Opaque dlt_max_len.

(** C29: total and sound; [p0 + 1] nested calls suffice. *)
Theorem C29_contained_by_total_sound : forall (b : bytes) (p0 p1 : nat), exists r,
  (forall fuel, p0 < fuel -> contained_by DLT fuel b p0 p1 = Ret r) /\
  forall i e, r = Some (i, e) ->
    exists m, message_at b i m /\ denotes e m /\ i < p0 /\ p0 < p1 /\ p1 <= i + length m /\
      forall fuel, i < fuel -> contained_by DLT fuel b i (i + 4) = Ret None.
Proof.
  intros b p0 p1. destruct (contained_by_total b p0 p1) as [r R]. exists r. split; [exact R|].
  intros i e ->.
  destruct (le_lt_dec p1 p0) as [L|L].
  { specialize (R (S p0) (le_n _)). cbn [contained_by] in R. destruct (Nat.leb_spec p1 p0); [|lia].
    rewrite Bool.orb_true_r in R. cbn in R. discriminate. }
  destruct (le_lt_dec (length b) p1) as [L'|L'].
  { specialize (R (S p0) (le_n _)). cbn [contained_by] in R. destruct (Nat.leb_spec (length b) p1); [|lia].
    rewrite Bool.orb_true_r in R. cbn in R. discriminate. }
  destruct (cb_spec b p0 p1 L L') as [(i' & n & t & E & A1 & A2 & A3 & A4 & _)|(E & _)];
    rewrite (R (S p0) (le_n _)) in E; [|discriminate]. injection E as <- <-.
  apply dcand_iff in A3. destruct A3 as (m & M1 & <- & M2). exists m.
  split; [exact M1|]. split; [exact M2|]. split; [lia|]. split; [exact L|]. split; [exact A4|].
  intros fuel Hf. rewrite cb_fuel by exact Hf. apply A2.
Qed.
Print Assumptions C29_contained_by_total_sound.

(** C29, exactly: call a message outermost if no outermost message that starts before it (at
    most 65535 bytes) reaches over its marker.  The search returns the first outermost message
    that starts at most 65535 bytes before the range and covers the range, and None if there is
    none. *)
Theorem C29_contained_by_exact : forall b : bytes, exists outermost : nat -> Prop,
  (forall i, outermost i <->
     (exists m, message_at b i m) /\
     forall j m, outermost j -> message_at b j m -> j < i -> (N.of_nat i <= N.of_nat j + 65535)%N ->
       j + length m < i + 4) /\
  forall p0 p1, p0 < p1 < length b ->
    let covers j := outermost j /\ j < p0 /\ (N.of_nat p0 <= N.of_nat j + 65535)%N /\
                    exists m, message_at b j m /\ p1 <= j + length m in
    (exists i e m, contained_by DLT (S p0) b p0 p1 = Ret (Some (i, e)) /\
       message_at b i m /\ denotes e m /\ covers i /\ forall j, j < i -> ~ covers j) \/
    (contained_by DLT (S p0) b p0 p1 = Ret None /\ forall j, ~ covers j).
Proof.
  intros b. exists (outer b). pose proof max_len_N as MN. split.
  - intros i. rewrite outer_iff. split.
    + intros [(n & t & C) F]. apply dcand_iff in C. destruct C as (m & M1 & _). split; [now exists m|].
      intros j mj O Mj L W. apply (F j (length mj) (entry_of mj)); [lia|exact O|now apply dcand_entry].
    + intros [(m & M1) F]. split; [exists (length m), (entry_of m); now apply dcand_entry|].
      intros j n t Hj O C. apply dcand_iff in C. destruct C as (mj & Mj & <- & _).
      apply (F j mj O Mj); lia.
  - intros p0 p1 [H1 H2] covers.
    assert (CV : forall j, covers j -> p0 - dlt_max_len <= j < p0 /\ exists n t, outer b j /\ dcand b j n t /\ p1 <= j + n).
    { intros j (O & L & W & m & M1 & Q). split; [lia|]. exists (length m), (entry_of m).
      split; [exact O|]. split; [now apply dcand_entry|exact Q]. }
    destruct (cb_spec b p0 p1 H1 H2) as [(i & n & t & E & A1 & A2 & A3 & A4 & A5)|(E & A5)].
    + left. assert (A3' := A3). apply dcand_iff in A3. destruct A3 as (m & M1 & <- & M2). exists i, t, m.
      split; [exact E|]. split; [exact M1|]. split; [exact M2|].
      
      split; [|]. {  unfold covers. split; [exact A2|]. split; [apply A1|]. split; [|exists m; split; [exact M1|exact A4]].
        clear - A1 MN. generalize dependent dlt_max_len. intros. lia. }
      intros j L C. destruct (CV j C) as (W & n & t' & O & D & Q).
      specialize (A5 j n t' ltac:(lia) O D). lia.
    + right. split; [exact E|]. intros j C. destruct (CV j C) as (W & n & t' & O & D & Q).
      specialize (A5 j n t' W O D). lia.
Qed.
Print Assumptions C29_contained_by_exact.

(** C30: in files with enclosed markers and messages of at most 65536 bytes. *)
Theorem C30_finds_message : forall parts last k m p0 p1,
  enclosed parts last -> at_most 65536 parts ->
  In (k, m) (placed 0 parts) -> k < p0 -> p0 < p1 -> p1 <= k + length m -> p1 < length (layout parts last) ->
  exists e, denotes e m /\ contained_by DLT (S p0) (layout parts last) p0 p1 = Ret (Some (k, e)).
Proof.
  intros parts last k m p0 p1 EN MX I H1 H2 H3 H4. exists (entry_of m). split.
  - apply denotes_entry_of. apply (en_message parts last EN k m I).
  - now apply cb_inside.
Qed.
Print Assumptions C30_finds_message.

Theorem C30_none_between : forall parts last p0 p1,
  enclosed parts last -> at_most 65536 parts -> between (placed 0 parts) p0 -> p0 < p1 ->
  contained_by DLT (S p0) (layout parts last) p0 p1 = Ret None.
Proof. intros parts last p0 p1 EN MX. exact (cb_between parts last EN MX p0 p1). Qed.
Print Assumptions C30_none_between.

Lemma enclosed_check parts last : Forall (fun p => valid_message (snd p)) parts ->
  forallb (fun k => implb (is_prefix dlt_marker (skipn k (layout parts last)))
                          (existsb (fun p => (fst p <=? k) && (k + 4 <=? fst p + length (snd p))) (placed 0 parts)))
          (seq 0 (length (layout parts last))) = true ->
  enclosed parts last.
Proof.
  intros V H. split; [exact V|]. intros k O. apply occ_occurs in O; [|cbn; lia].
  pose proof (occ_len the_pattern _ _ ltac:(cbn; lia) O) as L. cbn [length the_pattern] in L.
  rewrite forallb_forall in H. specialize (H k). rewrite in_seq in H. specialize (H ltac:(lia)).
  change dlt_marker with the_pattern in H. rewrite O in H. cbn [implb] in H.
  apply existsb_exists in H. destruct H as ([k' m] & I & E). cbn in E. apply andb_prop in E.
  destruct E as [E1 E2]. apply Nat.leb_le in E1, E2. now exists k', m.
Qed.
Definition file1 : list (bytes * bytes) := [([x00; x01], m1); ([], m_nested); (repeat x00 7, m2)].
Example C30_example : enclosed file1 [x44; x4c] /\ at_most 65536 file1 /\
  exists e, contained_by DLT 73 (layout file1 [x44; x4c]) 72 74 = Ret (Some (47, e)).
Proof.
  split; [apply enclosed_check; [|vm_compute; reflexivity]|].
  - repeat constructor; cbn [snd]; apply m1_valid || apply m2_valid || apply m_nested_valid.
  - split; [repeat constructor; vm_compute; discriminate|]. eexists. vm_compute. reflexivity.
Qed.

(** C31 *)
Theorem C31_partition_prefix : forall (b : bytes) (num : nat),
  (num = 0 -> partition_from DLT b num = Panic) /\
  (0 < num -> exists l rest, partition_from DLT b num = Ret l /\
     Forall (fun p => p <> []) l /\ b = concat l ++ rest).
Proof. intros b num. split; [intros ->; reflexivity|apply partition_pieces]. Qed.
Print Assumptions C31_partition_prefix.

(** Neither the number of slices nor the coverage is as requested: three slices hold six of
    eight messages; asked for nine slices it returns fifteen. *)
Example C31_example : exists l l',
  partition_from DLT (concat (repeat m1 8)) 3 = Ret l /\ map (@length byte) l = [90; 90; 90] /\
  partition_from DLT (concat (repeat m1 16)) 9 = Ret l' /\ map (@length byte) l' = repeat 45 15.
Proof. do 2 eexists. vm_compute. repeat split; reflexivity. Qed.

(** C32: for messages of at most 65536 bytes: every partition is a file of whole messages, and
    together they hold the first messages of the file. *)
Theorem C32_whole_messages_partial : forall parts last num l,
  enclosed parts last -> at_most 65536 parts ->
  partition_from DLT (layout parts last) num = Ret l ->
  (forall l1 l2, l = l1 ++ l2 -> between (placed 0 parts) (length (concat l1))) /\
  exists chunks rest,
    l = map (fun c => layout (fst c) (snd c)) chunks /\
    Forall (fun c => enclosed (fst c) (snd c)) chunks /\
    map snd parts = concat (map (fun c => map snd (fst c)) chunks) ++ rest.
Proof.
  intros parts last num l EN MX E. split; [exact (partition_between parts last EN MX num l E)|].
  destruct (partition_chunks parts last num l EN MX E) as (chunks & parts' & last' & C1 & C2 & _ & _ & C5).
  exists chunks, (map snd parts'). auto.
Qed.
Print Assumptions C32_whole_messages_partial.

(** A message with the largest length field (65535): 65551 bytes; it is cut. *)
Definition big : bytes := sample_storage x0b quad_ECU1 ++ [x20; x05; xff; xff] ++ repeat x00 (N.to_nat 65531).
Definition big2 : bytes := sample_storage x0b quad_ECU1 ++ [x20; x05; xff; xe9] ++ repeat x00 (N.to_nat 65509).

Lemma big_len n : length (sample_storage x0b quad_ECU1 ++ n) = 16 + length n.
Proof. reflexivity. Qed.
Lemma big_ok l hi lo : (N.of_nat (length l) + 4 = 256 * Strings.Byte.to_N hi + Strings.Byte.to_N lo)%N ->
  valid_message (sample_storage x0b quad_ECU1 ++ [x20; x05; hi; lo] ++ l).
Proof.
  intros E. split; [reflexivity|]. split; [rewrite big_len, app_length; cbn [length]; lia|].
  change (u16_at (sample_storage x0b quad_ECU1 ++ [x20; x05; hi; lo] ++ l) 18)
    with (256 * Strings.Byte.to_N hi + Strings.Byte.to_N lo)%N.
  rewrite <- E, big_len, app_length. cbn [length]. lia.
Qed.
Lemma big_valid : valid_message big.
Proof. apply big_ok. rewrite repeat_length, N2Nat.id. reflexivity. Qed.
Lemma big2_valid : valid_message big2.
Proof. apply big_ok. rewrite repeat_length, N2Nat.id. reflexivity. Qed.

(** C32 fails for a message of more than 65536 bytes: the first partition ends inside it. *)
Theorem C32_refuted : exists parts l1 l2,
  Forall (fun p => valid_message (snd p)) parts /\
  partition_from DLT (layout parts []) 2 = Ret (l1 :: l2) /\
  exists k m, In (k, m) (placed 0 parts) /\ k < length l1 < k + length m.
Proof.
  exists [([], big); ([], big2)].
  assert (Q : exists l1 l2, partition_from DLT (layout [([], big); ([], big2)] []) 2 = Ret (l1 :: l2) /\
              N.of_nat (length l1) = 65540%N).
  { assert (F : match partition_from DLT (layout [([], big); ([], big2)] []) 2 with
                | Ret (l1 :: _) => Some (N.of_nat (length l1)) | _ => None end = Some 65540%N)
      by (vm_compute; reflexivity).
    destruct (partition_from DLT (layout [([], big); ([], big2)] []) 2) as [[|l1 l2]| |]; try discriminate F.
    exists l1, l2. split; [reflexivity|congruence]. }
  destruct Q as (l1 & l2 & E & L). exists l1, l2.
  split; [apply Forall_cons; [exact big_valid|]; apply Forall_cons; [exact big2_valid|]; apply Forall_nil|].
  split; [exact E|]. clear E. exists 0, big.
  split; [apply in_eq|].
  assert (N.of_nat (length big) = 65551%N).
  { unfold big. rewrite big_len, app_length, repeat_length. cbn [length]. lia. }
  lia.
Qed.
Print Assumptions C32_refuted.

(** C33: if the messages are small compared with the partitions ([num] times the largest
    message is at most a quarter of a partition), exactly [num] partitions hold everything. *)
Theorem C33_covers_partial : forall parts last max num,
  let file := layout parts last in
  enclosed parts last -> at_most 65536 parts -> at_most (N.of_nat max) parts ->
  0 < max -> 0 < num -> file <> [] -> num * max <= length file / num / 4 + 1 ->
  exists l, partition_from DLT file num = Ret l /\ length l = num /\ concat l = file.
Proof.
  intros parts last max num file EN MX AM Hm Hn NE Hr.
  apply (partition_covers parts last EN MX max num); auto.
  fold file. destruct file; [congruence|cbn; lia].
Qed.
Print Assumptions C33_covers_partial.

Definition rep (m : bytes) (n : nat) : list (bytes * bytes) := repeat ([], m) n.
Example C33_example : exists l,
  enclosed (rep m1 20) [x00] /\ at_most 65536 (rep m1 20) /\ at_most (N.of_nat 45) (rep m1 20) /\
  2 * 45 <= length (layout (rep m1 20) [x00]) / 2 / 4 + 1 /\
  partition_from DLT (layout (rep m1 20) [x00]) 2 = Ret l /\ map (@length byte) l = [450; 451].
Proof.
  eexists. split; [apply enclosed_check; [|vm_compute; reflexivity]|].
  { unfold rep. apply Forall_forall. intros p I. apply repeat_spec in I. subst. apply m1_valid. }
  split; [unfold rep, at_most; apply Forall_forall; intros p I; apply repeat_spec in I; subst; vm_compute; discriminate|].
  split; [unfold rep, at_most; apply Forall_forall; intros p I; apply repeat_spec in I; subst; vm_compute; discriminate|].
  split; [vm_compute; lia|]. vm_compute. split; reflexivity.
Qed.

(** C33 fails: of eight messages, three partitions hold six; of two messages, four
    partitions hold none. *)
Theorem C33_refuted :
  (exists l rest, partition_from DLT (concat (repeat m1 8)) 3 = Ret l /\
     concat l ++ rest = concat (repeat m1 8) /\ rest = m1 ++ m1) /\
  (exists parts, enclosed parts [] /\ length parts = 2 /\ partition_from DLT (layout parts []) 4 = Ret []).
Proof.
  split.
  - do 2 eexists. split; [vm_compute; reflexivity|]. split; [|reflexivity]. vm_compute. reflexivity.
  - exists (rep (plain_message x00 (repeat x00 30)) 2).
    split; [apply enclosed_check; [|vm_compute; reflexivity]|].
    { repeat constructor; vm_compute; lia. }
    split; [reflexivity|]. vm_compute. reflexivity.
Qed.
Print Assumptions C33_refuted.

(** C34: for every reduction tree, the parallel count never exceeds the sequential one, and
    is equal to it if the partitions cover the file, in particular under the condition of C33. *)
Theorem C34_parallel_count_partial : forall (sched : scheduler) parts last num,
  let file := layout parts last in
  fair_sched sched ->
  enclosed parts last -> at_most 65536 parts -> 0 < num ->
  count file = Ret (length parts) /\
  exists n, multithreaded sched num count file = Ret n /\ n <= length parts /\
    ((exists l, partition_from DLT file num = Ret l /\ concat l = file) -> n = length parts) /\
    (forall max, at_most (N.of_nat max) parts -> 0 < max -> file <> [] ->
       num * max <= length file / num / 4 + 1 -> n = length parts).
Proof.
  intros sched parts last num file HS EN MX Hn. split; [now apply count_layout|].
  destruct (multithreaded_count sched num parts last HS EN MX Hn) as (n & E & L & Q).
  exists n. split; [exact E|]. split; [exact L|]. split.
  - intros (l & E1 & E2). exact (Q l E1 E2).
  - intros max AM Hm NE Hr.
    destruct (C33_covers_partial parts last max num EN MX AM Hm Hn NE Hr) as (l & E1 & _ & E2).
    exact (Q l E1 E2).
Qed.
Print Assumptions C34_parallel_count_partial.

(** A scheduler that splits in halves (what rayon does without stealing), and one that adds
    identities and leans right. *)
Fixpoint sched_right (A : Type) (l : list A) : rtree A :=
  match l with [] => RId | x :: l' => RNode (RNode RId (RLeaf x)) (sched_right A l') end.
Lemma sched_right_leaves A l : leaves (sched_right A l) = l.
Proof. induction l as [|x l IH]; [reflexivity|]. cbn. now rewrite IH. Qed.
Lemma sched_right_fair : fair_sched sched_right.
Proof. intros A l. now rewrite sched_right_leaves. Qed.
Example C34_example : fair_sched sched_right /\ multithreaded sched_right 2 count (layout (rep m1 20) [x00]) = Ret 20.
Proof. split; [exact sched_right_fair|]. vm_compute. reflexivity. Qed.

Theorem C34_refuted : count (concat (repeat m1 8)) = Ret 8 /\
  forall sched : scheduler, fair_sched sched ->
  multithreaded sched 3 count (concat (repeat m1 8)) = Ret 6.
Proof.
  split; [vm_compute; reflexivity|]. intros sched HS.
  assert (E : exists l, partition_from DLT (concat (repeat m1 8)) 3 = Ret l /\ mapM count l = Ret [2; 2; 2]).
  { eexists. split; [vm_compute; reflexivity|]. vm_compute. reflexivity. }
  destruct E as (l & E1 & E2). unfold multithreaded. rewrite E1. cbn [obind]. rewrite E2. cbn [obind].
  rewrite reduce_add. f_equal. exact (sum_perm _ _ (HS nat _)).
Qed.
Print Assumptions C34_refuted.
