(** Property theorem C106: the partitions are balanced and lose little (vocabulary in Spec.v). *)
From Verif Require Import Base DltModel MatchModel GenModel ToolsModel Spec ReadSpec BaseFacts DltFacts CodecFacts ParseFacts
  FindFacts IterFacts DltIterFacts LayoutFacts ContainFacts PartitionFacts CutFacts BalanceFacts P_Partition P_Read.
From Verif Require Samples.
From Coq Require Import ZifyBool ZifyNat ZifyN.
Import Samples(m1, m2, m3, m1_valid, m2_valid, m3_valid).
Ltac Zify.zify_post_hook ::= idtac.

Lemma balance_all b o max num l : outermost_law b o -> (forall i m, o i -> message_at b i m -> length m <= max) ->
  0 < max <= length b / num -> 0 < num -> partition_from DLT b num = Ret l ->
  exists rest, b = concat l ++ rest /\ length rest < length b / num /\ num <= length l /\
    Forall (fun q => length b / num - max < length q <= length b / num + length b / num / 4) l.
Proof.
  intros LAW MAX RM Hn E. set (size := length b / num) in *.
  destruct (C70_partition_exact b num Hn) as (o' & LAW' & U & l' & E' & P & _). fold size in P.
  rewrite E in E'. injection E' as <-.
  assert (MAX' : forall i m, o' i -> message_at b i m -> length m <= max) by (intros i m O; apply MAX; now apply U).
  destruct (balance b o' max size MAX' ltac:(lia) ltac:(lia) 0 size l P eq_refl ltac:(lia)) as (rest & E1 & E2 & E3 & E4).
  exists rest. split; [exact E1|]. split; [exact E2|]. split.
  - assert (num * size <= length b) by (apply Nat.mul_div_le; lia). destruct (Nat.le_gt_cases num (length l)) as [L|L]; [exact L|].
    assert ((length l + 1) * size <= num * size) by (apply Nat.mul_le_mono_r; lia). lia.
  - eapply Forall_impl; [|exact E3]. cbn beta. intros q. destruct (Nat.eqb_spec max 0); lia.
Qed.

(** C106, for any file: if no message in it is longer than a [num]-th of the file ([share]), there are at
    least [num] partitions, each of them has more than [share - max] and at most [share + share / 4]
    bytes, and fewer than [share] bytes are lost at the end. *)
Theorem C106_balance : forall (b : bytes) (num max : nat) l,
  let share := length b / num in
  (forall i m, message_at b i m -> length m <= max) -> 0 < max <= share -> 0 < num ->
  partition_from DLT b num = Ret l ->
  exists rest, b = concat l ++ rest /\ length rest < share /\ num <= length l /\
    Forall (fun q => share - max < length q <= share + share / 4) l.
Proof.
  intros b num max l share MAX RM Hn E. apply (balance_all b (outer b) max num l); auto using outer_law.
  intros i m _. apply MAX.
Qed.
Print Assumptions C106_balance.

(** In a file of messages of at most 65536 bytes only these count, not those in their payloads; the
    parallel count, on any schedule, is at most the number of messages in [share] bytes too low. *)
Theorem C106_file : forall parts last (num max : nat) l,
  let file := layout parts last in let share := length file / num in
  enclosed parts last -> at_most 65536 parts -> at_most (N.of_nat max) parts -> 0 < max <= share -> 0 < num ->
  partition_from DLT file num = Ret l ->
  (exists rest, file = concat l ++ rest /\ length rest < share /\ num <= length l /\
    Forall (fun q => share - max < length q <= share + share / 4) l) /\
  forall sched : scheduler, fair_sched sched ->
    exists n, multithreaded sched num count file = Ret n /\ n <= length parts /\ (length parts - n) * 20 < share.
Proof.
  intros parts last num max l file share EN MX AM RM Hn E.
  assert (B : exists rest, file = concat l ++ rest /\ length rest < share /\ num <= length l /\
    Forall (fun q => share - max < length q <= share + share / 4) l).
  { apply (balance_all file (outer file) max num l); auto using outer_law. intros i m O M.
    apply (outermost_parts parts last _ EN MX (outer_law _)) in O. destruct O as [m' I].
    rewrite (message_at_fun _ _ _ _ M (placed_message parts last i m' (proj1 EN) I)).
    apply placed_part in I. destruct I as [j I]. unfold at_most in AM. rewrite Forall_forall in AM. specialize (AM _ I). cbn in AM. lia. }
  split; [exact B|]. intros sched HS. destruct B as (rest & E1 & E2 & _).
  destruct (partition_chunks parts last num l EN MX E) as (chunks & parts' & last' & C1 & C2 & C3 & C4 & C5).
  fold file in C3. rewrite E1 in C3. apply app_inv_head in C3.
  assert (LR : length parts' * 20 <= length rest).
  { rewrite C3. destruct C4 as [V _]. clear - V. revert V. induction parts' as [|[j m] ps IH]; intros V; [cbn; lia|].
    inversion V as [|x y (_ & L & _) V2]; subst x y. cbn [snd] in L. specialize (IH V2). cbn [length layout] in *. rewrite !app_length. lia. }
  unfold multithreaded. fold file. rewrite E. cbn [obind].
  assert (MM : mapM count l = Ret (map (fun c => length (fst c)) chunks)).
  { rewrite C1. clear - C2. induction C2 as [|c cs EN _ IH]; [reflexivity|]. cbn [map mapM].
    rewrite (count_layout _ _ EN). cbn [obind]. now rewrite IH. }
  rewrite MM. cbn [obind]. eexists. split; [reflexivity|]. rewrite reduce_add.
  assert (SP : forall l, total (leaves (sched nat l)) = total l) by (intros; apply (sum_perm _ _ (HS nat _))). rewrite SP.
  assert (T : length parts = total (map (fun c : list (bytes * bytes) * bytes => length (fst c)) chunks) + length parts').
  { apply (f_equal (@length bytes)) in C5. rewrite map_length, app_length, map_length in C5. rewrite C5. f_equal.
    clear. induction chunks as [|c cs IH]; [reflexivity|]. cbn [map concat]. rewrite app_length, map_length, IH. reflexivity. }
  split; lia.
Qed.
Print Assumptions C106_file.
(** Eight messages of 45 bytes, three partitions: [share] is 120, and two messages are lost, which have 90 bytes. *)
Example C106_example : exists l, let parts := rep m1 8 in
  enclosed parts [] /\ at_most 65536 parts /\ at_most (N.of_nat 45) parts /\ 0 < 45 <= length (layout parts []) / 3 /\
  partition_from DLT (layout parts []) 3 = Ret l /\ length l = 3 /\ length (layout parts []) - length (concat l) = 90.
Proof.
  eexists. cbv zeta. split; [apply enclosed_check; [|vm_compute; reflexivity]; repeat constructor; exact m1_valid|].
  split; [repeat constructor; vm_compute; discriminate|]. split; [repeat constructor; vm_compute; discriminate|].
  split; [vm_compute; lia|]. split; [vm_compute; reflexivity|]. split; vm_compute; reflexivity.
Qed.

(** If a message is longer than that, nothing at all may be delivered. *)
Theorem C106_condition_needed : exists parts, enclosed parts [] /\ length parts = 2 /\
  partition_from DLT (layout parts []) 4 = Ret [] /\ at_most (N.of_nat (length (layout parts []) / 2)) parts.
Proof.
  exists (rep m1 2). split; [apply enclosed_check; [|vm_compute; reflexivity]; repeat constructor; exact m1_valid|].
  split; [reflexivity|]. split; [vm_compute; reflexivity|]. repeat constructor; vm_compute; discriminate.
Qed.
Print Assumptions C106_condition_needed.
