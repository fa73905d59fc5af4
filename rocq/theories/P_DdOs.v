(** Property theorems C85, C86 and C105: dd_dlt and an operating system that does not take every byte
    (vocabulary in OsSpec.v). *)
From Coq Require Import String.
From Verif Require Import Base DltModel MatchModel GenModel ToolsModel DdModel MainModel DdOs OsSpec Spec Samples BaseFacts DltFacts CodecFacts ParseFacts
  FindFacts IterFacts DltIterFacts DdFacts DdOsFacts DdAnyFacts P_DD.
From Verif Require P_Read.
From Coq Require Import ZifyBool ZifyNat ZifyN.

(** C85.  [out0] is what dd_dlt writes if every byte is taken, [e0] how it ends then. *)
Theorem C85_beginning_partial : forall v A mode args stdin fuel out0 e0 (o : os), in_order o ->
  dd_dlt v fuel A mode args stdin = Ret (out0, e0) ->
  exists out e missing, dd_dlt_os v fuel o A mode args stdin = Ret (out, e) /\ out0 = out ++ missing /\
    (e = OsError \/ same_end e e0).
Proof.
  intros v A mode args stdin fuel out0 e0 o RO H.
  destruct (program_os o v fuel A mode args stdin out0 e0 RO H) as (out & e & E & [r G] & R).
  exists out, e, r. split; [exact E|]. split; [exact G|]. tauto.
Qed.
Print Assumptions C85_beginning_partial.

(** Hence what can be read back are exactly the messages that have arrived completely. *)
Theorem C85_survivors_partial : forall v A mode (e a : quad) psize size more chunks rest fuel (o : os), in_order o ->
  says size psize -> (1 <= psize <= 65517)%N ->
  Forall (fun c => N.of_nat (length c) = psize) chunks -> (N.of_nat (length rest) < psize)%N ->
  Forall line_fits chunks -> in_budget mode (length chunks) -> length chunks < fuel ->
  exists out ending l, dd_dlt_os v fuel o A mode (quad_bytes e :: quad_bytes a :: size :: more) (concat chunks ++ rest) = Ret (out, ending) /\
    (ending = OsError \/ ending = OsDone (N.of_nat (length chunks))) /\
    dltit_offset out = Ret l /\
    length l = Nat.min (length chunks) (length out / (34 + N.to_nat psize)) /\
    forall i c, i < length l -> nth_error chunks i = Some c ->
      exists x, nth_error l i = Some (i * (34 + N.to_nat psize), x) /\ payload (dlt x) = Ret (Some c).
Proof.
  intros v A mode e a psize size more chunks rest fuel o RO SZ Hp F LR FL B Hf.
  pose proof (run_spec v A mode e a psize size more chunks rest fuel _ SZ ltac:(lia) (checked_len mode psize ltac:(lia)) LR F B Hf) as H.
  destruct (C85_beginning_partial _ _ _ _ _ _ _ _ o RO H) as (out & en & missing & E & G & R).
  destruct (C55_killed v A mode e a psize size more chunks rest fuel _ _ (length out) SZ Hp F LR FL B Hf H) as (l & L1 & L2 & L3).
  rewrite G, firstn_app, firstn_all, Nat.sub_diag in L1. cbn [firstn] in L1. rewrite app_nil_r in L1.
  exists out, en, l. split; [exact E|]. split; [|now auto].
  destruct R as [R|R]; [now left|right]. destruct en; cbn in R; try contradiction. now rewrite R.
Qed.
Print Assumptions C85_survivors_partial.

(** A disk that is full after a part of the 1st write(2). *)
Definition full_disk : os := fun i => match i with 0 => Takes 450 | _ => Fails end.
Lemma full_disk_in_order : in_order full_disk.
Proof. intros [|i]; [right; right; exists 450; split; [reflexivity|]; intros [|j] L; [lia|reflexivity]|right; left; reflexivity]. Qed.
Example C85_example : in_order full_disk /\ exists out l,
  dd_dlt_os TakesSome 60 full_disk addrs Debug [quad_bytes quad_ECU1; quad_bytes quad_ECU1; ten] (repeat x61 300) = Ret (out, OsError) /\
  length out = 450 /\ dltit_offset out = Ret l /\ length l = 10.
Proof. split; [exact full_disk_in_order|]. do 2 eexists. split; [vm_compute; reflexivity|]. split; [reflexivity|]. split; vm_compute; reflexivity. Qed.

(** C85 fails if the operating system takes a part of a large write and then goes on (a pipe or
    socket in non-blocking mode): dd_dlt drops the rest of the payload, reports success, and what
    has arrived is not a beginning of the output; of the two messages the second one cannot be read. *)
Definition hesitant : os := fun i => match i with 1 => Takes 1000 | _ => TakesAll end.
Theorem C85_refuted : forall v, exists stdin out0 out l,
  dd_dlt v 9 addrs Release [quad_bytes quad_ECU1; quad_bytes quad_ECU1; two_thousand] stdin = Ret (out0, DdDone 2) /\
  dd_dlt_os v 9 hesitant addrs Release [quad_bytes quad_ECU1; quad_bytes quad_ECU1; two_thousand] stdin = Ret (out, OsDone 2) /\
  ~ (exists missing, out0 = out ++ missing) /\ dltit_offset out = Ret l /\ length l = 1.
Proof.
  intros v. exists (repeat x00 4000). do 3 eexists. split; [destruct v; vm_compute; reflexivity|].
  split; [destruct v; vm_compute; reflexivity|]. split.
  - intros [missing E]. apply (f_equal (fun b => firstn 10 (skipn 1034 b))) in E. revert E. destruct v; vm_compute; discriminate.
  - split; [destruct v; vm_compute; reflexivity|]. destruct v; vm_compute; reflexivity.
Qed.
Print Assumptions C85_refuted.

(** C86.  If every write(2) takes all it is given, everything arrives and the program ends as in
    DdModel.v. *)
Theorem C86_all_taken_partial : forall v A mode args stdin fuel out0 e0 (o : os), (forall i, o i = TakesAll) ->
  dd_dlt v fuel A mode args stdin = Ret (out0, e0) ->
  exists e, dd_dlt_os v fuel o A mode args stdin = Ret (out0, e) /\ same_end e e0.
Proof. intros v A mode args stdin fuel out0 e0 o H. exact (program_all o H v fuel A mode args stdin out0 e0). Qed.
Print Assumptions C86_all_taken_partial.

(** If dd_dlt does not report an error, at most the payload of one message, 16 bytes of header and
    the 1024 bytes of the buffer are missing at the end. *)
Theorem C86_success_partial : forall v A mode ecuid appid size more stdin fuel psize out0 n (o : os), in_order o ->
  says size psize -> (psize < 65536)%N ->
  dd_dlt v fuel A mode (ecuid :: appid :: size :: more) stdin = Ret (out0, DdDone n) ->
  exists out e, dd_dlt_os v fuel o A mode (ecuid :: appid :: size :: more) stdin = Ret (out, e) /\
    (e <> OsError -> e = OsDone n /\ exists missing, out0 = out ++ missing /\ length missing <= N.to_nat psize + 16 + 1024).
Proof.
  intros v A mode ecuid appid size more stdin fuel psize out0 n o RO SZ Hp H.
  destruct (program_os o v fuel A mode _ stdin out0 _ RO H) as (out & e & E & [r G] & R).
  exists out, e. split; [exact E|]. intros NE. destruct R as [R|[R1 R2]]; [contradiction|].
  split; [destruct e; cbn in R1; try contradiction; now rewrite R1|].
  exists r. split; [exact G|]. specialize (R2 _ _ _ _ psize eq_refl (P_Read.says_parse size psize SZ Hp)).
  rewrite G, app_length in R2. unfold lw_capacity in R2. lia.
Qed.
Print Assumptions C86_success_partial.

(** C86 is false: on a disk without any room dd_dlt reports success and six messages, because they
    are still in the buffer when it ends, and an error of the last flush is ignored ... *)
Theorem C86_refuted : forall v, in_order (fun _ => Fails) /\ exists out0,
  dd_dlt v 20 addrs Debug [quad_bytes quad_ECU1; quad_bytes quad_ECU1; ten] (repeat x61 60) = Ret (out0, DdDone 6) /\ length out0 = 264 /\
  dd_dlt_os v 20 (fun _ => Fails) addrs Debug [quad_bytes quad_ECU1; quad_bytes quad_ECU1; ten] (repeat x61 60) = Ret ([], OsDone 6).
Proof.
  intros v. split; [intros i; right; left; reflexivity|]. eexists. split; [destruct v; vm_compute; reflexivity|].
  split; [destruct v; vm_compute; reflexivity|]. destruct v; vm_compute; reflexivity.
Qed.
Print Assumptions C86_refuted.
(** ... a large last payload of which a part is taken is lost likewise, although the error is reported
    to dd_dlt as the number of bytes taken ... *)
Theorem C86_short_refuted : forall v, in_order (fun i => match i with 0 => TakesAll | 1 => Takes 100 | _ => Fails end) /\ exists out0 out,
  dd_dlt v 20 addrs Debug [quad_bytes quad_ECU1; quad_bytes quad_ECU1; two_thousand] (repeat x00 2000) = Ret (out0, DdDone 1) /\ length out0 = 2034 /\
  dd_dlt_os v 20 (fun i => match i with 0 => TakesAll | 1 => Takes 100 | _ => Fails end) addrs Debug
    [quad_bytes quad_ECU1; quad_bytes quad_ECU1; two_thousand] (repeat x00 2000) = Ret (out, OsDone 1) /\ length out = 134.
Proof.
  intros v. split; [intros [|[|i]]; [left; reflexivity|right; right; exists 100; split; [reflexivity|]; intros [|[|j]] L; [lia|lia|reflexivity]|right; left; reflexivity]|].
  do 2 eexists. split; [destruct v; vm_compute; reflexivity|]. split; [destruct v; vm_compute; reflexivity|].
  split; [destruct v; vm_compute; reflexivity|]. destruct v; vm_compute; reflexivity.
Qed.
Print Assumptions C86_short_refuted.
(** ... and if standard output is not open at all, nothing arrives and the ending is the same, for
    every input. *)
Theorem C86_not_open_refuted : forall v A mode args stdin fuel out0 e0 (o : os), (forall i, o i = NotOpen) ->
  dd_dlt v fuel A mode args stdin = Ret (out0, e0) ->
  exists e, dd_dlt_os v fuel o A mode args stdin = Ret ([], e) /\ same_end e e0.
Proof. intros v A mode args stdin fuel out0 e0 o H. exact (program_closed o H v fuel A mode args stdin out0 e0). Qed.
Print Assumptions C86_not_open_refuted.

(** C105.  Whatever an open output takes of each write(2), also if it goes on after taking a part or
    failing: of each of the parts that dd_dlt writes ([out0] is what it writes if every byte is
    taken) a beginning arrives, in their order and nothing else, and it ends as usual or with an error. *)
Theorem C105_parts : forall v A mode (e a : quad) psize size more chunks rest fuel (o : os) out0 e0, (forall i, o i <> NotOpen) ->
  says size psize -> (1 <= psize <= 65517)%N ->
  Forall (fun c => N.of_nat (length c) = psize) chunks -> (N.of_nat (length rest) < psize)%N ->
  Forall line_fits chunks -> in_budget mode (length chunks) -> length chunks < fuel ->
  dd_dlt v fuel A mode (quad_bytes e :: quad_bytes a :: size :: more) (concat chunks ++ rest) = Ret (out0, e0) ->
  exists out ending, dd_dlt_os v fuel o A mode (quad_bytes e :: quad_bytes a :: size :: more) (concat chunks ++ rest) = Ret (out, ending) /\
    (ending = OsError \/ same_end ending e0) /\
    shortened (written_parts (N.to_nat psize) (length chunks) out0) out.
Proof.
  intros v A mode e a psize size more chunks rest fuel o out0 e0 OPEN SZ Hp F LR FL B Hf H.
  pose proof (checked_len mode psize ltac:(lia)) as CL.
  rewrite (run_spec v A mode e a psize size more chunks rest fuel _ SZ ltac:(lia) CL LR F B Hf) in H.
  injection H as <- <-. unfold dd_dlt_os. rewrite (P_Read.says_parse size psize SZ ltac:(lia)).
  destruct (loop_any o OPEN v A mode e a psize _ rest CL LR chunks 0 stdout_new fuel []) as (out & en & E & R & S).
  - exists []. split; [constructor|reflexivity].
  - exact F.
  - unfold in_budget in B. destruct mode; [right; unfold u32_mod; lia|now left].
  - unfold in_budget, u32_mod in *. destruct mode; lia.
  - exact Hf.
  - exists out, en. split; [exact E|]. split; [destruct R as [->| ->]; [now left|right; cbn; lia]|].
    rewrite (parts_written A e a _ (N.to_nat psize) chunks 0 v); [exact S| |exact FL].
    eapply Forall_impl; [|exact F]. cbn. intros c. lia.
Qed.
Print Assumptions C105_parts.

(** If it never fails and always takes something, dd_dlt ends as usual, and parts of less than 1024
    bytes without a newline arrive completely, others of up to 1024 bytes at least up to their last newline,
    larger ones with a newline completely or up to a newline or 1024 bytes without one. *)
Theorem C105_patient : forall v A mode (e a : quad) psize size more chunks rest fuel (o : os) out0 e0, patient o ->
  says size psize -> (1 <= psize <= 65517)%N ->
  Forall (fun c => N.of_nat (length c) = psize) chunks -> (N.of_nat (length rest) < psize)%N ->
  Forall line_fits chunks -> in_budget mode (length chunks) -> length chunks < fuel ->
  dd_dlt v fuel A mode (quad_bytes e :: quad_bytes a :: size :: more) (concat chunks ++ rest) = Ret (out0, e0) ->
  exists kept, dd_dlt_os v fuel o A mode (quad_bytes e :: quad_bytes a :: size :: more) (concat chunks ++ rest)
      = Ret (concat kept, OsDone (N.of_nat (length chunks))) /\
    Forall2 mostly_kept kept (written_parts (N.to_nat psize) (length chunks) out0).
Proof.
  intros v A mode e a psize size more chunks rest fuel o out0 e0 PA SZ Hp F LR FL B Hf H.
  pose proof (checked_len mode psize ltac:(lia)) as CL.
  rewrite (run_spec v A mode e a psize size more chunks rest fuel _ SZ ltac:(lia) CL LR F B Hf) in H.
  injection H as <- <-. unfold dd_dlt_os. rewrite (P_Read.says_parse size psize SZ ltac:(lia)).
  destruct (loop_patient o PA v A mode e a psize _ rest CL LR chunks 0 stdout_new fuel) as (kept & E & K).
  - exact F.
  - exact FL.
  - unfold in_budget in B. destruct mode; [right; unfold u32_mod; lia|now left].
  - unfold in_budget, u32_mod in *. destruct mode; lia.
  - exact Hf.
  - exists kept. split; [rewrite E; reflexivity|].
    rewrite (parts_written A e a _ (N.to_nat psize) chunks 0 v); [exact K| |exact FL].
    eapply Forall_impl; [|exact F]. cbn. intros c. lia.
Qed.
Print Assumptions C105_patient.
(** One byte at a time: message 10 has the byte 10 as its counter, and the two bytes behind it are lost
    (the length of the message); likewise the last byte of the timestamps of messages 26, 27 and 28. *)
Example C105_example : patient (fun _ => Takes 1) /\ (forall i, (fun _ : nat => Takes 1) i <> NotOpen) /\ exists out,
  dd_dlt_os TakesSome 60 (fun _ => Takes 1) addrs Debug [quad_bytes quad_ECU1; quad_bytes quad_ECU1; ten] (repeat x61 300) = Ret (out, OsDone 30) /\
  length out = 30 * 44 - 5.
Proof.
  split; [intros i; right; exists 1; split; [reflexivity|lia]|]. split; [discriminate|]. eexists. split; [vm_compute; reflexivity|].
  vm_compute. reflexivity.
Qed.
