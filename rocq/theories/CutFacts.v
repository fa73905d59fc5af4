(** Exact partitions (C70). *)
From Verif Require Import Base DltModel MatchModel GenModel ToolsModel Spec ReadSpec BaseFacts DltFacts CodecFacts ParseFacts FindFacts IterFacts DltIterFacts LayoutFacts ContainFacts PartitionFacts.

Opaque dlt_max_len.
Lemma outer_law b : outermost_law b (outer b).
Proof.
  pose proof max_len_N as MN. intros i. rewrite outer_iff. split.
  - intros [(n & t & C) F]. apply dcand_iff in C. destruct C as (m & M1 & _). split; [now exists m|].
    intros j mj O Mj L W. apply (F j (length mj) (entry_of mj)); [lia|exact O|now apply dcand_entry].
  - intros [(m & M1) F]. split; [exists (length m), (entry_of m); now apply dcand_entry|].
    intros j n t Hj O C. apply dcand_iff in C. destruct C as (mj & Mj & <- & _).
    apply (F j mj O Mj); lia.
Qed.
Lemma outermost_unique b o o' : outermost_law b o -> outermost_law b o' -> forall i, o i <-> o' i.
Proof.
  intros L L'. induction i as [i IH] using lt_wf_ind. rewrite (L i), (L' i).
  split; intros [A B]; (split; [exact A|]); intros j m Oj M Lt W; apply (B j m); try assumption; now apply IH.
Qed.
Lemma holds_iff b p j : holds_byte b (outer b) p j <->
  p - dlt_max_len <= j < p /\ exists n t, outer b j /\ dcand b j n t /\ p + 1 <= j + n.
Proof.
  pose proof max_len_N as MN. split.
  - intros (O & L & W & m & M & Q). split; [clear - L W MN; generalize dependent dlt_max_len; intros; lia|]. exists (length m), (entry_of m). split; [exact O|]. split; [now apply dcand_entry|exact Q].
  - intros (W & n & t & O & C & Q). apply dcand_iff in C. destruct C as (m & M & <- & _). split; [exact O|]. split; [apply W|]. split; [|exists m; split; [exact M|exact Q]].
    clear - W MN. generalize dependent dlt_max_len. intros. lia.
Qed.
Lemma cut_of_at b p : cut_at b (outer b) p (cut_of b p).
Proof.
  unfold cut_at, cut_of. destruct (le_lt_dec (length b) (p + 1)) as [L|L].
  { right. split; [|now left]. cbn [contained_by]. destruct (Nat.leb_spec (length b) (p + 1)); [|lia].
    rewrite Bool.orb_true_r. reflexivity. }
  destruct (cb_spec b p (p + 1) ltac:(lia) L) as [(i & n & t & -> & A1 & A2 & A3 & A4 & A5)|(-> & A5)].
  - left. split; [exact L|]. split; [apply holds_iff; split; [exact A1|]; now exists n, t|].
    intros j Hj H. apply holds_iff in H. destruct H as (W & n' & t' & O & C & Q). assert (j + n' < p + 1); [|lia]. apply (A5 j n' t'); [|exact O|exact C]. destruct W; split; assumption.
  - right. split; [reflexivity|]. right. intros j H. apply holds_iff in H. destruct H as (W & n' & t' & O & C & Q). specialize (A5 j n' t' W O C). lia.
Qed.
Lemma cut_at_fun b o p c c' : cut_at b o p c -> cut_at b o p c' -> c = c'.
Proof.
  intros [(A & B & C)|(-> & A)] [(A' & B' & C')|(-> & A')]; try reflexivity.
  - destruct (lt_eq_lt_dec c c') as [[H|H]|H]; [destruct (C' c H B)|exact H|destruct (C c' H B')].
  - destruct A' as [A'|A']; [lia|destruct (A' c B)].
  - destruct A as [A|A]; [lia|destruct (A c' B')].
Qed.
Lemma pieces_fun b o size start p l l' : pieces b o size start p l -> pieces b o size start p l' -> l = l'.
Proof.
  intros H. revert l'. induction H as [start p H|start p c H C Q|start p c H C Q E|start p c l H C Q E P IH]; intros l' H';
    inversion H' as [s1 p1 H1|s1 p1 c1 H1 C1 Q1|s1 p1 c1 H1 C1 Q1 E1|s1 p1 c1 l1 H1 C1 Q1 E1 P1]; subst; try lia;
    try (assert (c = c1) by (now apply (cut_at_fun b o p)); subst c1); try reflexivity; try lia.
  f_equal. now apply IH.
Qed.
Lemma loop_exact b size : forall fuel c0 c1, length b - c0 < fuel -> c0 <= c1 ->
  exists l, partition_loop DLT fuel b size c0 c1 = Ret l /\ pieces b (outer b) size c0 c1 l.
Proof.
  induction fuel as [|fuel IH]; intros c0 c1 H Hc; [lia|]. rewrite partition_step.
  pose proof (cut_le b c1) as CL. pose proof (cut_of_at b c1) as CA.
  destruct (Nat.ltb_spec (length b) c1) as [L1|L1].
  { rewrite Bool.orb_true_r. exists []. split; [reflexivity|now apply pieces_past]. }
  destruct (Nat.ltb_spec (length b) c0) as [L0|L0]; [lia|]. cbn [orb].
  destruct (Nat.leb_spec (cut_of b c1) c0) as [Q|Q].
  { exists []. split; [reflexivity|]. now apply (pieces_stuck b _ size c0 c1 (cut_of b c1)). }
  destruct (Nat.leb_spec (length b) (cut_of b c1 + size / 4)) as [E|E].
  { eexists. split; [reflexivity|]. now apply (pieces_last b _ size c0 c1 (cut_of b c1)). }
  destruct (IH (cut_of b c1) (cut_of b c1 + size)) as (l & -> & P); [lia|lia|].
  eexists. split; [reflexivity|]. now apply (pieces_next b _ size c0 c1 (cut_of b c1)).
Qed.
Lemma partition_exact b num : 0 < num ->
  exists l, partition_from DLT b num = Ret l /\ pieces b (outer b) (length b / num) 0 (length b / num) l.
Proof.
  intros H. unfold partition_from. destruct (Nat.eqb_spec num 0); [lia|]. apply loop_exact; [lia|apply Nat.le_0_l].
Qed.
