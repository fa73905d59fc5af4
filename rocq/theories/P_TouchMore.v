(** Property theorem C131: searching backwards, grepping and partitioning a memory mapped file of which some bytes cannot be read
    (TouchMore.v; vocabulary in TouchSpec.v).  [W] answers every single read as it likes, [n] is the length of the mapping, [reads t p]
    says whether byte [p] can be read at the [t]-th read, [reach], [rreach] and [looks_at] what memmem and the regex engine look at. *)
From Verif Require Import Base DltModel MatchModel MappedModel TouchModel TouchMore Spec MappedSpec TouchSpec BaseFacts DltFacts CodecFacts ParseFacts FindFacts IterFacts
  DltIterFacts ContainFacts CommandFacts ExactFacts MappedFacts MappedStill TouchFacts TouchMoreFacts TouchSame TouchMoreSame P_Mapped.
From Verif Require Samples.
From Coq Require Import ZifyBool ZifyNat ZifyN.
Import Samples(m1, m2, m3, m1_valid, m2_valid, m3_valid).
Ltac Zify.zify_post_hook ::= idtac.

(** Killed or not, what is delivered is what is delivered if everything can be read, or a beginning of it. *)
Theorem C131_backward : forall W n reads rreach off t, off <= n -> (N.of_nat n < usize_max)%N ->
  exists all t', m_collect (m_rev_next W n (S n)) (S n) (N.of_nat off) t = Ret (all, t') /\
    delivers_of all (t_collect (t_rev_next W n reads rreach (S n)) (S n) (N.of_nat off) t).
Proof.
  intros W n reads rreach off t H HU. destruct (C115_backward W n off t H HU) as (all & t' & E & _). exists all, t'. split; [exact E|].
  eapply sim_collect; [intros s; apply sim_rev_next|exact E].
Qed.
Print Assumptions C131_backward.
Theorem C131_grep : forall W n reads rreach looks_at fuel,
  (forall off t, killed_or (t_grep_next W n reads rreach looks_at fuel off t) (m_grep_next W n fuel off t)) /\
  (forall g off t all t', m_collect (m_grep_next W n fuel) g off t = Ret (all, t') ->
    delivers_of all (t_collect (t_grep_next W n reads rreach looks_at fuel) g off t)).
Proof.
  intros W n reads rreach looks_at fuel. split.
  - intros off t. apply sim_grep_next.
  - intros g off t all t' E. eapply sim_collect; [intros s; apply sim_grep_next|exact E].
Qed.
Print Assumptions C131_grep.
Theorem C131_partition : forall W n reads reach num t, 0 < num ->
  t_partition W n reads reach num t = Killed \/
  exists parts t', m_partition W n num t = Ret (parts, t') /\ t_partition W n reads reach num t = Back (parts, t') /\ in_line n 0 parts.
Proof.
  intros W n reads reach num t H. destruct (sim_partition W n reads reach num t) as [K|K]; [now left|]. right.
  destruct (C115_partition W n num t H) as (l & t' & E & L). exists l, t'. rewrite E in K. auto.
Qed.
Print Assumptions C131_partition.

(** Nothing outside of the mapping is read. *)
Theorem C131_inside : forall W n reads reach rreach looks_at, (forall t p, p < n -> reads t p = true) ->
  (forall off t, off <= n -> (N.of_nat n < usize_max)%N -> snd (t_collect (t_rev_next W n reads rreach (S n)) (S n) (N.of_nat off) t) = Back tt) /\
  (forall fuel off t, t_grep_next W n reads rreach looks_at fuel off t <> Killed) /\
  (forall num t, 0 < num -> exists parts t', t_partition W n reads reach num t = Back (parts, t')).
Proof.
  intros W n reads reach rreach looks_at ALL. split; [|split].
  - intros off t H HU. destruct (C131_backward W n reads rreach off t H HU) as (all & t' & _ & D).
    pose proof (lives_rev_collect W n reads reach rreach looks_at n (fun t p _ Hp => ALL t p Hp) (S n) (N.of_nat off) t (or_intror (le_n n))) as L.
    destruct (t_collect _ _ _ _) as [l [[]| | |]]; cbn [delivers_of snd] in *; congruence || contradiction.
  - intros fuel off t. apply (finds_grep_next W n reads reach rreach looks_at ALL fuel off t).
  - intros num t H. destruct (C131_partition W n reads reach num t H) as [K|(l & t' & _ & E & _)]; [|now exists l, t'].
    now destruct (proj1 (finds_partition W n reads reach rreach looks_at ALL num t) K).
Qed.
Print Assumptions C131_inside.

(** Searching backwards from [off] needs no byte at [off + 16] or behind. *)
Theorem C131_backward_kept : forall W n reads rreach off t, off <= n -> (N.of_nat n < usize_max)%N ->
  (forall t p, p < off + 16 -> p < n -> reads t p = true) ->
  exists all t', m_collect (m_rev_next W n (S n)) (S n) (N.of_nat off) t = Ret (all, t') /\
    t_collect (t_rev_next W n reads rreach (S n)) (S n) (N.of_nat off) t = (all, Back tt).
Proof.
  intros W n reads rreach off t H HU RD. destruct (C131_backward W n reads rreach off t H HU) as (all & t' & E & D). exists all, t'. split; [exact E|].
  pose proof (lives_rev_collect W n reads rreach rreach (fun _ _ _ => true) (off + 16) RD (S n) (N.of_nat off) t ltac:(left; lia)) as L.
  destruct (t_collect _ _ _ _) as [l [[]| | |]]; cbn [delivers_of snd] in *; congruence || contradiction.
Qed.
Print Assumptions C131_backward_kept.
(** Two messages and the headers of a third remain of a file that was truncated meanwhile. *)
Example C131_example : let b := m1 ++ m2 ++ m3 in let c := length m1 + length m2 + 20 in
  let reads := fun (_ p : nat) => p <? c in let W := still b (fun _ a => if a =? 0 then Some (length m1 + 21, length m1 + 22) else None) in
  let n := length b in let off := length m1 + length m2 + 4 in
  t_collect (t_rev_next W n reads (fun _ _ => 0) (S n)) (S n) (N.of_nat off) 0 = ([(length m1 + length m2, length m3); (length m1, length m2); (0, length m1)], Back tt) /\
  t_collect (t_rev_next W n reads (fun _ _ => 0) (S n)) (S n) (N.of_nat n) 0 = ([], Killed) /\
  t_grep_next W n reads (fun _ _ => 0) (fun _ a p => (a <=? p) && (p <? length m1 + 40)) (S n) 0 0 = Back ((length m1 + length m2, Some (length m1, length m2)), 5) /\
  t_partition W n reads (fun _ _ => n) 2 0 = Killed /\
  t_partition W n reads (fun _ _ => 0) 2 0 = Back ([(0, length m1); (length m1, length m1 + length m2)], 34).
Proof. vm_compute. split; [|split; [|split; [|split]]]. all: try reflexivity. Qed.

(** What is not read does not matter: if two files have the same bytes wherever and whenever one of them can be read, and the run over the one
    is not killed, the run over the other does the same.  (The regular expression engine's answer is determined by the bytes it looks at.) *)
Theorem C131_depends : forall (mem mem' : nat -> bytes) F F' n reads reach rreach looks_at,
  (forall t, length (mem t) = n /\ length (mem' t) = n) ->
  (forall t p, reads t p = true -> nth p (mem t) x00 = nth p (mem' t) x00) ->
  (forall t a, (forall p, p < n -> looks_at t a p = true -> nth p (mem t) x00 = nth p (mem' t) x00) -> F' (mem' t) a = F (mem t) a) ->
  let W := history mem F in let W' := history mem' F' in
  (forall off t, snd (t_collect (t_rev_next W n reads rreach (S n)) (S n) off t) <> Killed ->
     t_collect (t_rev_next W' n reads rreach (S n)) (S n) off t = t_collect (t_rev_next W n reads rreach (S n)) (S n) off t) /\
  (forall g fuel off t, snd (t_collect (t_grep_next W n reads rreach looks_at fuel) g off t) <> Killed ->
     t_collect (t_grep_next W' n reads rreach looks_at fuel) g off t = t_collect (t_grep_next W n reads rreach looks_at fuel) g off t) /\
  (forall num t, t_partition W n reads reach num t <> Killed -> t_partition W' n reads reach num t = t_partition W n reads reach num t).
Proof.
  intros mem mem' F F' n reads reach rreach looks_at L A R W W'. split; [|split].
  - intros off t. apply same_collect. intros s. exact (same_rev_next mem mem' F F' n reads reach rreach looks_at L A (S n) s).
  - intros g fuel off t. apply same_collect. intros s. exact (same_grep_next mem mem' F F' n reads reach rreach looks_at L A R fuel s).
  - intros num t. exact (same_partition mem mem' F F' n reads reach L A num t).
Qed.
Print Assumptions C131_depends.
(** Two files that differ behind the headers of the third message. *)
Example C131_depends_example : let b := m1 ++ m2 ++ m3 in let b' := firstn (length m1 + length m2 + 20) b ++ repeat x55 (length m3 - 20) in
  let reads := fun (_ p : nat) => p <? length m1 + length m2 + 20 in
  length b' = length b /\ b' <> b /\ (forall t p, reads t p = true -> nth p b x00 = nth p b' x00) /\
  t_collect (t_rev_next (history (fun _ => b) (fun _ _ => None)) (length b) reads (fun _ _ => 0) (S (length b))) (S (length b)) (N.of_nat (length m1 + length m2 + 4)) 0 =
    ([(length m1 + length m2, length m3); (length m1, length m2); (0, length m1)], Back tt).
Proof.
  intros b b' reads. split; [vm_compute; reflexivity|]. split; [vm_compute; discriminate|]. split; [|vm_compute; reflexivity].
  intros t p R. unfold reads in R. apply Nat.ltb_lt in R. unfold b'. rewrite app_nth1 by (rewrite firstn_length; unfold b; rewrite !app_length; change (length m3) with 36; lia).
  symmetry. apply nth_firstn_lt. exact R.
Qed.
