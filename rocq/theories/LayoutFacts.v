(** Facts about layouts: the placed messages are where they should be, in order. *)
From Verif Require Import Base DltModel MatchModel Spec BaseFacts DltFacts CodecFacts ParseFacts FindFacts IterFacts DltIterFacts.
From Coq Require Import Sorted.

Lemma placed_in parts : forall pre last k m, In (k, m) (placed (length pre) parts) ->
  occurs_at m (pre ++ layout parts last) k.
Proof.
  induction parts as [|[j x] ps IH]; intros pre last k m H; [destruct H|].
  cbn [placed layout] in *. destruct H as [H|H].
  - injection H as <- <-. exists (pre ++ j), (layout ps last). split; [now rewrite <- !app_assoc|now rewrite app_length].
  - specialize (IH ((pre ++ j) ++ x) last k m). rewrite !app_length in IH.
    specialize (IH H). now rewrite <- !app_assoc in IH.
Qed.

Lemma placed_ge parts : forall c k m, In (k, m) (placed c parts) -> c <= k.
Proof.
  induction parts as [|[j x] ps IH]; intros c k m H; [destruct H|].
  cbn [placed] in H. destruct H as [H|H]; [injection H as <- <-; lia|].
  apply IH in H. lia.
Qed.
Lemma placed_part parts : forall c k m, In (k, m) (placed c parts) -> exists j, In (j, m) parts.
Proof.
  induction parts as [|[j x] ps IH]; intros c k m H; [destruct H|].
  cbn [placed] in H. destruct H as [H|H].
  - injection H as <- <-. exists j. now left.
  - apply IH in H. destruct H as [j' H]. exists j'. now right.
Qed.
Lemma placed_sorted parts : forall c,
  StronglySorted (fun p q => fst p + length (snd p) <= fst q) (placed c parts).
Proof.
  induction parts as [|[j x] ps IH]; intros c; [constructor|].
  cbn [placed]. constructor; [apply IH|]. apply Forall_forall. intros [k m] H.
  apply placed_ge in H. exact H.
Qed.
Lemma placed_cases parts c k m k' m' :
  In (k, m) (placed c parts) -> In (k', m') (placed c parts) ->
  (k, m) = (k', m') \/ k + length m <= k' \/ k' + length m' <= k.
Proof.
  generalize (placed_sorted parts c). generalize (placed c parts) as l.
  induction l as [|p l IH]; intros S A B; [destruct A|].
  inversion S as [|p' l' S' F]; subst. rewrite Forall_forall in F.
  destruct A as [A|A], B as [B|B].
  - left. congruence.
  - subst p. specialize (F _ B). cbn in F. auto.
  - subst p. specialize (F _ A). cbn in F. auto.
  - now apply IH.
Qed.
Lemma placed_message parts last k m : Forall (fun p => valid_message (snd p)) parts ->
  In (k, m) (placed 0 parts) -> message_at (layout parts last) k m.
Proof.
  intros V H. split.
  - destruct (placed_part _ _ _ _ H) as [j I]. rewrite Forall_forall in V. apply (V _ I).
  - apply (placed_in parts [] last k m H).
Qed.
Lemma placed_end parts last k m : In (k, m) (placed 0 parts) -> k + length m <= length (layout parts last).
Proof.
  intros H. pose proof (placed_bound parts 0 last) as F. rewrite Forall_forall in F.
  apply (F _ H).
Qed.
