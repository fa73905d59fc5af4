(** How large the partitions are and how much they lose (C106). *)
From Verif Require Import Base DltModel MatchModel GenModel ToolsModel Spec ReadSpec BaseFacts DltFacts CodecFacts ParseFacts
  FindFacts IterFacts DltIterFacts LayoutFacts ContainFacts PartitionFacts CutFacts.
From Coq Require Import ZifyBool ZifyNat ZifyN.
Ltac Zify.zify_post_hook ::= idtac.

Section Balance.
  Variable b : bytes.
  Variable o : nat -> Prop.
  Variables max size : nat.
  Hypothesis MAX : forall i m, o i -> message_at b i m -> length m <= max.
  Hypothesis ROOM : max <= size.
  Hypothesis POS : 0 < size.

  Lemma cut_near p c : cut_at b o p c -> c <= p /\ p <= c + (max - 1).
  Proof.
    intros [(_ & (O & L & _ & m & M & E) & _)|[-> _]]; [|lia]. specialize (MAX c m O M). lia.
  Qed.

  Lemma balance start p l : pieces b o size start p l -> p = start + size -> start <= length b ->
    exists rest, skipn start b = concat l ++ rest /\ length rest < size /\
      Forall (fun q => size - max + (if max =? 0 then 0 else 1) <= length q <= size + size / 4) l /\
      length b - start < length l * size + size.
  Proof.
    assert (Q4 : size / 4 < size) by (apply Nat.div_lt; lia).
    induction 1 as [start p H|start p c H C L|start p c H C L E|start p c l H C L E P IH]; intros -> Hs.
    - exists (skipn start b). split; [reflexivity|]. rewrite skipn_length. split; [lia|]. split; [constructor|]. cbn [length]. lia.
    - apply cut_near in C. lia.
    - apply cut_near in C. exists []. cbn [concat]. rewrite !app_nil_r. split; [reflexivity|]. split; [cbn; lia|].
      split; [constructor; [|constructor]; rewrite skipn_length; destruct (Nat.eqb_spec max 0); lia|]. cbn [length]. lia.
    - apply cut_near in C. destruct (IH eq_refl ltac:(lia)) as (rest & E1 & E2 & E3 & E4). exists rest. split; [|split; [exact E2|split]].
      + cbn [concat]. rewrite <- app_assoc, <- E1. replace c with (start + (c - start)) at 2 by lia.
        rewrite <- skipn_skipn'. symmetry. apply firstn_skipn.
      + constructor; [|exact E3]. rewrite firstn_length, skipn_length. destruct (Nat.eqb_spec max 0); lia.
      + cbn [length]. lia.
  Qed.
End Balance.

(** In a file whose markers lie in its messages, these are the outermost ones. *)
Lemma outermost_parts parts last o : enclosed parts last -> at_most 65536 parts -> outermost_law (layout parts last) o ->
  forall i, o i <-> exists m, In (i, m) (placed 0 parts).
Proof.
  intros (V & EN) MX LAW. induction i as [i IH] using (well_founded_induction lt_wf).
  assert (BIG : forall k m, In (k, m) (placed 0 parts) -> (N.of_nat (length m) <= 65536)%N).
  { intros k m I. apply placed_part in I. destruct I as [j I]. unfold at_most in MX. rewrite Forall_forall in MX. exact (MX _ I). }
  split.
  - intros O. destruct (proj1 (LAW i) O) as [[m M] F].
    destruct (EN i) as (k & mk & I & L1 & L2).
    { destruct M as [(P & L & _) (pre & post & E & EL)]. exists pre, (skipn 4 m ++ post). split; [|exact EL].
      rewrite E, <- P. f_equal. now rewrite (app_assoc (firstn 4 m)), firstn_skipn. }
    destruct (Nat.eq_dec k i) as [->|N]; [now exists mk|]. exfalso.
    assert (OK : o k) by (apply IH; [lia|now exists mk]).
    pose proof (placed_message parts last k mk V I) as MK. specialize (BIG _ _ I).
    specialize (F k mk OK MK ltac:(lia) ltac:(lia)). lia.
  - intros [m I]. apply LAW. pose proof (placed_message parts last i m V I) as M. split; [now exists m|].
    intros j mj O Mj L W. apply IH in O; [|exact L]. destruct O as [mj' Ij].
    pose proof (placed_message parts last j mj' V Ij) as Mj'. rewrite (message_at_fun _ _ _ _ Mj Mj').
    destruct (placed_cases parts 0 j mj' i m Ij I) as [Q|[Q|Q]]; [injection Q; lia|lia|lia].
Qed.
