(** Property theorems C130: the first [c] bytes of a memory mapped file do not change while it is read, the others may
    ([steady], MappedSpec.v).  What needs only these bytes is found as it is. *)
From Verif Require Import Base DltModel MatchModel GenModel ToolsModel TraceModel MappedModel MappedCmd Spec MappedSpec BaseFacts DltFacts ParseFacts FindFacts IterFacts DltIterFacts
  ContainFacts CommandFacts ExactFacts PartitionFacts MappedFacts MappedStill SteadyParts P_Mapped.
From Verif Require Samples.
From Coq Require Import ZifyBool ZifyNat ZifyN.
Import Samples(m1, m2, m3).
Ltac Zify.zify_post_hook ::= idtac.

(** The messages found by iterating, searching or reading contiguously whose two headers lie in the front part. *)
Definition in_front (c : nat) (l : list (nat * storage_entry)) : list (nat * storage_entry) := filter (fun x => fst x + 20 <=? c) l.
(** [l'] begins with [l]. *)
Definition begins_with {A} (l l' : list A) : Prop := exists more, l' = l ++ more.

Theorem C130_iterators : forall W (b : bytes) c, steady W b c -> c <= length b -> let n := length b in
  (forall l, dltit_offset b = Ret l -> forall t, exists l' t', m_dltit W n t = Ret (l', t') /\ begins_with (places (in_front c l)) l') /\
  (forall off l, collect (search_next DLT (S n) b) (S n) off = Ret l -> forall t, exists l' t',
     m_collect (m_search_next W n (S n)) (S n) off t = Ret (l', t') /\ begins_with (places (in_front c l)) l') /\
  (forall off l, collect (readit_next DLT b) (S n) off = Ret l -> forall t, exists l' t',
     m_collect (m_readit_next W n) (S n) off t = Ret (l', t') /\ begins_with (places (in_front c l)) l').
Proof.
  intros W b c ST Hc n. split; [|split].
  - intros l E t. apply dltit_offset_chain in E. exact (front_collect W b c ST Hc 0 l E (S n) ltac:(lia) t).
  - intros off l E t. destruct (collect_schain DLT parse dlt_lawful b (S n) ltac:(unfold n; lia) (S n) off ltac:(unfold n; lia)) as (l0 & E0 & C).
    rewrite E0 in E. injection E as <-. exact (front_collect_search W b c ST Hc off l0 C (S n) ltac:(unfold n; lia) t).
  - intros off l E t. exact (front_collect_read W b c ST Hc (S n) off l E (S n) ltac:(unfold n; lia) t).
Qed.
Print Assumptions C130_iterators.

(** Partitioning: the parts (start, end) are those of the file as long as the place where a part is to be cut lies 20 bytes
    in front of the end of the front part. *)
Theorem C130_partition : forall W (b : bytes) c num parts, steady W b c -> c <= length b -> partition_from DLT b num = Ret parts ->
  forall t, exists l' t', m_partition W (length b) num t = Ret (l', t') /\
    begins_with (map (fun x => (fst x, fst x + length (snd x)))
      (filter (fun x => fst x + length b / num + 20 <=? c) (with_offsets (@length byte) 0 parts))) l'.
Proof. intros W b c num parts ST Hc E t. exact (front_partition W b c ST Hc num parts E t). Qed.
Print Assumptions C130_partition.

(** In particular for every sequence of contents with the same first [c] bytes. *)
Theorem C130_history : forall (mem : nat -> bytes) F (b : bytes) c num parts,
  (forall t, length (mem t) = length b /\ firstn c (mem t) = firstn c b) -> c <= length b -> partition_from DLT b num = Ret parts ->
  forall t, exists l' t', m_partition (history mem F) (length b) num t = Ret (l', t') /\
    begins_with (map (fun x => (fst x, fst x + length (snd x)))
      (filter (fun x => fst x + length b / num + 20 <=? c) (with_offsets (@length byte) 0 parts))) l'.
Proof. intros mem F b c num parts H Hc E t. apply (C130_partition (history mem F) b c num parts); [now apply history_steady|exact Hc|exact E]. Qed.
Print Assumptions C130_history.

(** The command count counts at least the messages in the front part. *)
Lemma count_collect {T A} (next : T -> act (T * option A)) : forall fuel s t,
  count_items next fuel s t = match m_collect next fuel s t with Ret (l, t') => Ret (length l, t') | Panic => Panic | Fuel => Fuel end.
Proof.
  induction fuel as [|f IH]; intros s t; [reflexivity|]. cbn [count_items m_collect]. unfold follow at 1 3. destruct (next s t) as [[[s' o] t']| |]; [|reflexivity|reflexivity].
  destruct o as [v|]; [|reflexivity]. unfold follow. rewrite IH. now destruct (m_collect next f s' t') as [[l t'']| |].
Qed.
Theorem C130_count : forall W (b : bytes) c l, steady W b c -> c <= length b -> dltit_offset b = Ret l ->
  forall t, exists k t', m_count W (length b) t = Ret (k, t') /\ length (in_front c l) <= k /\ 20 * k <= length b.
Proof.
  intros W b c l ST Hc E t. apply dltit_offset_chain in E. unfold m_count, m_messages. rewrite count_collect.
  destruct (front_collect W b c ST Hc 0 l E (S (S (length b))) ltac:(lia) t) as (l' & t' & E' & more & EL). rewrite E'.
  exists (length l'), t'. split; [reflexivity|]. split; [rewrite EL, app_length; unfold places; rewrite map_length; unfold in_front; lia|].
  destruct (safe_collect_spread W (length b) (S (S (length b))) 0 ltac:(lia) t) as (l2 & t2 & E2 & SP). rewrite E' in E2. injection E2 as <- <-.
  enough (A : forall p, p <= length b -> spread (length b) p l' -> p + 20 * length l' <= length b) by exact (A 0 ltac:(lia) SP).
  clear. induction l' as [|[a k] l' IH]; intros p Hp SP; [cbn [length]; lia|]. cbn [spread] in SP. destruct SP as (A & B & C & D).
  specialize (IH (a + k) C D). cbn [length]. lia.
Qed.
Print Assumptions C130_count.

(** Six messages of which the last two come and go; cut in three. *)
Example C130_example : let b := m2 ++ m2 ++ m2 ++ m2 ++ m2 ++ m2 in let c := 4 * length m2 in
  let mem t := if Nat.even t then b else firstn c b ++ repeat x00 (2 * length m2) in
  (forall t, length (mem t) = length b /\ firstn c (mem t) = firstn c b) /\ c <= length b /\
  exists parts, partition_from DLT b 3 = Ret parts /\ length parts = 3 /\
    length (filter (fun x => fst x + length b / 3 + 20 <=? c) (with_offsets (@length byte) 0 parts)) = 1 /\
    exists l, dltit_offset b = Ret l /\ length (in_front c l) = 4.
Proof.
  cbv zeta. split; [|split].
  - intros t. destruct (Nat.even t); vm_compute; split; reflexivity.
  - vm_compute. repeat constructor.
  - eexists. split; [vm_compute; reflexivity|]. split; [reflexivity|]. split; [vm_compute; reflexivity|]. eexists. split; [vm_compute; reflexivity|]. vm_compute. reflexivity.
Qed.
