(** Facts for C131: what is not read does not matter, for backward search, grep and partitioning. *)
From Verif Require Import Base DltModel MatchModel MappedModel TouchModel TouchMore Spec MappedSpec TouchSpec BaseFacts FindFacts EditFacts TouchFacts TouchSame.
From Coq Require Import ZifyBool ZifyNat.

Lemma rfind_same (b b' : bytes) z p : length b = length b' -> rfind the_pattern (firstn z b) = Some p ->
  (forall q, p <= q < z -> nth q b x00 = nth q b' x00) -> rfind the_pattern (firstn z b') = Some p.
Proof.
  intros L R H. apply rfind_some; [cbn; lia|]. apply rfind_some in R; [|cbn; lia]. destruct R as [R1 R2].
  assert (O : forall j, p <= j -> occ the_pattern (firstn z b') j = occ the_pattern (firstn z b) j).
  { intros j Hj. apply occ_range. rewrite !skipn_firstn_comm, !firstn_firstn.
    set (k := Nat.min 4 (z - j)). replace k with (j + k - j) by lia. symmetry. apply slice_same; [exact L|]. intros q Hq. apply H. lia. }
  split; [rewrite O; [exact R1|lia]|]. intros j Hj. rewrite O by lia. now apply R2.
Qed.

Section Same.
  Variables (mem mem' : nat -> bytes) (F F' : bytes -> nat -> option (nat * nat)) (n : nat).
  Variable reads : nat -> nat -> bool.
  Variable reach rreach : nat -> nat -> nat.
  Variable looks_at : nat -> nat -> nat -> bool.
  Hypothesis LEN : forall t, length (mem t) = n /\ length (mem' t) = n.
  Hypothesis AGREE : forall t p, reads t p = true -> nth p (mem t) x00 = nth p (mem' t) x00.
  Notation W := (history mem F).
  Notation W' := (history mem' F').
  Notation L := (same_len mem mem' n LEN).

  Lemma looked (A : Type) t a z (f : nat -> A) : look reads a z f t <> Killed -> forall q, a <= q < z -> nth q (mem t) x00 = nth q (mem' t) x00.
  Proof.
    unfold look. intros N q Hq. destruct (forallb (reads t) (seq a (z - a))) eqn:R; [|now elim N]. rewrite forallb_forall in R. apply AGREE, R, in_seq. lia.
  Qed.
  Lemma same_rfind z : same (t_rfind W reads rreach z) (t_rfind W' reads rreach z).
  Proof.
    intros t N. unfold t_rfind in *. cbn [history sees_last] in *. destruct (rfind the_pattern (firstn z (mem t))) as [p|] eqn:E.
    - assert (B : p + 4 <= z).
      { apply rfind_some in E; [|cbn; lia]. destruct E as [E _]. apply occ_firstn_inv in E; [|cbn; lia]. destruct E as [E _]. exact E. }
      rewrite (proj2 (Nat.leb_le _ _) B) in *. pose proof (looked _ t _ _ _ N) as H.
      rewrite (rfind_same (mem t) (mem' t) z p (L t) E) by (intros q Hq; apply H; lia). rewrite (proj2 (Nat.leb_le _ _) B). reflexivity.
    - assert (E' : firstn z (mem' t) = firstn z (mem t)).
      { pose proof (slice_same (mem t) (mem' t) 0 z (L t) (looked _ t _ _ _ N)) as S. rewrite Nat.sub_0_r in S. now symmetry. }
      rewrite E', E. reflexivity.
  Qed.
  Lemma same_rev_search off : same (t_rev_search W n reads rreach off) (t_rev_search W' n reads rreach off).
  Proof.
    unfold t_rev_search. destruct (_ || _); [apply same_refl|]. apply same_bind; [apply same_refl|]. intros _. apply same_bind; [apply same_rfind|].
    intros [c|]; [|apply same_refl]. apply same_bind; [apply same_refl|]. intros _. apply same_bind; [|intros [[k v]|]; apply same_refl].
    exact (same_read mem mem' F F' n reads reach LEN AGREE c).
  Qed.
  Lemma same_rev_next : forall fuel off, same (t_rev_next W n reads rreach fuel off) (t_rev_next W' n reads rreach fuel off).
  Proof.
    induction fuel as [|f IH]; intros off; [apply same_refl|]. cbn [t_rev_next]. apply same_bind; [apply same_rev_search|]. intros [v|]; [apply same_refl|].
    cbv zeta. match goal with |- context [(?x =? usize_max)%N] => destruct (x =? usize_max)%N end; [apply same_refl|apply IH].
  Qed.
  Lemma same_scan rec rec' p0 p1 : (forall c d, same (rec c d) (rec' c d)) ->
    forall fuel pos, same (t_scan W n reads reach rec p0 p1 fuel pos) (t_scan W' n reads reach rec' p0 p1 fuel pos).
  Proof.
    intros R. induction fuel as [|f IH]; intros pos; [apply same_refl|]. cbn [t_scan]. apply same_bind; [exact (same_find mem mem' F F' n reads reach LEN AGREE pos)|].
    intros [c|]; [|apply same_refl]. destruct (p0 <=? c); [apply same_refl|]. apply same_bind; [apply same_refl|]. intros _.
    apply same_bind; [exact (same_try_read mem mem' F F' n reads reach LEN AGREE c)|]. intros [[k v]|]; [|apply IH].
    apply same_bind; [exact (same_entry_len mem mem' F F' n reads reach LEN AGREE v)|]. intros l. destruct (p1 <=? c + l); [|apply IH].
    apply same_bind; [apply R|]. intros [q|]; [apply IH|apply same_refl].
  Qed.
  Lemma same_contained_by : forall fuel p0 p1, same (t_contained_by W n reads reach fuel p0 p1) (t_contained_by W' n reads reach fuel p0 p1).
  Proof.
    induction fuel as [|f IH]; intros p0 p1; [apply same_refl|]. cbn [t_contained_by].
    match goal with |- context [if ?x then _ else _] => destruct x end; [apply same_refl|]. cbv zeta. apply same_bind; [apply same_refl|]. intros _. now apply same_scan.
  Qed.
  Lemma same_partition_loop size : forall fuel c0 c1, same (t_partition_loop W n reads reach fuel size c0 c1) (t_partition_loop W' n reads reach fuel size c0 c1).
  Proof.
    induction fuel as [|f IH]; intros c0 c1; [apply same_refl|]. cbn [t_partition_loop]. destruct (_ || _); [apply same_refl|].
    apply same_bind; [apply same_contained_by|]. intros r. cbv zeta. set (d := match r with Some v => fst v | None => c1 end). clearbody d.
    destruct (d <=? c0); [apply same_refl|]. destruct (n <=? d + size / 4); [apply same_refl|].
    apply same_bind; [apply same_refl|]. intros _. apply same_bind; [apply IH|]. intros; apply same_refl.
  Qed.
  Lemma same_partition num : same (t_partition W n reads reach num) (t_partition W' n reads reach num).
  Proof. unfold t_partition. destruct (num =? 0); [apply same_refl|apply same_partition_loop]. Qed.

  Hypothesis REGEX : forall t a, (forall p, p < n -> looks_at t a p = true -> nth p (mem t) x00 = nth p (mem' t) x00) -> F' (mem' t) a = F (mem t) a.
  Lemma same_match a : same (t_match W n reads looks_at a) (t_match W' n reads looks_at a).
  Proof.
    intros t N. unfold t_match in *. cbn [history sees_match] in *. destruct (forallb _ _) eqn:R; [|now elim N]. rewrite REGEX; [reflexivity|].
    intros p Hp K. rewrite forallb_forall in R. specialize (R p ltac:(apply in_seq; lia)). rewrite K in R. cbn [negb orb] in R. now apply AGREE.
  Qed.
  Lemma same_grep_search : forall fuel off, same (t_grep_search W n reads rreach looks_at fuel off) (t_grep_search W' n reads rreach looks_at fuel off).
  Proof.
    induction fuel as [|f IH]; intros off; [apply same_refl|]. cbn [t_grep_search]. destruct (n <=? off); [apply same_refl|].
    apply same_bind; [apply same_match|]. intros [[s e]|]; [|apply same_refl]. apply same_bind; [apply same_rev_search|]. intros [v|].
    - destruct (fst v <? s); [|apply same_refl]. apply same_bind; [exact (same_entry_len mem mem' F F' n reads reach LEN AGREE v)|]. intros l.
      destruct (_ <? _); [apply IH|apply same_refl].
    - destruct (n <=? e); [apply same_refl|apply IH].
  Qed.
  Lemma same_grep_next fuel off : same (t_grep_next W n reads rreach looks_at fuel off) (t_grep_next W' n reads rreach looks_at fuel off).
  Proof.
    apply same_bind; [apply same_grep_search|]. intros [v|]; [|apply same_refl].
    apply same_bind; [exact (same_entry_len mem mem' F F' n reads reach LEN AGREE v)|]. intros; apply same_refl.
  Qed.
End Same.
