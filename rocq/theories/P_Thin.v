(** Property theorem C138: how many messages the capturing iterator delivers.  [captures_at] is any leftmost engine for
    the pattern [M]; [L] bounds the length of the messages that lie anywhere in the file. *)
From Verif Require Import Base DltModel MatchModel ToolsModel Spec BaseFacts DltFacts CodecFacts ParseFacts FindFacts IterFacts DltIterFacts GrepFacts P_Grep.
From Verif Require Samples.
From Coq Require Import ZifyBool ZifyNat ZifyN Sorting.Sorted.
Import Samples(m1, m2, m3, m1_valid, m2_valid, m3_valid, hello).
Ltac Zify.zify_post_hook ::= idtac.

Lemma collect_stuck {S A} (next : S -> outcome (S * option A)) s x : next s = Ret (s, Some x) -> forall g l, collect next g s <> Ret l.
Proof. intros E. induction g as [|g IH]; intros l; [discriminate|]. cbn [collect]. rewrite E. cbn [obind]. destruct (collect next g s) as [y| |]; [now destruct (IH y)|discriminate|discriminate]. Qed.

Section Thin.
  Variable M : matcher.
  Variable ca : bytes -> nat -> option ((nat * nat) * option (nat * nat)).
  Hypothesis LM : leftmost_capture M ca.
  Variable b : bytes.
  Hypothesis Hb : (N.of_nat (length b) < 2 ^ 64 - 1)%N.
  Variable L : nat.
  Hypothesis SHORT : forall k m, message_at b k m -> length m <= L.
  Variable fu : nat.
  Let next := capture_next DLT ca fu b.

  Lemma step_far off off' x : next off = Ret (off', Some x) -> off <= off' /\ 2 * off <= off' + L /\ off <= length b.
  Proof.
    destruct x as [k [gs ge]]. intros E. destruct (C28_capture_sound_partial M ca LM b Hb fu off) as [_ K].
    destruct (K off' k gs ge E) as (-> & m & s & t & MA & _ & A1 & A2 & A3 & A4 & A5). cbn [fst snd] in *.
    pose proof (SHORT k m MA). pose proof (message_at_prefix b k m MA) as [B _]. lia.
  Qed.
  Lemma thin_far : forall g j off l, L < off -> length b < (off - L) * 2 ^ j -> collect (next) g off = Ret l -> length l <= j.
  Proof.
    induction g as [|g IH]; intros j off l HL Hj; [discriminate|]. cbn [collect].
    destruct (next off) as [[off' [x|]]| |] eqn:E; cbn [obind]; [|intros [= <-]; cbn; lia|discriminate|discriminate].
    destruct (step_far off off' x E) as (A & B & C). destruct (collect next g off') as [l'| |] eqn:Q; cbn [obind]; [|discriminate|discriminate].
    intros [= <-]. cbn [length]. destruct j as [|j]; [cbn [Nat.pow] in Hj; lia|]. cbn [Nat.pow] in Hj.
    enough (length l' <= j) by lia. apply (IH j off' l'); [lia| |exact Q]. eapply Nat.lt_le_trans; [exact Hj|].
    replace ((off - L) * (2 * 2 ^ j)) with ((2 * (off - L)) * 2 ^ j) by ring. apply Nat.mul_le_mono_r. lia.
  Qed.
  Lemma thin_near : forall g j off l, off <= L + 1 -> length b < 2 ^ j -> collect next g off = Ret l -> length l <= L + 1 - off + j.
  Proof.
    induction g as [|g IH]; intros j off l HL Hj; [discriminate|]. intros E0. destruct (Nat.eq_dec off (L + 1)) as [->|NE].
    - replace (L + 1 - (L + 1) + j) with j by lia. apply (thin_far (Datatypes.S g) j (L + 1) l); [lia| |exact E0]. replace (L + 1 - L) with 1 by lia. lia.
    - revert E0. cbn [collect]. destruct (next off) as [[off' [x|]]| |] eqn:E; cbn [obind]; [|intros [= <-]; cbn; lia|discriminate|discriminate].
      destruct (step_far off off' x E) as (A & B & C). destruct (collect next g off') as [l'| |] eqn:Q; cbn [obind]; [|discriminate|discriminate].
      intros [= <-]. cbn [length]. destruct (Nat.eq_dec off' off) as [->|NS]; [now destruct (collect_stuck next off x E g l')|].
      destruct (le_lt_dec off' (L + 1)) as [H|H].
      + specialize (IH j off' l' H Hj Q). lia.
      + enough (length l' <= j) by lia. apply (thin_far g j off' l'); [lia| |exact Q]. nia.
  Qed.
End Thin.

(** With messages of at most [L] bytes, at most [L + 2] and the binary logarithm of the file's size are captured, wherever it starts. *)
Theorem C138_logarithmic : forall (M : matcher) captures_at, leftmost_capture M captures_at ->
  forall (b : bytes) L, (N.of_nat (length b) < 2 ^ 64 - 1)%N -> (forall k m, message_at b k m -> length m <= L) ->
  forall fuel fuel' off l, collect (capture_next DLT captures_at fuel b) fuel' off = Ret l -> length l <= L + 2 + Nat.log2 (length b).
Proof.
  intros M ca LM b L Hb SH fuel fuel' off l E.
  assert (J : length b < 2 ^ (Nat.log2 (length b) + 1)).
  { destruct (Nat.eq_dec (length b) 0) as [->|NZ]; [cbn; lia|]. rewrite Nat.add_1_r. apply Nat.log2_spec. lia. }
  destruct (le_lt_dec off (L + 1)) as [H|H].
  - pose proof (thin_near M ca LM b Hb L SH fuel fuel' _ off l H J E). lia.
  - pose proof (thin_far M ca LM b Hb L SH fuel fuel' (Nat.log2 (length b) + 1) off l ltac:(lia)) as K. enough (length l <= Nat.log2 (length b) + 1) by lia.
    apply K; [nia|exact E].
Qed.
Print Assumptions C138_logarithmic.
(** Every message has at most 65551 bytes. *)
Theorem C138_any_file : forall (M : matcher) captures_at, leftmost_capture M captures_at ->
  forall (b : bytes), (N.of_nat (length b) < 2 ^ 64 - 1)%N ->
  forall fuel fuel' off l, collect (capture_next DLT captures_at fuel b) fuel' off = Ret l -> length l <= N.to_nat 65553 + Nat.log2 (length b).
Proof.
  intros M ca LM b Hb fuel fuel' off l E. replace (N.to_nat 65553) with (N.to_nat 65551 + 2) by lia.
  apply (C138_logarithmic M ca LM b (N.to_nat 65551) Hb) with (fuel := fuel) (fuel' := fuel') (off := off); [|exact E].
  intros k m [(_ & V1 & V2) _]. unfold u16_at, byte_at in V2. pose proof (bN_lt (nth 18 m x00)) as B1. pose proof (bN_lt (nth (18 + 1) m x00)) as B2. unfold bN in *.
  set (x := Byte.to_N (nth 18 m x00)) in *. set (y := Byte.to_N (nth (18 + 1) m x00)) in *. clearbody x y. lia.
Qed.
Print Assumptions C138_any_file.

Lemma log2_small n : (N.of_nat n < 2 ^ 64)%N -> Nat.log2 n <= 64.
Proof.
  intros H. destruct (le_lt_dec (Nat.log2 n) 64) as [K|K]; [exact K|]. exfalso.
  assert (NZ : n <> 0) by (intros ->; cbn in K; lia). pose proof (Nat.log2_spec n ltac:(lia)) as [S1 _].
  assert (P : (2 ^ 65 <= N.of_nat n)%N).
  { transitivity (N.of_nat (2 ^ Nat.log2 n)); [|lia]. rewrite Nat2N.inj_pow. apply N.pow_le_mono_r; [discriminate|lia]. }
  pose proof (N.pow_lt_mono_r 2 64 65 ltac:(lia) ltac:(lia)). lia.
Qed.
(** Markers in copies of [m1]. *)
Lemma copies_start k : k = 0 \/ exists rest, concat (repeat m1 k) = m1 ++ rest /\ k = Datatypes.S (k - 1) /\ rest = concat (repeat m1 (k - 1)).
Proof. destruct k as [|k]; [now left|]. right. exists (concat (repeat m1 k)). rewrite Nat.sub_succ, Nat.sub_0_r. repeat split. Qed.
Lemma copies_marker : forall k j, occurs_at the_pattern (concat (repeat m1 k)) j -> exists i, i < k /\ j = 45 * i.
Proof.
  induction k as [|k IH]; intros j (p & q & E & Lp).
  - destruct p; discriminate E.
  - cbn [repeat concat] in E. destruct (le_lt_dec 45 j) as [H|H].
    + destruct (IH (j - 45)) as (i & Hi & Ej).
      { exists (skipn 45 p), q. split; [|rewrite skipn_length; lia]. apply (f_equal (skipn 45)) in E.
        rewrite !skipn_app in E. rewrite (skipn_all2 m1) in E by (cbn; lia). replace (45 - length p) with 0 in E by lia.
        change (45 - length m1) with 0 in E. exact E. }
      exists (Datatypes.S i). lia.
    + destruct (Nat.eq_dec j 0) as [->|NZ]; [exists 0; lia|]. exfalso.
      assert (F : firstn 4 (skipn j (m1 ++ firstn 4 (concat (repeat m1 k)))) = the_pattern).
      { assert (E2 : m1 ++ firstn 4 (concat (repeat m1 k)) = firstn 49 (p ++ the_pattern ++ q)).
        { rewrite <- E, firstn_app. rewrite (firstn_all2 (n := 49) m1) by (cbn; lia). reflexivity. }
        rewrite E2, (firstn_app 49 p), (firstn_all2 (n := 49) p) by lia. rewrite skipn_app, (skipn_all2 p) by lia. rewrite Lp, Nat.sub_diag.
        cbn [app skipn]. rewrite firstn_firstn, Nat.min_l by lia. rewrite firstn_app. reflexivity. }
      assert (T : firstn 4 (concat (repeat m1 k)) = [] \/ firstn 4 (concat (repeat m1 k)) = firstn 4 m1) by (destruct k; [now left|now right]).
      assert (C : forall i, In i (seq 1 44) -> firstn 4 (skipn i m1) <> the_pattern /\ firstn 4 (skipn i (m1 ++ firstn 4 m1)) <> the_pattern).
      { assert (B : forallb (fun i => negb (bytes_eqb (firstn 4 (skipn i m1)) the_pattern) && negb (bytes_eqb (firstn 4 (skipn i (m1 ++ firstn 4 m1))) the_pattern)) (seq 1 44) = true) by (vm_compute; reflexivity).
        rewrite forallb_forall in B. intros i I. specialize (B i I). apply andb_prop in B. destruct B as [B1 B2].
        split; intros X; rewrite X in *; discriminate. }
      destruct (C j ltac:(apply in_seq; lia)) as [C1 C2]. destruct T as [T|T]; rewrite T in F; [rewrite app_nil_r in F|]; congruence.
Qed.
Lemma copies_placed : forall k a i, i < k -> In (a + 45 * i, m1) (with_offsets (@length byte) a (repeat m1 k)).
Proof.
  induction k as [|k IH]; intros a i H; [lia|]. cbn [repeat with_offsets]. destruct i as [|i]; [left; f_equal; lia|]. right.
  replace (a + 45 * Datatypes.S i) with (a + length m1 + 45 * i) by (change (length m1) with 45; lia). apply IH. lia.
Qed.
Lemma copies_only : forall k a p, In p (with_offsets (@length byte) a (repeat m1 k)) -> snd p = m1.
Proof. induction k as [|k IH]; intros a p []; [now subst|]. eapply IH. eassumption. Qed.
Lemma copies_length k : length (concat (repeat m1 k)) = 45 * k.
Proof. induction k as [|k IH]; [reflexivity|]. cbn [repeat concat]. rewrite app_length, IH. change (length m1) with 45. lia. Qed.
Lemma copies_count : forall k a, length (with_offsets (@length byte) a (repeat m1 k)) = k.
Proof. induction k as [|k IH]; intros a; [reflexivity|]. cbn [repeat with_offsets length]. now rewrite IH. Qed.
Lemma shows_length items ms : shows items ms -> length items = length ms.
Proof. unfold shows. induction 1; [reflexivity|]. cbn [length]. now f_equal. Qed.
Lemma sorted_nodup {A} (f : A -> nat) : forall l : list A, StronglySorted (fun x y => f x < f y) l -> NoDup l.
Proof.
  induction 1 as [|x l S IH F]; constructor; [|exact IH]. intros I. rewrite Forall_forall in F. specialize (F x I). lia.
Qed.

Lemma copies_nodup : forall k a, NoDup (with_offsets (@length byte) a (repeat m1 k)).
Proof.
  assert (X : forall n a p, In p (with_offsets (@length byte) a (repeat m1 n)) -> a <= fst p).
  { induction n as [|n IH]; intros a p []; [subst; cbn [fst]; lia|]. apply IH in H. lia. }
  induction k as [|k IH]; intros a; [constructor|]. cbn [repeat with_offsets]. constructor; [|apply IH].
  intros I. apply X in I. cbn [fst] in I. change (length m1) with 45 in I. lia.
Qed.
Lemma hello_apart : forall c, In c hello -> ~ In c the_pattern.
Proof.
  assert (B : forallb (fun c => negb (existsb (Byte.eqb c) the_pattern)) hello = true) by (vm_compute; reflexivity).
  rewrite forallb_forall in B. intros c I J. specialize (B c I). apply negb_true_iff in B. assert (E : existsb (Byte.eqb c) the_pattern = true).
  { apply existsb_exists. exists c. split; [exact J|]. now apply Byte.byte_dec_lb. }
  congruence.
Qed.
Lemma hello_never_empty b : never_empty (literal hello) b.
Proof. intros s e [_ ->]. change (length hello) with 11. lia. Qed.
Lemma grep_copies k : (N.of_nat (length (concat (repeat m1 k))) < 2 ^ 64 - 1)%N ->
  exists items, grep_collect (find_literal hello) (concat (repeat m1 k)) = Ret items /\ length items = k.
Proof.
  intros LK.
  assert (VM : Forall valid_message (repeat m1 k)) by (apply Forall_forall; intros m I; apply repeat_spec in I; subst; exact m1_valid).
  destruct (C27_literal_exact_partial hello (repeat m1 k) ltac:(discriminate) hello_apart VM) as (items & sel & G & SH & SO & IN); [|exact LK|].
  { intros j O. destruct (copies_marker k j O) as (i & Hi & ->). exists m1. exact (copies_placed k 0 i Hi). }
  exists items. split; [exact G|]. rewrite (shows_length _ _ SH).
  transitivity (length (with_offsets (@length byte) 0 (repeat m1 k))); [|apply copies_count]. apply Nat.le_antisymm.
  - apply NoDup_incl_length; [apply (sorted_nodup fst _ SO)|]. intros [p m] I. now apply IN in I.
  - apply NoDup_incl_length; [apply copies_nodup|]. intros [p m] I. apply IN. split; [exact I|].
    apply copies_only in I. cbn [snd] in I. subst m. exists 30, (firstn 30 (skipn 4 m1)), []. split; reflexivity.
Qed.
Lemma capture_copies k : (N.of_nat (length (concat (repeat m1 k))) < 2 ^ 64 - 1)%N ->
  exists l, collect (capture_next DLT (capture_literal hello) (S (length (concat (repeat m1 k)))) (concat (repeat m1 k))) (S (length (concat (repeat m1 k)))) 0 = Ret l.
Proof.
  intros LK. apply (C28_capture_terminates_partial (literal hello) (capture_literal hello) (capture_literal_leftmost hello ltac:(cbn; lia)) _ LK (hello_never_empty _)).
  intros off s e gs ge. unfold capture_literal, find_literal. destruct (find hello _); [|discriminate]. cbn [option_map]. intros H. injection H as <- <- <- <-. change (length hello) with 11. lia.
Qed.
(** So almost all matching messages are missed: for every [r], there is a file of messages that all match (grepping the same
    pattern delivers every one of them), of which capturing delivers less than one in [r]. *)
Theorem C138_misses : forall r, (N.of_nat r < 2 ^ 40)%N -> exists ms captures_at items l,
  leftmost_capture (literal hello) captures_at /\ Forall valid_message ms /\ Forall (occurs_in hello) ms /\
  grep_collect (find_literal hello) (concat ms) = Ret items /\ length items = length ms /\
  collect (capture_next DLT captures_at (S (length (concat ms))) (concat ms)) (S (length (concat ms))) 0 = Ret l /\
  r * length l < length ms.
Proof.
  intros r Hr. assert (K : exists k, N.of_nat k = (N.of_nat r * 66000 + 1)%N) by (exists (N.to_nat (N.of_nat r * 66000 + 1)); apply N2Nat.id).
  destruct K as [k Hk]. exists (repeat m1 k), (capture_literal hello).
  assert (LK : (N.of_nat (length (concat (repeat m1 k))) < 2 ^ 64 - 1)%N) by (rewrite copies_length; change (2 ^ 64 - 1)%N with 18446744073709551615%N; change (2 ^ 40)%N with 1099511627776%N in Hr; lia).
  destruct (grep_copies k LK) as (items & G & GL). destruct (capture_copies k LK) as (l & E).
  exists items, l. split; [apply capture_literal_leftmost; cbn; lia|].
  assert (OM : occurs_in hello m1) by (exists 34, (firstn 34 m1), []; split; reflexivity).
  split; [apply Forall_forall; intros m I; apply repeat_spec in I; subst; exact m1_valid|].
  split; [apply Forall_forall; intros m I; apply repeat_spec in I; subst; exact OM|]. rewrite repeat_length. split; [exact G|]. split; [exact GL|]. split; [exact E|].
  pose proof (C138_any_file _ _ (capture_literal_leftmost hello ltac:(cbn; lia)) _ LK _ _ _ _ E) as B.
  pose proof (log2_small (length (concat (repeat m1 k))) ltac:(change (2 ^ 64)%N with 18446744073709551616%N; change (2 ^ 64 - 1)%N with 18446744073709551615%N in LK; lia)) as B2.
  assert (B3 : (N.of_nat (length l) <= 65617)%N) by lia. clear - Hk B3.
  assert (B4 : (N.of_nat (r * length l) < N.of_nat k)%N); [|lia]. rewrite Hk, Nat2N.inj_mul. 
  apply N.lt_le_trans with (N.of_nat r * 65617 + 1)%N; [|lia].
  apply N.le_lt_trans with (N.of_nat r * 65617)%N; [apply N.mul_le_mono_l; exact B3|lia].
Qed.
Print Assumptions C138_misses.
(** A hundred messages of 45 bytes that all match: seven are captured; the bound of C138_logarithmic is 59. *)
Example C138_example : exists l, collect (capture_next DLT (capture_literal hello) 4501 (concat (repeat m1 100))) 4501 0 = Ret l /\
  map fst l = [0; 45; 135; 315; 675; 1395; 2835] /\ 45 + 2 + Nat.log2 (length (concat (repeat m1 100))) = 59.
Proof. eexists. split; [vm_compute; reflexivity|]. split; vm_compute; reflexivity. Qed.
