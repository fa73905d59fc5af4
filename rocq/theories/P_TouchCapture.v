(** Property theorem C137: capturing (and grepping) in a memory mapped file of which some bytes cannot be read (TouchCapture.v, TouchMore.v;
    vocabulary in TouchSpec.v).  [G] answers the captures: the match and group 1; the other names are as in P_TouchMore.v. *)
From Verif Require Import Base DltModel MatchModel MappedModel TouchModel TouchMore TouchCapture Spec MappedSpec TouchSpec BaseFacts DltFacts CodecFacts ParseFacts FindFacts IterFacts
  DltIterFacts ContainFacts CommandFacts ExactFacts MappedFacts MappedStill TouchFacts TouchMoreFacts TouchSame TouchMoreSame P_Mapped.
From Verif Require Samples.
From Coq Require Import ZifyBool ZifyNat ZifyN.
Import Samples(m1, m2, m3, m1_valid, m2_valid, m3_valid).
Ltac Zify.zify_post_hook ::= idtac.

Section Facts.
  Variable W : world.
  Variable n : nat.
  Variable reads : nat -> nat -> bool.
  Variable reach rreach : nat -> nat -> nat.
  Variable looks_at : nat -> nat -> nat -> bool.
  Variable G : nat -> nat -> option ((nat * nat) * option (nat * nat)).
  Lemma sim_groups a : sim (t_groups n reads looks_at G a) (m_groups n G a).
  Proof.
    intros t. unfold t_groups, m_groups, follow, ask. destruct (forallb _ _); [|now left]. right.
    destruct (G t a) as [[[s e] g]|]; [|reflexivity]. destruct (_ && _); reflexivity.
  Qed.
  Lemma sim_capture : forall fuel off, sim (t_capture W n reads rreach looks_at G fuel off) (m_capture W n G fuel off).
  Proof.
    induction fuel as [|f IH]; intros off; [apply sim_undecided|]. cbn [t_capture m_capture]. destruct (n <=? off); [apply sim_back|].
    apply sim_bind; [apply sim_groups|]. intros [[[s e] g]|]; [|apply sim_back]. cbv zeta. apply sim_bind; [apply sim_rev_search|]. intros [v|].
    - destruct (fst v <? s); [|destruct g; apply sim_back]. apply sim_bind; [apply sim_len|]. intros l. destruct (_ <? _); [apply IH|destruct g; apply sim_back].
    - destruct (n <=? e); [apply sim_back|apply IH].
  Qed.
  Lemma sim_capture_next fuel off : sim (t_capture_next W n reads rreach looks_at G fuel off) (m_capture_next W n G fuel off).
  Proof. apply sim_bind; [apply sim_capture|]. intros [[o g]|]; apply sim_back. Qed.

  (** What is read can be read. *)
  Variable c : nat.
  Hypothesis FRONT : forall t p, p < c -> p < n -> reads t p = true.
  Hypothesis LOOK : forall t a p, looks_at t a p = true -> p < c.
  Lemma front_len v : fst v + 20 <= c \/ n <= c -> fst v + 20 <= n -> finds (fun _ => True) (t_len W reads v).
  Proof. intros H H2. apply finds_any, lives_bind; [|intros; apply lives_back]. apply (lives_length W reads reach). intros; apply FRONT; lia. Qed.
  Lemma front_look (t a : nat) : forallb (fun p => negb (looks_at t a p) || reads t p) (seq 0 n) = true.
  Proof.
    apply forallb_forall. intros p I. apply in_seq in I. destruct (looks_at t a p) eqn:E; [|reflexivity]. cbn [negb orb]. apply FRONT; [now apply (LOOK t a)|lia].
  Qed.
  Lemma front_groups (P : nat -> Prop) (HG : forall t a s e g, G t a = Some ((s, e), g) -> P s) a :
    finds (fun r => forall s e g, r = Some ((s, e), g) -> P s) (t_groups n reads looks_at G a).
  Proof.
    intros t. unfold t_groups. rewrite front_look. split; [discriminate|]. intros r t' [= <- _] s e g.
    destruct (G t a) as [[[s0 e0] g0]|] eqn:E; [|discriminate]. destruct (_ && _); [|discriminate]. intros [= <- <- <-]. exact (HG t a s0 e0 g0 E).
  Qed.
  Lemma front_capture (HG : forall t a s e g, G t a = Some ((s, e), g) -> s + 16 <= c \/ n <= c) :
    forall fuel off, finds (fun _ => True) (t_capture W n reads rreach looks_at G fuel off).
  Proof.
    induction fuel as [|f IH]; intros off; [apply finds_undecided|]. cbn [t_capture]. destruct (n <=? off); [now apply finds_back|].
    eapply finds_bind; [apply (front_groups _ HG)|]. intros [[[s e] g]|] Hs; [|now apply finds_back]. cbv zeta. specialize (Hs s e g eq_refl).
    eapply finds_bind; [apply (finds_rev_search W n reads reach rreach looks_at c FRONT); lia|]. intros [v|] Hv.
    - destruct (Hv v eq_refl) as [H1 H2]. destruct (fst v <? s); [|destruct g; now apply finds_back]. eapply finds_bind; [apply front_len; lia|]. intros l _.
      destruct (_ <? _); [apply IH|destruct g; now apply finds_back].
    - destruct (n <=? e); [now apply finds_back|apply IH].
  Qed.
  Lemma front_match (P : nat -> Prop) (HM : forall t a s e, sees_match W t a = Some (s, e) -> P s) a :
    finds (fun r => forall s e, r = Some (s, e) -> P s) (t_match W n reads looks_at a).
  Proof.
    intros t. unfold t_match. rewrite front_look. split; [discriminate|]. intros r t' [= <- _] s e.
    destruct (sees_match W t a) as [[s0 e0]|] eqn:E; [|discriminate]. destruct (_ && _); [|discriminate]. intros [= <- <-]. exact (HM t a s0 e0 E).
  Qed.
  Lemma front_grep (HM : forall t a s e, sees_match W t a = Some (s, e) -> s + 16 <= c \/ n <= c) :
    forall fuel off, finds (fun _ => True) (t_grep_next W n reads rreach looks_at fuel off).
  Proof.
    assert (K : forall fuel off, finds (fun r => forall v, r = Some v -> (fst v + 20 <= c \/ n <= c) /\ fst v + 20 <= n) (t_grep_search W n reads rreach looks_at fuel off)).
    { induction fuel as [|f IH]; intros off; [apply finds_undecided|]. cbn [t_grep_search]. destruct (n <=? off); [apply finds_back; discriminate|].
      eapply finds_bind; [apply (front_match _ HM)|]. intros [[s e]|] Hs; [|apply finds_back; discriminate]. specialize (Hs s e eq_refl).
      eapply finds_bind; [apply (finds_rev_search W n reads reach rreach looks_at c FRONT); lia|]. intros [v|] Hv.
      - destruct (Hv v eq_refl) as [H1 H2]. destruct (fst v <? s); [|apply finds_back; intros ? [= <-]; split; lia].
        eapply finds_bind; [apply front_len; lia|]. intros l _. destruct (_ <? _); [apply IH|apply finds_back; intros ? [= <-]; split; lia].
      - destruct (n <=? e); [apply finds_back; discriminate|apply IH]. }
    intros fuel off. eapply finds_bind; [apply K|]. intros [v|] Hv; [|now apply finds_back]. destruct (Hv v eq_refl). eapply finds_bind; [now apply front_len|]. intros l _. now apply finds_back.
  Qed.
  Lemma collect_alive {S A} (next : S -> peek (S * option A)) : (forall s, lives (next s)) -> forall g s t, snd (t_collect next g s t) <> Killed.
  Proof.
    intros H. induction g as [|g IH]; intros s t; [discriminate|]. cbn [t_collect]. specialize (H s t).
    destruct (next s t) as [[[s' [v|]] t1]| | |]; try (cbn [snd]; discriminate); [|congruence].
    specialize (IH s' t1). destruct (t_collect next g s' t1). exact IH.
  Qed.
  Lemma front_capture_next (HG : forall t a s e g, G t a = Some ((s, e), g) -> s + 16 <= c \/ n <= c) fuel off :
    lives (t_capture_next W n reads rreach looks_at G fuel off).
  Proof.
    apply (finds_lives (fun _ => True)). eapply finds_bind; [now apply front_capture|]. intros [[o g]|] _; now apply finds_back.
  Qed.
End Facts.

(** Killed or not, what is captured is what is captured if everything can be read, or a beginning of it. *)
Theorem C137_capture : forall W n reads rreach looks_at G fuel,
  (forall off t, killed_or (t_capture_next W n reads rreach looks_at G fuel off t) (m_capture_next W n G fuel off t)) /\
  (forall g off t all t', m_collect (m_capture_next W n G fuel) g off t = Ret (all, t') ->
    delivers_of all (t_collect (t_capture_next W n reads rreach looks_at G fuel) g off t)).
Proof.
  intros W n reads rreach looks_at G fuel. split.
  - intros off t. apply sim_capture_next.
  - intros g off t all t' E. eapply sim_collect; [intros s; apply sim_capture_next|exact E].
Qed.
Print Assumptions C137_capture.
(** The same for an unchanging file, in terms of what the iterator over its bytes captures. *)
Theorem C137_still : forall (b : bytes) F CF reads rreach looks_at,
  (forall a s e g, CF b a = Some ((s, e), g) -> a <= s /\ s <= e /\ e <= length b /\ forall gs ge, g = Some (gs, ge) -> s <= gs /\ gs <= ge <= e) ->
  forall fuel off t r, capture_next DLT CF fuel b off = Ret r ->
  t_capture_next (still b F) (length b) reads rreach looks_at (fun _ a => CF b a) fuel off t = Killed \/
  exists t', t_capture_next (still b F) (length b) reads rreach looks_at (fun _ a => CF b a) fuel off t = Back (r, t').
Proof.
  intros b F CF reads rreach looks_at H fuel off t r E.
  destruct (C117_captures b F CF H fuel off r E t) as [t' E'].
  destruct (sim_capture_next (still b F) (length b) reads rreach looks_at (fun _ a => CF b a) fuel off t) as [K|K]; [now left|]. right.
  rewrite E' in K. now exists t'.
Qed.
Print Assumptions C137_still.

(** Nothing outside of the mapping is read; and if the first [c] bytes can be read, the regular expression engine looks at nothing behind
    them and no match starts in the last 16 of them, nothing behind them is needed. *)
Theorem C137_kept : forall W n reads rreach looks_at G c,
  (forall t p, p < c -> p < n -> reads t p = true) -> (forall t a p, looks_at t a p = true -> p < c) ->
  ((forall t a s e g, G t a = Some ((s, e), g) -> s + 16 <= c \/ n <= c) ->
   forall fuel g off t, snd (t_collect (t_capture_next W n reads rreach looks_at G fuel) g off t) <> Killed) /\
  ((forall t a s e, sees_match W t a = Some (s, e) -> s + 16 <= c \/ n <= c) ->
   forall fuel g off t, snd (t_collect (t_grep_next W n reads rreach looks_at fuel) g off t) <> Killed).
Proof.
  intros W n reads rreach looks_at G c FRONT LOOK. split; intros H fuel g off t; apply collect_alive; intros s.
  - eapply (front_capture_next W n reads rreach); eassumption.
  - apply (finds_lives (fun _ => True)). eapply front_grep; eassumption.
Qed.
Print Assumptions C137_kept.
Theorem C137_inside : forall W n reads rreach looks_at G, (forall t p, p < n -> reads t p = true) ->
  forall fuel g off t, snd (t_collect (t_capture_next W n reads rreach looks_at G fuel) g off t) <> Killed.
Proof.
  intros W n reads rreach looks_at G ALL fuel g off t. apply collect_alive. intros s t0.
  set (la := fun t a p => looks_at t a p && (p <? n)).
  assert (E : forall a t, t_groups n reads looks_at G a t = t_groups n reads la G a t).
  { intros a t1. unfold t_groups.
    replace (forallb (fun p => negb (looks_at t1 a p) || reads t1 p) (seq 0 n)) with true
      by (symmetry; apply forallb_forall; intros p I; apply in_seq in I; rewrite ALL by lia; apply orb_true_r).
    replace (forallb (fun p => negb (la t1 a p) || reads t1 p) (seq 0 n)) with true
      by (symmetry; apply forallb_forall; intros p I; apply in_seq in I; rewrite ALL by lia; apply orb_true_r).
    reflexivity. }
  assert (E2 : forall f off t, t_capture W n reads rreach looks_at G f off t = t_capture W n reads rreach la G f off t).
  { induction f as [|f IH]; intros o t1; [reflexivity|]. cbn [t_capture]. destruct (n <=? o); [reflexivity|]. unfold next_peek at 1. unfold next_peek at 3. rewrite E.
    destruct (t_groups n reads la G o t1) as [[[[[s1 e1] g1]|] t2]| | |]; try reflexivity. cbv zeta. unfold next_peek.
    destruct (t_rev_search W n reads rreach (N.of_nat s1) t2) as [[[v|] t3]| | |]; try reflexivity.
    - destruct (fst v <? s1); [|reflexivity]. destruct (t_len W reads v t3) as [[l t4]| | |]; try reflexivity. destruct (_ <? _); [apply IH|reflexivity].
    - destruct (n <=? e1); [reflexivity|apply IH]. }
  unfold t_capture_next, next_peek. rewrite E2.
  assert (L := front_capture_next W n reads rreach rreach la G n (fun t p _ => ALL t p) (fun t a p I => proj1 (Nat.ltb_lt _ _) (proj2 (andb_prop _ _ I))) (fun _ _ _ _ _ _ => or_intror (le_n n)) fuel s t0).
  exact L.
Qed.
Print Assumptions C137_inside.

(** What is not read does not matter (the engine's answer is determined by the bytes it looks at). *)
Theorem C137_depends : forall (mem mem' : nat -> bytes) F F' (CF CF' : bytes -> nat -> option ((nat * nat) * option (nat * nat))) n reads rreach looks_at,
  (forall t, length (mem t) = n /\ length (mem' t) = n) ->
  (forall t p, reads t p = true -> nth p (mem t) x00 = nth p (mem' t) x00) ->
  (forall t a, (forall p, p < n -> looks_at t a p = true -> nth p (mem t) x00 = nth p (mem' t) x00) -> CF' (mem' t) a = CF (mem t) a) ->
  forall g fuel off t,
  snd (t_collect (t_capture_next (history mem F) n reads rreach looks_at (fun t a => CF (mem t) a) fuel) g off t) <> Killed ->
  t_collect (t_capture_next (history mem' F') n reads rreach looks_at (fun t a => CF' (mem' t) a) fuel) g off t =
  t_collect (t_capture_next (history mem F) n reads rreach looks_at (fun t a => CF (mem t) a) fuel) g off t.
Proof.
  intros mem mem' F F' CF CF' n reads rreach looks_at L A R g fuel off t. apply same_collect. intros s.
  apply same_bind; [|intros [[o x]|]; apply same_refl]. revert s. induction fuel as [|f IH]; intros s; [apply same_refl|]. cbn [t_capture].
  destruct (n <=? s); [apply same_refl|]. apply same_bind.
  - intros t1 N. unfold t_groups in *. destruct (forallb _ _) eqn:Q; [|now elim N]. rewrite R; [reflexivity|].
    intros p Hp K. rewrite forallb_forall in Q. specialize (Q p ltac:(apply in_seq; lia)). rewrite K in Q. cbn [negb orb] in Q. now apply A.
  - intros [[[s1 e1] g1]|]; [|apply same_refl]. cbv zeta. apply same_bind; [exact (same_rev_search mem mem' F F' n reads rreach rreach looks_at L A (N.of_nat s1))|].
    intros [v|]; [|destruct (n <=? e1); [apply same_refl|apply IH]]. destruct (fst v <? s1); [|apply same_refl].
    apply same_bind; [exact (same_entry_len mem mem' F F' n reads rreach L A v)|]. intros l. destruct (_ <? _); [apply IH|apply same_refl].
Qed.
Print Assumptions C137_depends.
(** Two messages and the headers of a third remain of a file that was truncated meanwhile.  The engine reads up to the end of the match it
    finds, and everything if it finds none: the second call is killed.  An engine that looks for a match at the start of the file only
    reads nothing then, and the run ends well. *)
Example C137_example : let b := m1 ++ m2 ++ m3 in let c := length m1 + length m2 + 20 in let n := length b in
  let reads := fun (_ p : nat) => p <? c in let W := still b (fun _ _ => None) in
  let CF := fun (_ : bytes) (a : nat) => if a <=? 30 then Some ((30, 34), Some (31, 32)) else None in
  let all := fun (_ a p : nat) => (a <=? p) && ((p <? 34) || (30 <? a)) in
  let anchored := fun (_ a p : nat) => (a =? 0) && (p <? 34) in
  t_capture_next W n reads (fun _ _ => 0) all (fun _ a => CF b a) (S n) 0 0 = Back ((32, Some (0, (31, 32))), 4) /\
  t_collect (t_capture_next W n reads (fun _ _ => 0) all (fun _ a => CF b a) (S n)) (S n) 0 0 = ([(0, (31, 32))], Killed) /\
  t_collect (t_capture_next W n reads (fun _ _ => 0) anchored (fun _ a => CF b a) (S n)) (S n) 0 0 = ([(0, (31, 32))], Back tt) /\
  (forall t p, p < c -> p < n -> reads t p = true) /\ (forall t a p, anchored t a p = true -> p < c) /\
  (forall (t a s0 e : nat) g, CF b a = Some ((s0, e), g) -> s0 + 16 <= c \/ n <= c) /\
  (forall a s0 e g, CF b a = Some ((s0, e), g) -> a <= s0 /\ s0 <= e /\ e <= n /\ forall gs ge, g = Some (gs, ge) -> s0 <= gs /\ gs <= ge /\ ge <= e).
Proof.
  intros b c n reads W CF all anchored. split; [vm_compute; reflexivity|]. split; [vm_compute; reflexivity|]. split; [vm_compute; reflexivity|].
  assert (Ec : c = 88) by (vm_compute; reflexivity). assert (En : n = 104) by (vm_compute; reflexivity).
  split; [intros t p H _; unfold reads; now apply Nat.ltb_lt|]. split; [intros t a p H; unfold anchored in H; rewrite Ec; lia|].
  rewrite Ec, En. split.
  - intros _ a s0 e g. unfold CF. destruct (a <=? 30); [|discriminate]. intros [= <- _ _]. lia.
  - intros a s0 e g. unfold CF. destruct (Nat.leb_spec a 30); [|discriminate]. intros [= <- <- <-]. split; [lia|]. split; [lia|]. split; [lia|].
    intros gs ge [= <- <-]. lia.
Qed.
