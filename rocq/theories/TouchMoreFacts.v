(** Facts about TouchMore.v. *)
From Verif Require Import Base DltModel MatchModel MappedModel TouchModel TouchMore TouchSpec TouchFacts.
From Coq Require Import ZifyBool ZifyNat ZifyN.

Section Sim.
  Variable W : world.
  Variable n : nat.
  Variable reads : nat -> nat -> bool.
  Variable reach rreach : nat -> nat -> nat.
  Variable looks_at : nat -> nat -> nat -> bool.

  Lemma sim_rfind z : sim (t_rfind W reads rreach z) (m_rfind W z).
  Proof.
    intros t. unfold t_rfind, m_rfind, look, follow, ask.
    destruct (sees_last W t z) as [p|]; [destruct (p + 4 <=? z)|]; (destruct (forallb _ _); [now right|now left]).
  Qed.
  Lemma sim_match a : sim (t_match W n reads looks_at a) (m_match W n a).
  Proof.
    intros t. unfold t_match, m_match, follow, ask. destruct (forallb _ _); [|now left]. right.
    destruct (sees_match W t a) as [[s e]|]; [|reflexivity]. destruct (_ && _); reflexivity.
  Qed.
  Lemma sim_rev_search off : sim (t_rev_search W n reads rreach off) (m_rev_search W n off).
  Proof.
    unfold t_rev_search, m_rev_search. destruct (_ || _); [apply sim_back|]. apply sim_bind; [apply sim_slice|]. intros _. apply sim_bind; [apply sim_rfind|].
    intros [c|]; [|apply sim_back]. apply sim_bind; [apply sim_from|]. intros _. apply sim_bind; [apply sim_read|]. intros [[k v]|]; apply sim_back.
  Qed.
  Lemma sim_rev_next : forall fuel off, sim (t_rev_next W n reads rreach fuel off) (m_rev_next W n fuel off).
  Proof.
    induction fuel as [|f IH]; intros off; [apply sim_undecided|]. cbn [t_rev_next m_rev_next]. apply sim_bind; [apply sim_rev_search|].
    intros [v|]; [apply sim_back|]. cbv zeta. match goal with |- context [(?x =? usize_max)%N] => destruct (x =? usize_max)%N end; [apply sim_back|apply IH].
  Qed.
  Lemma sim_grep_search : forall fuel off, sim (t_grep_search W n reads rreach looks_at fuel off) (m_grep_search W n fuel off).
  Proof.
    induction fuel as [|f IH]; intros off; [apply sim_undecided|]. cbn [t_grep_search m_grep_search]. destruct (n <=? off); [apply sim_back|].
    apply sim_bind; [apply sim_match|]. intros [[s e]|]; [|apply sim_back]. apply sim_bind; [apply sim_rev_search|]. intros [v|].
    - destruct (fst v <? s); [|apply sim_back]. apply sim_bind; [apply sim_len|]. intros l. destruct (_ <? _); [apply IH|apply sim_back].
    - destruct (n <=? e); [apply sim_back|apply IH].
  Qed.
  Lemma sim_grep_next fuel off : sim (t_grep_next W n reads rreach looks_at fuel off) (m_grep_next W n fuel off).
  Proof.
    apply sim_bind; [apply sim_grep_search|]. intros [v|]; [|apply sim_back]. apply sim_bind; [apply sim_len|]. intros l. apply sim_back.
  Qed.
  Lemma sim_scan rec rec' p0 p1 : (forall c d, sim (rec c d) (rec' c d)) -> forall fuel pos, sim (t_scan W n reads reach rec p0 p1 fuel pos) (m_scan W n rec' p0 p1 fuel pos).
  Proof.
    intros R. induction fuel as [|f IH]; intros pos; [apply sim_undecided|]. cbn [t_scan m_scan]. apply sim_bind; [apply sim_find|]. intros [c|]; [|apply sim_back].
    destruct (p0 <=? c); [apply sim_back|]. apply sim_bind; [apply sim_from|]. intros _. apply sim_bind; [apply sim_try_read|]. intros [[k v]|]; [|apply IH].
    apply sim_bind; [apply sim_len|]. intros l. destruct (p1 <=? c + l); [|apply IH]. apply sim_bind; [apply R|]. intros [q|]; [apply IH|apply sim_back].
  Qed.
  Lemma sim_contained_by : forall fuel p0 p1, sim (t_contained_by W n reads reach fuel p0 p1) (m_contained_by W n fuel p0 p1).
  Proof.
    induction fuel as [|f IH]; intros p0 p1; [apply sim_undecided|]. cbn [t_contained_by m_contained_by].
    match goal with |- context [if ?x then _ else _] => destruct x end; [apply sim_back|]. cbv zeta. apply sim_bind; [apply sim_from|]. intros _. now apply sim_scan.
  Qed.
  Lemma sim_partition_loop size : forall fuel c0 c1, sim (t_partition_loop W n reads reach fuel size c0 c1) (m_partition_loop W n fuel size c0 c1).
  Proof.
    induction fuel as [|f IH]; intros c0 c1; [apply sim_undecided|]. cbn [t_partition_loop m_partition_loop]. destruct (_ || _); [apply sim_back|].
    apply sim_bind; [apply sim_contained_by|]. intros r. cbv zeta. set (d := match r with Some v => fst v | None => c1 end). clearbody d.
    destruct (d <=? c0); [apply sim_back|]. destruct (n <=? d + size / 4); [apply sim_bind; [apply sim_from|]; intros _; apply sim_back|].
    apply sim_bind; [apply sim_slice|]. intros _. apply sim_bind; [apply IH|]. intros l. apply sim_back.
  Qed.
  Lemma sim_partition num : sim (t_partition W n reads reach num) (m_partition W n num).
  Proof. unfold t_partition, m_partition. destruct (num =? 0); [apply sim_panic|apply sim_partition_loop]. Qed.
End Sim.

(** Items found lie in the mapping, with their headers. *)
Section Good.
  Variable W : world.
  Variable n : nat.
  Variable reads : nat -> nat -> bool.
  Variable reach rreach : nat -> nat -> nat.
  Variable looks_at : nat -> nat -> nat -> bool.
  (** [x] is not killed, and what it finds has its two headers in the mapping. *)
  Definition finds {A} (P : A -> Prop) (x : peek A) : Prop := forall t, x t <> Killed /\ forall a t', x t = Back (a, t') -> P a.
  Lemma finds_back {A} (P : A -> Prop) a : P a -> finds P (back a).
  Proof. intros H t. split; [discriminate|]. unfold back. intros ? ? [= <- _]. exact H. Qed.
  Lemma finds_bind {A B} (Q : A -> Prop) (P : B -> Prop) (x : peek A) f : finds Q x -> (forall a, Q a -> finds P (f a)) -> finds P (next_peek x f).
  Proof.
    intros H K t. unfold next_peek. destruct (H t) as [L G]. destruct (x t) as [[a t']| | |]; [apply K; now apply (G a t')|split; discriminate|split; discriminate|congruence].
  Qed.
  Lemma finds_any {A} (x : peek A) : lives x -> finds (fun _ => True) x.
  Proof. intros H t. split; [apply H|trivial]. Qed.
  Lemma finds_lives {A} (P : A -> Prop) (x : peek A) : finds P x -> lives x.
  Proof. intros H t. apply H. Qed.
  Lemma finds_undecided {A} (P : A -> Prop) : finds P (fun _ => @Undecided (A * nat)).
  Proof. intros t. split; discriminate. Qed.
  Lemma finds_panic {A} (P : A -> Prop) : finds P (fun _ => @Panics (A * nat)).
  Proof. intros t. split; discriminate. Qed.
  Lemma finds_from a : finds (fun _ => a <= n) (t_from n a).
  Proof. unfold t_from. destruct (Nat.ltb_spec n a); [apply finds_panic|now apply finds_back]. Qed.
  Lemma finds_slice a z : finds (fun _ => True) (t_slice n a z).
  Proof. apply finds_any, lives_slice. Qed.

  (** Only bytes in front of [m] (and of the mapping's end) are needed. *)
  Variable m : nat.
  Hypothesis FRONT : forall t p, p < m -> p < n -> reads t p = true.
  Lemma finds_read a : a + 20 <= m \/ n <= m -> finds (fun r => forall k v, r = Some (k, v) -> fst v = a /\ a + 20 <= n) (t_read W n reads a).
  Proof.
    intros Ha. unfold t_read. destruct (Nat.ltb_spec (n - a) 16); [apply finds_back; discriminate|]. destruct (Nat.ltb_spec (n - a - 16) 4); [apply finds_back; discriminate|].
    eapply finds_bind; [apply finds_any; apply (lives_length W reads rreach); intros t p Hp; apply FRONT; lia|]. intros s _. destruct (_ || _); [apply finds_back; discriminate|].
    apply finds_back. intros k v [= _ <-]. cbn [fst]. lia.
  Qed.
  Lemma finds_rfind z : z <= m \/ n <= m -> z <= n -> finds (fun r => forall p, r = Some p -> p + 4 <= z) (t_rfind W reads rreach z).
  Proof.
    intros Hm Hz t. unfold t_rfind. cbv zeta. split.
    - apply (lives_look reads rreach). intros t' p Hp. apply FRONT; lia.
    - intros r t'. unfold look. destruct (forallb _ _); [|discriminate]. intros [= <- _] p. destruct (sees_last W t z) as [q|]; [|discriminate].
      destruct (Nat.leb_spec (q + 4) z); [|discriminate]. now intros [= <-].
  Qed.
  Lemma finds_rev_search off : (off + 16 <= N.of_nat m)%N \/ n <= m ->
    finds (fun r => forall v, r = Some v -> fst v + 20 <= n /\ (N.of_nat (fst v) + 4 <= off)%N) (t_rev_search W n reads rreach off).
  Proof.
    intros Hm. unfold t_rev_search. destruct ((N.of_nat n <? off) || (off =? usize_max))%N eqn:G; [apply finds_back; discriminate|].
    eapply finds_bind; [apply finds_slice|]. intros _ _. eapply finds_bind; [apply finds_rfind; lia|]. intros [c|] Hc; [|apply finds_back; discriminate].
    specialize (Hc c eq_refl). eapply finds_bind; [apply finds_from|]. intros _ _. eapply finds_bind; [apply finds_read; lia|]. intros [[k v]|] Hv; [|apply finds_back; discriminate].
    apply finds_back. intros v' [= <-]. destruct (Hv k v eq_refl). lia.
  Qed.
  Lemma finds_rev_next : forall fuel off, (off + 16 <= N.of_nat m)%N \/ n <= m ->
    finds (fun r => forall v, snd r = Some v -> (fst r = N.of_nat (fst v) /\ fst r + 4 <= off)%N) (t_rev_next W n reads rreach fuel off).
  Proof.
    induction fuel as [|f IH]; intros off Hm; [apply finds_undecided|]. cbn [t_rev_next].
    eapply finds_bind; [now apply finds_rev_search|]. intros [v|] Hv.
    - apply finds_back. cbn [fst snd]. intros v' [= <-]. destruct (Hv v eq_refl). split; [reflexivity|lia].
    - cbv zeta. destruct (4 <=? off)%N eqn:L4.
      + destruct (off - 4 =? usize_max)%N; [apply finds_back; discriminate|]. eapply (fun H => IH (off - 4)%N H) || idtac.
        intros t. destruct (IH (off - 4)%N ltac:(lia) t) as [L G]. split; [exact L|]. intros a t' E v E'. destruct (G a t' E v E') as [G1 G2]. split; [exact G1|lia].
      + rewrite N.eqb_refl. apply finds_back. discriminate.
  Qed.
  Lemma lives_rev_collect : forall fuel off t, (off + 16 <= N.of_nat m)%N \/ n <= m -> snd (t_collect (t_rev_next W n reads rreach (S n)) fuel off t) <> Killed.
  Proof.
    induction fuel as [|f IH]; intros off t Hm; [discriminate|]. cbn [t_collect]. destruct (finds_rev_next (S n) off Hm t) as [L G].
    destruct (t_rev_next W n reads rreach (S n) off t) as [[[s' [v|]] t1]| | |]; try (cbn [snd]; discriminate); try now (exfalso; apply L).
    destruct (G (s', Some v) t1 eq_refl v eq_refl) as [G1 G2]. cbn [fst] in G1, G2.
    specialize (IH s' t1 ltac:(lia)). destruct (t_collect (t_rev_next W n reads rreach (S n)) f s' t1). exact IH.
  Qed.
End Good.

(** * Everything in the mapping can be read *)
Section All.
  Variable W : world.
  Variable n : nat.
  Variable reads : nat -> nat -> bool.
  Variable reach rreach : nat -> nat -> nat.
  Variable looks_at : nat -> nat -> nat -> bool.
  Hypothesis ALL : forall t p, p < n -> reads t p = true.
  Notation inside := (fun r : option item => forall v, r = Some v -> fst v + 20 <= n).
  Lemma finds_len v : fst v + 20 <= n -> finds (fun _ => True) (t_len W reads v).
  Proof. intros H. apply finds_any, lives_bind; [|intros; apply lives_back]. apply (lives_length W reads reach). intros; apply ALL; lia. Qed.
  Lemma finds_match a : finds (fun _ => True) (t_match W n reads looks_at a).
  Proof.
    apply finds_any. intros t. unfold t_match. rewrite (proj2 (forallb_forall _ _)); [discriminate|]. intros p I. apply in_seq in I. rewrite ALL by lia. now rewrite orb_true_r.
  Qed.
  Lemma finds_grep_search : forall fuel off, finds inside (t_grep_search W n reads rreach looks_at fuel off).
  Proof.
    induction fuel as [|f IH]; intros off; [apply finds_undecided|]. cbn [t_grep_search]. destruct (n <=? off); [apply finds_back; discriminate|].
    eapply finds_bind; [apply finds_match|]. intros [[s e]|] _; [|apply finds_back; discriminate].
    eapply finds_bind; [apply (finds_rev_search W n reads reach rreach looks_at n (fun t p _ H => ALL t p H)); now right|]. intros [v|] Hv.
    - destruct (Hv v eq_refl) as [Hv' _]. assert (G : finds inside (back (Some v))) by (apply finds_back; intros ? [= <-]; exact Hv').
      destruct (fst v <? s); [|exact G]. eapply finds_bind; [now apply finds_len|]. intros l _. destruct (_ <? _); [apply IH|exact G].
    - destruct (n <=? e); [apply finds_back; discriminate|apply IH].
  Qed.
  Lemma finds_grep_next fuel off : finds (fun _ => True) (t_grep_next W n reads rreach looks_at fuel off).
  Proof.
    eapply finds_bind; [apply finds_grep_search|]. intros [v|] Hv; [|now apply finds_back]. eapply finds_bind; [apply finds_len, (Hv v eq_refl)|]. intros l _. now apply finds_back.
  Qed.
  Lemma finds_find a : a <= n -> finds (fun r => forall p, r = Some p -> p + 4 <= n) (t_find W n reads reach a).
  Proof.
    intros Ha t. split; [now apply lives_find|]. intros r t'. unfold t_find, look. cbv zeta. destruct (forallb _ _); [|discriminate]. intros [= <- _] p.
    destruct (sees_first W t a) as [q|]; [|discriminate]. destruct (Nat.leb_spec a q); destruct (Nat.leb_spec (q + 4) n); cbn [andb]; try discriminate. now intros [= <-].
  Qed.
  Lemma finds_try_read a : finds (fun r => forall k v, r = Some (k, v) -> fst v + 20 <= n) (t_try_read W n reads a).
  Proof.
    unfold t_try_read. destruct (Nat.ltb_spec (n - a) 4); [apply finds_back; discriminate|]. eapply finds_bind; [apply finds_any, (lives_look reads reach); intros; apply ALL; lia|].
    intros [|] _; [|apply finds_back; discriminate]. intros t. pose proof (finds_read W n reads) as FR; destruct (FR reach rreach looks_at n (fun t p _ H => ALL t p H) a ltac:(now right) t) as [L G].
    split; [exact L|]. intros r t' E k v E'. destruct (G r t' E k v E'). lia.
  Qed.
  Lemma finds_scan rec p0 p1 : (forall c d, finds (fun _ => True) (rec c d)) -> forall fuel pos, pos <= n -> finds (fun _ => True) (t_scan W n reads reach rec p0 p1 fuel pos).
  Proof.
    intros R. induction fuel as [|f IH]; intros pos Hp; [apply finds_undecided|]. cbn [t_scan]. eapply finds_bind; [now apply finds_find|]. intros [c|] Hc; [|now apply finds_back].
    specialize (Hc c eq_refl). destruct (p0 <=? c); [now apply finds_back|]. eapply finds_bind; [apply finds_from|]. intros _ _. eapply finds_bind; [apply finds_try_read|].
    intros [[k v]|] Hv; [|apply IH; lia]. eapply finds_bind; [apply finds_len, (Hv k v eq_refl)|]. intros l _. destruct (p1 <=? c + l); [|apply IH; lia].
    eapply finds_bind; [apply R|]. intros [q|] _; [apply IH; lia|now apply finds_back].
  Qed.
  Lemma finds_contained_by : forall fuel p0 p1, finds (fun _ => True) (t_contained_by W n reads reach fuel p0 p1).
  Proof.
    induction fuel as [|f IH]; intros p0 p1; [apply finds_undecided|]. cbn [t_contained_by].
    match goal with |- context [if ?x then _ else _] => destruct x end; [now apply finds_back|]. cbv zeta. generalize (p0 - dlt_max_len); intros s.
    eapply finds_bind; [apply finds_from|]. intros u Hs; cbv beta in Hs. apply finds_scan; assumption.
  Qed.
  Lemma finds_partition_loop size : forall fuel c0 c1, finds (fun _ => True) (t_partition_loop W n reads reach fuel size c0 c1).
  Proof.
    induction fuel as [|f IH]; intros c0 c1; [apply finds_undecided|]. cbn [t_partition_loop]. destruct (_ || _); [now apply finds_back|].
    eapply finds_bind; [apply finds_contained_by|]. intros r _. cbv zeta. set (d := match r with Some v => fst v | None => c1 end). clearbody d.
    destruct (d <=? c0); [now apply finds_back|]. destruct (n <=? d + size / 4); [eapply finds_bind; [apply finds_from|]; intros u Hu; now apply finds_back|].
    eapply finds_bind; [apply finds_slice|]. intros u _. eapply finds_bind; [apply IH|]. intros l _. now apply finds_back.
  Qed.
  Lemma finds_partition num : finds (fun _ => True) (t_partition W n reads reach num).
  Proof. unfold t_partition. destruct (num =? 0); [apply finds_panic|apply finds_partition_loop]. Qed.
End All.
