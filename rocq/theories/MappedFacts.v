(** Facts about MappedModel.v. *)
From Verif Require Import Base DltModel MatchModel MappedModel Spec MappedSpec BaseFacts.
From Coq Require Import ZifyBool ZifyNat ZifyN.
Ltac Zify.zify_post_hook ::= idtac.

(** Returns, with a result that satisfies [P]. *)
Definition safe {A} (P : A -> Prop) (x : act A) : Prop := forall t, exists a t', x t = Ret (a, t') /\ P a.
(** Does not panic, and if it returns, the result satisfies [P]. *)
Definition tame {A} (P : A -> Prop) (x : act A) : Prop := forall t, x t <> Panic /\ forall a t', x t = Ret (a, t') -> P a.

Lemma safe_done {A} (P : A -> Prop) a : P a -> safe P (done a).
Proof. intros H t. now exists a, t. Qed.
Lemma safe_follow {A B} (Q : A -> Prop) (P : B -> Prop) x f : safe Q x -> (forall a, Q a -> safe P (f a)) -> safe P (follow x f).
Proof. intros HX HF t. destruct (HX t) as (a & t' & E & H). unfold follow. rewrite E. now apply HF. Qed.
Lemma safe_ask {A} (P : A -> Prop) f : (forall t, P (f t)) -> safe P (ask f).
Proof. intros H t. now exists (f t), (S t). Qed.
Lemma safe_any {A} f : safe (fun _ : A => True) (ask f).
Proof. now apply safe_ask. Qed.
Lemma safe_weak {A} (P Q : A -> Prop) x : safe P x -> (forall a, P a -> Q a) -> safe Q x.
Proof. intros H I t. destruct (H t) as (a & t' & E & X). exists a, t'. auto. Qed.
Lemma safe_tame {A} (P : A -> Prop) x : safe P x -> tame P x.
Proof. intros H t. destruct (H t) as (a & t' & E & X). rewrite E. split; [discriminate|]. intros a0 t0 [= <- <-]. exact X. Qed.
Lemma tame_follow {A B} (Q : A -> Prop) (P : B -> Prop) x f : tame Q x -> (forall a, Q a -> tame P (f a)) -> tame P (follow x f).
Proof.
  intros HX HF t. unfold follow. destruct (HX t) as [N R]. destruct (x t) as [[a t']| |]; [|congruence|split; discriminate].
  apply HF. now apply (R a t').
Qed.
Lemma tame_unknown {A} (P : A -> Prop) : tame P unknown.
Proof. intros t. split; discriminate. Qed.

Section World.
  Variable W : world.
  Variable n : nat.

  Definition good (v : item) : Prop := 20 <= snd v /\ fst v + snd v <= n.

  Lemma safe_from a : a <= n -> safe (fun _ => True) (m_from n a).
  Proof. intros H. unfold m_from. destruct (Nat.ltb_spec n a); [lia|]. now apply safe_done. Qed.
  Lemma safe_slice a z : a <= z -> z <= n -> safe (fun _ => True) (m_slice n a z).
  Proof. intros H1 H2. unfold m_slice. destruct (Nat.ltb_spec z a); [lia|]. destruct (Nat.ltb_spec n z); [lia|]. now apply safe_done. Qed.
  Lemma safe_find a : safe (fun r => forall p, r = Some p -> a <= p /\ p + 4 <= n) (m_find W n a).
  Proof.
    unfold m_find. eapply safe_follow; [apply safe_any|]. intros [p|] _; [|now apply safe_done].
    destruct (Nat.leb_spec a p); [|now apply safe_done]. destruct (Nat.leb_spec (p + 4) n); [|now apply safe_done].
    apply safe_done. intros q [= <-]. now split.
  Qed.
  Lemma safe_rfind z : safe (fun r => forall p, r = Some p -> p + 4 <= z) (m_rfind W z).
  Proof.
    unfold m_rfind. eapply safe_follow; [apply safe_any|]. intros [p|] _; [|now apply safe_done].
    destruct (Nat.leb_spec (p + 4) z); [|now apply safe_done]. apply safe_done. now intros q [= <-].
  Qed.
  Lemma safe_match a : safe (fun r => forall s e, r = Some (s, e) -> a <= s /\ s <= e /\ e <= n) (m_match W n a).
  Proof.
    unfold m_match. eapply safe_follow; [apply safe_any|]. intros [[s e]|] _; [|now apply safe_done].
    destruct (Nat.leb_spec a s); [|now apply safe_done]. destruct (Nat.leb_spec s e); [|now apply safe_done].
    destruct (Nat.leb_spec e n); [|now apply safe_done]. apply safe_done. intros s0 e0 [= <- <-]. repeat split; assumption.
  Qed.
  Lemma safe_length a : safe (fun l => N.of_nat l < 65536)%N (m_length W a).
  Proof.
    unfold m_length. eapply safe_follow; [apply safe_any|]. intros l _. apply safe_done.
    pose proof (N.mod_lt (N.of_nat l) 65536). lia.
  Qed.
  Lemma safe_read a : safe (fun r => forall k v, r = Some (k, v) -> v = (a, k) /\ good v) (m_read W n a).
  Proof.
    unfold m_read. destruct (Nat.ltb_spec (n - a) 16) as [L|L]; [now apply safe_done|].
    destruct (Nat.ltb_spec (n - a - 16) 4) as [L'|L']; [now apply safe_done|].
    eapply safe_follow; [apply safe_length|]. intros s Hs.
    destruct (Nat.ltb_spec s 4) as [L1|L1]; [now apply safe_done|]. destruct (Nat.ltb_spec (n - a - 16) s) as [L2|L2]; [now apply safe_done|].
    apply safe_done. intros k v [= <- <-]. split; [reflexivity|]. unfold good. cbn [fst snd]. lia.
  Qed.
  Lemma safe_try_read a : safe (fun r => forall k v, r = Some (k, v) -> v = (a, k) /\ good v) (m_try_read W n a).
  Proof.
    unfold m_try_read. destruct (Nat.ltb_spec (n - a) 4); [now apply safe_done|].
    eapply safe_follow; [apply safe_any|]. intros [] _; [apply safe_read|now apply safe_done].
  Qed.
  Lemma safe_len v : safe (fun l => 16 <= l) (m_len W v).
  Proof. unfold m_len. eapply safe_follow; [apply safe_length|]. intros l _. apply safe_done. lia. Qed.

  (** ** Iterators: the new offset and the item *)
  Lemma safe_readit off : safe (fun r => forall v, snd r = Some v -> good v /\ fst v = off /\ fst r = off + snd v) (m_readit_next W n off).
  Proof.
    unfold m_readit_next. destruct (Nat.leb_spec n off); [apply safe_done; discriminate|].
    eapply safe_follow; [apply safe_from; lia|]. intros _ _. eapply safe_follow; [apply safe_try_read|].
    intros [[k v]|] H0; apply safe_done; [|discriminate]. cbn [fst snd]. intros v' [= <-].
    destruct (H0 k v eq_refl) as [-> G]. cbn [fst snd] in *. auto.
  Qed.
  Lemma safe_fallback : forall fuel off, n - off < fuel ->
    safe (fun r => forall v, snd r = Some v -> good v /\ off <= fst v /\ fst r = fst v + snd v) (m_fallback_next W n fuel off).
  Proof.
    induction fuel as [|f IH]; intros off Hf; [lia|]. cbn [m_fallback_next].
    destruct (Nat.leb_spec n (off + 4)); [apply safe_done; discriminate|].
    eapply safe_follow; [apply safe_slice; lia|]. intros _ _. eapply safe_follow; [apply safe_any|]. intros [] _.
    - eapply safe_follow; [apply safe_from; lia|]. intros _ _. eapply safe_follow; [apply safe_read|].
      intros [[k v]|] H0; apply safe_done; [|discriminate]. cbn [fst snd]. intros v' [= <-].
      destruct (H0 k v eq_refl) as [-> G]. cbn [fst snd] in *. auto.
    - eapply safe_follow; [apply safe_from; lia|]. intros _ _. eapply safe_follow; [apply safe_find|].
      intros [p|] H0; [|apply safe_done; discriminate]. destruct (H0 p eq_refl) as [H1 H2].
      destruct (Nat.eqb_spec (p - off) 0); [apply safe_done; discriminate|].
      eapply safe_weak; [apply IH; lia|]. cbn beta. intros r H3 v E. destruct (H3 v E) as (G & A & B). split; [exact G|]. split; [lia|exact B].
  Qed.
  Lemma safe_search off : safe (fun r => forall v, r = Some v -> good v /\ off <= fst v) (m_search W n off).
  Proof.
    unfold m_search. destruct (Nat.leb_spec n off); [apply safe_done; discriminate|].
    eapply safe_follow; [apply safe_from; lia|]. intros _ _. eapply safe_follow; [apply safe_find|].
    intros [c|] H0; [|apply safe_done; discriminate]. destruct (H0 c eq_refl) as [H1 H2].
    eapply safe_follow; [apply safe_from; lia|]. intros _ _. eapply safe_follow; [apply safe_read|].
    intros [[k v]|] H3; apply safe_done; [|discriminate]. intros v' [= <-]. destruct (H3 k v eq_refl) as [-> G]. now split.
  Qed.
  Lemma safe_search_next : forall fuel off, n - off < fuel ->
    safe (fun r => forall v, snd r = Some v -> good v /\ off <= fst v /\ fst v + 16 <= fst r) (m_search_next W n fuel off).
  Proof.
    induction fuel as [|f IH]; intros off Hf; [lia|]. cbn [m_search_next].
    eapply safe_follow; [apply safe_search|]. intros [v|] H0.
    - eapply safe_follow; [apply safe_len|]. intros l Hl. apply safe_done. cbn [fst snd]. intros v' [= <-].
      destruct (H0 v eq_refl) as [G H1]. split; [exact G|]. split; [exact H1|]. apply Nat.add_le_mono_l. exact Hl.
    - destruct (Nat.leb_spec n (off + 4)); [apply safe_done; discriminate|].
      eapply safe_weak; [apply IH; lia|]. cbn beta. intros r H3 v E. destruct (H3 v E) as (G & A & B). split; [exact G|]. split; [lia|exact B].
  Qed.
  Lemma safe_rev_search off : safe (fun r => forall v, r = Some v -> good v /\ (N.of_nat (fst v) + 4 <= off)%N) (m_rev_search W n off).
  Proof.
    unfold m_rev_search. destruct (N.ltb_spec (N.of_nat n) off); [apply safe_done; discriminate|].
    destruct (off =? usize_max)%N; [apply safe_done; discriminate|]. cbn [orb].
    eapply safe_follow; [apply safe_slice; lia|]. intros _ _. eapply safe_follow; [apply safe_rfind|].
    intros [c|] H0; [|apply safe_done; discriminate]. specialize (H0 c eq_refl).
    eapply safe_follow; [apply safe_from; lia|]. intros _ _. eapply safe_follow; [apply safe_read|].
    intros [[k v]|] H3; apply safe_done; [|discriminate]. intros v' [= <-]. destruct (H3 k v eq_refl) as [-> G]. split; [exact G|]. cbn [fst]. lia.
  Qed.
  Lemma safe_rev_next : forall fuel off, (off < N.of_nat fuel)%N ->
    safe (fun r => forall v, snd r = Some v -> good v /\ (N.of_nat (fst v) + 4 <= off)%N /\ fst r = N.of_nat (fst v)) (m_rev_next W n fuel off).
  Proof.
    induction fuel as [|f IH]; intros off Hf; [lia|]. cbn [m_rev_next].
    eapply safe_follow; [apply safe_rev_search|]. intros [v|] H0.
    - apply safe_done. cbn [fst snd]. intros v' [= <-]. destruct (H0 v eq_refl) as [G H1]. split; [exact G|]. split; [exact H1|reflexivity].
    - destruct (N.leb_spec 4 off) as [L|L]; cbv zeta.
      + destruct (off - 4 =? usize_max)%N; [apply safe_done; discriminate|].
        eapply safe_weak; [apply IH; lia|]. cbn beta. intros r H3 v E. destruct (H3 v E) as (G & A & B). split; [exact G|]. split; [lia|exact B].
      + rewrite N.eqb_refl. apply safe_done. discriminate.
  Qed.

  (** ** Draining *)
  Lemma safe_collect_spread : forall fuel off, n - off < fuel -> safe (spread n off) (m_collect (m_fallback_next W n (S (S n))) fuel off).
  Proof.
    induction fuel as [|f IH]; intros off Hf; [lia|]. cbn [m_collect].
    eapply safe_follow; [apply safe_fallback; lia|]. intros [s' [v|]] H0; [|now apply safe_done].
    destruct (H0 v eq_refl) as ([G1 G2] & A & B). cbn [fst snd] in *.
    eapply safe_follow; [apply (IH s'); lia|]. intros l Hl. apply safe_done. destruct v as [a k]. cbn [fst snd spread] in *.
    subst s'. auto.
  Qed.
  Lemma safe_collect_touching : forall fuel off, n - off < fuel -> safe (touching n off) (m_collect (m_readit_next W n) fuel off).
  Proof.
    induction fuel as [|f IH]; intros off Hf; [lia|]. cbn [m_collect].
    eapply safe_follow; [apply safe_readit; lia|]. intros [s' [v|]] H0; [|now apply safe_done].
    destruct (H0 v eq_refl) as ([G1 G2] & A & B). cbn [fst snd] in *.
    eapply safe_follow; [apply (IH s'); lia|]. intros l Hl. apply safe_done. destruct v as [a k]. cbn [fst snd touching] in *.
    subst. auto.
  Qed.
  Lemma rising_weak : forall l p q, q <= p -> advancing n p l -> advancing n q l.
  Proof. intros [|[a k] l] p q H; cbn; [auto|]. intros (A & B & C & D). repeat split; try assumption. lia. Qed.
  Lemma safe_collect_advancing : forall fuel off, n - off < fuel -> safe (advancing n off) (m_collect (m_search_next W n (S n)) fuel off).
  Proof.
    induction fuel as [|f IH]; intros off Hf; [lia|]. cbn [m_collect].
    eapply safe_follow; [apply safe_search_next; lia|]. intros [s' [v|]] H0; [|now apply safe_done].
    destruct (H0 v eq_refl) as ([G1 G2] & A & B). cbn [fst snd] in *.
    eapply safe_follow; [apply (IH s'); lia|]. intros l Hl. apply safe_done. destruct v as [a k]. cbn [fst snd advancing] in *.
    repeat split; try assumption. apply (rising_weak l s'); assumption.
  Qed.
  Lemma safe_collect_falling : forall fuel off, off < fuel -> off <= n -> (N.of_nat n < usize_max)%N ->
    safe (falling n off) (m_collect (m_rev_next W n (S n)) fuel (N.of_nat off)).
  Proof.
    induction fuel as [|f IH]; intros off Hf Ho HU; [lia|]. cbn [m_collect].
    eapply safe_follow; [apply safe_rev_next; lia|]. intros [s' [v|]] H0; [|now apply safe_done].
    destruct (H0 v eq_refl) as ([G1 G2] & A & B). cbn [fst snd] in *. subst s'.
    eapply safe_follow; [apply (IH (fst v)); lia|]. intros l Hl. apply safe_done. destruct v as [a k]. cbn [fst snd falling] in *.
    repeat split; try assumption. lia.
  Qed.

  (** ** Partitioning *)
  Lemma safe_scan rec p0 p1 : p0 <= n -> (forall c, c < p0 -> safe (fun _ => True) (rec c (c + 4))) ->
    forall fuel pos, n - pos < fuel -> safe (fun r => forall v, r = Some v -> good v /\ fst v < p0) (m_scan W n rec p0 p1 fuel pos).
  Proof.
    intros HP HR. induction fuel as [|f IH]; intros pos Hf; [lia|]. cbn [m_scan].
    eapply safe_follow; [apply safe_find|]. intros [c|] H0; [|apply safe_done; discriminate]. destruct (H0 c eq_refl) as [H1 H2].
    destruct (Nat.leb_spec p0 c); [apply safe_done; discriminate|].
    eapply safe_follow; [apply safe_from; lia|]. intros _ _. eapply safe_follow; [apply safe_try_read|].
    intros [[k v]|] H3; [|apply IH; lia]. destruct (H3 k v eq_refl) as [-> G].
    eapply safe_follow; [apply safe_len|]. intros l _. destruct (p1 <=? c + l); [|apply IH; lia].
    eapply safe_follow; [now apply HR|]. intros [w|] _; [apply IH; lia|]. apply safe_done. intros v [= <-]. split; [exact G|]. cbn [fst]. lia.
  Qed.
  Lemma safe_contained_by : forall fuel p0 p1, p0 < fuel ->
    safe (fun r => forall v, r = Some v -> good v /\ fst v < p0) (m_contained_by W n fuel p0 p1).
  Proof.
    induction fuel as [|f IH]; intros p0 p1 Hf; [lia|]. cbn [m_contained_by].
    destruct ((n <=? p0) || (n <=? p1) || (p1 <=? p0) || (p1 =? 0)) eqn:C; [apply safe_done; discriminate|].
    assert (p0 < n) by lia. cbv zeta. eapply safe_follow; [apply safe_from; lia|]. intros _ _. apply safe_scan; [lia| |lia].
    intros c Hc. eapply safe_weak; [apply IH; lia|]. auto.
  Qed.
  Lemma safe_partition_loop size : forall fuel c0 c1, n - c0 < fuel -> safe (in_line n c0) (m_partition_loop W n fuel size c0 c1).
  Proof.
    induction fuel as [|f IH]; intros c0 c1 Hf; [lia|]. cbn [m_partition_loop].
    destruct (Nat.ltb_spec n c0); [now apply safe_done|]. destruct (Nat.ltb_spec n c1); [now apply safe_done|]. cbn [orb].
    eapply safe_follow; [apply safe_contained_by; lia|]. intros r Hr. cbv zeta.
    set (c := match r with Some v => fst v | None => c1 end). assert (Hc : c <= c1).
    { unfold c. destruct r as [v|]; [|lia]. destruct (Hr v eq_refl) as [_ X]. lia. }
    destruct (Nat.leb_spec c c0); [now apply safe_done|]. destruct (n <=? c + size / 4).
    - eapply safe_follow; [apply safe_from; lia|]. intros _ _. apply safe_done. cbn [in_line]. repeat split; lia.
    - eapply safe_follow; [apply safe_slice; lia|]. intros _ _. eapply safe_follow; [apply IH; lia|]. intros l Hl.
      apply safe_done. cbn [in_line]. repeat split; try lia. exact Hl.
  Qed.

  (** ** Grep *)
  Lemma tame_grep_search : forall fuel off, tame (fun r => forall v, r = Some v -> good v) (m_grep_search W n fuel off).
  Proof.
    induction fuel as [|f IH]; intros off; [apply tame_unknown|]. cbn [m_grep_search].
    destruct (Nat.leb_spec n off); [apply safe_tame, safe_done; discriminate|].
    eapply tame_follow; [apply safe_tame, safe_match|]. intros [[s e]|] H0; [|apply safe_tame, safe_done; discriminate].
    eapply tame_follow; [apply safe_tame, safe_rev_search|]. intros [v|] H1.
    - destruct (H1 v eq_refl) as [G _]. destruct (fst v <? s).
      + eapply tame_follow; [apply safe_tame, safe_len|]. intros l _. destruct (fst v + l <? e); [apply IH|].
        apply safe_tame, safe_done. now intros v' [= <-].
      + apply safe_tame, safe_done. now intros v' [= <-].
    - destruct (n <=? e); [apply safe_tame, safe_done; discriminate|apply IH].
  Qed.
  Lemma safe_grep_search : (forall t a s e, sees_match W t a = Some (s, e) -> s < e) ->
    forall fuel off, n - off < fuel -> safe (fun r => forall v, r = Some v -> good v) (m_grep_search W n fuel off).
  Proof.
    intros NE. induction fuel as [|f IH]; intros off Hf; [lia|]. cbn [m_grep_search].
    destruct (Nat.leb_spec n off); [apply safe_done; discriminate|].
    assert (SM : safe (fun r => forall s e, r = Some (s, e) -> off <= s /\ s < e /\ e <= n) (m_match W n off)).
    { intros t. destruct (safe_match off t) as (r & t' & E & H0). exists r, t'. split; [exact E|]. intros s e ->.
      destruct (H0 s e eq_refl) as (A & B & C). repeat split; try assumption. unfold m_match, follow, ask in E.
      destruct (sees_match W t off) as [[s' e']|] eqn:Q; [|discriminate]. apply NE in Q.
      destruct ((off <=? s') && (s' <=? e') && (e' <=? n)); [|discriminate]. now injection E as <- <- _. }
    eapply safe_follow; [exact SM|]. intros [[s e]|] H0; [|apply safe_done; discriminate]. destruct (H0 s e eq_refl) as (A & B & C).
    eapply safe_follow; [apply safe_rev_search|]. intros [v|] H1.
    - destruct (H1 v eq_refl) as [G _]. destruct (fst v <? s).
      + eapply safe_follow; [apply safe_len|]. intros l _. destruct (fst v + l <? e); [apply IH; lia|].
        apply safe_done. now intros v' [= <-].
      + apply safe_done. now intros v' [= <-].
    - destruct (n <=? e); [apply safe_done; discriminate|apply IH; lia].
  Qed.

  (** If the length read last is no shorter than the one read before, grepping gets on. *)
  Lemma grep_search_last : (forall t a s e, sees_match W t a = Some (s, e) -> s < e) -> (forall t a, N.of_nat (sees_length W t a) < 65536)%N ->
    forall fuel off t v t', n - off < fuel -> m_grep_search W n fuel off t = Ret (Some v, t') ->
      good v /\ exists t0, t' = S t0 /\ off < fst v + (sees_length W t0 (fst v + 16) + 16).
  Proof.
    intros NE SM. induction fuel as [|f IH]; intros off t v t' Hf H; [lia|]. cbn [m_grep_search] in H.
    destruct (Nat.leb_spec n off) as [|L]; [discriminate|]. unfold follow in H at 1. destruct (safe_match off t) as (r & t1 & E1 & H1). rewrite E1 in H.
    destruct r as [[s e]|]; [|discriminate]. destruct (H1 s e eq_refl) as (A & B & C).
    assert (B' : s < e).
    { unfold m_match, follow, ask in E1. destruct (sees_match W t off) as [[s' e']|] eqn:Q; [|discriminate]. apply NE in Q.
      destruct ((off <=? s') && (s' <=? e') && (e' <=? n)); [|discriminate]. now injection E1 as <- <- _. }
    unfold follow in H at 1. destruct (safe_rev_search (N.of_nat s) t1) as (r & t2 & E2 & H2). rewrite E2 in H. destruct r as [v0|].
    - destruct (H2 v0 eq_refl) as [G L4]. destruct (Nat.ltb_spec (fst v0) s) as [K|K]; [|lia].
      unfold m_len, m_length, follow, ask, done in H. rewrite N.mod_small in H by apply SM. rewrite Nat2N.id in H.
      destruct (Nat.ltb_spec (fst v0 + (sees_length W t2 (fst v0 + 16) + 16)) e) as [Q|Q].
      + destruct (IH e _ v t' ltac:(lia) H) as (Gv & t0 & -> & Lv). split; [exact Gv|]. exists t0. split; [reflexivity|]. lia.
      + injection H as <- <-. split; [exact G|]. exists t2. split; [reflexivity|]. lia.
    - destruct (n <=? e); [discriminate|]. destruct (IH e _ v t' ltac:(lia) H) as (Gv & t0 & -> & Lv). split; [exact Gv|]. exists t0. split; [reflexivity|]. lia.
  Qed.
  Lemma grep_ends : (forall t a s e, sees_match W t a = Some (s, e) -> s < e) -> (forall t a, N.of_nat (sees_length W t a) < 65536)%N ->
    (forall t a, sees_length W t a <= sees_length W (S t) a) ->
    forall fuel off, n - off < fuel -> safe (fun l => Forall good l /\ length l <= n - off) (m_collect (m_grep_next W n (S n)) fuel off).
  Proof.
    intros NE SM UP. induction fuel as [|f IH]; intros off Hf t; [lia|]. cbn [m_collect]. unfold follow at 1. unfold m_grep_next at 1. unfold follow at 1.
    destruct (safe_grep_search NE (S n) off ltac:(lia) t) as (r & t' & E & _). rewrite E. destruct r as [v|].
    - destruct (grep_search_last NE SM (S n) off t v t' ltac:(lia) E) as (G & t0 & -> & L).
      unfold m_len, m_length, follow, ask, done. rewrite N.mod_small by apply SM. rewrite Nat2N.id. pose proof (UP t0 (fst v + 16)) as U.
      set (off' := fst v + (sees_length W (S t0) (fst v + 16) + 16)). destruct (le_lt_dec n off) as [K|K].
      { cbn [m_grep_search] in E. destruct (Nat.leb_spec n off); [discriminate|lia]. }
      assert (off < off') by (unfold off'; lia).
      destruct (IH off' ltac:(lia) (S (S t0))) as (l & t2 & El & F & Ll). rewrite El. exists (v :: l), t2. split; [reflexivity|]. split; [now constructor|]. cbn [length]. lia.
    - eexists [], _. split; [reflexivity|]. split; [constructor|cbn; lia].
  Qed.

  (** ** Captures *)
  Section Groups.
    Variable G : nat -> nat -> option ((nat * nat) * option (nat * nat)).
    Definition group_ok (off : nat) (r : option (nat * (nat * nat))) : Prop :=
      forall o gs ge, r = Some (o, (gs, ge)) -> o + 20 <= n /\ o + 4 <= gs /\ off <= gs <= ge /\ ge <= n.
    Lemma safe_groups a : safe (fun r => forall s e g, r = Some ((s, e), g) -> (a <= s <= e /\ e <= n) /\
        (exists t, G t a = Some ((s, e), g)) /\ forall gs ge, g = Some (gs, ge) -> s <= gs <= ge /\ ge <= e) (m_groups n G a).
    Proof.
      intros t. unfold m_groups, follow, ask. destruct (G t a) as [[[s e] g]|] eqn:Q; [|now exists None, (S t)].
      destruct ((a <=? s) && (s <=? e) && (e <=? n) && match g with Some (gs, ge) => (s <=? gs) && (gs <=? ge) && (ge <=? e) | None => true end) eqn:B.
      - eexists _, _. split; [reflexivity|]. intros s' e' g' [= <- <- <-]. split; [destruct g as [[? ?]|]; lia|]. split; [now exists t|]. intros gs ge ->. lia.
      - now exists None, (S t).
    Qed.
    Lemma group_ok_weak off off' r : off <= off' -> group_ok off' r -> group_ok off r.
    Proof. intros H K o gs ge E. destruct (K o gs ge E) as (A & B & C & D). lia. Qed.
    Lemma group_result off s e g v : off <= s -> e <= n -> good v -> fst v + 4 <= s ->
      (forall gs ge, g = Some (gs, ge) -> s <= gs <= ge /\ ge <= e) ->
      safe (group_ok off) (match g with Some g => done (Some (fst v, g)) | None => done None end).
    Proof.
      intros H0 H1 [G1 G2] H3 H4. destruct g as [[gs ge]|]; apply safe_done; [|discriminate]. intros o gs' ge' [= <- <- <-].
      destruct (H4 _ _ eq_refl). lia.
    Qed.
    Lemma tame_capture : forall fuel off, tame (group_ok off) (m_capture W n G fuel off).
    Proof.
      induction fuel as [|f IH]; intros off; [apply tame_unknown|]. cbn [m_capture].
      destruct (Nat.leb_spec n off); [apply safe_tame, safe_done; discriminate|].
      eapply tame_follow; [apply safe_tame, safe_groups|]. intros [[[s e] g]|] H0; [|apply safe_tame, safe_done; discriminate].
      destruct (H0 s e g eq_refl) as ((A & B) & _ & C).
      assert (NX : tame (group_ok off) (m_capture W n G f e)).
      { intros t. destruct (IH e t) as [I1 I2]. split; [exact I1|]. intros a t' E. apply (group_ok_weak off e); [lia|]. now apply (I2 a t'). }
      eapply tame_follow; [apply safe_tame, safe_rev_search|]. intros [v|] H1.
      - destruct (H1 v eq_refl) as [Gv Hv]. assert (RS := group_result off s e g v ltac:(lia) B Gv ltac:(lia) C). cbv zeta.
        destruct (fst v <? s); [|apply safe_tame, RS].
        eapply tame_follow; [apply safe_tame, safe_len|]. intros l _. destruct (fst v + l <? e); [exact NX|apply safe_tame, RS].
      - destruct (n <=? e); [apply safe_tame, safe_done; discriminate|exact NX].
    Qed.
    Lemma safe_capture : (forall t a s e g, G t a = Some ((s, e), g) -> s < e) ->
      forall fuel off, n - off < fuel -> safe (group_ok off) (m_capture W n G fuel off).
    Proof.
      intros NE. induction fuel as [|f IH]; intros off Hf; [lia|]. cbn [m_capture].
      destruct (Nat.leb_spec n off); [apply safe_done; discriminate|].
      eapply safe_follow; [apply safe_groups|]. intros [[[s e] g]|] H0; [|apply safe_done; discriminate].
      destruct (H0 s e g eq_refl) as ((A & B) & (t & Q) & C). apply NE in Q.
      assert (NX : safe (group_ok off) (m_capture W n G f e)).
      { eapply safe_weak; [apply IH; lia|]. intros r. apply group_ok_weak. lia. }
      eapply safe_follow; [apply safe_rev_search|]. intros [v|] H1.
      - destruct (H1 v eq_refl) as [Gv Hv]. assert (RS := group_result off s e g v ltac:(lia) B Gv ltac:(lia) C). cbv zeta.
        destruct (fst v <? s); [|exact RS].
        eapply safe_follow; [apply safe_len|]. intros l _. destruct (fst v + l <? e); [exact NX|exact RS].
      - destruct (n <=? e); [apply safe_done; discriminate|exact NX].
    Qed.
    Lemma safe_collect_groups : (forall t a s e g, G t a = Some ((s, e), g) -> s < e) ->
      (forall t a s e gs ge, G t a = Some ((s, e), Some (gs, ge)) -> gs < ge) ->
      forall fuel off, n - off < fuel -> safe (climbing n off) (m_collect (m_capture_next W n G (S n)) fuel off).
    Proof.
      intros NE NG. induction fuel as [|f IH]; intros off Hf; [lia|]. cbn [m_collect].
      assert (NX : forall fu o, n - o < fu -> safe (fun r => group_ok o r /\ forall x gs ge, r = Some (x, (gs, ge)) -> gs < ge) (m_capture W n G fu o)).
      { clear IH. induction fu as [|fu IH2]; intros o Ho; [lia|]. cbn [m_capture]. destruct (Nat.leb_spec n o); [apply safe_done; split; discriminate|].
        eapply safe_follow; [apply safe_groups|]. intros [[[s e] g]|] H0; [|apply safe_done; split; discriminate].
        destruct (H0 s e g eq_refl) as ((A & B) & (t & Q) & C). pose proof (NE _ _ _ _ _ Q) as Q1.
        assert (N2 : safe (fun r => group_ok o r /\ forall x gs ge, r = Some (x, (gs, ge)) -> gs < ge) (m_capture W n G fu e)).
        { eapply safe_weak; [apply IH2; lia|]. intros r [R1 R2]. split; [|exact R2]. revert R1. apply group_ok_weak. lia. }
        assert (N3 : forall v, good v -> fst v + 4 <= s -> safe (fun r => group_ok o r /\ forall x gs ge, r = Some (x, (gs, ge)) -> gs < ge)
          (match g with Some g => done (Some (fst v, g)) | None => done None end)).
        { intros v [G1 G2] Hv. destruct g as [[gs ge]|]; apply safe_done; [|split; discriminate]. destruct (C _ _ eq_refl). apply NG in Q. split.
          - intros x gs' ge' [= <- <- <-]. lia.
          - now intros x gs' ge' [= <- <- <-]. }
        eapply safe_follow; [apply safe_rev_search|]. intros [v|] H1.
        - destruct (H1 v eq_refl) as [Gv Hv]. cbv zeta. destruct (fst v <? s); [|apply N3; [exact Gv|lia]].
          eapply safe_follow; [apply safe_len|]. intros l _. destruct (fst v + l <? e); [exact N2|apply N3; [exact Gv|lia]].
        - destruct (n <=? e); [apply safe_done; split; discriminate|exact N2]. }
      eapply (safe_follow (fun r => match snd r with None => True | Some (o, (gs, ge)) => group_ok off (Some (o, (gs, ge))) /\ gs < ge /\ fst r = o + ge end)).
      - unfold m_capture_next. eapply safe_follow; [apply (NX (S n) off); lia|]. intros [[o [gs ge]]|] [R1 R2]; apply safe_done; cbn [snd fst]; [|exact I].
        split; [exact R1|]. split; [now apply (R2 o)|reflexivity].
      - intros [off' [[o [gs ge]]|]]; cbn [snd fst]; [|intros _; now apply safe_done]. intros (R1 & R2 & ->). destruct (R1 _ _ _ eq_refl) as (B1 & B2 & B3 & B4).
        eapply safe_follow; [apply IH; lia|]. intros l Hl. apply safe_done. cbn [climbing]. repeat split; try lia. exact Hl.
    Qed.
  End Groups.
End World.
