(** Facts for C122: what is not read does not matter. *)
From Verif Require Import Base DltModel MatchModel MappedModel TouchModel Spec MappedSpec TouchSpec BaseFacts FindFacts TouchFacts.
From Coq Require Import ZifyBool ZifyNat.

Lemma nth_firstn_lt (l : bytes) : forall k i, i < k -> nth i (firstn k l) x00 = nth i l x00.
Proof. induction l as [|x l IH]; intros k i H; [now rewrite firstn_nil|]. destruct k as [|k]; [lia|]. destruct i as [|i]; [reflexivity|]. cbn [firstn nth]. apply IH. lia. Qed.
Lemma nth_skipn_add (l : bytes) : forall a i, nth i (skipn a l) x00 = nth (a + i) l x00.
Proof. induction l as [|x l IH]; intros a i; [rewrite skipn_nil; destruct i, (a + _); reflexivity|]. destruct a as [|a]; [reflexivity|]. cbn [skipn Nat.add nth]. apply IH. Qed.
Lemma slice_same (b b' : bytes) a z : length b = length b' -> (forall p, a <= p < z -> nth p b x00 = nth p b' x00) ->
  firstn (z - a) (skipn a b) = firstn (z - a) (skipn a b').
Proof.
  intros L H. apply (nth_ext _ _ x00 x00); [rewrite !firstn_length, !skipn_length; lia|].
  intros i Hi. rewrite firstn_length, skipn_length in Hi.
  rewrite !nth_firstn_lt by lia. rewrite !nth_skipn_add. apply H. lia.
Qed.
Lemma find_same (b b' : bytes) a k : length b = length b' -> find the_pattern (skipn a b) = Some k ->
  (forall p, a <= p < a + k + 4 -> nth p b x00 = nth p b' x00) -> find the_pattern (skipn a b') = Some k.
Proof.
  intros L F H. apply find_some; [cbn; lia|]. apply find_some in F; [|cbn; lia]. destruct F as [F1 F2].
  assert (S : firstn (k + 4) (skipn a b) = firstn (k + 4) (skipn a b')).
  { replace (k + 4) with (a + k + 4 - a) by lia. now apply slice_same. }
  assert (O : forall j, j <= k -> occ the_pattern (skipn a b') j = occ the_pattern (skipn a b) j).
  { intros j Hj. rewrite <- (occ_firstn the_pattern (skipn a b') j (k + 4)), <- (occ_firstn the_pattern (skipn a b) j (k + 4)) by (cbn; lia). now rewrite S. }
  split; [rewrite O; [exact F1|lia]|]. intros j Hj. rewrite O by lia. now apply F2.
Qed.

Definition same {A} (x y : peek A) : Prop := forall t, x t <> Killed -> y t = x t.
Lemma same_refl {A} (x : peek A) : same x x.
Proof. intros t _. reflexivity. Qed.
Lemma same_bind {A B} (x y : peek A) (f g : A -> peek B) : same x y -> (forall a, same (f a) (g a)) -> same (next_peek x f) (next_peek y g).
Proof.
  intros H K t N. unfold next_peek in *. destruct (x t) as [[a t']| | |] eqn:E; try (now elim N); rewrite (H t) by (rewrite E; discriminate); rewrite E; try reflexivity. now apply K.
Qed.

Section Same.
  Variables (mem mem' : nat -> bytes) (F F' : bytes -> nat -> option (nat * nat)) (n : nat).
  Variable reads : nat -> nat -> bool.
  Variable reach : nat -> nat -> nat.
  Hypothesis LEN : forall t, length (mem t) = n /\ length (mem' t) = n.
  Hypothesis AGREE : forall t p, reads t p = true -> nth p (mem t) x00 = nth p (mem' t) x00.
  Notation W := (history mem F).
  Notation W' := (history mem' F').

  Lemma same_look {A} a z (f g : nat -> A) : (forall t, (forall p, a <= p < z -> nth p (mem t) x00 = nth p (mem' t) x00) -> f t = g t) ->
    same (look reads a z f) (look reads a z g).
  Proof.
    intros H t N. unfold look in *. destruct (forallb (reads t) (seq a (z - a))) eqn:E; [|now elim N]. rewrite (H t); [reflexivity|].
    intros p Hp. apply AGREE. rewrite forallb_forall in E. apply E. apply in_seq. lia.
  Qed.
  Lemma same_len t : length (mem t) = length (mem' t).
  Proof. destruct (LEN t). congruence. Qed.
  Lemma same_marker off : same (look reads off (off + 4) (fun t => sees_marker W t off)) (look reads off (off + 4) (fun t => sees_marker W' t off)).
  Proof.
    apply same_look. intros t H. cbn [history sees_marker]. f_equal. replace 4 with (off + 4 - off) by lia. apply slice_same; [apply same_len|exact H].
  Qed.
  Lemma same_length a : same (t_length W reads a) (t_length W' reads a).
  Proof.
    apply same_bind; [|intros; apply same_refl]. apply same_look. intros t H. cbn [history sees_length]. unfold field_at, u16_at, byte_at.
    rewrite (H (a + 16 + 2)), (H (a + 16 + 2 + 1)) by lia. reflexivity.
  Qed.
  Lemma same_find a : same (t_find W n reads reach a) (t_find W' n reads reach a).
  Proof.
    intros t N. unfold t_find in *. cbn [history sees_first] in *.
    destruct (find the_pattern (skipn a (mem t))) as [k|] eqn:E; cbn [option_map] in *.
    - assert (B : a + k + 4 <= n).
      { apply find_some in E; [|cbn; lia]. destruct E as [E _]. apply occ_len in E; [|cbn; lia]. rewrite skipn_length, (proj1 (LEN t)) in E. cbn [the_pattern length] in E. lia. }
      rewrite (proj2 (Nat.leb_le a (a + k))) in * by lia. rewrite (proj2 (Nat.leb_le (a + k + 4) n)) in * by exact B. cbn [andb] in *.
      assert (E' : find the_pattern (skipn a (mem' t)) = Some k).
      { apply (find_same (mem t)); [apply same_len|exact E|]. intros p Hp. apply AGREE. unfold look in N.
        destruct (forallb (reads t) _) eqn:R; [|now elim N]. rewrite forallb_forall in R. apply R. apply in_seq. lia. }
      rewrite E'. cbn [option_map]. rewrite (proj2 (Nat.leb_le a (a + k))), (proj2 (Nat.leb_le (a + k + 4) n)) by lia. reflexivity.
    - assert (E' : skipn a (mem' t) = skipn a (mem t)).
      { unfold look in N. destruct (forallb (reads t) _) eqn:R; [|now elim N]. rewrite forallb_forall in R.
        pose proof (slice_same (mem t) (mem' t) a n (same_len t)) as S. rewrite !firstn_all2 in S; [symmetry; apply S| |]; try (rewrite skipn_length; destruct (LEN t); lia).
        intros p Hp. apply AGREE. apply R. apply in_seq. lia. }
      rewrite E', E. reflexivity.
  Qed.
  Lemma same_read a : same (t_read W n reads a) (t_read W' n reads a).
  Proof.
    unfold t_read. destruct (n - a <? 16); [apply same_refl|]. destruct (n - a - 16 <? 4); [apply same_refl|].
    apply same_bind; [apply same_length|]. intros; apply same_refl.
  Qed.
  Lemma same_try_read a : same (t_try_read W n reads a) (t_try_read W' n reads a).
  Proof.
    unfold t_try_read. destruct (n - a <? 4); [apply same_refl|]. apply same_bind; [apply same_marker|]. intros [|]; [apply same_read|apply same_refl].
  Qed.
  Lemma same_entry_len v : same (t_len W reads v) (t_len W' reads v).
  Proof. apply same_bind; [apply same_length|]. intros; apply same_refl. Qed.
  Lemma same_readit off : same (t_readit_next W n reads off) (t_readit_next W' n reads off).
  Proof.
    unfold t_readit_next. destruct (n <=? off); [apply same_refl|]. apply same_bind; [apply same_refl|]. intros _.
    apply same_bind; [apply same_try_read|]. intros [[k v]|]; apply same_refl.
  Qed.
  Lemma same_fallback : forall fuel off, same (t_fallback_next W n reads reach fuel off) (t_fallback_next W' n reads reach fuel off).
  Proof.
    induction fuel as [|f IH]; intros off; [apply same_refl|]. cbn [t_fallback_next]. destruct (n <=? off + 4); [apply same_refl|].
    apply same_bind; [apply same_refl|]. intros _. apply same_bind; [apply same_marker|]. intros [|].
    - apply same_bind; [apply same_refl|]. intros _. apply same_bind; [apply same_read|]. intros [[k v]|]; apply same_refl.
    - apply same_bind; [apply same_refl|]. intros _. apply same_bind; [apply same_find|]. intros [p|]; [|apply same_refl]. destruct (p - off =? 0); [apply same_refl|apply IH].
  Qed.
  Lemma same_search off : same (t_search W n reads reach off) (t_search W' n reads reach off).
  Proof.
    unfold t_search. destruct (n <=? off); [apply same_refl|]. apply same_bind; [apply same_refl|]. intros _. apply same_bind; [apply same_find|].
    intros [c|]; [|apply same_refl]. apply same_bind; [apply same_refl|]. intros _. apply same_bind; [apply same_read|]. intros [[k v]|]; apply same_refl.
  Qed.
  Lemma same_search_next : forall fuel off, same (t_search_next W n reads reach fuel off) (t_search_next W' n reads reach fuel off).
  Proof.
    induction fuel as [|f IH]; intros off; [apply same_refl|]. cbn [t_search_next]. apply same_bind; [apply same_search|]. intros [v|].
    - apply same_bind; [apply same_entry_len|]. intros; apply same_refl.
    - cbv zeta. destruct (n <=? off + 4); [apply same_refl|apply IH].
  Qed.
  Lemma same_collect {T A} (x y : T -> peek (T * option A)) : (forall s, same (x s) (y s)) -> forall fuel s t,
    snd (t_collect x fuel s t) <> Killed -> t_collect y fuel s t = t_collect x fuel s t.
  Proof.
    intros H. induction fuel as [|f IH]; intros s t N; [reflexivity|]. cbn [t_collect] in *.
    destruct (x s t) as [[[s' [v|]] t']| | |] eqn:E; try (now elim N); rewrite (H s t) by (rewrite E; discriminate); rewrite E; try reflexivity.
    rewrite IH; [reflexivity|]. destruct (t_collect x f s' t') as [l e]. exact N.
  Qed.

  Lemma same_flag v mask : same (t_flag W reads v mask) (t_flag W' reads v mask).
  Proof. apply same_look. intros t H. cbn [history sees_type]. rewrite (H (fst v + 16)) by lia. reflexivity. Qed.
  (** The bytes of a field that was read. *)
  Lemma get_same p t a k t' : t_get reads p t = Back (Some (a, k), t') -> firstn k (skipn a (mem t')) = firstn k (skipn a (mem' t')).
  Proof.
    unfold t_get. destruct p as [[a' k']|]; [|discriminate]. destruct (forallb (reads t) (seq a' k')) eqn:R; [|discriminate]. intros [= <- <- <-].
    replace k' with (a' + k' - a') by lia. apply slice_same; [apply same_len|]. intros p Hp. apply AGREE. rewrite forallb_forall in R. apply R. apply in_seq. lia.
  Qed.
End Same.
