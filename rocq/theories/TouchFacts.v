(** Facts about TouchModel.v. *)
From Verif Require Import Base DltModel MatchModel MappedModel TouchModel TouchSpec.
From Coq Require Import ZifyBool ZifyNat.

Definition sim {A} (x : peek A) (y : act A) : Prop := forall t, killed_or (x t) (y t).
Lemma sim_back {A} (a : A) : sim (back a) (done a).
Proof. intros t. right. reflexivity. Qed.
Lemma sim_panic {A} : sim (A := A) (fun _ => Panics) crash.
Proof. intros t. right. reflexivity. Qed.
Lemma sim_undecided {A} : sim (A := A) (fun _ => Undecided) unknown.
Proof. intros t. right. reflexivity. Qed.
Lemma sim_bind {A B} (x : peek A) y (f : A -> peek B) g : sim x y -> (forall a, sim (f a) (g a)) -> sim (next_peek x f) (follow y g).
Proof.
  intros H K t. unfold next_peek, follow. destruct (H t) as [E|E]; [rewrite E; now left|]. destruct (y t) as [[a t']| |]; rewrite E; [apply K|now right|now right].
Qed.
Section Sim.
  Variable W : world.
  Variable n : nat.
  Variable reads : nat -> nat -> bool.
  Variable reach : nat -> nat -> nat.

  Lemma sim_look {A} a z (f : nat -> A) : sim (look reads a z f) (ask f).
  Proof. intros t. unfold look, ask. destruct (forallb _ _); [now right|now left]. Qed.
  Lemma sim_from a : sim (t_from n a) (m_from n a).
  Proof. unfold t_from, m_from. destruct (n <? a); [apply sim_panic|apply sim_back]. Qed.
  Lemma sim_slice a z : sim (t_slice n a z) (m_slice n a z).
  Proof. unfold t_slice, m_slice. destruct (_ || _); [apply sim_panic|apply sim_back]. Qed.
  Lemma sim_find a : sim (t_find W n reads reach a) (m_find W n a).
  Proof.
    intros t. unfold t_find, m_find, look, follow, ask.
    destruct (sees_first W t a) as [p|]; [destruct ((a <=? p) && (p + 4 <=? n))|]; (destruct (forallb _ _); [now right|now left]).
  Qed.
  Lemma sim_length a : sim (t_length W reads a) (m_length W a).
  Proof. apply sim_bind; [apply sim_look|]. intros l. apply sim_back. Qed.
  Lemma sim_read a : sim (t_read W n reads a) (m_read W n a).
  Proof.
    unfold t_read, m_read. destruct (n - a <? 16); [apply sim_back|]. destruct (n - a - 16 <? 4); [apply sim_back|].
    apply sim_bind; [apply sim_length|]. intros s. destruct (_ || _); apply sim_back.
  Qed.
  Lemma sim_try_read a : sim (t_try_read W n reads a) (m_try_read W n a).
  Proof.
    unfold t_try_read, m_try_read. destruct (n - a <? 4); [apply sim_back|]. apply sim_bind; [apply sim_look|]. intros [|]; [apply sim_read|apply sim_back].
  Qed.
  Lemma sim_len v : sim (t_len W reads v) (m_len W v).
  Proof. apply sim_bind; [apply sim_length|]. intros l. apply sim_back. Qed.
  Lemma sim_readit off : sim (t_readit_next W n reads off) (m_readit_next W n off).
  Proof.
    unfold t_readit_next, m_readit_next. destruct (n <=? off); [apply sim_back|]. apply sim_bind; [apply sim_from|]. intros _.
    apply sim_bind; [apply sim_try_read|]. intros [[k v]|]; apply sim_back.
  Qed.
  Lemma sim_fallback : forall fuel off, sim (t_fallback_next W n reads reach fuel off) (m_fallback_next W n fuel off).
  Proof.
    induction fuel as [|f IH]; intros off; [apply sim_undecided|]. cbn [t_fallback_next m_fallback_next]. destruct (n <=? off + 4); [apply sim_back|].
    apply sim_bind; [apply sim_slice|]. intros _. apply sim_bind; [apply sim_look|]. intros [|].
    - apply sim_bind; [apply sim_from|]. intros _. apply sim_bind; [apply sim_read|]. intros [[k v]|]; apply sim_back.
    - apply sim_bind; [apply sim_from|]. intros _. apply sim_bind; [apply sim_find|]. intros [p|]; [|apply sim_back]. destruct (p - off =? 0); [apply sim_back|apply IH].
  Qed.
  Lemma sim_search off : sim (t_search W n reads reach off) (m_search W n off).
  Proof.
    unfold t_search, m_search. destruct (n <=? off); [apply sim_back|]. apply sim_bind; [apply sim_from|]. intros _. apply sim_bind; [apply sim_find|].
    intros [c|]; [|apply sim_back]. apply sim_bind; [apply sim_from|]. intros _. apply sim_bind; [apply sim_read|]. intros [[k v]|]; apply sim_back.
  Qed.
  Lemma sim_search_next : forall fuel off, sim (t_search_next W n reads reach fuel off) (m_search_next W n fuel off).
  Proof.
    induction fuel as [|f IH]; intros off; [apply sim_undecided|]. cbn [t_search_next m_search_next]. apply sim_bind; [apply sim_search|].
    intros [v|]; [apply sim_bind; [apply sim_len|]; intros l; apply sim_back|]. destruct (n <=? off + 4); [apply sim_back|apply IH].
  Qed.
  Lemma sim_flag v k : sim (t_flag W reads v k) (m_flag W v k).
  Proof. intros t. unfold t_flag, m_flag, look, follow, ask, done. destruct (forallb _ _); [now right|now left]. Qed.
  Lemma sim_get p : sim (t_get reads p) (done p).
  Proof. intros t. unfold t_get, done. destruct p as [[a k]|]; [destruct (forallb _ _); [now right|now left]|now right]. Qed.
  Lemma sim_tail v k : sim (t_tail_from v k) (m_tail_from v k).
  Proof. unfold t_tail_from, m_tail_from. destruct (_ <? _); [apply sim_panic|apply sim_back]. Qed.
  Lemma sim_ecu_id v : sim (t_ecu_id W reads v) (m_ecu_id W v).
  Proof. apply sim_bind; [apply sim_flag|]. intros [|]; [|apply sim_back]. destruct (_ <? _); [apply sim_panic|apply sim_get]. Qed.
  Lemma sim_timestamp v : sim (t_timestamp W reads v) (m_timestamp W v).
  Proof.
    apply sim_bind; [apply sim_flag|]. intros [|]; [|apply sim_back]. apply sim_bind; [apply sim_flag|]. intros e. apply sim_bind; [apply sim_flag|]. intros s.
    cbv zeta. match goal with |- context [m_tail v <? ?x] => destruct (m_tail v <? x) end; [apply sim_back|]. apply sim_bind; [apply sim_tail|]. intros _. apply sim_get.
  Qed.
  Lemma sim_extended v : sim (t_extended_header W reads v) (m_extended_header W v).
  Proof.
    apply sim_bind; [apply sim_flag|]. intros [|]; [|apply sim_back]. apply sim_bind; [apply sim_flag|]. intros e. apply sim_bind; [apply sim_flag|]. intros s.
    apply sim_bind; [apply sim_flag|]. intros w. apply sim_bind; [apply sim_tail|]. intros _. apply sim_back.
  Qed.
  Lemma sim_payload v : sim (t_payload W reads v) (m_payload W v).
  Proof.
    apply sim_bind; [apply sim_flag|]. intros e. apply sim_bind; [apply sim_flag|]. intros s. apply sim_bind; [apply sim_flag|]. intros w.
    apply sim_bind; [apply sim_flag|]. cbv zeta. intros [|].
    - apply sim_bind; [apply sim_tail|]. intros _. match goal with |- context [m_place ?a ?b ?c] => destruct (m_place a b c) end; [|apply sim_back]. match goal with |- context [if ?x then _ else _] => destruct x end; apply sim_back.
    - match goal with |- context [m_tail v <? ?x] => destruct (m_tail v <? x) end; apply sim_back.
  Qed.
End Sim.
Lemma sim_collect {S A} (nx : S -> peek (S * option A)) my : (forall s, sim (nx s) (my s)) -> forall fuel s t all t', m_collect my fuel s t = Ret (all, t') ->
  delivers_of all (t_collect nx fuel s t).
Proof.
  intros H. induction fuel as [|f IH]; intros s t all t' E; [discriminate|]. cbn [m_collect t_collect] in *. unfold follow at 1 in E.
  destruct (H s t) as [K|K].
  - rewrite K. cbn. now exists all.
  - destruct (my s t) as [[[s' [v|]] t1]| |]; try discriminate E; rewrite K.
    + unfold follow in E. destruct (m_collect my f s' t1) as [[rest t2]| |] eqn:R; try discriminate E. injection E as <- <-.
      pose proof (IH s' t1 rest t2 R) as D. destruct (t_collect nx f s' t1) as [l [u| | |]]; cbn in *; try contradiction; [now subst|].
      destruct D as [more ->]. now exists more.
    + injection E as <- <-. reflexivity.
Qed.

(** * What is read *)
(** [x] is not killed if the bytes in [P] can be read. *)
Section Need.
  Variable W : world.
  Variable n : nat.
  Variable reads : nat -> nat -> bool.
  Variable reach : nat -> nat -> nat.
  Definition lives {A} (x : peek A) : Prop := forall t, x t <> Killed.
  Lemma lives_back {A} (a : A) : lives (back a).
  Proof. intros t. discriminate. Qed.
  Lemma lives_bind {A B} (x : peek A) (f : A -> peek B) : lives x -> (forall a, lives (f a)) -> lives (next_peek x f).
  Proof. intros H K t. unfold next_peek. specialize (H t). destruct (x t) as [[a t']| | |]; [apply K|discriminate|discriminate|congruence]. Qed.
  Lemma lives_look {A} a z (f : nat -> A) : (forall t p, a <= p < z -> reads t p = true) -> lives (look reads a z f).
  Proof.
    intros H t. unfold look. rewrite (proj2 (forallb_forall _ _)); [discriminate|]. intros p I. apply in_seq in I. apply H. lia.
  Qed.
  Lemma lives_length a : (forall t p, a + 18 <= p < a + 20 -> reads t p = true) -> lives (t_length W reads a).
  Proof. intros H. apply lives_bind; [now apply lives_look|]. intros l. apply lives_back. Qed.
  Lemma lives_from a : lives (t_from n a).
  Proof. unfold t_from. destruct (_ <? _); intros t; discriminate. Qed.
  Lemma lives_slice a z : lives (t_slice n a z).
  Proof. unfold t_slice. destruct (_ || _); intros t; discriminate. Qed.
  Lemma lives_read a : (forall t p, a + 18 <= p < a + 20 -> p < n -> reads t p = true) -> lives (t_read W n reads a).
  Proof.
    intros H. unfold t_read. destruct (Nat.ltb_spec (n - a) 16); [apply lives_back|]. destruct (Nat.ltb_spec (n - a - 16) 4); [apply lives_back|].
    apply lives_bind; [apply lives_length; intros t p Hp; apply H; lia|]. intros s. destruct (_ || _); apply lives_back.
  Qed.
  Hypothesis ALL : forall t p, p < n -> reads t p = true.
  Lemma lives_find a : a <= n -> lives (t_find W n reads reach a).
  Proof.
    intros Ha t. unfold t_find. cbv zeta. apply lives_look. intros t' p Hp. apply ALL.
    destruct (sees_first W t a) as [q|]; [|lia]. destruct (Nat.leb_spec a q); destruct (Nat.leb_spec (q + 4) n); cbn [andb] in Hp; lia.
  Qed.
  Lemma lives_try_read a : lives (t_try_read W n reads a).
  Proof.
    unfold t_try_read. destruct (Nat.ltb_spec (n - a) 4); [apply lives_back|]. apply lives_bind; [apply lives_look; intros; apply ALL; lia|].
    intros [|]; [apply lives_read; auto|apply lives_back].
  Qed.
  Lemma lives_readit off : lives (t_readit_next W n reads off).
  Proof.
    unfold t_readit_next. destruct (_ <=? _); [apply lives_back|]. apply lives_bind; [apply lives_from|]. intros _.
    apply lives_bind; [apply lives_try_read|]. intros [[k v]|]; apply lives_back.
  Qed.
  Lemma lives_fallback : forall fuel off, lives (t_fallback_next W n reads reach fuel off).
  Proof.
    induction fuel as [|f IH]; intros off; [intros t; discriminate|]. cbn [t_fallback_next]. destruct (Nat.leb_spec n (off + 4)); [apply lives_back|].
    apply lives_bind; [apply lives_slice|]. intros _. apply lives_bind; [apply lives_look; intros; apply ALL; lia|]. intros [|].
    - apply lives_bind; [apply lives_from|]. intros _. apply lives_bind; [apply lives_read; auto|]. intros [[k v]|]; apply lives_back.
    - apply lives_bind; [apply lives_from|]. intros _. apply lives_bind; [apply lives_find; lia|]. intros [p|]; [|apply lives_back].
      destruct (_ =? _); [apply lives_back|apply IH].
  Qed.
  Lemma read_lives_item a t k v t' : t_read W n reads a t = Back (Some (k, v), t') -> fst v = a /\ a + 20 <= n.
  Proof.
    unfold t_read. destruct (Nat.ltb_spec (n - a) 16); [discriminate|]. destruct (Nat.ltb_spec (n - a - 16) 4); [discriminate|].
    unfold next_peek. destruct (t_length W reads a t) as [[s t1]| | |]; try discriminate. destruct (_ || _); [discriminate|]. unfold back. intros E. injection E as _ <- _.
    cbn [fst]. lia.
  Qed.
  Lemma lives_search off : lives (t_search W n reads reach off).
  Proof.
    unfold t_search. destruct (Nat.leb_spec n off); [apply lives_back|]. apply lives_bind; [apply lives_from|]. intros _. apply lives_bind; [apply lives_find; lia|].
    intros [c|]; [|apply lives_back]. apply lives_bind; [apply lives_from|]. intros _. apply lives_bind; [apply lives_read; auto|]. intros [[k v]|]; apply lives_back.
  Qed.
  Lemma search_item off t v t' : t_search W n reads reach off t = Back (Some v, t') -> fst v + 20 <= n.
  Proof.
    unfold t_search. destruct (n <=? off); [discriminate|]. unfold next_peek. destruct (t_from n off t) as [[? t1]| | |]; try discriminate.
    destruct (t_find W n reads reach off t1) as [[[c|] t2]| | |]; try discriminate. destruct (t_from n c t2) as [[? t3]| | |]; try discriminate.
    destruct (t_read W n reads c t3) as [[[[k w]|] t4]| | |] eqn:R; try discriminate. unfold back. intros E. injection E as <- _.
    destruct (read_lives_item _ _ _ _ _ R). lia.
  Qed.
  Lemma lives_search_next : forall fuel off, lives (t_search_next W n reads reach fuel off).
  Proof.
    induction fuel as [|f IH]; intros off t; [discriminate|]. cbn [t_search_next]. unfold next_peek at 1. pose proof (lives_search off t) as L.
    destruct (t_search W n reads reach off t) as [[[v|] t1]| | |] eqn:E; try discriminate; [|clear E|congruence].
    - apply search_item in E. apply lives_bind; [|intros; apply lives_back]. apply lives_bind; [|intros; apply lives_back]. apply lives_length. intros; apply ALL; lia.
    - cbv zeta. destruct (n <=? off + 4); [discriminate|apply IH].
  Qed.
  Lemma lives_collect {S A} (nx : S -> peek (S * option A)) : (forall s, lives (nx s)) -> forall fuel s t, snd (t_collect nx fuel s t) <> Killed.
  Proof.
    intros H. induction fuel as [|f IH]; intros s t; [discriminate|]. cbn [t_collect]. specialize (H s t). destruct (nx s t) as [[[s' [v|]] t1]| | |]; try discriminate; [|congruence].
    specialize (IH s' t1). destruct (t_collect nx f s' t1). exact IH.
  Qed.
End Need.
