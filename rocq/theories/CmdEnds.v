(** ripdlt's commands on a mapping that changes at will: they come to an end, with a result or a panic (C123). *)
From Verif Require Import Base DltModel MatchModel GenModel ToolsModel TraceModel MappedModel MappedCmd Spec MappedSpec MappedCmdSpec BaseFacts MappedFacts.
From Coq Require Import ZifyBool ZifyNat ZifyN.
Ltac Zify.zify_post_hook ::= idtac.

(** Returns, with a result that satisfies [P], or panics. *)
Definition ends {A} (P : A -> Prop) (x : act A) : Prop := forall t, match x t with Ret (a, _) => P a | Panic => True | Fuel => False end.
Lemma ends_done {A} (P : A -> Prop) a : P a -> ends P (done a).
Proof. intros H t. exact H. Qed.
Lemma ends_pure {A} (P : A -> Prop) a : P a -> ends P (pure a).
Proof. intros H t. exact H. Qed.
Lemma ends_crash {A} (P : A -> Prop) : ends P crash.
Proof. intros t. exact Logic.I. Qed.
Lemma ends_ask {A} (P : A -> Prop) f : (forall a, P a) -> ends P (ask f).
Proof. intros H t. apply H. Qed.
Lemma ends_follow {A B} (Q : A -> Prop) (P : B -> Prop) x f : ends Q x -> (forall a, Q a -> ends P (f a)) -> ends P (follow x f).
Proof. intros HX HF t. unfold follow. specialize (HX t). destruct (x t) as [[a t']| |]; [|exact Logic.I|contradiction]. now apply HF. Qed.
Lemma ends_bind {A B} (Q : A -> Prop) (P : B -> Prop) (x : eff nat A) (f : A -> eff nat B) : ends Q x -> (forall a, Q a -> ends P (f a)) -> ends P (ebind x f).
Proof. exact (ends_follow Q P x f). Qed.
Lemma ends_weak {A} (P Q : A -> Prop) x : ends P x -> (forall a, P a -> Q a) -> ends Q x.
Proof. intros H I t. specialize (H t). destruct (x t) as [[a t']| |]; auto. Qed.
Lemma safe_ends {A} (P : A -> Prop) x : safe P x -> ends P x.
Proof. intros H t. destruct (H t) as (a & t' & -> & X). exact X. Qed.
Notation any := (fun _ => True).
Lemma ends_any {A} (P : A -> Prop) x : ends P x -> ends any x.
Proof. intros H. eapply ends_weak; [exact H|]. auto. Qed.

(** ** Iterators *)
Section Shrinks.
  Context {T A : Type}.
  Variable next : T -> act (T * option A).
  Variable left_ : T -> nat.
  (** At most [left_ s] further items. *)
  Definition shrinks : Prop := forall s, ends (fun r => match snd r with Some _ => S (left_ (fst r)) <= left_ s | None => left_ (fst r) <= left_ s end) (next s).
  Hypothesis SH : shrinks.
  Lemma filter_once p : (forall x, ends any (p x)) -> forall fuel s, left_ s < fuel ->
    ends (fun r => match snd r with Some _ => S (left_ (fst r)) <= left_ s | None => left_ (fst r) <= left_ s end) (filter_next next p fuel s).
  Proof.
    intros HP. induction fuel as [|f IH]; intros s H; [lia|]. cbn [filter_next]. eapply ends_follow; [apply SH|]. intros [s' [x|]] L; cbn [fst snd] in L; [|now apply ends_done].
    eapply ends_follow; [apply HP|]. intros [] _; [now apply ends_done|]. eapply ends_weak; [apply IH; lia|]. intros [s2 [y|]]; cbn [fst snd]; lia.
  Qed.
  Lemma map_shrinks {B} (f : A -> act B) : (forall x, ends any (f x)) -> forall s,
    ends (fun r => match snd r with Some _ => S (left_ (fst r)) <= left_ s | None => left_ (fst r) <= left_ s end) (map_next next f s).
  Proof.
    intros HF s. unfold map_next. eapply ends_follow; [apply SH|]. intros [s' [x|]] L; cbn [fst snd] in L; [|now apply ends_done].
    eapply ends_follow; [apply HF|]. intros y _. now apply ends_done.
  Qed.
  Lemma windows_shrinks : forall s,
    ends (fun r => match snd r with Some _ => S (left_ (snd (fst r))) <= left_ (snd s) | None => left_ (snd (fst r)) <= left_ (snd s) end) (windows_next next s).
  Proof.
    intros [[x|] s]; unfold windows_next; cbn [fst snd]; (eapply ends_follow; [apply SH|]); intros [s' [y|]] L; cbn [fst snd] in L; try (now apply ends_done).
    eapply ends_follow; [apply SH|]. intros [s2 [z|]] L2; cbn [fst snd] in L2; apply ends_done; cbn [fst snd]; lia.
  Qed.
  Definition pending (g : gstate A) : nat := match g with GEmpty => 0 | _ => 1 end.
  Lemma group_final (pr : A -> A -> act bool) g : (forall x y, ends any (pr x y)) ->
    ends (fun r : gstate A * option (A * A) => fst r = GEmpty /\ match snd r with Some _ => pending g = 1 | None => True end) (from_finalizeE (GroupByE pr) 2 g).
  Proof.
    intros HP. cbn [from_finalizeE efinalize GroupByE]. destruct g as [|x|x y].
    - intros t. unfold follow, pure. cbn. auto.
    - eapply (ends_follow (fun r => fst r = GEmpty /\ snd r <> Continue None)).
      + eapply ends_bind; [apply HP|]. intros [] _; apply ends_pure; split; cbn; congruence.
      + intros [g [|[o|]]] [E1 E2]; cbn [fst snd] in *; [| |congruence]; apply ends_done; cbn; auto.
    - intros t. unfold follow, pure. cbn. auto.
  Qed.
  Lemma pull_once (pr : A -> A -> act bool) : (forall x y, ends any (pr x y)) -> forall fuel g s, left_ s < fuel ->
    ends (fun r : (gstate A * T) * option (A * A) =>
      let l := left_ (snd (fst r)) + pending (fst (fst r)) in
      match snd r with Some _ => S l <= left_ s + pending g | None => l <= left_ s + pending g end) (pull_next next (GroupByE pr) fuel 2 (g, s)).
  Proof.
    intros HP. induction fuel as [|f IH]; intros g s H; [lia|]. cbn [pull_next fst snd]. eapply ends_follow; [apply SH|]. intros [s' [x|]] L; cbn [fst snd] in L.
    - eapply (ends_follow (fun r : gstate A * flow (A * A) => snd r <> Break /\ (match snd r with Continue (Some _) => pending (fst r) <= pending g | _ => True end))).
      + cbn [eadapt GroupByE]. destruct g as [|y|y z].
        * apply ends_pure. cbn. split; [discriminate|auto].
        * eapply ends_bind; [apply HP|]. intros [] _; [apply ends_pure; cbn; split; [discriminate|auto]|]. eapply ends_bind; [apply HP|]. intros [] _; apply ends_pure; cbn; split; try discriminate; auto.
        * eapply ends_bind; [apply HP|]. intros [] _; apply ends_pure; cbn; split; try discriminate; auto.
      + intros [g' [|[o|]]] [E1 E2]; cbn [fst snd] in *; [congruence| |].
        * apply ends_done. cbv zeta. cbn [fst snd]. lia.
        * eapply ends_weak; [apply IH; lia|]. cbv zeta. intros [[g2 s2] [o2|]]; cbn [fst snd]; assert (pending g' <= 1) by (destruct g'; cbn; lia); lia.
    - eapply ends_follow; [apply group_final, HP|]. intros [g' o] [E1 E2]. cbn [fst snd] in *. subst g'. apply ends_done. cbv zeta. cbn [fst snd pending]. destruct o; lia.
  Qed.
  Lemma count_ends : forall fuel s, left_ s < fuel -> ends (fun k => k <= left_ s) (count_items next fuel s).
  Proof.
    induction fuel as [|f IH]; intros s H; [lia|]. cbn [count_items]. eapply ends_follow; [apply SH|]. intros [s' [x|]] L; cbn [fst snd] in L; [|apply ends_done; lia].
    eapply ends_follow; [apply IH; lia|]. cbn beta. intros k Hk. apply ends_done. lia.
  Qed.
  (** A reducer whose state grows by at most [c] with each item. *)
  Lemma reduce_ends {Acc R} (r : ReduceE nat Acc A R) (P : nat -> Acc -> Prop) (Q : R -> Prop) k0 :
    (forall k acc x, P k acc -> ends (P (S k)) (enext r acc x)) -> (forall k acc, P k acc -> k <= k0 -> ends Q (efinal r acc)) ->
    forall fuel s k acc, left_ s < fuel -> k + left_ s <= k0 -> P k acc -> ends Q (reduce_items next r fuel s acc).
  Proof.
    intros HN HF. induction fuel as [|f IH]; intros s k acc H HK HA; [lia|]. cbn [reduce_items]. eapply ends_follow; [apply SH|]. intros [s' [x|]] L; cbn [fst snd] in L.
    - eapply ends_follow; [apply (HN k acc x HA)|]. intros acc' HA'. apply (IH s' (S k) acc'); [lia|lia|exact HA'].
    - apply (HF k acc HA). lia.
  Qed.
End Shrinks.

(** ** Adapters and reducers that end within a budget *)
Section Budget.
  (** Each item adds at most [c] to the potential of an adapter, each call of [finalize] takes at least one away. *)
  Definition calm {St I Q} (pot : St -> nat) (c fin : nat) (a : AdaptE nat St I Q) : Prop :=
    (forall s x, ends (fun r => pot (fst r) <= pot s + c) (eadapt a s x)) /\
    (forall s, pot s < fin -> ends (fun r => match snd r with Break => pot (fst r) <= pot s | Continue _ => S (pot (fst r)) <= pot s end) (efinalize a s)).
  Definition quiet {St I R} (pot : St -> nat) (c fin : nat) (r : ReduceE nat St I R) : Prop :=
    (forall s x, ends (fun s' => pot s' <= pot s + c) (enext r s x)) /\ (forall s, pot s < fin -> ends any (efinal r s)).
  Lemma calm_nil {I} fin : calm (fun _ : unit => 0) 0 fin (NilE (I := I)).
  Proof. split; intros; apply ends_pure; cbn; lia. Qed.
  Lemma calm_map {I Q} fin (f : I -> act Q) : (forall x, ends any (f x)) -> calm (fun _ : unit => 0) 0 fin (MapE f).
  Proof. intros H. split; intros; [|apply ends_pure; cbn; lia]. cbn. eapply ends_bind; [apply H|]. intros. apply ends_pure. cbn. lia. Qed.
  Lemma calm_group {I} fin (f : I -> I -> act bool) : (forall x y, ends any (f x y)) -> calm pending 1 fin (GroupByE f).
  Proof.
    intros H. split.
    - intros [|p|p q] x; cbn [eadapt GroupByE]; [apply ends_pure; cbn; lia| |]; (eapply ends_bind; [apply H|]); intros [] _; try (apply ends_pure; cbn; lia).
      eapply ends_bind; [apply H|]. intros [] _; apply ends_pure; cbn; lia.
    - intros [|p|p q] _; cbn [efinalize GroupByE]; [apply ends_pure; cbn; lia| |apply ends_pure; cbn; lia].
      eapply ends_bind; [apply H|]. intros [] _; apply ends_pure; cbn; lia.
  Qed.
  Definition waiting {K I} (s : merge_state K I) : nat := match snd s with Some l => length l | None => length (fst s) end.
  Lemma insert_length {K X} cmp (k : K) (v : X) m : length (map_insert cmp k v m) <= S (length m).
  Proof. induction m as [|[k' v'] m IH]; cbn; [lia|]. destruct (cmp k k'); cbn; lia. Qed.
  Lemma remove_length {K X} cmp (k : K) (m : list (K * X)) : length (map_remove cmp k m) <= length m.
  Proof. induction m as [|[k' v'] m IH]; cbn; [lia|]. destruct (cmp k k'); cbn; lia. Qed.
  Lemma calm_merge {K I} cmp fin (f : I -> I -> act (option I)) (key : I -> act K) : (forall x y, ends any (f x y)) -> (forall x, ends any (key x)) -> calm waiting 1 fin (MergeE cmp f key).
  Proof.
    intros H HK. split.
    - intros [m it] x. cbn [eadapt MergeE]. eapply (ends_bind any).
      + induction m as [|[k p] m IH]; cbn [merge_findE]; [now apply ends_pure|]. eapply ends_bind; [apply H|]. intros [v|] _; [now apply ends_pure|exact IH].
      + intros [[p v]|] _.
        * eapply ends_bind; [apply HK|]. intros kp _. eapply ends_bind; [apply HK|]. intros kv _. apply ends_pure. cbn [fst snd]. unfold waiting. cbn [fst snd].
          pose proof (insert_length cmp kv v (map_remove cmp kp m)). pose proof (remove_length cmp kp m). destruct it; lia.
        * eapply ends_bind; [apply HK|]. intros kn _. apply ends_pure. cbn [fst snd]. unfold waiting. cbn [fst snd]. pose proof (insert_length cmp kn x m). destruct it; lia.
    - intros [m it] _. cbn [efinalize MergeE]. destruct it as [[|[k v] l]|]; [apply ends_pure; cbn; lia|apply ends_pure; cbn; lia|]. destruct m as [|[k v] m]; apply ends_pure; cbn; lia.
  Qed.
  Lemma calm_compose {S1 S2 I M Q} (p1 : S1 -> nat) (p2 : S2 -> nat) c1 c2 fin (a : AdaptE nat S1 M Q) (b : AdaptE nat S2 I M) : calm p1 c1 fin a -> calm p2 c2 fin b ->
    calm (fun s => p1 (fst s) + S c1 * p2 (snd s)) (S c1 * c2 + c1) fin (AdapterE a b fin).
  Proof.
    intros [A1 F1] [A2 F2]. split.
    - intros [s1 s2] x. cbn [eadapt AdapterE]. eapply ends_bind; [apply A2|]. intros [u [|[o|]]] H; cbn [fst snd] in H; try (apply ends_pure; cbn [fst snd]; nia).
      eapply ends_bind; [apply A1|]. intros [w r] H'. cbn [fst snd] in H'. apply ends_pure. cbn [fst snd]. nia.
    - intros [s1 s2] H. cbn [fst snd] in *. cbn [efinalize AdapterE fst snd].
      assert (G : forall f s2', p2 s2' <= p2 s2 -> p2 s2' < f -> ends (fun r : (S1 * S2) * flow Q => match snd r with
        | Break => p1 (fst (fst r)) + S c1 * p2 (snd (fst r)) <= p1 s1 + S c1 * p2 s2'
        | Continue _ => S (p1 (fst (fst r)) + S c1 * p2 (snd (fst r))) <= p1 s1 + S c1 * p2 s2' end) (compose_finalizeE a b f s1 s2')).
      { induction f as [|f IH]; intros s2' L1 L2; [lia|]. cbn [compose_finalizeE]. eapply ends_bind; [apply F2; nia|]. intros [u [|[o|]]] HU; cbn [fst snd] in HU.
        - eapply ends_bind; [apply F1; nia|]. intros [w [|r]] HW; cbn [fst snd] in HW; apply ends_pure; cbn [fst snd]; nia.
        - eapply ends_bind; [apply A1|]. intros [w [|r]] HW; cbn [fst snd] in HW; apply ends_pure; cbn [fst snd]; nia.
        - eapply ends_weak; [apply IH; lia|]. intros [[w u'] [|r]]; cbn [fst snd]; nia. }
      apply G; nia.
  Qed.
  Lemma quiet_count {I} fin : quiet (fun _ : nat => 0) 0 fin (CountE (I := I)).
  Proof. split; intros; intros t; cbn; auto. Qed.
  Lemma quiet_over {S1 S2 I M R} (p1 : S1 -> nat) (p2 : S2 -> nat) c1 c2 fin (i : ReduceE nat S1 M R) (a : AdaptE nat S2 I M) : quiet p1 c1 fin i -> calm p2 c2 fin a ->
    quiet (fun s => p1 (fst s) + S c1 * p2 (snd s)) (S c1 * c2 + c1) fin (ReducerOverE i a fin).
  Proof.
    intros [N1 F1] [A2 F2]. split.
    - intros [s1 s2] x. cbn [enext ReducerOverE]. eapply ends_bind; [apply A2|]. intros [u [|[o|]]] H; cbn [fst snd] in H; try (apply ends_pure; cbn [fst snd]; nia).
      eapply ends_bind; [apply N1|]. intros w H'. cbn beta in H'. apply ends_pure. cbn [fst snd]. nia.
    - intros [s1 s2] H. cbn [fst snd] in *. cbn [efinal ReducerOverE fst snd].
      assert (G : forall f s1 s2, p1 s1 + S c1 * p2 s2 < fin -> p2 s2 < f -> ends any (reducer_finalizeE i a f s1 s2)).
      { clear s1 s2 H. induction f as [|f IH]; intros s1 s2 L1 L2; [lia|]. cbn [reducer_finalizeE]. eapply ends_bind; [apply F2; nia|]. intros [u [|[o|]]] HU; cbn [fst snd] in HU.
        - apply F1. nia.
        - eapply ends_bind; [apply N1|]. intros w HW. cbn beta in HW. apply IH; nia.
        - apply IH; nia. }
      apply G; [exact H|nia].
  Qed.
  Lemma quiet_fork {S1 S2 I R1 R2} (p1 : S1 -> nat) (p2 : S2 -> nat) c1 c2 fin (r1 : ReduceE nat S1 I R1) (r2 : ReduceE nat S2 I R2) : quiet p1 c1 fin r1 -> quiet p2 c2 fin r2 ->
    quiet (fun s => p1 (fst s) + p2 (snd s)) (c1 + c2) fin (ForkE (fun x => pure x) r1 r2).
  Proof.
    intros [N1 F1] [N2 F2]. split.
    - intros [s1 s2] x. cbn [enext ForkE]. eapply (ends_bind (fun z => z = x)); [now apply ends_pure|]. intros ? ->. cbn [fst snd].
      eapply ends_bind; [apply N1|]. intros a HA. eapply ends_bind; [apply N2|]. intros b HB. apply ends_pure. cbn beta in *. cbn [fst snd]. lia.
    - intros [s1 s2] H. cbn [fst snd] in *. cbn [efinal ForkE fst snd]. eapply ends_bind; [apply F1; lia|]. intros. eapply ends_bind; [apply F2; lia|]. intros. now apply ends_pure.
  Qed.
  Fixpoint most {K St} (pot : St -> nat) (m : list (K * St)) : nat := match m with [] => 0 | kv :: m' => Nat.max (pot (snd kv)) (most pot m') end.
  Lemma most_get {K St} cmp (pot : St -> nat) (k : K) m s : map_get cmp k m = Some s -> pot s <= most pot m.
  Proof.
    induction m as [|[k' v] m IH]; cbn [map_get most snd]; [discriminate|]. destruct (cmp k k'); [intros [= ->]; lia|discriminate|]. intros H. specialize (IH H). lia.
  Qed.
  Lemma most_insert {K St} cmp (pot : St -> nat) (k : K) m s z : most pot m <= z -> pot s <= z -> most pot (map_insert cmp k s m) <= z.
  Proof.
    intros H1 H2. induction m as [|[k' v] m IH]; cbn [map_insert most snd] in *; [lia|]. assert (most pot m <= z) by lia. specialize (IH H). destruct (cmp k k'); cbn [most snd]; lia.
  Qed.
  Lemma quiet_split {K St I R} cmp (pot : St -> nat) c fin (key : I -> act K) s0 (r : ReduceE nat St I R) : (forall x, ends any (key x)) -> pot s0 = 0 -> quiet pot c fin r ->
    quiet (most pot) c fin (SplitE cmp key (fun _ => pure s0) r).
  Proof.
    intros HK H0 [N F]. split.
    - intros m x. cbn [enext SplitE]. eapply ends_bind; [apply HK|]. intros k _. eapply (ends_bind (fun z => z = s0)); [now apply ends_pure|]. intros ? ->. cbv zeta.
      eapply ends_bind; [apply N|]. cbn beta. intros s' HS. apply ends_pure.
      assert (pot (match map_get cmp k m with Some s => s | None => s0 end) <= most pot m).
      { destruct (map_get cmp k m) as [s|] eqn:E; [exact (most_get cmp pot k m s E)|lia]. }
      apply most_insert; lia.
    - intros m H. cbn [efinal SplitE]. assert (G : forall acc, ends any (split_finalizeE cmp r m acc)); [|apply G].
      induction m as [|[k v] m IH]; intros acc; cbn [split_finalizeE]; [now apply ends_pure|]. cbn [most snd] in H. eapply ends_bind; [apply F; lia|]. intros x _. apply IH. lia.
  Qed.
  Lemma quiet_countg {I} fin : 0 < fin -> quiet (fun _ : nat * unit => 0) 0 fin (CountGE (I := I)).
  Proof.
    intros HF. destruct (quiet_over (fun _ : nat => 0) (fun _ : unit => 0) 0 0 1 CountE (NilE (I := I)) (quiet_count 1) (calm_nil 1)) as [N F]. split.
    - intros s x. eapply ends_weak; [apply N|]. cbn. lia.
    - intros s _. apply F. cbn. lia.
  Qed.
End Budget.

(** ** The commands *)
Section Commands.
  Variable W : world.
  Variable V : cells.
  Variable n : nat.
  Definition rest (off : nat) : nat := (n - off) / 20.
  Lemma rest_bound off : rest off <= n.
  Proof. unfold rest. pose proof (Nat.div_le_upper_bound (n - off) 20 n). lia. Qed.
  Lemma fallback_forward : forall fuel off, n - off < fuel -> ends (fun r => off <= fst r) (m_fallback_next W n fuel off).
  Proof.
    induction fuel as [|f IH]; intros off H; [lia|]. cbn [m_fallback_next]. destruct (n <=? off + 4); [apply ends_done; cbn; lia|].
    eapply (ends_follow any); [intros t; unfold m_slice; destruct (_ || _); exact Logic.I|]. intros _ _. eapply ends_follow; [apply (ends_ask any); auto|]. intros [] _.
    - eapply (ends_follow any); [intros t; unfold m_from; destruct (_ <? _); exact Logic.I|]. intros _ _. eapply ends_follow; [apply safe_ends, safe_read|]. intros [[k v]|] _; apply ends_done; cbn; lia.
    - eapply (ends_follow any); [intros t; unfold m_from; destruct (_ <? _); exact Logic.I|]. intros _ _. eapply ends_follow; [apply safe_ends, safe_find|].
      intros [p|] HP; [|apply ends_done; cbn; lia]. destruct (HP p eq_refl). destruct (Nat.eqb_spec (p - off) 0); [apply ends_done; cbn; lia|]. eapply ends_weak; [apply IH; lia|]. cbn. lia.
  Qed.
  Lemma messages_shrink : shrinks (m_messages W n) rest.
  Proof.
    intros off. unfold m_messages. intros t. pose proof (fallback_forward (S (S n)) off ltac:(lia) t) as H1. destruct (safe_fallback W n (S (S n)) off ltac:(lia) t) as ([off' o] & t' & E & H2).
    rewrite E in *. cbn [fst snd] in *. unfold rest. destruct o as [v|].
    - destruct (H2 v eq_refl) as (G & HA & HB). destruct G as [G1 G2]. subst off'. assert (20 + (n - (fst v + snd v)) <= n - off) by lia.
      pose proof (Nat.div_le_mono _ _ 20 ltac:(lia) H). replace (20 + (n - (fst v + snd v))) with (1 * 20 + (n - (fst v + snd v))) in H0 by lia. rewrite Nat.div_add_l in H0 by lia. lia.
    - apply Nat.div_le_mono; lia.
  Qed.
  Ltac closure := repeat first [apply ends_done; exact Logic.I | apply ends_crash | (apply (ends_ask any); intros; exact Logic.I) | (eapply (ends_follow any); [|intros ? _]) | progress cbv zeta
    | match goal with |- ends _ (if ?c then _ else _) => destruct c | |- ends _ (match ?c with Some _ => _ | None => _ end) => destruct c | |- ends _ (match ?c with (_, _) => _ end) => destruct c end].
  Lemma ends_flag v mask : ends any (m_flag W v mask).
  Proof. unfold m_flag. closure. Qed.
  Ltac reads := unfold m_time, m_ecu_number, m_number, m_timestamp, m_ecu_id, m_extended_header, m_payload, m_tail_from, m_flag, m_secs, m_unwrap, m_sub; closure.
  Lemma ends_time v : ends any (m_time W V v).
  Proof. reads. Qed.
  Lemma ends_ecu_number v : ends any (m_ecu_number W V v).
  Proof. reads. Qed.
  Lemma ends_secs v : ends any (m_secs V v).
  Proof. reads. Qed.
  Lemma ends_hello v : ends any (m_hello_predicate W V v).
  Proof. unfold m_hello_predicate. reads. Qed.
  Lemma ends_info v : ends any (m_info_key W V v).
  Proof. unfold m_info_key, m_info. reads. Qed.
  Lemma ends_payload v : ends any (see p <- m_payload W v; done (match p with Some p => snd p | None => 0 end)).
  Proof. reads. Qed.
  Lemma ends_secs_pred x y : ends any (m_secs_pred V x y).
  Proof. unfold m_secs_pred. reads. Qed.
  Lemma ends_secs_delta r : ends any (m_secs_delta V r).
  Proof. unfold m_secs_delta. reads. Qed.
  Lemma ends_ts_pred x y : ends any (m_ts_pred W V x y).
  Proof. unfold m_ts_pred. eapply ends_follow; [apply ends_time|]. intros. eapply ends_follow; [apply ends_time|]. intros. now apply ends_done. Qed.
  Lemma ends_ecu_ts_pred x y : ends any (m_ecu_ts_pred W V x y).
  Proof.
    unfold m_ecu_ts_pred. eapply ends_follow; [apply ends_ecu_number|]. intros. eapply ends_follow; [apply ends_ecu_number|]. intros.
    destruct (opt_eqb _ _); [apply ends_ts_pred|now apply ends_done].
  Qed.
  Lemma ends_ts_delta r : ends any (m_ts_delta W V r).
  Proof.
    unfold m_ts_delta. eapply ends_follow; [apply ends_time|]. intros. eapply (ends_follow any); [reads|]. intros. eapply ends_follow; [apply ends_time|]. intros.
    eapply (ends_follow any); [reads|]. intros. reads.
  Qed.
  Lemma ends_long r : ends any (m_long_enough W V r).
  Proof. unfold m_long_enough. eapply ends_follow; [apply ends_ts_delta|]. intros. now apply ends_done. Qed.
  Lemma ends_merge x y : ends any (m_merge V x y).
  Proof. unfold m_merge, m_max. reads. Qed.
  Lemma ends_key r : ends any (m_period_key V r).
  Proof. unfold m_period_key. reads. Qed.
  Lemma ends_len v : ends any (m_len W v).
  Proof. eapply ends_any, safe_ends, safe_len. Qed.

  Notation fuel := (S (S n)).
  Lemma timed_shrink : shrinks (filter_next (m_messages W n) (m_with_ts W) fuel) rest.
  Proof. intros s. apply filter_once; [apply messages_shrink|intros; apply ends_flag|]. pose proof (rest_bound s). lia. Qed.
  Lemma typed_shrink : shrinks (filter_next (m_messages W n) (m_with_ext W) fuel) rest.
  Proof. intros s. apply filter_once; [apply messages_shrink|intros; apply ends_flag|]. pose proof (rest_bound s). lia. Qed.
  Lemma hello_shrink : shrinks (filter_next (m_messages W n) (m_hello_predicate W V) fuel) rest.
  Proof. intros s. apply filter_once; [apply messages_shrink|intros; apply ends_hello|]. pose proof (rest_bound s). lia. Qed.
  Definition groups {T A} (l : T -> nat) (s : gstate A * T) : nat := l (snd s) + pending (fst s).
  Lemma pulled_shrink {T A} (next : T -> act (T * option A)) l pr : shrinks next l -> (forall s, l s <= n) -> (forall x y, ends any (pr x y)) ->
    shrinks (pull_next next (GroupByE pr) fuel 2) (groups l).
  Proof. intros SH HL HP [g s]. unfold groups. cbn [fst snd]. eapply ends_weak; [apply (pull_once next l SH pr HP fuel g s)|]; [specialize (HL s); lia|]. cbv zeta. auto. Qed.
  Lemma filtered_shrink {T A} (next : T -> act (T * option A)) l p : shrinks next l -> (forall s, l s <= S n) -> (forall x, ends any (p x)) -> shrinks (filter_next next p fuel) l.
  Proof. intros SH HL HP s. apply filter_once; [exact SH|exact HP|]. specialize (HL s). lia. Qed.

  Fixpoint in_states {K} (m : list (K * (nat * unit))) : nat := match m with [] => 0 | kv :: m' => fst (snd kv) + in_states m' end.
  Lemma histogram_ends {T A K} (next : T -> act (T * option A)) l (cmp : K -> K -> comparison) key f s : shrinks next l -> (forall x, ends any (key x)) -> l s < f ->
    ends (fun m => in_all m <= l s) (histogram_items next cmp key f s).
  Proof.
    intros SH HK H. unfold histogram_items.
    pose (tot := @in_states K).
    assert (TI : forall k m, tot (map_insert cmp k (S (fst (match map_get cmp k m with Some s => s | None => (0, tt) end)), tt) m) <= S (tot m)).
    { intros k m. unfold tot. induction m as [|[k' [c' u']] m IH]; [cbn; lia|]. cbn [map_get map_insert]. destruct (cmp k k'); cbn [in_states fst snd] in *; lia. }
    assert (FI : forall m acc, ends (fun r => in_all r <= in_all acc + tot m) (split_finalizeE cmp (CountGE (I := A)) m acc)).
    { unfold tot. induction m as [|[k [c u]] m IH]; intros acc; cbn [split_finalizeE]; [apply ends_pure; cbn [in_states]; lia|]. eapply (ends_bind (fun r => r = c)); [intros t; reflexivity|]. intros ? ->.
      eapply ends_weak; [apply IH|]. cbn beta. intros r HR.
      assert (in_all (map_insert cmp k c acc) <= c + in_all acc).
      { clear. induction acc as [|[k' v'] acc IH]; [cbn; lia|]. cbn [map_insert]. destruct (cmp k k'); cbn [in_all fst snd] in *; lia. }
      cbn [in_states fst snd]. lia. }
    eapply (reduce_ends next l SH _ (fun k m => tot m <= k) _ (l s)) with (k := 0); [| |exact H|lia|cbn; lia].
    - intros k acc x HA. cbn [enext SplitE]. eapply ends_bind; [apply HK|]. intros key' _. eapply (ends_bind (fun z => z = (0, tt))); [now apply ends_pure|]. intros ? ->. cbv zeta.
      specialize (TI key' acc). destruct (match map_get cmp key' acc with Some s => s | None => (0, tt) end) as [c u]. cbn [fst] in TI.
      eapply (ends_bind (fun z => z = (S c, tt))); [intros t; destruct u; cbn; f_equal; lia|]. intros ? ->. apply ends_pure. lia.
    - intros k acc HA HK0. cbn [efinal SplitE]. eapply ends_weak; [apply FI|]. cbn beta. cbn [in_all]. lia.
  Qed.
  Lemma twenty k : k <= rest 0 -> 20 * k <= n.
  Proof. unfold rest. intros H. pose proof (Nat.mul_div_le (n - 0) 20). nia. Qed.
End Commands.
