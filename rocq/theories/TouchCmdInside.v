(** Facts for C134: the commands read nothing but the mapping. *)
From Verif Require Import Base DltModel MatchModel GenModel ToolsModel TraceModel MappedModel MappedCmd TouchModel TouchMore TouchCmd TouchSpec Spec ReadSpec MappedSpec MappedCmdSpec
  BaseFacts FindFacts MappedFacts TouchFacts TouchMoreFacts TouchCmdFacts.
From Coq Require Import ZifyBool ZifyNat ZifyN.
Ltac Zify.zify_post_hook ::= idtac.

(** [x] does what [y] does, and what it returns satisfies [Q]. *)
Definition relQ {A} (Q : A -> Prop) (x y : act A) : Prop := forall t, x t = y t /\ forall a t', y t = Ret (a, t') -> Q a.
Lemma relQ_done {A} (Q : A -> Prop) a : Q a -> relQ Q (done a) (done a).
Proof. intros H t. split; [reflexivity|]. intros b t' [= <- _]. exact H. Qed.
Lemma relQ_pure {A} (Q : A -> Prop) a : Q a -> relQ Q (pure a) (pure a).
Proof. exact (relQ_done Q a). Qed.
Lemma relQ_unknown {A} (Q : A -> Prop) : relQ Q unknown unknown.
Proof. intros t. split; [reflexivity|]. discriminate. Qed.
Lemma relQ_crash {A} (Q : A -> Prop) : relQ Q crash crash.
Proof. intros t. split; [reflexivity|]. discriminate. Qed.
Lemma relQ_bind {A B} (Q : A -> Prop) (R : B -> Prop) x y (f g : A -> act B) : relQ Q x y -> (forall a, Q a -> relQ R (f a) (g a)) -> relQ R (follow x f) (follow y g).
Proof.
  intros H K t. unfold follow. destruct (H t) as [E F]. rewrite E. destruct (y t) as [[a t']| |]; [|split; [reflexivity|discriminate]|split; [reflexivity|discriminate]].
  apply K. eapply F. reflexivity.
Qed.
Lemma relQ_ebind {A B} (Q : A -> Prop) (R : B -> Prop) (x y : eff nat A) (f g : A -> eff nat B) : relQ Q x y -> (forall a, Q a -> relQ R (f a) (g a)) -> relQ R (ebind x f) (ebind y g).
Proof. exact (relQ_bind Q R x y f g). Qed.
Definition yes {A} (_ : A) : Prop := True.
Definition opt {A} (G : A -> Prop) (o : option A) : Prop := forall v, o = Some v -> G v.
Lemma opt_none {A} (G : A -> Prop) : opt G None.
Proof. intros v. discriminate. Qed.
Lemma opt_some {A} (G : A -> Prop) v : G v -> opt G (Some v).
Proof. intros H w [= <-]. exact H. Qed.
Lemma opt_inv {A} (G : A -> Prop) v : opt G (Some v) -> G v.
Proof. intros H. now apply H. Qed.

Section Iter.
  Context {T A : Type}.
  Variables (IT : T -> Prop) (GA : A -> Prop).
  Definition gives {T A} (IT : T -> Prop) (GA : A -> Prop) (r : T * option A) : Prop := IT (fst r) /\ opt GA (snd r).
  Definition moves {T A} (IT : T -> Prop) (GA : A -> Prop) (x y : T -> act (T * option A)) : Prop := forall s, IT s -> relQ (gives IT GA) (x s) (y s).
  Variables x y : T -> act (T * option A).
  Hypothesis NX : moves IT GA x y.
  Lemma q_filter p q : (forall v, GA v -> relQ yes (p v) (q v)) -> forall fuel, moves IT GA (filter_next x p fuel) (filter_next y q fuel).
  Proof.
    intros H. induction fuel as [|f IH]; intros s I; [apply relQ_unknown|]. cbn [filter_next]. eapply relQ_bind; [now apply NX|]. intros [s' [v|]] [I' G].
    - apply opt_inv in G. eapply relQ_bind; [now apply H|]. intros [|] _; [|now apply IH]. apply relQ_done. split; [exact I'|now apply opt_some].
    - apply relQ_done. split; [exact I'|apply opt_none].
  Qed.
  Lemma q_map {B} (GB : B -> Prop) (f g : A -> act B) : (forall v, GA v -> relQ GB (f v) (g v)) -> moves IT GB (map_next x f) (map_next y g).
  Proof.
    intros H s I. unfold map_next. eapply relQ_bind; [now apply NX|]. intros [s' [v|]] [I' G].
    - apply opt_inv in G. eapply relQ_bind; [now apply H|]. intros b Gb. apply relQ_done. split; [exact I'|now apply opt_some].
    - apply relQ_done. split; [exact I'|apply opt_none].
  Qed.
  Lemma q_windows : moves (fun s => opt GA (fst s) /\ IT (snd s)) (fun r => GA (fst r) /\ GA (snd r)) (windows_next x) (windows_next y).
  Proof.
    assert (D : forall (o : option A) s, opt GA o -> IT s -> relQ (gives (fun s => opt GA (fst s) /\ IT (snd s)) (fun r => GA (fst r) /\ GA (snd r))) (done ((o, s), None)) (done ((o, s), None))).
    { intros o s Ho Is. apply relQ_done. split; [now split|apply opt_none]. }
    assert (D2 : forall v w s, GA v -> GA w -> IT s -> relQ (gives (fun s => opt GA (fst s) /\ IT (snd s)) (fun r => GA (fst r) /\ GA (snd r))) (done ((Some w, s), Some (v, w))) (done ((Some w, s), Some (v, w)))).
    { intros v w s Hv Hw Is. apply relQ_done. split; [split; [now apply opt_some|exact Is]|now apply opt_some]. }
    intros [[v|] s] [Ho I]; unfold windows_next; cbn [fst snd] in *.
    - apply opt_inv in Ho. eapply relQ_bind; [now apply NX|]. intros [s' [w|]] [I' G]; cbn [fst snd] in *; [apply opt_inv in G; now apply D2|now apply D; [apply opt_some|]].
    - eapply relQ_bind; [now apply NX|]. intros [s' [w|]] [I' G]; cbn [fst snd] in *; [|now apply D]. apply opt_inv in G.
      eapply relQ_bind; [now apply NX|]. intros [s2 [u|]] [I2 G2]; cbn [fst snd] in *; [apply opt_inv in G2; now apply D2|now apply D; [apply opt_none|]].
  Qed.
  Lemma q_count : forall fuel s, IT s -> relQ yes (count_items x fuel s) (count_items y fuel s).
  Proof.
    induction fuel as [|f IH]; intros s I; [apply relQ_unknown|]. cbn [count_items]. eapply relQ_bind; [now apply NX|]. intros [s' [v|]] [I' G]; [|now apply relQ_done].
    eapply relQ_bind; [now apply IH|]. intros; now apply relQ_done.
  Qed.
  Definition okR {S I R} (IS : S -> Prop) (GI : I -> Prop) (a b : ReduceE nat S I R) : Prop :=
    (forall s v, IS s -> GI v -> relQ IS (enext a s v) (enext b s v)) /\ (forall s, IS s -> relQ yes (efinal a s) (efinal b s)).
  Definition goes {S Q} (IS : S -> Prop) (GQ : Q -> Prop) (r : S * flow Q) : Prop := IS (fst r) /\ match snd r with Continue (Some o) => GQ o | _ => True end.
  Definition okA {S I Q} (IS : S -> Prop) (GI : I -> Prop) (GQ : Q -> Prop) (a b : AdaptE nat S I Q) : Prop :=
    (forall s v, IS s -> GI v -> relQ (goes IS GQ) (eadapt a s v) (eadapt b s v)) /\ (forall s, IS s -> relQ (goes IS GQ) (efinalize a s) (efinalize b s)).
  Lemma q_reduce {R Acc} (IA : Acc -> Prop) (r q : ReduceE nat Acc A R) : okR IA GA r q -> forall fuel s acc, IT s -> IA acc -> relQ yes (reduce_items x r fuel s acc) (reduce_items y q fuel s acc).
  Proof.
    intros [H1 H2]. induction fuel as [|f IH]; intros s acc I J; [apply relQ_unknown|]. cbn [reduce_items]. eapply relQ_bind; [now apply NX|]. intros [s' [v|]] [I' G]; [|now apply H2].
    apply opt_inv in G. eapply relQ_bind; [now apply H1|]. intros acc' J'. now apply IH.
  Qed.
  Lemma q_finalize {S Q} (IS : S -> Prop) (GQ : Q -> Prop) (a b : AdaptE nat S A Q) : okA IS GA GQ a b -> forall fuel, forall s, IS s -> relQ (gives IS GQ) (from_finalizeE a fuel s) (from_finalizeE b fuel s).
  Proof.
    intros [H1 H2]. induction fuel as [|f IH]; intros s I; [apply relQ_unknown|]. cbn [from_finalizeE]. eapply relQ_bind; [now apply H2|].
    intros [s' [|[o|]]] [I' G]; cbn [fst snd] in *; [| |now apply IH]; apply relQ_done; (split; [exact I'|]); [apply opt_none|now apply opt_some].
  Qed.
  Lemma q_pull {S Q} (IS : S -> Prop) (GQ : Q -> Prop) (a b : AdaptE nat S A Q) fin : okA IS GA GQ a b -> forall fuel,
    moves (fun st => IS (fst st) /\ IT (snd st)) GQ (pull_next x a fuel fin) (pull_next y b fuel fin).
  Proof.
    intros H. pose proof (q_finalize IS GQ a b H fin) as F. destruct H as [H1 H2]. induction fuel as [|f IH]; intros [s u] [I J]; [apply relQ_unknown|]. cbn [pull_next fst snd] in *.
    assert (END : forall s u, IS s -> IT u -> relQ (gives (fun st => IS (fst st) /\ IT (snd st)) GQ) (see (s', o) <- from_finalizeE a fin s; done ((s', u), o)) (see (s', o) <- from_finalizeE b fin s; done ((s', u), o))).
    { intros s1 u1 I1 J1. eapply relQ_bind; [now apply F|]. intros [s' o] [I' G]. apply relQ_done. now split; [split|]. }
    eapply relQ_bind; [now apply NX|]. intros [u' [v|]] [J' G]; cbn [fst snd] in *; [|now apply END]. apply opt_inv in G.
    eapply relQ_bind; [now apply H1|]. intros [s' [|[o|]]] [I' G']; cbn [fst snd] in *; [now apply END| |now apply IH]. apply relQ_done. split; [now split|now apply opt_some].
  Qed.
End Iter.

Lemma okA_nil {I} (GI : I -> Prop) : okA yes GI GI (@NilE nat I) NilE.
Proof. split; intros; apply relQ_pure; (split; [exact Logic.I|]); cbn [snd]; auto. Qed.
Lemma okA_map {I Q} (GI : I -> Prop) (GQ : Q -> Prop) (f g : I -> eff nat Q) : (forall v, GI v -> relQ GQ (f v) (g v)) -> okA yes GI GQ (MapE f) (MapE g).
Proof.
  intros H. split; cbn [MapE eadapt efinalize]; intros; [|apply relQ_pure; now split]. eapply relQ_ebind; [now apply H|]. intros b Gb. apply relQ_pure. now split.
Qed.
Definition in_group {I} (G : I -> Prop) (s : gstate I) : Prop := match s with GEmpty => True | GConsumed a => G a | GLazy a b => G a /\ G b end.
Lemma okA_group {I} (G : I -> Prop) (f g : I -> I -> eff nat bool) : (forall v w, G v -> G w -> relQ yes (f v w) (g v w)) ->
  okA (in_group G) G (fun r => G (fst r) /\ G (snd r)) (GroupByE f) (GroupByE g).
Proof.
  intros H. split; cbn [GroupByE eadapt efinalize].
  - intros [|a|a b] v; cbn [in_group]; intros J Gv.
    + apply relQ_pure. now split.
    + eapply relQ_ebind; [now apply H|]. intros [|] _; [apply relQ_pure; repeat split; assumption|].
      eapply relQ_ebind; [now apply H|]. intros [|] _; apply relQ_pure; repeat split; assumption.
    + destruct J. eapply relQ_ebind; [now apply H|]. intros [|] _; apply relQ_pure; repeat split; assumption.
  - intros [|a|a b]; cbn [in_group]; intros J.
    + apply relQ_pure. now split.
    + eapply relQ_ebind; [now apply H|]. intros [|] _; apply relQ_pure; repeat split; assumption.
    + apply relQ_pure. now repeat split.
Qed.
Definition values {V I} (G : I -> Prop) (m : list (V * I)) : Prop := Forall (fun kv => G (snd kv)) m.
Lemma values_insert {V I} (G : I -> Prop) cmp (k : V) v m : values G m -> G v -> values G (map_insert cmp k v m).
Proof.
  intros H Gv. induction H as [|[k' v'] m Gw H IH]; cbn [map_insert]; [now constructor|]. destruct (cmp k k'); constructor; try assumption; constructor; assumption.
Qed.
Lemma values_remove {V I} (G : I -> Prop) cmp (k : V) (m : list (V * I)) : values G m -> values G (map_remove cmp k m).
Proof.
  intros H. induction H as [|[k' v'] m Gw H IH]; cbn [map_remove]; [constructor|]. destruct (cmp k k'); try assumption; constructor; assumption.
Qed.
Lemma values_get {V I} (G : I -> Prop) cmp (k : V) (m : list (V * I)) v : values G m -> map_get cmp k m = Some v -> G v.
Proof.
  intros H. induction H as [|[k' v'] m Gw H IH]; cbn [map_get]; [discriminate|]. destruct (cmp k k'); try assumption; try discriminate; intros [= <-]; exact Gw.
Qed.
Definition in_merge {V I} (G : I -> Prop) (s : merge_state V I) : Prop := values G (fst s) /\ opt (values G) (snd s).
Lemma okA_merge {V I} (G : I -> Prop) (cmp : V -> V -> comparison) (f g : I -> I -> eff nat (option I)) h k :
  (forall v w, G v -> G w -> relQ (opt G) (f v w) (g v w)) -> (forall v, G v -> relQ yes (h v) (k v)) -> okA (in_merge G) G G (MergeE cmp f h) (MergeE cmp g k).
Proof.
  intros H HK. assert (M : forall v m, G v -> values G m -> relQ (opt (fun r => G (fst r) /\ G (snd r))) (merge_findE f v m) (merge_findE g v (m : list (V * I)))).
  { intros v m Gv. induction 1 as [|[a w] m Gw Hm IH]; cbn [merge_findE]; [apply relQ_pure, opt_none|]. eapply relQ_ebind; [now apply H|].
    intros [r|] Gr; [|exact IH]. apply relQ_pure, opt_some. split; [exact Gw|now apply opt_inv]. }
  split; cbn [MergeE eadapt efinalize].
  - intros [m it] v [I1 I2] Gv; cbn [fst snd] in *. eapply relQ_ebind; [now apply M|]. intros [[p w]|] Gr.
    + apply opt_inv in Gr. destruct Gr as [Gp Gw]. cbn [fst snd] in *. eapply relQ_ebind; [now apply HK|]. intros kp _. eapply relQ_ebind; [now apply HK|]. intros kv _.
      apply relQ_pure. split; [|exact Logic.I]. split; [apply values_insert; [now apply values_remove|exact Gw]|exact I2].
    + eapply relQ_ebind; [now apply HK|]. intros kn _. apply relQ_pure. split; [|exact Logic.I]. split; [now apply values_insert|exact I2].
  - intros [m it] [I1 I2]; cbn [fst snd] in *. assert (L : values G (match it with Some l => l | None => m end)) by (destruct it; [now apply opt_inv|assumption]).
    destruct (match it with Some l => l | None => m end) as [|[a v] l]; apply relQ_pure; inversion L; subst; repeat split; cbn [fst snd] in *; try assumption; apply opt_some; [constructor|assumption].
Qed.
Lemma okA_adapter {S1 S2 I M Q} (I1 : S1 -> Prop) (I2 : S2 -> Prop) (GI : I -> Prop) (GM : M -> Prop) (GQ : Q -> Prop)
  (i1 j1 : AdaptE nat S1 M Q) (i2 j2 : AdaptE nat S2 I M) fuel : okA I1 GM GQ i1 j1 -> okA I2 GI GM i2 j2 ->
  okA (fun s => I1 (fst s) /\ I2 (snd s)) GI GQ (AdapterE i1 i2 fuel) (AdapterE j1 j2 fuel).
Proof.
  intros [A1 A2] [B1 B2].
  assert (F : forall fuel s1 s2, I1 s1 -> I2 s2 -> relQ (goes (fun s => I1 (fst s) /\ I2 (snd s)) GQ) (compose_finalizeE i1 i2 fuel s1 s2) (compose_finalizeE j1 j2 fuel s1 s2)).
  { clear fuel. induction fuel as [|f IH]; intros s1 s2 J1 J2; [apply relQ_unknown|]. cbn [compose_finalizeE]. eapply relQ_ebind; [now apply B2|].
    intros [s2' [|[o|]]] [J2' G]; cbn [fst snd] in *; [| |now apply IH].
    - eapply relQ_ebind; [now apply A2|]. intros [s1' r] [J1' G']. apply relQ_pure. now repeat split.
    - eapply relQ_ebind; [now apply A1|]. intros [s1' r] [J1' G']. apply relQ_pure. now repeat split. }
  split; cbn [AdapterE eadapt efinalize]; intros [s1 s2]; [intros v [J1 J2] Gv|intros [J1 J2]; now apply F]. cbn [fst snd] in *.
  eapply relQ_ebind; [now apply B1|]. intros [s2' [|[o|]]] [J2' G]; cbn [fst snd] in *; try (apply relQ_pure; now repeat split).
  eapply relQ_ebind; [now apply A1|]. intros [s1' r] [J1' G']. apply relQ_pure. now repeat split.
Qed.
Lemma okR_count {I} (GI : I -> Prop) : okR yes GI (@CountGE I) CountGE.
Proof.
  split; intros; (intros t; split; [reflexivity|intros; exact Logic.I]).
Qed.
Lemma okR_fork {S1 S2 I R1 R2} (I1 : S1 -> Prop) (I2 : S2 -> Prop) (GI : I -> Prop) (a1 b1 : ReduceE nat S1 I R1) (a2 b2 : ReduceE nat S2 I R2) :
  okR I1 GI a1 b1 -> okR I2 GI a2 b2 -> okR (fun s => I1 (fst s) /\ I2 (snd s)) GI (ForkE (fun x => pure x) a1 a2) (ForkE (fun x => pure x) b1 b2).
Proof.
  intros [A1 A2] [B1 B2]. split; cbn [ForkE enext efinal].
  - intros [s1 s2] v [J1 J2] Gv; cbn [fst snd] in *. eapply relQ_ebind; [now apply (relQ_pure GI)|]. intros c Gc. eapply relQ_ebind; [now apply A1|]. intros s1' J1'.
    eapply relQ_ebind; [now apply B1|]. intros s2' J2'. apply relQ_pure. now split.
  - intros [s1 s2] [J1 J2]; cbn [fst snd] in *. eapply relQ_ebind; [now apply A2|]. intros r1 _. eapply relQ_ebind; [now apply B2|]. intros r2 _. now apply relQ_pure.
Qed.
Lemma okR_split {V S I R} (IS : S -> Prop) (GI : I -> Prop) (cmp : V -> V -> comparison) (f g : I -> eff nat V) s0 (a b : ReduceE nat S I R) :
  (forall v, GI v -> relQ yes (f v) (g v)) -> IS s0 -> okR IS GI a b -> okR (values IS) GI (SplitE cmp f (fun _ => pure s0) a) (SplitE cmp g (fun _ => pure s0) b).
Proof.
  intros H J0 [A1 A2]. assert (F : forall m acc, values IS m -> relQ yes (split_finalizeE cmp a m acc) (split_finalizeE cmp b (m : list (V * S)) acc)).
  { induction m as [|[k v] m IH]; intros acc J; [now apply relQ_pure|]. inversion J; subst. cbn [split_finalizeE]. eapply relQ_ebind; [now apply A2|]. intros r _. now apply IH. }
  split; cbn [SplitE enext efinal]; [|intros; now apply F]. intros m v J Gv. eapply relQ_ebind; [now apply H|]. intros key _. eapply relQ_ebind; [now apply (relQ_pure IS)|]. intros new Jn.
  cbv zeta. eapply relQ_ebind; [apply A1; [|exact Gv]; destruct (map_get cmp key m) eqn:E; [eapply values_get; eassumption|exact Jn]|]. intros s' J'. apply relQ_pure. now apply values_insert.
Qed.
Lemma okR_over {S1 S2 I M R} (I1 : S1 -> Prop) (I2 : S2 -> Prop) (GI : I -> Prop) (GM : M -> Prop) (i j : ReduceE nat S1 M R) (a b : AdaptE nat S2 I M) fuel :
  okR I1 GM i j -> okA I2 GI GM a b -> okR (fun s => I1 (fst s) /\ I2 (snd s)) GI (ReducerOverE i a fuel) (ReducerOverE j b fuel).
Proof.
  intros [A1 A2] [B1 B2]. assert (F : forall fuel s1 s2, I1 s1 -> I2 s2 -> relQ yes (reducer_finalizeE i a fuel s1 s2) (reducer_finalizeE j b fuel s1 s2)).
  { clear fuel. induction fuel as [|f IH]; intros s1 s2 J1 J2; [apply relQ_unknown|]. cbn [reducer_finalizeE]. eapply relQ_ebind; [now apply B2|].
    intros [s2' [|[o|]]] [J2' G]; cbn [fst snd] in *; [now apply A2| |now apply IH]. eapply relQ_ebind; [now apply A1|]. intros s1' J1'. now apply IH. }
  split; cbn [ReducerOverE enext efinal]; [|intros s [J1 J2]; now apply F]. intros [s1 s2] v [J1 J2] Gv; cbn [fst snd] in *. eapply relQ_ebind; [now apply B1|].
  intros [s2' [|[o|]]] [J2' G]; cbn [fst snd] in *; try (apply relQ_pure; now split). eapply relQ_ebind; [now apply A1|]. intros s1' J1'. apply relQ_pure. now split.
Qed.
Lemma q_histogram {T A V} (IT : T -> Prop) (GA : A -> Prop) (x y : T -> act (T * option A)) (cmp : V -> V -> comparison) f g fuel s :
  moves IT GA x y -> (forall v, GA v -> relQ yes (f v) (g v)) -> IT s -> relQ yes (histogram_items x cmp f fuel s) (histogram_items y cmp g fuel s).
Proof. intros H G I. apply (q_reduce IT GA x y H (values yes)); [|exact I|constructor]. apply okR_split; [exact G|exact Logic.I|apply okR_count]. Qed.

(** * The commands, if every byte of the mapping can be read *)
Section Inside.
  Variables (W : world) (V : cells) (n : nat) (P : reading).
  Hypothesis ALL : forall t p, p < n -> reads P t p = true.
  Notation good := (good n).
  Definition good2 (r : item * item) : Prop := good (fst r) /\ good (snd r).
  Lemma q_alive {A} (Q : A -> Prop) (p : peek A) m : sim p m -> lives p -> (forall t a t', m t = Ret (a, t') -> Q a) -> relQ Q (alive p) m.
  Proof.
    intros H L G t. split; [|apply G]. unfold alive. destruct (H t) as [E|E]; [now elim (L t)|]. destruct (m t) as [[a t']| |]; now rewrite E.
  Qed.
  Lemma q_peeks {A} a k (f : nat -> A) : a + k <= n -> relQ yes (peeks P a k f) (ask f).
  Proof. intros H. apply q_alive; [apply sim_look| |easy]. apply (lives_look _ (fun _ _ => 0)). intros; apply ALL; lia. Qed.
  Lemma q_hello_in a z : z <= n -> relQ yes (hello_in V P a z) (ask (fun t => sees_hello V t a z)).
  Proof.
    intros H t. split; [|easy]. unfold hello_in. cbv zeta.
    set (e := match sees_hello V t a z with Some p => if p + 11 <=? z then Nat.max (p + 11) (Nat.min z (hreach P t a)) else z | None => z end).
    assert (B : e <= n) by (unfold e; destruct (sees_hello V t a z) as [p|]; [destruct (Nat.leb_spec (p + 11) z)|]; lia).
    unfold alive, look, ask. rewrite (proj2 (forallb_forall _ _)); [reflexivity|]. intros p I. apply in_seq in I. apply ALL. lia.
  Qed.
  Ltac look_in := match goal with |- lives (look _ _ _ _) => apply (lives_look _ (fun _ _ => 0)); intros; apply ALL; lia end.
  Ltac live := repeat first
    [ apply lives_back
    | match goal with |- lives (next_peek _ _) => apply lives_bind; [|intros] end
    | match goal with |- lives (t_flag _ _ _ _) => unfold t_flag; look_in end
    | match goal with |- lives (t_tail_from _ _) => unfold t_tail_from end
    | match goal with |- context [match ?x with _ => _ end] => destruct x end
    | progress cbv zeta
    | (intros ?; discriminate) ].
  Lemma q_flag v k : good v -> relQ yes (alive (t_flag W (reads P) v k)) (m_flag W v k).
  Proof. intros [G1 G2]. apply q_alive; [apply sim_flag| |easy]. live. Qed.
  Lemma q_len v : good v -> relQ yes (alive (t_len W (reads P) v)) (m_len W v).
  Proof. intros [G1 G2]. apply q_alive; [apply sim_len| |easy]. unfold t_len, t_length. live. look_in. Qed.
  Definition place_in (p : nat * nat) : Prop := fst p + snd p <= n.
  Lemma place_good v k len : good v -> 0 < len -> opt (fun p => place_in p /\ snd p = len) (m_place v k len).
  Proof.
    intros [G1 G2] L p. unfold m_place, m_tail. destruct (Nat.ltb_spec (snd v - 20 - k) len); [discriminate|]. intros [= <-]. unfold place_in. cbn [fst snd]. lia.
  Qed.
  Lemma lives_get o : opt place_in o -> lives (t_get (reads P) o).
  Proof.
    intros H t. unfold t_get. destruct o as [[a k]|]; [|discriminate]. apply opt_inv in H. unfold place_in in H. cbn [fst snd] in H.
    rewrite (proj2 (forallb_forall _ _)); [discriminate|]. intros p I. apply in_seq in I. apply ALL. lia.
  Qed.
  Definition fours (o : option (nat * nat)) : Prop := opt (fun p => place_in p /\ snd p = 4) o.
  (** What an action returns. *)
  Definition gets {A} (Q : A -> Prop) (m : act A) : Prop := forall t a t', m t = Ret (a, t') -> Q a.
  Lemma gets_done {A} (Q : A -> Prop) a : Q a -> gets Q (done a).
  Proof. intros H t b t' [= <- _]. exact H. Qed.
  Lemma gets_follow {A B} (Q : B -> Prop) (x : act A) f : (forall a, gets Q (f a)) -> gets Q (follow x f).
  Proof. intros H t b t'. unfold follow. destruct (x t) as [[a u]| |]; try discriminate. apply H. Qed.
  Lemma gets_crash {A} (Q : A -> Prop) : gets Q crash.
  Proof. intros t b t'. discriminate. Qed.
  Ltac got := repeat first
    [ apply gets_crash
    | match goal with |- gets _ (follow _ _) => apply gets_follow; intros end
    | match goal with |- gets _ (m_tail_from _ _) => unfold m_tail_from end
    | match goal with |- gets _ (done None) => apply gets_done, opt_none | |- gets _ (done _) => apply gets_done end
    | match goal with |- gets _ (if ?x then _ else _) => destruct x eqn:? end
    | match goal with |- gets _ (match ?x with _ => _ end) => destruct x eqn:? end
    | progress cbv zeta ].
  Lemma opt_weak {A} (G H : A -> Prop) o : opt G o -> (forall a, G a -> H a) -> opt H o.
  Proof. intros E K v Ev. apply K, E, Ev. Qed.
  Ltac placed := match goal with H : good ?v |- opt _ (m_place ?v _ _) => eapply opt_weak; [apply (place_good v _ _ H); lia|cbv beta; tauto] end.
  Lemma q_timestamp v : good v -> relQ fours (alive (t_timestamp W (reads P) v)) (m_timestamp W v).
  Proof.
    intros H. pose proof H as [G1 G2]. apply q_alive; [apply sim_timestamp| |].
    - unfold t_timestamp. live; apply lives_get; placed.
    - apply (gets_follow fours). intros w. got; now apply place_good; [|lia].
  Qed.
  Lemma q_ecu_id v : good v -> relQ fours (alive (t_ecu_id W (reads P) v)) (m_ecu_id W v).
  Proof.
    intros H. pose proof H as [G1 G2]. apply q_alive; [apply sim_ecu_id| |].
    - unfold t_ecu_id. live; apply lives_get; placed.
    - apply (gets_follow fours). intros w. got; now apply place_good; [|lia].
  Qed.
  Lemma q_extended v : good v -> relQ (opt (fun p => fst p + 10 <= n)) (alive (t_extended_header W (reads P) v)) (m_extended_header W v).
  Proof.
    intros H. pose proof H as [G1 G2]. apply q_alive; [apply sim_extended| |].
    - unfold t_extended_header. live.
    - apply (gets_follow (opt (fun p => fst p + 10 <= n))). intros w. got. eapply opt_weak; [apply (place_good v _ _ H); lia|]. unfold place_in. cbv beta. intros p [E1 E2]. lia.
  Qed.
  Lemma q_payload v : good v -> relQ (opt place_in) (alive (t_payload W (reads P) v)) (m_payload W v).
  Proof.
    intros H. pose proof H as [G1 G2]. apply q_alive; [apply sim_payload| |].
    - unfold t_payload. live.
    - apply (gets_follow (opt place_in)). intros w. got; apply opt_some; unfold place_in, m_tail in *; cbn [fst snd]; lia.
  Qed.
  Ltac good_lia := match goal with H : good _ |- _ => destruct H; lia end.
  Lemma q_number p q : relQ fours p q -> relQ yes (c_number V P p) (m_number V q).
  Proof.
    intros H. unfold c_number, m_number. eapply relQ_bind; [exact H|]. intros [[a k]|] F; [|now apply relQ_done]. apply opt_inv in F. destruct F as [F1 F2]. unfold place_in in F1. cbn [fst snd] in *.
    eapply relQ_bind; [apply q_peeks; lia|]. intros x _. now apply relQ_done.
  Qed.
  Lemma q_secs v : good v -> relQ yes (c_secs V P v) (m_secs V v).
  Proof. intros [G1 G2]. unfold c_secs, m_secs. eapply relQ_bind; [apply q_peeks; lia|]. intros x _. now apply relQ_done. Qed.
  Lemma q_ecu v : good v -> relQ yes (c_ecu V P v) (m_ecu V v).
  Proof. intros [G1 G2]. apply q_peeks. lia. Qed.
  Lemma q_time v : good v -> relQ yes (c_time W V P v) (m_time W V v).
  Proof. intros H. now apply q_number, q_timestamp. Qed.
  Lemma q_ecu_number v : good v -> relQ yes (c_ecu_number W V P v) (m_ecu_number W V v).
  Proof. intros H. now apply q_number, q_ecu_id. Qed.
  Lemma q_same {A} (x : act A) : relQ yes x x.
  Proof. intros t. now split. Qed.
  Lemma q_unwrap {A} (G : A -> Prop) o : opt G o -> relQ G (c_unwrap o) (m_unwrap o).
  Proof. intros H. destruct o; [apply relQ_done; now apply opt_inv|apply relQ_crash]. Qed.
  Ltac q := repeat first
    [ apply relQ_done; exact Logic.I
    | match goal with |- relQ _ (follow _ _) _ => apply (relQ_bind yes); [|intros ? ?] end
    | apply q_secs; assumption | apply q_time; assumption | apply q_ecu_number; assumption
    | match goal with |- relQ yes (if ?x then _ else _) _ => destruct x end
    | apply q_same ].
  Lemma q_hello v : good v -> relQ yes (c_hello_predicate W V P v) (m_hello_predicate W V v).
  Proof.
    intros H. unfold c_hello_predicate, m_hello_predicate. eapply relQ_bind; [now apply q_payload|]. intros o F. eapply relQ_bind; [exact (q_unwrap _ _ F)|]. intros [a k] G. unfold place_in in G.
    cbn [fst snd] in *. eapply relQ_bind; [apply q_hello_in; lia|]. intros r _. now apply relQ_done.
  Qed.
  Lemma q_secs_pred a b : good a -> good b -> relQ yes (c_secs_pred V P a b) (m_secs_pred V a b).
  Proof. intros. unfold c_secs_pred, m_secs_pred. q. Qed.
  Lemma q_secs_delta r : good2 r -> relQ yes (c_secs_delta V P r) (m_secs_delta V r).
  Proof. intros [? ?]. unfold c_secs_delta, m_secs_delta. q. Qed.
  Lemma q_ts_pred a b : good a -> good b -> relQ yes (c_ts_pred W V P a b) (m_ts_pred W V a b).
  Proof. intros. unfold c_ts_pred, m_ts_pred. q. Qed.
  Lemma q_ecu_ts_pred a b : good a -> good b -> relQ yes (c_ecu_ts_pred W V P a b) (m_ecu_ts_pred W V a b).
  Proof. intros. unfold c_ecu_ts_pred, m_ecu_ts_pred. q. now apply q_ts_pred. Qed.
  Lemma q_ts_delta r : good2 r -> relQ yes (c_ts_delta W V P r) (m_ts_delta W V r).
  Proof.
    intros [? ?]. unfold c_ts_delta, m_ts_delta. eapply relQ_bind; [now apply q_time|]. intros o1 _. eapply relQ_bind; [apply (q_unwrap yes); easy|]. intros t1 _.
    eapply relQ_bind; [now apply q_time|]. intros o0 _. eapply relQ_bind; [apply (q_unwrap yes); easy|]. intros t0 _. apply q_same.
  Qed.
  Lemma q_long_enough r : good2 r -> relQ yes (c_long_enough W V P r) (m_long_enough W V r).
  Proof. intros H. unfold c_long_enough, m_long_enough. eapply relQ_bind; [now apply q_ts_delta|]. intros d _. now apply relQ_done. Qed.
  Lemma q_info a : a < n -> relQ yes (c_info V P a) (m_info V a).
  Proof. intros H. unfold c_info, m_info. do 3 (eapply relQ_bind; [apply q_peeks; lia|]; intros ? _). now apply relQ_done. Qed.
  Lemma q_info_key v : good v -> relQ yes (c_info_key W V P v) (m_info_key W V v).
  Proof.
    intros H. unfold c_info_key, m_info_key. eapply relQ_bind; [now apply q_extended|]. intros o F. eapply relQ_bind; [exact (q_unwrap _ _ F)|]. intros p G. cbv beta in G. apply q_info. lia.
  Qed.
  Lemma q_max a b : good a -> good b -> relQ good (c_max V P a b) (m_max V a b).
  Proof.
    intros. unfold c_max, m_max. eapply relQ_bind; [now apply q_secs|]. intros sa _. eapply relQ_bind; [now apply q_secs|]. intros sb _. apply relQ_done. destruct (sb <=? sa)%N; assumption.
  Qed.
  Lemma q_merge a b : good2 a -> good2 b -> relQ (opt good2) (c_merge V P a b) (m_merge V a b).
  Proof.
    intros [? ?] [? ?]. unfold c_merge, m_merge. cbv zeta. apply (relQ_bind yes); [q|]. intros [|] _.
    - eapply relQ_bind; [now apply q_max|]. intros m Gm. apply relQ_done, opt_some. now split.
    - apply (relQ_bind yes); [q|]. intros [|] _; [|apply relQ_done, opt_none]. eapply relQ_bind; [now apply q_max|]. intros m Gm. apply relQ_done, opt_some. now split.
  Qed.
  Lemma q_period_key r : good2 r -> relQ yes (c_period_key V P r) (m_period_key V r).
  Proof. intros [? ?]. unfold c_period_key, m_period_key. q. Qed.
  Lemma q_messages : moves yes good (c_messages W n P) (m_messages W n).
  Proof.
    intros s _. apply q_alive; [apply sim_fallback| |].
    - apply lives_fallback. exact ALL.
    - intros t [s' o] t' E. split; [exact Logic.I|]. intros v Ev. cbn [snd] in Ev. subst o. destruct (safe_fallback W n (S (S n)) s ltac:(lia) t) as (r & t2 & E2 & G). unfold m_messages in E. rewrite E in E2.
      injection E2 as <- <-. apply (G v eq_refl).
  Qed.
  Lemma q_grepped : moves yes yes (grepped W n P) (m_grep_next W n (S n)).
  Proof.
    intros s _. apply q_alive; [apply sim_grep_next| |easy]. intros t. apply (finds_grep_next W n (reads P) (reach P) (rreach P) (looks_at P) ALL (S n) s t).
  Qed.
  Lemma q_hello_next : moves yes yes (c_hello_next V n P) (hello_next V n).
  Proof.
    intros s _. unfold c_hello_next, hello_next. eapply relQ_bind; [now apply q_hello_in|]. intros [p|] _; [destruct (_ && _)|]; now apply relQ_done.
  Qed.
  Lemma q_timed : moves yes good (filter_next (c_messages W n P) (c_with_ts W P) (S (S n))) (filter_next (m_messages W n) (m_with_ts W) (S (S n))).
  Proof. apply q_filter; [exact q_messages|]. intros v G. now apply q_flag. Qed.
  Lemma q_secs_groups : moves (fun st => in_group good (fst st) /\ yes (snd st)) good2
    (pull_next (c_messages W n P) (GroupByE (c_secs_pred V P)) (S (S n)) 2) (pull_next (m_messages W n) (GroupByE (m_secs_pred V)) (S (S n)) 2).
  Proof. apply (q_pull yes good _ _ q_messages (in_group good) good2). apply okA_group. exact q_secs_pred. Qed.
  Lemma q_ts_groups f g : (forall v w, good v -> good w -> relQ yes (f v w) (g v w)) -> moves (fun st => in_group good (fst st) /\ yes (snd st)) good2
    (pull_next (filter_next (c_messages W n P) (c_with_ts W P) (S (S n))) (GroupByE f) (S (S n)) 2)
    (pull_next (filter_next (m_messages W n) (m_with_ts W) (S (S n))) (GroupByE g) (S (S n)) 2).
  Proof. intros H. apply (q_pull yes good _ _ q_timed (in_group good) good2). now apply okA_group. Qed.
  Lemma q_lifecycle_reducer fin : exists IS, IS ((([], (tt, (GEmpty, tt))), (0, tt)), tt) /\ okR IS good (c_lifecycle_reducer W V P fin) (m_lifecycle_reducer W V fin).
  Proof.
    eexists. split; [|unfold c_lifecycle_reducer, m_lifecycle_reducer; cbv zeta; eapply okR_over; [|apply okA_nil]; apply okR_fork; [|apply okR_count];
      eapply okR_over; [apply (okR_split yes (yes (A := N))); [intros; apply q_same|exact Logic.I|apply okR_count]|]; eapply okA_adapter; [apply okA_map|eapply okA_adapter; [apply okA_group|apply okA_nil]]].
    - cbn [fst snd]. repeat split; try exact Logic.I. constructor.
    - intros r G. eapply relQ_bind; [now apply q_ts_delta|]. intros d _. now apply relQ_done.
    - exact q_ts_pred.
  Qed.
  Lemma q_timestamp_reducer fin : exists IS, IS ((([], (tt, (([], None), (GEmpty, tt)))), (0, tt)), tt) /\ okR IS good (c_timestamp_reducer V P fin) (m_timestamp_reducer V fin).
  Proof.
    eexists. split; [|unfold c_timestamp_reducer, m_timestamp_reducer; cbv zeta; eapply okR_over; [|apply okA_nil]; apply okR_fork; [|apply okR_count];
      eapply okR_over; [apply (okR_split yes (yes (A := N))); [intros; apply q_same|exact Logic.I|apply okR_count]|];
      eapply okA_adapter; [apply okA_map|eapply okA_adapter; [apply okA_merge|eapply okA_adapter; [apply okA_group|apply okA_nil]]]].
    - cbn [fst snd]. repeat split; try exact Logic.I; try constructor. apply opt_none.
    - exact q_secs_delta.
    - exact q_merge.
    - exact q_period_key.
    - exact q_secs_pred.
  Qed.

  (** The commands.  (P reads all bytes of the mapping.) *)
  Lemma inside_count t : c_count W n P t = m_count W n t.
  Proof. apply (q_count yes good _ _ q_messages (S (S n)) 0 Logic.I). Qed.
  Lemma inside_count_hello_world t : c_count_hello_world W V n P t = m_count_hello_world W V n t.
  Proof. apply (q_count yes good _ _ (q_filter yes good _ _ q_messages _ _ q_hello _) (S (S n)) 0 Logic.I). Qed.
  Lemma inside_count_hello_world_raw t : c_count_hello_world_raw V n P t = m_count_hello_world_raw V n t.
  Proof. apply (q_count yes yes _ _ q_hello_next (S (S n)) 0 Logic.I). Qed.
  Lemma inside_count_hello_world_grepit t : c_count_hello_world_grepit W n P t = m_count_hello_world_grepit W n t.
  Proof. apply (q_count yes yes _ _ q_grepped (S (S n)) 0 Logic.I). Qed.
  Lemma inside_continuous_timestamp_histogram t : c_continuous_timestamp_histogram W V n P t = m_continuous_timestamp_histogram W V n t.
  Proof.
    revert t. intros t. apply (q_histogram (fun st => in_group good (fst st) /\ yes (snd st)) yes); [|intros; apply q_same|now split]. apply (q_map _ _ _ _ q_secs_groups). exact q_secs_delta.
  Qed.
  Lemma inside_mstp_info_histogram t : c_mstp_info_histogram W V n P t = m_mstp_info_histogram W V n t.
  Proof. apply (q_histogram yes good); [|exact q_info_key|exact Logic.I]. apply q_filter; [exact q_messages|]. intros v G. now apply q_flag. Qed.
  Lemma inside_lifecycle_splitit fin t : c_lifecycle_splitit W V n P fin t = m_lifecycle_splitit W V n fin t.
  Proof.
    destruct (q_lifecycle_reducer fin) as (IS & J & H). apply (q_reduce yes good _ _ q_timed (values IS)); [|exact Logic.I|constructor]. apply okR_split; [exact q_ecu|exact J|exact H].
  Qed.
  Lemma inside_timestamp_splitit fin t : c_timestamp_splitit W V n P fin t = m_timestamp_splitit W V n fin t.
  Proof.
    destruct (q_timestamp_reducer fin) as (IS & J & H). apply (q_reduce yes good _ _ q_messages (values IS)); [|exact Logic.I|constructor]. apply okR_split; [exact q_ecu|exact J|exact H].
  Qed.
  Lemma inside_lifecycle_histogram t : c_lifecycle_histogram W V n P t = m_lifecycle_histogram W V n t.
  Proof.
    apply (q_histogram (fun st => in_group good (fst st) /\ yes (snd st)) yes); [|intros; apply q_same|now split]. apply (q_map _ _ _ _ (q_ts_groups _ _ q_ecu_ts_pred)). exact q_ts_delta.
  Qed.
  Lemma inside_histogram_payload t : c_histogram_payload W n P t = m_histogram_payload W n t.
  Proof.
    apply (q_histogram yes yes); [|intros; apply q_same|exact Logic.I]. apply (q_map _ _ _ _ q_messages). intros v G. eapply relQ_bind; [now apply q_payload|]. intros p _. now apply relQ_done.
  Qed.
  Lemma inside_histogram_message t : c_histogram_message W n P t = m_histogram_message W n t.
  Proof. apply (q_histogram yes yes); [|intros; apply q_same|exact Logic.I]. apply (q_map _ _ _ _ q_messages). exact q_len. Qed.
  Lemma inside_histogram_hello_world t : c_histogram_hello_world W n P t = m_histogram_hello_world W n t.
  Proof. apply (q_histogram yes yes); [|intros; apply q_same|exact Logic.I]. apply (q_map _ _ _ _ q_grepped). intros; apply q_same. Qed.
  Lemma inside_lifecycle_iter t : c_lifecycle_iter W V n P t = m_lifecycle_iter W V n t.
  Proof. apply (q_count _ _ _ _ (q_filter _ _ _ _ (q_ts_groups _ _ q_ts_pred) _ _ q_long_enough _)). now split. Qed.
  Lemma inside_lifecycle_itertools t : c_lifecycle_itertools W V n P t = m_lifecycle_itertools W V n t.
  Proof.
    apply (q_count (fun s => opt good (fst s) /\ yes (snd s)) good2); [|split; [apply opt_none|exact Logic.I]]. apply q_filter; [|exact q_long_enough].
    apply q_filter; [exact (q_windows _ _ _ _ q_timed)|]. intros r [G1 G2]. now apply q_ts_pred.
  Qed.
End Inside.
