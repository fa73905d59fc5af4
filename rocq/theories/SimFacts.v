(** Adapters and reducers with effects behave like those without, on related items (C124). *)
From Verif Require Import Base GenModel TraceModel MappedModel MappedCmd ToolsModel.

(** Related: same outcome, related results. *)
Definition alike {A B} (R : A -> B -> Prop) (x : act A) (o : outcome B) : Prop := forall t,
  match o with
  | Ret y => exists a t', x t = Ret (a, t') /\ R a y
  | Panic => x t = Panic
  | Fuel => True
  end.
Lemma alike_done {A B} (R : A -> B -> Prop) a y : R a y -> alike R (done a) (Ret y).
Proof. intros H t. now exists a, t. Qed.
Lemma alike_pure {A B} (R : A -> B -> Prop) a y : R a y -> alike R (pure a) (Ret y).
Proof. exact (alike_done R a y). Qed.
Lemma alike_crash {A B} (R : A -> B -> Prop) : alike R crash Panic.
Proof. intros t. reflexivity. Qed.
Lemma alike_fuel {A B} (R : A -> B -> Prop) x : alike R x Fuel.
Proof. intros t. exact I. Qed.
Lemma alike_follow {A B A' B'} (R : A -> B -> Prop) (R' : A' -> B' -> Prop) x o f g :
  alike R x o -> (forall a y, R a y -> alike R' (f a) (g y)) -> alike R' (follow x f) (obind o g).
Proof.
  intros X F t. unfold follow. specialize (X t). destruct o as [y| |]; cbn [obind] in *.
  - destruct X as (a & t' & -> & H). exact (F a y H t').
  - now rewrite X.
  - exact I.
Qed.
Lemma alike_bind {A B A' B'} (R : A -> B -> Prop) (R' : A' -> B' -> Prop) (x : eff nat A) o (f : A -> eff nat A') g :
  alike R x o -> (forall a y, R a y -> alike R' (f a) (g y)) -> alike R' (ebind x f) (obind o g).
Proof. exact (alike_follow R R' x o f g). Qed.
Lemma alike_weak {A B} (R R' : A -> B -> Prop) x o : alike R x o -> (forall a y, R a y -> R' a y) -> alike R' x o.
Proof. intros X H t. specialize (X t). destruct o as [y| |]; auto. destruct X as (a & t1 & E & HR). exists a, t1. auto. Qed.

(** ** Adapters *)
Definition flow_rel {A B} (R : A -> B -> Prop) (f : flow A) (g : flow B) : Prop :=
  match f, g with
  | Break, Break => True
  | Continue None, Continue None => True
  | Continue (Some a), Continue (Some b) => R a b
  | _, _ => False
  end.
Definition pair_rel {A B A' B'} (R : A -> B -> Prop) (R' : A' -> B' -> Prop) (p : A * A') (q : B * B') : Prop := R (fst p) (fst q) /\ R' (snd p) (snd q).
Definition sim_adapter {S S' I I' Q Q'} (RS : S -> S' -> Prop) (RI : I -> I' -> Prop) (RQ : Q -> Q' -> Prop) (a : AdaptE nat S I Q) (b : Adapt S' I' Q') : Prop :=
  (forall s s' x x', RS s s' -> RI x x' -> alike (pair_rel RS (flow_rel RQ)) (eadapt a s x) (adapt b s' x')) /\
  (forall s s', RS s s' -> alike (pair_rel RS (flow_rel RQ)) (efinalize a s) (finalize b s')).
Definition sim_reducer {S S' I I' R R'} (RS : S -> S' -> Prop) (RI : I -> I' -> Prop) (RR : R -> R' -> Prop) (r : ReduceE nat S I R) (q : Reduce S' I' R') : Prop :=
  (forall s s' x x', RS s s' -> RI x x' -> alike RS (enext r s x) (rnext q s' x')) /\
  (forall s s', RS s s' -> alike RR (efinal r s) (rfinal q s')).
Definition anyunit (a b : unit) : Prop := True.
Definition group_rel {A B} (R : A -> B -> Prop) (s : gstate A) (s' : gstate B) : Prop :=
  match s, s' with
  | GEmpty, GEmpty => True
  | GConsumed a, GConsumed b => R a b
  | GLazy a c, GLazy b d => R a b /\ R c d
  | _, _ => False
  end.
Definition rows {K A B} (R : A -> B -> Prop) : list (K * A) -> list (K * B) -> Prop := Forall2 (fun p q => fst p = fst q /\ R (snd p) (snd q)).
Definition merge_rel {K A B} (R : A -> B -> Prop) (s : merge_state K A) (s' : merge_state K B) : Prop :=
  rows R (fst s) (fst s') /\ match snd s, snd s' with None, None => True | Some l, Some l' => rows R l l' | _, _ => False end.

Lemma rows_insert {K A B} cmp (R : A -> B -> Prop) k a b : R a b -> forall (m : list (K * A)) m', rows R m m' -> rows R (map_insert cmp k a m) (map_insert cmp k b m').
Proof.
  intros H m m' F. induction F as [|[k1 x] [k2 y] m m' [E Hxy] F IH]; cbn; [repeat constructor; exact H|]. cbn in E. subst k2.
  destruct (cmp k k1); [constructor; cbn; auto|constructor; [cbn; auto|constructor; cbn; auto]|constructor; cbn; auto].
Qed.
Lemma rows_remove {K A B} cmp (R : A -> B -> Prop) k : forall (m : list (K * A)) m', rows R m m' -> rows R (map_remove cmp k m) (map_remove cmp k m').
Proof.
  intros m m' F. induction F as [|[k1 x] [k2 y] m m' [E Hxy] F IH]; cbn; [constructor|]. cbn in E. subst k2.
  destruct (cmp k k1); [exact F|constructor; cbn; auto|constructor; cbn; auto].
Qed.
Lemma rows_get {K A B} cmp (R : A -> B -> Prop) k : forall (m : list (K * A)) m', rows R m m' ->
  match map_get cmp k m, map_get cmp k m' with Some a, Some b => R a b | None, None => True | _, _ => False end.
Proof.
  intros m m' F. induction F as [|[k1 x] [k2 y] m m' [E Hxy] F IH]; cbn; [exact I|]. cbn in E. subst k2. destruct (cmp k k1); auto.
Qed.
Lemma rows_eq {K A} (m m' : list (K * A)) : rows eq m m' <-> m = m'.
Proof.
  split.
  - intros F. induction F as [|[k x] [k' y] m m' [E1 E2] F IH]; [reflexivity|]. cbn in *. now subst.
  - intros ->. induction m' as [|[k x] m IH]; constructor; auto.
Qed.

Section Adapters.
  Lemma sim_nil {I J} (R : I -> J -> Prop) : sim_adapter anyunit R R NilE NilAdapter.
  Proof. split; intros; cbn; apply alike_pure; split; cbn; auto. Qed.
  Lemma sim_map {I J Q P} (R : I -> J -> Prop) (RQ : Q -> P -> Prop) fe f : (forall x y, R x y -> alike RQ (fe x) (f y)) ->
    sim_adapter anyunit R RQ (MapE fe) (MapA f).
  Proof.
    intros H. split; intros; cbn; [|apply alike_pure; split; cbn; auto]. eapply alike_bind; [apply H; eassumption|].
    intros a y' HR. apply alike_pure. split; cbn; auto.
  Qed.
  Lemma sim_groupby {I J} (R : I -> J -> Prop) fe f : (forall x x' y y', R x y -> R x' y' -> alike eq (fe x x') (f y y')) ->
    sim_adapter (group_rel R) R (pair_rel R R) (GroupByE fe) (GroupBy f).
  Proof.
    intros H. split.
    - intros s s' x x' HS HX. destruct s as [|p|p q], s' as [|p'|p' q']; cbn in HS; try contradiction; cbn.
      + apply alike_pure. split; cbn; auto.
      + eapply alike_bind; [now apply H|]. intros r ? <-. destruct r; [apply alike_pure; split; cbn; auto|].
        eapply alike_bind; [now apply H|]. intros r ? <-. destruct r; apply alike_pure; split; cbn; auto. now split.
      + destruct HS as [H1 H2]. eapply alike_bind; [now apply H|]. intros r ? <-. destruct r; apply alike_pure; split; cbn; auto. now split.
    - intros s s' HS. destruct s as [|p|p q], s' as [|p'|p' q']; cbn in HS; try contradiction; cbn.
      + apply alike_pure. split; cbn; auto.
      + eapply alike_bind; [now apply H|]. intros r ? <-. destruct r; apply alike_pure; split; cbn; auto. now split.
      + destruct HS as [H1 H2]. apply alike_pure. split; cbn; auto. now split.
  Qed.
  Definition option_rel {A B} (R : A -> B -> Prop) (o : option A) (o' : option B) : Prop :=
    match o, o' with Some a, Some b => R a b | None, None => True | _, _ => False end.
  Lemma sim_find {K I J} (R : I -> J -> Prop) fe f x y : R x y -> (forall x x' y y', R x y -> R x' y' -> alike (option_rel R) (fe x x') (f y y')) ->
    forall (m : list (K * I)) m', rows R m m' -> alike (option_rel (pair_rel R R)) (merge_findE fe x m) (merge_find f y m').
  Proof.
    intros HX H m m' F. induction F as [|[k p] [k' p'] m m' [E HP] F IH]; cbn; [now apply alike_pure|].
    eapply alike_bind; [now apply H|]. intros [v|] [v'|] HV; cbn in HV; try contradiction; [apply alike_pure; split; cbn; auto|exact IH].
  Qed.
  Lemma sim_merge {K I J} cmp (R : I -> J -> Prop) fe f (ke : I -> eff nat K) k : (forall x x' y y', R x y -> R x' y' -> alike (option_rel R) (fe x x') (f y y')) ->
    (forall x y, R x y -> alike eq (ke x) (k y)) -> sim_adapter (merge_rel R) R R (MergeE cmp fe ke) (Merge cmp f k).
  Proof.
    intros H HK. split.
    - intros [m it] [m' it'] x x' [HM HI] HX. cbn in HM, HI. cbn [eadapt adapt MergeE Merge].
      eapply alike_bind; [eapply sim_find; eassumption|]. intros [[p v]|] [[p' v']|] HV; cbn in HV; try contradiction.
      + destruct HV as [HP HV]. cbn in HP, HV. eapply alike_bind; [now apply HK|]. intros kp ? <-. eapply alike_bind; [now apply HK|]. intros kv ? <-.
        apply alike_pure. split; [split; cbn; auto|exact Logic.I]. now apply rows_insert, rows_remove.
      + eapply alike_bind; [now apply HK|]. intros kn ? <-. apply alike_pure. split; [split; cbn; auto|exact Logic.I]. now apply rows_insert.
    - intros [m it] [m' it'] [HM HI]. cbn in HM, HI. cbn [efinalize finalize MergeE Merge].
      assert (HL : rows R (match it with Some l => l | None => m end) (match it' with Some l => l | None => m' end)) by (destruct it, it'; tauto).
      destruct HL as [|[k0 v] [k1 v'] l l' [E HV] HL]; apply alike_pure; split; try split; cbn; auto. constructor.
  Qed.
  Lemma sim_compose {S1 S2 I M Q T1 T2 J N P} (R1 : S1 -> T1 -> Prop) (R2 : S2 -> T2 -> Prop) (RI : I -> J -> Prop) (RM : M -> N -> Prop) (RQ : Q -> P -> Prop) a b a' b' fuel :
    sim_adapter R1 RM RQ a a' -> sim_adapter R2 RI RM b b' -> sim_adapter (pair_rel R1 R2) RI RQ (AdapterE a b fuel) (Adapter a' b' fuel).
  Proof.
    intros [A1 F1] [A2 F2].
    split.
    - intros [s1 s2] [s1' s2'] x x' [H1 H2] HX. cbn in H1, H2. cbn [eadapt adapt AdapterE Adapter].
      eapply alike_bind; [now apply A2|]. intros [u o] [u' o'] [HU HO]. cbn in HU, HO.
      destruct o as [|[o|]], o' as [|[o'|]]; cbn in HO; try contradiction; try (apply alike_pure; repeat split; assumption).
      eapply alike_bind; [now apply A1|]. intros [w r] [w' r'] [HW HR]. cbn in *. apply alike_pure. repeat split; assumption.
    - intros [s1 s2] [s1' s2'] [H1 H2]. cbn in H1, H2. cbn [efinalize finalize AdapterE Adapter fst snd]. revert s1 s1' s2 s2' H1 H2.
      induction fuel as [|f IH]; intros s1 s1' s2 s2' H1 H2; cbn [compose_finalizeE compose_finalize]; [apply alike_fuel|].
      eapply alike_bind; [now apply F2|]. intros [u o] [u' o'] [HU HO]. cbn in HU, HO.
      destruct o as [|[o|]], o' as [|[o'|]]; cbn in HO; try contradiction; [| |now apply IH].
      + eapply alike_bind; [now apply F1|]. intros [w r] [w' r'] [HW HR]. cbn in *. apply alike_pure. repeat split; assumption.
      + eapply alike_bind; [now apply A1|]. intros [w r] [w' r'] [HW HR]. cbn in *. apply alike_pure. repeat split; assumption.
  Qed.
  Lemma sim_count {I J} (R : I -> J -> Prop) : sim_reducer eq R eq CountE Count.
  Proof.
    split.
    - intros s ? x x' <- HX. cbn. unfold ebind, pure. intros t. eexists _, _. split; reflexivity.
    - intros s ? <-. cbn. now apply alike_pure.
  Qed.
  Lemma sim_fork {S1 S2 I R1 R2 T1 T2 J P1 P2} (RS1 : S1 -> T1 -> Prop) (RS2 : S2 -> T2 -> Prop) (RI : I -> J -> Prop) (RR1 : R1 -> P1 -> Prop) (RR2 : R2 -> P2 -> Prop) r1 r2 q1 q2 :
    sim_reducer RS1 RI RR1 r1 q1 -> sim_reducer RS2 RI RR2 r2 q2 ->
    sim_reducer (pair_rel RS1 RS2) RI (pair_rel RR1 RR2) (ForkE (fun x => pure x) r1 r2) (Fork q1 q2).
  Proof.
    intros [N1 F1] [N2 F2]. split.
    - intros s s' x x' [H1 H2] HX. cbn [enext rnext ForkE Fork]. change (alike (pair_rel RS1 RS2)
        (ebind (enext r1 (fst s) x) (fun s1 => ebind (enext r2 (snd s) x) (fun s2 => pure (s1, s2)))) (let* s1 := rnext q1 (fst s') x' in let* s2 := rnext q2 (snd s') x' in Ret (s1, s2))).
      eapply alike_bind; [now apply N1|]. intros. eapply alike_bind; [now apply N2|]. intros. apply alike_pure. split; assumption.
    - intros s s' [H1 H2]. cbn [efinal rfinal ForkE Fork]. eapply alike_bind; [now apply F1|]. intros. eapply alike_bind; [now apply F2|]. intros. apply alike_pure. split; assumption.
  Qed.
  Lemma sim_split {K S I R T J P} cmp (RS : S -> T -> Prop) (RI : I -> J -> Prop) (RR : R -> P -> Prop) (ke : I -> eff nat K) k s0 s0' r q :
    (forall x y, RI x y -> alike eq (ke x) (k y)) -> RS s0 s0' -> sim_reducer RS RI RR r q ->
    sim_reducer (rows RS) RI (rows RR) (SplitE cmp ke (fun _ => pure s0) r) (Split cmp k (fun _ => s0') q).
  Proof.
    intros HK H0 [N F]. split.
    - intros m m' x x' HM HX. cbn [enext rnext SplitE Split]. eapply alike_bind; [now apply HK|]. intros key ? <-.
      change (alike (rows RS) (ebind (enext r match map_get cmp key m with Some s => s | None => s0 end x) (fun s' => pure (map_insert cmp key s' m)))
        (let* s' := rnext q match map_get cmp key m' with Some s => s | None => s0' end x' in Ret (map_insert cmp key s' m'))).
      eapply alike_bind.
      + apply N; [|exact HX]. pose proof (rows_get cmp RS key m m' HM). destruct (map_get cmp key m), (map_get cmp key m'); tauto.
      + intros. apply alike_pure. now apply rows_insert.
    - intros m m' HM. cbn [efinal rfinal SplitE Split].
      enough (E : forall acc acc', rows RR acc acc' -> alike (rows RR) (split_finalizeE cmp r m acc) (split_finalize cmp q m' acc')) by (apply E; constructor).
      induction HM as [|[k1 v] [k2 v'] m m' [E HV] HM IH]; intros acc acc' HA; cbn; [now apply alike_pure|]. cbn in E. subst k2.
      eapply alike_bind; [now apply F|]. intros. apply IH. now apply rows_insert.
  Qed.
  Lemma sim_over {S1 S2 I M R T1 T2 J N P} (R1 : S1 -> T1 -> Prop) (R2 : S2 -> T2 -> Prop) (RI : I -> J -> Prop) (RM : M -> N -> Prop) (RR : R -> P -> Prop) i a i' a' fuel :
    sim_reducer R1 RM RR i i' -> sim_adapter R2 RI RM a a' -> sim_reducer (pair_rel R1 R2) RI RR (ReducerOverE i a fuel) (ReducerOver i' a' fuel).
  Proof.
    intros [N1 F] [A1 F1]. split.
    - intros [s1 s2] [s1' s2'] x x' [H1 H2] HX. cbn in H1, H2. cbn [enext rnext ReducerOverE ReducerOver].
      eapply alike_bind; [now apply A1|]. intros [u o] [u' o'] [HU HO]. cbn in HU, HO.
      destruct o as [|[o|]], o' as [|[o'|]]; cbn in HO; try contradiction; try (apply alike_pure; split; assumption).
      eapply alike_bind; [now apply N1|]. intros. apply alike_pure. split; assumption.
    - intros [s1 s2] [s1' s2'] [H1 H2]. cbn in H1, H2. cbn [efinal rfinal ReducerOverE ReducerOver fst snd]. revert s1 s1' s2 s2' H1 H2.
      induction fuel as [|f IH]; intros s1 s1' s2 s2' H1 H2; cbn [reducer_finalizeE reducer_finalize]; [apply alike_fuel|].
      eapply alike_bind; [now apply F1|]. intros [u o] [u' o'] [HU HO]. cbn in HU, HO.
      destruct o as [|[o|]], o' as [|[o'|]]; cbn in HO; try contradiction; [now apply F| |now apply IH].
      eapply alike_bind; [now apply N1|]. intros. now apply IH.
  Qed.
  Lemma sim_countg {I J} (R : I -> J -> Prop) : sim_reducer (pair_rel eq anyunit) R eq (CountGE (I := I)) (CountG (I := J)).
  Proof. unfold CountGE, CountG. eapply sim_over; [apply (sim_count R)|apply sim_nil]. Qed.
End Adapters.
