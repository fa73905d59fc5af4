(** Iterators over the mapping, adapted and driven, deliver what ToolsModel.v computes on the collected sequence (C124). *)
From Verif Require Import Base GenModel TraceModel MappedModel MappedCmd ToolsModel SimFacts.

Section Feeds.
  Context {T A B : Type}.
  Variable R : A -> B -> Prop.
  Variable next : T -> act (T * option A).
  (** At its end, and stays there. *)
  Definition rests (s : T) : Prop := exists P : T -> Prop, P s /\ forall s, P s -> forall t, exists s' t', next s t = Ret ((s', None), t') /\ P s'.
  Lemma rests_step s t : rests s -> exists s' t', next s t = Ret ((s', None), t') /\ rests s'.
  Proof. intros (P & HP & H). destruct (H s HP t) as (s' & t' & E & HP'). exists s', t'. split; [exact E|]. exists P. auto. Qed.
  Lemma rests_intro s : (forall t, exists s' t', next s t = Ret ((s', None), t') /\ rests s') -> rests s.
  Proof.
    intros H. exists (fun s0 => s0 = s \/ rests s0). split; [now left|]. intros s0 [->|H0] t.
    - destruct (H t) as (s' & t' & E & HR). exists s', t'. auto.
    - destruct (rests_step s0 t H0) as (s' & t' & E & HR). exists s', t'. auto.
  Qed.
  (** Delivers items related to those of [l], and then panics or is at its end; the first call is [call]. *)
  Fixpoint feeds (s : T) (l : list B) (panics : bool) : Prop :=
    match l with
    | [] => if panics then forall t, next s t = Panic else rests s
    | y :: l' => forall t, exists x s' t', next s t = Ret ((s', Some x), t') /\ R x y /\ feeds s' l' panics
    end.
  Definition starts (call : T -> act (T * option A)) (s : T) (l : list B) (panics : bool) : Prop :=
    match l with
    | [] => forall t, if panics then call s t = Panic else exists s' t', call s t = Ret ((s', None), t') /\ rests s'
    | y :: l' => forall t, exists x s' t', call s t = Ret ((s', Some x), t') /\ R x y /\ feeds s' l' panics
    end.
  Lemma starts_feeds s l panics : starts next s l panics -> feeds s l panics.
  Proof. destruct l as [|y l]; cbn; [|auto]. destruct panics; [auto|]. apply rests_intro. Qed.
  Definition provides (k : nat) (s : T) (o : outcome (list B)) : Prop :=
    match o with
    | Ret l => length l <= k /\ feeds s l false
    | Panic => exists l, length l <= k /\ feeds s l true
    | Fuel => True
    end.
End Feeds.

Section Stages.
  Context {T A B : Type}.
  Variable R : A -> B -> Prop.
  Variable next : T -> act (T * option A).

  (** ** filter *)
  Section Filter.
    Variable p : A -> act bool.
    Variable f : B -> outcome bool.
    Hypothesis HP : forall x y, R x y -> alike eq (p x) (f y).
    Hypothesis HF : forall y, f y <> Fuel.
    Fixpoint sieve (l : list B) (panics : bool) : list B * bool :=
      match l with
      | [] => ([], panics)
      | y :: l' =>
          match f y with
          | Ret true => (y :: fst (sieve l' panics), snd (sieve l' panics))
          | Ret false => sieve l' panics
          | _ => ([], true)
          end
      end.
    Lemma sieve_length l panics : length (fst (sieve l panics)) <= length l.
    Proof. induction l as [|y l IH]; cbn; [lia|]. destruct (f y) as [[|]| |]; cbn; lia. Qed.
    Lemma sieve_panics l : snd (sieve l true) = true.
    Proof. induction l as [|y l IH]; cbn; [reflexivity|]. destruct (f y) as [[|]| |]; cbn; auto. Qed.
    Lemma sieve_filterM l : match filterM f l with Ret l' => sieve l false = (l', false) | Panic => snd (sieve l false) = true | Fuel => False end.
    Proof.
      induction l as [|y l IH]; cbn; [reflexivity|]. destruct (f y) as [[|]| |] eqn:E; cbn [obind]; [| |reflexivity|now apply (HF y)].
      - destruct (filterM f l) as [l'| |]; cbn [obind] in *; [now rewrite IH|exact IH|exact IH].
      - destruct (filterM f l) as [l'| |]; cbn [obind] in *; exact IH.
    Qed.
    Lemma filter_starts F : forall l s panics fuel, feeds R next s l panics -> length l < fuel -> length l < F ->
      starts R (filter_next next p F) (filter_next next p fuel) s (fst (sieve l panics)) (snd (sieve l panics)).
    Proof.
      induction l as [|y l IH]; intros s panics fuel FD L1 L2; (destruct fuel as [|fuel]; [cbn in L1; lia|]); cbn [length] in L1, L2.
      - cbn [sieve fst snd starts feeds] in *. intros t. cbn [filter_next]. unfold follow. destruct panics; [now rewrite FD|].
        destruct (rests_step next s t FD) as (s' & t' & E & RS). rewrite E. exists s', t'. split; [reflexivity|].
        apply rests_intro. intros t2. destruct F as [|F]; [lia|]. cbn [filter_next]. unfold follow.
        destruct RS as (P & H0 & HS). destruct (HS s' H0 t2) as (s2 & t3 & E2 & H2). rewrite E2. exists s2, t3. split; [reflexivity|].
        exists P. split; [exact H2|]. intros s3 H3 t4. destruct (HS s3 H3 t4) as (s4 & t5 & E4 & H4). exists s4, t5. cbn [filter_next]. unfold follow. rewrite E4. now split.
      - cbn [sieve feeds] in *.
        assert (ST : forall t, exists x s' t', next s t = Ret ((s', Some x), t') /\ R x y /\ feeds R next s' l panics) by exact FD.
        destruct (f y) as [[|]| |] eqn:EF.
        + cbn [fst snd starts]. intros t. destruct (ST t) as (x & s' & t' & E & HR & FD').
          pose proof (HP x y HR t') as AL. rewrite EF in AL. destruct AL as (b & t2 & EP & ->).
          exists x, s', t2. cbn [filter_next]. unfold follow. rewrite E, EP. split; [reflexivity|]. split; [exact HR|].
          apply starts_feeds. apply IH; [exact FD'|lia|lia].
        + assert (K : forall t, exists s' t2, filter_next next p (S fuel) s t = filter_next next p fuel s' t2 /\ feeds R next s' l panics).
          { intros t. destruct (ST t) as (x & s' & t' & E & HR & FD'). pose proof (HP x y HR t') as AL. rewrite EF in AL. destruct AL as (b & t2 & EP & ->).
            exists s', t2. cbn [filter_next]. unfold follow at 1 2. rewrite E, EP. now split. }
          unfold starts. destruct (fst (sieve l panics)) as [|z l'] eqn:EL; intros t; destruct (K t) as (s' & t2 & -> & FD');
            specialize (IH s' panics fuel FD' ltac:(lia) ltac:(lia)); rewrite EL in IH; exact (IH t2).
        + cbn [fst snd starts]. intros t. destruct (ST t) as (x & s' & t' & E & HR & FD'). pose proof (HP x y HR t') as AL. rewrite EF in AL.
          cbn [filter_next]. unfold follow. now rewrite E, AL.
        + now elim (HF y).
    Qed.
    Lemma filter_provides k F s o : k < F -> provides R next k s o -> provides R (filter_next next p F) k s (let* l := o in filterM f l).
    Proof.
      intros HK. destruct o as [l| |]; cbn [obind provides]; [| |auto].
      - intros [HL FD]. pose proof (filter_starts F l s false F FD ltac:(lia) ltac:(lia)) as ST. apply starts_feeds in ST.
        pose proof (sieve_length l false) as SL. pose proof (sieve_filterM l) as SF. destruct (filterM f l) as [l'| |]; cbn [provides]; [|exists (fst (sieve l false))|contradiction].
        + rewrite SF in ST, SL. cbn [fst snd] in *. split; [lia|exact ST].
        + rewrite SF in ST. split; [lia|exact ST].
      - intros (l & HL & FD). pose proof (filter_starts F l s true F FD ltac:(lia) ltac:(lia)) as ST. apply starts_feeds in ST.
        rewrite sieve_panics in ST. exists (fst (sieve l true)). pose proof (sieve_length l true). split; [lia|exact ST].
    Qed.
  End Filter.

  (** ** map *)
  Section Map.
    Context {A' B' : Type}.
    Variable R' : A' -> B' -> Prop.
    Variable p : A -> act A'.
    Variable f : B -> outcome B'.
    Hypothesis HP : forall x y, R x y -> alike R' (p x) (f y).
    Hypothesis HF : forall y, f y <> Fuel.
    Fixpoint mapped (l : list B) (panics : bool) : list B' * bool :=
      match l with
      | [] => ([], panics)
      | y :: l' => match f y with Ret z => (z :: fst (mapped l' panics), snd (mapped l' panics)) | _ => ([], true) end
      end.
    Lemma mapped_length l panics : length (fst (mapped l panics)) <= length l.
    Proof. induction l as [|y l IH]; cbn; [lia|]. destruct (f y) as [z| |]; cbn; lia. Qed.
    Lemma mapped_panics l : snd (mapped l true) = true.
    Proof. induction l as [|y l IH]; cbn; [reflexivity|]. destruct (f y); cbn; auto. Qed.
    Lemma mapped_mapM l : match mapM f l with Ret l' => mapped l false = (l', false) | Panic => snd (mapped l false) = true | Fuel => False end.
    Proof.
      induction l as [|y l IH]; cbn; [reflexivity|]. destruct (f y) as [z| |] eqn:E; cbn [obind]; [|reflexivity|now apply (HF y)].
      destruct (mapM f l) as [l'| |]; cbn [obind] in *; [now rewrite IH|exact IH|exact IH].
    Qed.
    Lemma map_feeds : forall l s panics, feeds R next s l panics -> feeds R' (map_next next p) s (fst (mapped l panics)) (snd (mapped l panics)).
    Proof.
      induction l as [|y l IH]; intros s panics FD; cbn [mapped feeds] in *.
      - cbn [fst snd feeds]. destruct panics.
        + intros t. unfold map_next, follow. now rewrite FD.
        + destruct FD as (P & H0 & HS). exists P. split; [exact H0|]. clear s H0. intros s H0 t. destruct (HS s H0 t) as (s' & t' & E & H1). exists s', t'. unfold map_next, follow. rewrite E. now split.
      - destruct (f y) as [z| |] eqn:EF; [| |now elim (HF y)].
        + cbn [fst snd feeds]. intros t. destruct (FD t) as (x & s' & t' & E & HR & FD'). pose proof (HP x y HR t') as AL. rewrite EF in AL. destruct AL as (b & t2 & EP & HB).
          exists b, s', t2. unfold map_next, follow. rewrite E, EP. split; [reflexivity|]. split; [exact HB|]. now apply IH.
        + cbn [fst snd feeds]. intros t. destruct (FD t) as (x & s' & t' & E & HR & FD'). pose proof (HP x y HR t') as AL. rewrite EF in AL. unfold map_next, follow. now rewrite E, AL.
    Qed.
    Lemma map_provides k s o : provides R next k s o -> provides R' (map_next next p) k s (let* l := o in mapM f l).
    Proof.
      destruct o as [l| |]; cbn [obind provides]; [| |auto].
      - intros [HL FD]. pose proof (map_feeds l s false FD) as ST. pose proof (mapped_length l false) as SL. pose proof (mapped_mapM l) as SF.
        destruct (mapM f l) as [l'| |]; cbn [provides]; [|exists (fst (mapped l false))|contradiction].
        + rewrite SF in ST, SL. cbn [fst snd] in *. split; [lia|exact ST].
        + rewrite SF in ST. split; [lia|exact ST].
      - intros (l & HL & FD). pose proof (map_feeds l s true FD) as ST. rewrite mapped_panics in ST. exists (fst (mapped l true)). pose proof (mapped_length l true). split; [lia|exact ST].
    Qed.
  End Map.

  (** ** groupby, pulled *)
  Section Group.
    Variable pe : A -> A -> act bool.
    Variable pr : B -> B -> outcome bool.
    Hypothesis HP : forall x x' y y', R x y -> R x' y' -> alike eq (pe x x') (pr y y').
    Hypothesis HF : forall y y', pr y y' <> Fuel.
    Fixpoint grouped (s : gstate B) (l : list B) : list (B * B) * bool :=
      match l with
      | [] =>
          match finalize (GroupBy pr) s with
          | Ret (_, Continue (Some o)) => ([o], false)
          | Ret _ => ([], false)
          | _ => ([], true)
          end
      | y :: l' =>
          match adapt (GroupBy pr) s y with
          | Ret (s', Continue (Some o)) => (o :: fst (grouped s' l'), snd (grouped s' l'))
          | Ret (s', _) => grouped s' l'
          | _ => ([], true)
          end
      end.
    Lemma group_no_break s y s' : adapt (GroupBy pr) s y <> Ret (s', Break).
    Proof.
      destruct s as [|p|p q]; cbn; [discriminate| |].
      - destruct (pr p y) as [[|]| |]; cbn; try discriminate. destruct (pr p p) as [[|]| |]; discriminate.
      - destruct (pr q y) as [[|]| |]; cbn; discriminate.
    Qed.
    Lemma group_no_fuel s y : adapt (GroupBy pr) s y <> Fuel.
    Proof.
      pose proof (HF) as HF'. destruct s as [|p|p q]; cbn; [discriminate| |].
      - destruct (pr p y) as [[|]| |] eqn:E; cbn; try discriminate; [|now elim (HF' p y)]. destruct (pr p p) as [[|]| |] eqn:E2; try discriminate. now elim (HF' p p).
      - destruct (pr q y) as [[|]| |] eqn:E; cbn; try discriminate. now elim (HF' q y).
    Qed.
    Lemma group_final s : (exists o, finalize (GroupBy pr) s = Ret (GEmpty, Continue (Some o))) \/ finalize (GroupBy pr) s = Ret (GEmpty, Break) \/ finalize (GroupBy pr) s = Panic.
    Proof.
      destruct s as [|p|p q]; cbn; [now right; left| |left; now eexists]. destruct (pr p p) as [[|]| |] eqn:E; cbn; [left; now eexists|now right; left|now right; right|].
      now elim (HF p p).
    Qed.
    Lemma grouped_length l : forall s, length (fst (grouped s l)) <= S (length l).
    Proof.
      induction l as [|y l IH]; intros s; cbn [grouped length].
      - destruct (finalize (GroupBy pr) s) as [[s' [|[o|]]]| |]; cbn [fst length]; lia.
      - destruct (adapt (GroupBy pr) s y) as [[s' [|[o|]]]| |]; cbn [fst length]; try (specialize (IH s'); lia); lia.
    Qed.
    Lemma grouped_collect : forall l s fuel, match collect (fun st => from_next (GroupBy pr) 2 (fst st) (snd st)) fuel (s, l) with
      | Ret q => grouped s l = (q, false) | Panic => snd (grouped s l) = true | Fuel => True end.
    Proof.
      induction l as [|y l IH]; intros s fuel.
      - assert (E0 : forall fuel, match collect (fun st => from_next (GroupBy pr) 2 (fst st) (snd st)) fuel (GEmpty, []) with Ret q => q = [] | Panic => False | Fuel => True end).
        { intros [|f]; [exact I|]. reflexivity. }
        destruct fuel as [|f]; [exact I|]. cbn [collect fst snd from_next from_finalize grouped].
        destruct (group_final s) as [[o E]|[E|E]]; rewrite E; cbn [obind fst snd]; try reflexivity.
        specialize (E0 f). destruct (collect _ f (GEmpty, [])) as [q| |]; cbn [obind]; [now subst|contradiction|exact I].
      - destruct fuel as [|f]; [exact I|]. cbn [collect fst snd from_next grouped].
        destruct (adapt (GroupBy pr) s y) as [[s' [|[o|]]]| |] eqn:E; cbn [obind fst snd].
        + now apply group_no_break in E.
        + specialize (IH s' f). destruct (collect _ f (s', l)) as [q| |]; cbn [obind]; [now rewrite IH|exact IH|exact I].
        + specialize (IH s' (S f)). cbn [collect fst snd] in IH. exact IH.
        + reflexivity.
        + exact I.
    Qed.
    Lemma pull_rests F st : 0 < F -> rests next st -> rests (pull_next next (GroupByE pe) F 2) (GEmpty, st).
    Proof.
      intros HF0 (P & H0 & HS). exists (fun x => fst x = GEmpty /\ P (snd x)). split; [now split|]. intros [g s] [E H1] t. cbn in E, H1. subst g.
      destruct (HS s H1 t) as (s' & t' & E & H2). destruct F as [|F]; [lia|]. cbn [pull_next snd fst]. unfold follow at 1. rewrite E.
      eexists _, _. split; [reflexivity|]. now split.
    Qed.
    Lemma pull_starts F : forall l g g' st fuel, group_rel R g g' -> feeds R next st l false -> length l < fuel -> length l < F ->
      starts (pair_rel R R) (pull_next next (GroupByE pe) F 2) (pull_next next (GroupByE pe) fuel 2) (g, st) (fst (grouped g' l)) (snd (grouped g' l)).
    Proof.
      pose proof (sim_groupby R pe pr HP) as [SA SF].
      induction l as [|y l IH]; intros g g' st fuel HG FD L1 L2; (destruct fuel as [|fuel]; [cbn in L1; lia|]); cbn [length] in L1, L2.
      - cbn [feeds grouped] in *.
        assert (ST : forall t, exists st' t', next st t = Ret ((st', None), t') /\ rests next st') by (intros t; now apply rests_step).
        destruct (group_final g') as [[o E]|[E|E]]; rewrite E; cbn [fst snd starts]; intros t; destruct (ST t) as (st' & t' & E1 & RS);
          pose proof (SF g g' HG t') as AL; rewrite E in AL; cbn [pull_next fst snd from_finalizeE]; unfold follow at 1; rewrite E1; unfold follow.
        + destruct AL as ([g2 fl] & t2 & EF & HG2 & HO). cbn in HG2, HO. rewrite EF. destruct fl as [|[o2|]]; try contradiction. destruct g2; try contradiction.
          exists o2, (GEmpty, st'), t2. split; [reflexivity|]. split; [exact HO|]. cbn [feeds]. apply pull_rests; [lia|exact RS].
        + destruct AL as ([g2 fl] & t2 & EF & HG2 & HO). cbn in HG2, HO. rewrite EF. destruct fl as [|[o2|]]; try contradiction. destruct g2; try contradiction.
          exists (GEmpty, st'), t2. split; [reflexivity|]. apply pull_rests; [lia|exact RS].
        + now rewrite AL.
      - cbn [feeds grouped] in *. destruct (adapt (GroupBy pr) g' y) as [[g2' [|[o|]]]| |] eqn:EA.
        + now apply group_no_break in EA.
        + cbn [fst snd starts]. intros t. destruct (FD t) as (x & st' & t' & E & HR & FD'). pose proof (SA g g' x y HG HR t') as AL. rewrite EA in AL.
          destruct AL as ([g2 fl] & t2 & EF & HG2 & HO). cbn in HG2, HO. destruct fl as [|[o2|]]; try contradiction.
          exists o2, (g2, st'), t2. cbn [pull_next fst snd]. unfold follow at 1 2. rewrite E, EF. split; [reflexivity|]. split; [exact HO|].
          apply starts_feeds. apply IH; [exact HG2|exact FD'|lia|lia].
        + assert (K : forall t, exists g2 st' t2, pull_next next (GroupByE pe) (S fuel) 2 (g, st) t = pull_next next (GroupByE pe) fuel 2 (g2, st') t2 /\ group_rel R g2 g2' /\ feeds R next st' l false).
          { intros t. destruct (FD t) as (x & st' & t' & E & HR & FD'). pose proof (SA g g' x y HG HR t') as AL. rewrite EA in AL.
            destruct AL as ([g2 fl] & t2 & EF & HG2 & HO). cbn in HG2, HO. destruct fl as [|[o2|]]; try contradiction.
            exists g2, st', t2. cbn [pull_next fst snd]. unfold follow at 1 2. rewrite E, EF. repeat split; assumption. }
          unfold starts. destruct (fst (grouped g2' l)) as [|z l'] eqn:EL; intros t; destruct (K t) as (g2 & st' & t2 & -> & HG2 & FD');
            specialize (IH g2 g2' st' fuel HG2 FD' ltac:(lia) ltac:(lia)); rewrite EL in IH; exact (IH t2).
        + cbn [fst snd starts]. intros t. destruct (FD t) as (x & st' & t' & E & HR & FD'). pose proof (SA g g' x y HG HR t') as AL. rewrite EA in AL.
          cbn [pull_next fst snd]. unfold follow at 1 2. now rewrite E, AL.
        + now apply group_no_fuel in EA.
    Qed.
    Lemma group_provides k F st l fuel : S k < F -> length l <= k -> feeds R next st l false ->
      provides (pair_rel R R) (pull_next next (GroupByE pe) F 2) (S k) (GEmpty, st) (from_adapt (GroupBy pr) 2 fuel GEmpty l).
    Proof.
      intros HK HL FD. pose proof (pull_starts F l GEmpty GEmpty st F Logic.I FD ltac:(lia) ltac:(lia)) as ST. apply starts_feeds in ST.
      pose proof (grouped_collect l GEmpty fuel) as GC. pose proof (grouped_length l GEmpty) as GL. unfold from_adapt.
      destruct (collect _ fuel (GEmpty, l)) as [q| |]; cbn [provides]; [| |exact I].
      - rewrite GC in ST, GL. cbn [fst snd] in *. split; [lia|exact ST].
      - rewrite GC in ST. eexists. split; [|exact ST]. lia.
    Qed.
  End Group.

  (** ** windows *)
  Lemma windows_some : forall l x x' s, R x x' -> feeds R next s l false -> feeds (pair_rel R R) (windows_next next) (Some x, s) (tuple_windows (x' :: l)) false.
  Proof.
    induction l as [|y l IH]; intros x x' s HX FD.
    - cbn [tuple_windows feeds] in *. destruct FD as (P & H0 & HS). exists (fun st => exists x s, st = (Some x, s) /\ P s). split; [now exists x, s|].
      clear x x' s HX H0. intros st (x & s & -> & H0) t. destruct (HS s H0 t) as (s' & t' & E & H1). cbn [windows_next fst snd]. unfold windows_next, follow. cbn [fst snd]. rewrite E.
      eexists _, _. split; [reflexivity|]. now exists x, s'.
    - cbn [tuple_windows]. cbn [feeds] in *. intros t. destruct (FD t) as (z & s' & t' & E & HR & FD').
      exists (x, z), (Some z, s'), t'. unfold windows_next, follow. cbn [fst snd]. rewrite E. split; [reflexivity|]. split; [now split|]. now apply IH.
  Qed.
  Lemma windows_feeds l s : feeds R next s l false -> feeds (pair_rel R R) (windows_next next) (None, s) (tuple_windows l) false.
  Proof.
    intros FD. destruct l as [|y [|z l]].
    - cbn [tuple_windows feeds] in *. destruct FD as (P & H0 & HS). exists (fun st => exists s, st = (None, s) /\ P s). split; [now exists s|].
      clear s H0. intros st (s & -> & H0) t. destruct (HS s H0 t) as (s' & t' & E & H1). unfold windows_next, follow. cbn [fst snd]. rewrite E. eexists _, _. split; [reflexivity|]. now exists s'.
    - cbn [tuple_windows feeds] in *. apply rests_intro. intros t. destruct (FD t) as (x & s' & t' & E & HR & RS). destruct (rests_step next s' t' RS) as (s2 & t2 & E2 & RS2).
      unfold windows_next, follow. cbn [fst snd]. rewrite E, E2. eexists _, _. split; [reflexivity|].
      destruct RS2 as (P & H0 & HS). exists (fun st => exists s, st = (None, s) /\ P s). split; [now exists s2|].
      clear - HS. intros st (s & -> & H0) t. destruct (HS s H0 t) as (s' & t' & E & H1). unfold windows_next, follow. cbn [fst snd]. rewrite E. eexists _, _. split; [reflexivity|]. now exists s'.
    - intros t. cbn [feeds] in FD. destruct (FD t) as (x & s' & t' & E & HR & FD'). destruct (FD' t') as (x2 & s2 & t2 & E2 & HR2 & FD2).
      exists (x, x2), (Some x2, s2), t2. unfold windows_next, follow. cbn [fst snd]. rewrite E, E2. split; [reflexivity|]. split; [now split|].
      change ((fix tw (l : list B) := tuple_windows l) (z :: l)) with (tuple_windows (z :: l)). now apply windows_some.
  Qed.
  Lemma windows_length {X} (l : list X) : length (tuple_windows l) <= length l.
  Proof. induction l as [|x l IH]; [cbn; lia|]. destruct l as [|y l]; [cbn; lia|]. cbn [tuple_windows length] in *. lia. Qed.

  (** ** consumers *)
  Lemma count_alike k F s o : k < F -> provides R next k s o -> alike eq (count_items next F s) (let* l := o in Ret (length l)).
  Proof.
    intros HK. destruct o as [l| |]; cbn [obind provides]; [| |intros; apply alike_fuel].
    - intros [HL FD]. assert (LF : length l < F) by lia. clear k HK HL. revert F s LF FD. induction l as [|y l IH]; intros F s LF FD t; (destruct F as [|F]; [cbn in LF; lia|]); cbn [count_items length] in *; unfold follow.
      + destruct (rests_step next s t FD) as (s' & t' & E & RS). rewrite E. now exists 0, t'.
      + cbn [feeds] in FD. destruct (FD t) as (x & s' & t' & E & HR & FD'). rewrite E. destruct (IH F s' ltac:(lia) FD' t') as (c & t2 & E2 & ->). rewrite E2. eexists _, _. split; reflexivity.
    - intros (l & HL & FD). assert (LF : length l < F) by lia. clear k HK HL. revert F s LF FD. induction l as [|y l IH]; intros F s LF FD t; (destruct F as [|F]; [cbn in LF; lia|]); cbn [count_items length feeds] in *; unfold follow.
      + now rewrite FD.
      + destruct (FD t) as (x & s' & t' & E & HR & FD'). rewrite E. now rewrite (IH F s' ltac:(lia) FD' t').
  Qed.
  Lemma reduce_alike {Acc Acc' Z Z'} (RS : Acc -> Acc' -> Prop) (RZ : Z -> Z' -> Prop) r q F : sim_reducer RS R RZ r q ->
    forall l s acc acc', length l < F -> feeds R next s l false -> RS acc acc' -> alike RZ (reduce_items next r F s acc) (run_reduce q acc' l).
  Proof.
    intros [N FN] l. revert F. induction l as [|y l IH]; intros F s acc acc' LF FD HS t; (destruct F as [|F]; [cbn in LF; lia|]); cbn [reduce_items length feeds] in *; unfold follow.
    - destruct (rests_step next s t FD) as (s' & t' & E & _). rewrite E. unfold run_reduce. cbn [feed obind]. exact (FN acc acc' HS t').
    - destruct (FD t) as (x & s' & t' & E & HR & FD'). rewrite E. unfold run_reduce. cbn [feed]. pose proof (N acc acc' x y HS HR t') as AL.
      destruct (rnext q acc' y) as [a'| |]; cbn [obind]; [|now rewrite AL|exact I]. destruct AL as (a & t2 & -> & HA). exact (IH F s' a a' ltac:(lia) FD' HA t2).
  Qed.
  Lemma reduce_panics {Acc Acc' Z Z'} (RS : Acc -> Acc' -> Prop) (RZ : Z -> Z' -> Prop) r q F : sim_reducer RS R RZ r q -> (forall a y, rnext q a y <> Fuel) ->
    forall l s acc acc', length l < F -> feeds R next s l true -> RS acc acc' -> forall t, reduce_items next r F s acc t = Panic.
  Proof.
    intros [N FN] NF l. revert F. induction l as [|y l IH]; intros F s acc acc' LF FD HS t; (destruct F as [|F]; [cbn in LF; lia|]); cbn [reduce_items length feeds] in *; unfold follow.
    - now rewrite FD.
    - destruct (FD t) as (x & s' & t' & E & HR & FD'). rewrite E. pose proof (N acc acc' x y HS HR t') as AL. pose proof (NF acc' y) as NF'.
      destruct (rnext q acc' y) as [a'| |]; [|now rewrite AL|congruence]. destruct AL as (a & t2 & -> & HA). exact (IH F s' a a' ltac:(lia) FD' HA t2).
  Qed.
  Lemma histogram_alike {K} (cmp : K -> K -> comparison) (ke : A -> act K) (kf : B -> outcome K) k F s o : k < F -> (forall x y, R x y -> alike eq (ke x) (kf y)) ->
    (forall y, kf y <> Fuel) -> provides R next k s o -> alike eq (histogram_items next cmp ke F s) (let* l := o in histogram cmp kf l).
  Proof.
    intros HK H NF PR.
    assert (SR : sim_reducer (rows (pair_rel eq anyunit)) R (rows eq) (SplitE cmp ke (fun _ => pure (0, tt)) CountGE) (Split cmp kf (fun _ => (0, tt)) CountG)).
    { apply sim_split; [exact H|split; reflexivity|apply sim_countg]. }
    destruct o as [l| |]; cbn [obind provides] in *; [| |apply alike_fuel].
    - destruct PR as [HL FD]. eapply alike_weak; [eapply (reduce_alike _ _ _ _ _ SR); [|exact FD|constructor]|]; [lia|]. intros a y E. now apply rows_eq.
    - destruct PR as (l & HL & FD). intros t. eapply (reduce_panics _ _ _ _ _ SR); [|  |exact FD|constructor]; [|lia].
      intros a y. cbn [rnext Split]. specialize (NF y). destruct (kf y) as [key| |]; cbn [obind]; [|discriminate|congruence].
      destruct (match map_get cmp key a with Some s => s | None => (0, tt) end) as [c u]. cbn. discriminate.
  Qed.
End Stages.
