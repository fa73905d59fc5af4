(** contained_by and partition_from for any well-implemented type (C78). *)
From Verif Require Import Base DltModel MatchModel Spec BaseFacts DltFacts FindFacts IterFacts GenericSpec GenericFacts.
From Coq Require Import Sorted ZifyBool ZifyNat ZifyN.

Section G.
  Context {T : Type}.
  Variable R : Readable T.
  Hypothesis W : implements_well R.
  Hypothesis A : reads_agree R.
  Notation mk := (marker R).
  Notation ml := (length (marker R)).
  Notation cbg b p0 p1 := (contained_by R (S p0) b p0 p1).

  Lemma try_occ b k : occ mk b k = true -> try_read R (skipn k b) = Ret (pure_read R (skipn k b)).
  Proof.
    intros O. rewrite <- (l_tv R _ (well_lawful R W)) by exact O.
    apply is_prefix_app in O. destruct O as [rest ->]. apply A.
  Qed.

  Section Scan.
    Variable b : bytes.
    Variables back p0 p1 : nat.
    Variable rec : nat -> nat -> outcome (option (nat * T)).
    Variable inner : nat -> option (nat * T).
    Hypothesis Hrec : forall i, i < p0 -> rec i (i + ml) = Ret (inner i).
    Definition sought (i n : nat) (t : T) : Prop :=
      i < p0 /\ reads R b i n t /\ p1 <= i + n /\ inner i = None.
    Lemma scan_gen : forall cs,
      StronglySorted lt cs -> (forall x, In x cs -> occ mk b (x + back) = true) ->
      (exists i n t, scan R rec b back p0 p1 cs = Ret (Some (i, t)) /\ sought i n t /\
         In (i - back) cs /\ back <= i /\
         forall x n' t', In x cs -> x + back < i -> ~ sought (x + back) n' t') \/
      (scan R rec b back p0 p1 cs = Ret None /\ forall x n t, In x cs -> ~ sought (x + back) n t).
    Proof.
      induction cs as [|x cs IH]; intros S O; [right; split; [reflexivity|intros ? ? ? []]|].
      cbn [scan]. inversion S as [|? ? S' F]; subst. rewrite Forall_forall in F.
      specialize (IH S' (fun y H => O y (or_intror H))).
      pose proof (O x (or_introl eq_refl)) as Ox.
      pose proof (occ_len mk b (x + back) (mk_pos R W) Ox) as Lx.
      destruct (Nat.leb_spec p0 (x + back)) as [K|K].
      { right. split; [reflexivity|]. intros y n t [<-|I] (Wx & _); [lia|]. specialize (F y I). lia. }
      rewrite slice_from_ok by lia. cbn [obind]. rewrite (try_occ b _ Ox). cbn [obind].
      assert (NEXT : (forall n t, ~ sought (x + back) n t) ->
        (exists i n t, scan R rec b back p0 p1 cs = Ret (Some (i, t)) /\ sought i n t /\
           In (i - back) (x :: cs) /\ back <= i /\
           forall y n' t', In y (x :: cs) -> y + back < i -> ~ sought (y + back) n' t') \/
        (scan R rec b back p0 p1 cs = Ret None /\ forall y n t, In y (x :: cs) -> ~ sought (y + back) n t)).
      { intros NW. destruct IH as [(i & n & t & I1 & I2 & I3 & I4 & I5)|(I1 & I2)].
        - left. exists i, n, t. split; [exact I1|]. split; [exact I2|]. split; [now right|]. split; [exact I4|].
          intros y n' t' [<-|I] L; [apply NW|now apply I5].
        - right. split; [exact I1|]. intros y n t [<-|I]; [apply NW|now apply I2]. }
      destruct (pure_read R (skipn (x + back) b)) as [[n v]|] eqn:P.
      2:{ apply NEXT. intros n t (_ & Q & _). apply (cand_reads R W) in Q. destruct Q as [_ Q]. congruence. }
      assert (C : reads R b (x + back) n v) by (apply (cand_reads R W); split; assumption).
      destruct (reads_bounds R W b _ n v C) as (B1 & B2 & B3). rewrite B1.
      destruct (Nat.leb_spec p1 (x + back + n)) as [Q|Q].
      2:{ apply NEXT. intros n' t' (_ & C' & Q' & _).
          destruct (reads_fun R b _ _ _ _ _ C C') as [<- _]. lia. }
      rewrite Hrec by exact K. cbn [obind].
      destruct (inner (x + back)) as [w|] eqn:In.
      { apply NEXT. intros n' t' (_ & _ & _ & Q'). congruence. }
      left. exists (x + back), n, v. split; [reflexivity|]. split; [split; [exact K|split; [exact C|split; [exact Q|exact In]]]|].
      split; [left; lia|]. split; [lia|].
      intros y n' t' [<-|I] L; [lia|]. specialize (F y I). lia.
    Qed.
  End Scan.

  Lemma contained_total b : forall p0 p1, exists r,
    forall fuel, p0 < fuel -> contained_by R fuel b p0 p1 = Ret r.
  Proof.
    induction p0 as [p0 IH] using lt_wf_ind. intros p1.
    assert (IN : exists inner, forall fuel i, i < p0 -> i < fuel -> contained_by R fuel b i (i + ml) = Ret (inner i)).
    { exists (fun i => match cbg b i (i + ml) with Ret r => r | _ => None end).
      intros fuel i Hi Hf. destruct (IH i Hi (i + ml)) as [r E]. now rewrite !E by lia. }
    destruct IN as [inner IN].
    destruct ((length b <=? p0) || (length b <=? p1) || (p1 <=? p0) || (p1 =? 0)) eqn:G.
    { exists None. intros [|fuel] Hf; [lia|]. cbn [contained_by]. now rewrite G. }
    assert (Hp : p0 < length b).
    { destruct (Nat.leb_spec (length b) p0); [discriminate|assumption]. }
    pose (back := p0 - max_len R).
    assert (SS : forall fuel, p0 <= fuel ->
      exists r, scan R (contained_by R fuel b) b back p0 p1 (find_iter mk (skipn back b)) = Ret r /\
        scan R (contained_by R fuel b) b back p0 p1 (find_iter mk (skipn back b)) =
        scan R (fun i _ => Ret (inner i)) b back p0 p1 (find_iter mk (skipn back b))).
    { intros fuel Hf.
      assert (Hs : StronglySorted lt (find_iter mk (skipn back b)))
        by (apply find_iter_sorted; [apply (mk_pos R W)|apply (l_overlap _ _ (well_lawful R W))]).
      assert (Ho : forall x, In x (find_iter mk (skipn back b)) -> occ mk b (x + back) = true).
      { intros x I. apply find_iter_in in I; [|apply (mk_pos R W)|apply (l_overlap _ _ (well_lawful R W))].
        rewrite occ_skipn in I. now rewrite Nat.add_comm. }
      assert (H1 : forall i, i < p0 -> contained_by R fuel b i (i + ml) = Ret (inner i)) by (intros; apply IN; lia).
      assert (EQ : forall cs, (forall x, In x cs -> occ mk b (x + back) = true) ->
        scan R (contained_by R fuel b) b back p0 p1 cs = scan R (fun i _ => Ret (inner i)) b back p0 p1 cs).
      { induction cs as [|x cs IHc]; intros O; [reflexivity|]. cbn [scan].
        destruct (Nat.leb_spec p0 (x + back)) as [K|K]; [reflexivity|].
        rewrite IHc by (intros; apply O; now right).
        rewrite H1 by exact K. reflexivity. }
      rewrite (EQ _ Ho).
      destruct (scan_gen b back p0 p1 (fun i _ => Ret (inner i)) inner (fun i _ => eq_refl) _ Hs Ho)
        as [(i & n & t & -> & _)|(-> & _)]; eexists; split; reflexivity. }
    destruct (SS p0 (le_n _)) as (r & R1 & R2). exists r. intros [|fuel] Hf; [lia|].
    cbn [contained_by]. rewrite G. fold back. rewrite slice_from_ok by (unfold back; lia). cbn [obind].
    destruct (SS fuel ltac:(lia)) as (r' & _ & R2'). rewrite R2', <- R2. exact R1.
  Qed.
  Lemma cbg_fuel b p0 p1 fuel : p0 < fuel -> contained_by R fuel b p0 p1 = cbg b p0 p1.
  Proof. intros H. destruct (contained_total b p0 p1) as [r E]. now rewrite !E by lia. Qed.

  Definition outer_g (b : bytes) (i : nat) : Prop :=
    (exists n t, reads R b i n t) /\ cbg b i (i + ml) = Ret None.

  Lemma cbg_spec b p0 p1 : p0 < p1 -> p1 < length b ->
    (exists i n t, cbg b p0 p1 = Ret (Some (i, t)) /\ p0 - max_len R <= i < p0 /\ outer_g b i /\ reads R b i n t /\
       p1 <= i + n /\
       forall j n' t', p0 - max_len R <= j < i -> outer_g b j -> reads R b j n' t' -> j + n' < p1) \/
    (cbg b p0 p1 = Ret None /\
       forall j n' t', p0 - max_len R <= j < p0 -> outer_g b j -> reads R b j n' t' -> j + n' < p1).
  Proof.
    intros H1 H2. cbn [contained_by].
    destruct (Nat.leb_spec (length b) p0) as [|_]; [lia|].
    destruct (Nat.leb_spec (length b) p1) as [|_]; [lia|].
    destruct (Nat.leb_spec p1 p0) as [|_]; [lia|].
    destruct (Nat.eqb_spec p1 0) as [|_]; [lia|]. cbn [orb].
    set (back := p0 - max_len R). rewrite slice_from_ok by (unfold back; lia). cbn [obind].
    pose (inner := fun i => match cbg b i (i + ml) with Ret r => r | _ => None end).
    assert (Hi : forall i, cbg b i (i + ml) = Ret (inner i)).
    { intros i. unfold inner. destruct (contained_total b i (i + ml)) as [r E]. now rewrite E by lia. }
    assert (Hs : StronglySorted lt (find_iter mk (skipn back b)))
      by (apply find_iter_sorted; [apply (mk_pos R W)|apply (l_overlap _ _ (well_lawful R W))]).
    assert (Ho : forall x, In x (find_iter mk (skipn back b)) <-> occ mk b (x + back) = true).
    { intros x. rewrite find_iter_in; [|apply (mk_pos R W)|apply (l_overlap _ _ (well_lawful R W))].
      now rewrite occ_skipn, Nat.add_comm. }
    assert (Wn : forall j n t, back <= j < p0 -> outer_g b j -> reads R b j n t -> p1 <= j + n ->
       sought b p0 p1 inner j n t /\ In (j - back) (find_iter mk (skipn back b))).
    { intros j n t Hj [_ O] C L. split.
      - split; [lia|]. split; [exact C|]. split; [exact L|]. rewrite Hi in O. congruence.
      - apply Ho. replace (j - back + back) with j by lia. apply (occ_at R W), C. }
    destruct (scan_gen b back p0 p1 (contained_by R p0 b) inner
        (fun i Hl => eq_trans (cbg_fuel b i (i + ml) p0 Hl) (Hi i)) _ Hs (fun x => proj1 (Ho x)))
      as [(i & n & t & E & (W1 & W2 & W3 & W4) & I & B & F)|(E & F)].
    - left. exists i, n, t. split; [exact E|]. split; [lia|].
      split; [split; [now exists n, t|rewrite Hi; congruence]|]. split; [exact W2|]. split; [exact W3|].
      intros j n' t' Hj O C. destruct (le_lt_dec p1 (j + n')) as [L|L]; [|exact L]. exfalso.
      destruct (Wn j n' t') as [Wj Ij]; [lia|exact O|exact C|exact L|].
      apply (F (j - back) n' t' Ij); [lia|]. now replace (j - back + back) with j by lia.
    - right. split; [exact E|]. intros j n' t' Hj O C.
      destruct (le_lt_dec p1 (j + n')) as [L|L]; [|exact L]. exfalso.
      destruct (Wn j n' t') as [Wj Ij]; [lia|exact O|exact C|exact L|].
      apply (F (j - back) n' t' Ij). now replace (j - back + back) with j by lia.
  Qed.

  Lemma outer_g_law b : outermost_items R b (outer_g b).
  Proof.
    intros i. split.
    - intros [C E]. split; [exact C|]. destruct C as (n & t & C).
      destruct (reads_bounds R W b i n t C) as (B1 & B2 & B3).
      intros j n' t' O C' L1 L2. pose proof (mk_pos R W) as MP.
      destruct (cbg_spec b i (i + ml) ltac:(lia) ltac:(lia)) as [(i' & n1 & t1 & E' & _)|(_ & F)]; [congruence|].
      apply (F j n' t'); [lia|exact O|exact C'].
    - intros [C F]. split; [exact C|]. destruct C as (n & t & C).
      destruct (reads_bounds R W b i n t C) as (B1 & B2 & B3). pose proof (mk_pos R W) as MP.
      destruct (cbg_spec b i (i + ml) ltac:(lia) ltac:(lia)) as [(i' & n' & t' & E' & H1 & H2 & H3 & H4 & _)|(E & _)]; [|exact E].
      assert (i' + n' < i + ml); [|lia]. apply (F i' n' t' H2 H3); lia.
  Qed.
  Lemma outer_unique b o o' : outermost_items R b o -> outermost_items R b o' -> forall i, o i <-> o' i.
  Proof.
    intros L L'. induction i as [i IH] using lt_wf_ind. rewrite (L i), (L' i).
    split; intros [A1 B1]; (split; [exact A1|]); intros j n v Oj M Lt Wj; apply (B1 j n v); try assumption; now apply IH.
  Qed.

  Definition cut_g (b : bytes) (c : nat) : nat :=
    match cbg b c (c + 1) with Ret (Some (k, _)) => k | _ => c end.
  Lemma cut_g_le b c : cut_g b c <= c.
  Proof.
    unfold cut_g. destruct (le_lt_dec (length b) (c + 1)) as [L|L].
    { cbn [contained_by]. destruct (Nat.leb_spec (length b) (c + 1)); [|lia].
      rewrite Bool.orb_true_r. cbn. lia. }
    destruct (cbg_spec b c (c + 1) ltac:(lia) L) as [(i & n & t & -> & H & _)|(-> & _)]; lia.
  Qed.
  Lemma cut_g_point b p : cut_point R b (outer_g b) p (cut_g b p).
  Proof.
    unfold cut_point, cut_g. destruct (le_lt_dec (length b) (p + 1)) as [L|L].
    { right. split; [|now left]. cbn [contained_by]. destruct (Nat.leb_spec (length b) (p + 1)); [|lia].
      rewrite Bool.orb_true_r. reflexivity. }
    destruct (cbg_spec b p (p + 1) ltac:(lia) L) as [(i & n & t & -> & A1 & A2 & A3 & A4 & A5)|(-> & A5)].
    - left. split; [exact L|]. split.
      + split; [exact A2|]. split; [lia|]. split; [lia|]. now exists n, t.
      + intros j Hj (O & L1 & L2 & n' & t' & C & Q). assert (j + n' < p + 1); [|lia]. apply (A5 j n' t'); [lia|exact O|exact C].
    - right. split; [reflexivity|]. right. intros j (O & L1 & L2 & n' & t' & C & Q). assert (j + n' < p + 1); [|lia].
      apply (A5 j n' t'); [lia|exact O|exact C].
  Qed.

  Lemma partition_g_step fuel b size c0 c1 :
    partition_loop R (S fuel) b size c0 c1 =
    if (length b <? c0) || (length b <? c1) then Ret []
    else if cut_g b c1 <=? c0 then Ret []
    else if length b <=? cut_g b c1 + size / 4 then Ret [skipn c0 b]
    else match partition_loop R fuel b size (cut_g b c1) (cut_g b c1 + size) with
         | Ret rest => Ret (firstn (cut_g b c1 - c0) (skipn c0 b) :: rest)
         | Panic => Panic | Fuel => Fuel end.
  Proof.
    cbn [partition_loop]. destruct (Nat.ltb_spec (length b) c0) as [L|L]; [reflexivity|].
    destruct (Nat.ltb_spec (length b) c1) as [L'|L']; [reflexivity|]. cbn [orb].
    assert (E : exists r, cbg b c1 (c1 + 1) = Ret r).
    { destruct (contained_total b c1 (c1 + 1)) as [r E]. exists r. apply E. lia. }
    destruct E as [r E]. rewrite E. cbn [obind].
    assert (C : cut_g b c1 = match r with Some (k, _) => k | None => c1 end).
    { unfold cut_g. rewrite E. now destruct r as [[k t]|]. }
    rewrite <- C. pose proof (cut_g_le b c1) as CL.
    destruct (Nat.leb_spec (cut_g b c1) c0) as [K|K]; [reflexivity|].
    rewrite slice_from_ok by lia. rewrite slice_ok by lia. cbn [obind]. reflexivity.
  Qed.
  Lemma loop_g b size : forall fuel c0 c1, length b - c0 < fuel -> c0 <= c1 ->
    exists l, partition_loop R fuel b size c0 c1 = Ret l /\ parts_from R b (outer_g b) size c0 c1 l.
  Proof.
    induction fuel as [|fuel IH]; intros c0 c1 H Hc; [lia|]. rewrite partition_g_step.
    pose proof (cut_g_le b c1) as CL. pose proof (cut_g_point b c1) as CA.
    destruct (Nat.ltb_spec (length b) c1) as [L1|L1].
    { rewrite Bool.orb_true_r. exists []. split; [reflexivity|now apply parts_past]. }
    destruct (Nat.ltb_spec (length b) c0) as [L0|L0]; [lia|]. cbn [orb].
    destruct (Nat.leb_spec (cut_g b c1) c0) as [Q|Q].
    { exists []. split; [reflexivity|]. now apply (parts_stuck R b _ size c0 c1 (cut_g b c1)). }
    destruct (Nat.leb_spec (length b) (cut_g b c1 + size / 4)) as [E|E].
    { eexists. split; [reflexivity|]. now apply (parts_last R b _ size c0 c1 (cut_g b c1)). }
    destruct (IH (cut_g b c1) (cut_g b c1 + size)) as (l & -> & P); [lia|lia|].
    eexists. split; [reflexivity|]. now apply (parts_next R b _ size c0 c1 (cut_g b c1)).
  Qed.
  Lemma partition_g b num : 0 < num ->
    exists l, partition_from R b num = Ret l /\ parts_from R b (outer_g b) (length b / num) 0 (length b / num) l.
  Proof.
    intros H. unfold partition_from. destruct (Nat.eqb_spec num 0); [lia|]. apply loop_g; [lia|apply Nat.le_0_l].
  Qed.

  Lemma cut_point_fun b o p c c' : cut_point R b o p c -> cut_point R b o p c' -> c = c'.
  Proof.
    intros [(A1 & B1 & C1)|(-> & A1)] [(A' & B' & C')|(-> & A')]; try reflexivity.
    - destruct (lt_eq_lt_dec c c') as [[H|H]|H]; [destruct (C' c H B1)|exact H|destruct (C1 c' H B')].
    - destruct A' as [A'|A']; [lia|destruct (A' c B1)].
    - destruct A1 as [A1|A1]; [lia|destruct (A1 c' B')].
  Qed.
  Lemma parts_from_fun b o size start p l l' : parts_from R b o size start p l -> parts_from R b o size start p l' -> l = l'.
  Proof.
    intros H. revert l'. induction H as [start p H|start p c H C Q|start p c H C Q E|start p c l H C Q E P IH]; intros l' H';
      inversion H' as [s1 p1 H1|s1 p1 c1 H1 C1 Q1|s1 p1 c1 H1 C1 Q1 E1|s1 p1 c1 l1 H1 C1 Q1 E1 P1]; subst; try lia;
      try (assert (c = c1) by (now apply (cut_point_fun b o p)); subst c1); try reflexivity; try lia.
    f_equal. now apply IH.
  Qed.
  Lemma parts_from_ext b o o' size start p l : (forall i, o i <-> o' i) -> parts_from R b o size start p l -> parts_from R b o' size start p l.
  Proof.
    intros X.
    assert (H : forall p j, holds R b o p j <-> holds R b o' p j) by (intros; unfold holds; now rewrite X).
    assert (C : forall p c, cut_point R b o p c -> cut_point R b o' p c).
    { intros q c [(A1 & B1 & C1)|(-> & [A1|A1])].
      - left. split; [exact A1|]. split; [now apply H|]. intros j Hj Q. apply (C1 j Hj). now apply H.
      - right. split; [reflexivity|now left].
      - right. split; [reflexivity|]. right. intros j Q. apply (A1 j). now apply H. }
    induction 1 as [start p Hp|start p c Hp Cp Q|start p c Hp Cp Q E|start p c l Hp Cp Q E P IH].
    - now apply parts_past.
    - apply (parts_stuck R b o' size start p c); auto.
    - apply (parts_last R b o' size start p c); auto.
    - apply (parts_next R b o' size start p c); auto.
  Qed.
End G.
