From Verif Require Import Base DltModel MatchModel Spec BaseFacts DltFacts FindFacts IterFacts DltIterFacts ReadSpec ReadFacts CodecFacts LayoutFacts EditSpec.

Lemma chain_placed b off l : dchain b off l -> exists ms, shows l ms /\ Forall (fun p => message_at b (fst p) (snd p)) ms.
Proof.
  induction 1 as [off N|off k F P|off k n v l F P C (ms & S & A)].
  - exists []. split; constructor.
  - exists []. split; constructor.
  - assert (Cd : dcand b k n v) by (split; [apply F|exact P]).
    apply dcand_iff in Cd. destruct Cd as (m & Mk & Lm & D). exists ((k, m) :: ms).
    split; constructor; auto.
Qed.
Lemma message_at_firstn b c k m : message_at (firstn c b) k m <-> message_at b k m /\ k + length m <= c.
Proof.
  split.
  - intros H. pose proof (message_at_prefix _ _ _ H) as [L _]. rewrite firstn_length in L. split; [|lia].
    destruct H as (V & pre & post & E & Lp). split; [exact V|]. exists pre, (post ++ skipn c b). split; [|exact Lp].
    rewrite <- (firstn_skipn c b) at 1. rewrite E. now rewrite <- !app_assoc.
  - intros [(V & pre & post & -> & Lp) L]. split; [exact V|].
    exists pre, (firstn (c - length pre - length m) post). split; [|exact Lp].
    rewrite firstn_app, firstn_all2 by lia. f_equal. rewrite firstn_app, firstn_all2 by lia. reflexivity.
Qed.

(** * Cutting (C89) *)
Lemma cut_chain b c off l ms : dchain b off l -> shows l ms -> Forall (fun p => message_at b (fst p) (snd p)) ms ->
  exists l', dchain (firstn c b) off l' /\ shows l' (within c ms).
Proof.
  intros C. revert ms. induction C as [off N|off k F P|off k n v l F P C IH]; intros ms S A.
  - inversion S; subst. exists []. split; [|constructor]. constructor. intros j Hj.
    destruct (occ (marker DLT) (firstn c b) j) eqn:E; [|reflexivity].
    apply occ_firstn_inv in E; [|cbn; lia]. destruct E as [_ E]. now rewrite N in E.
  - inversion S; subst. exists []. split; [|constructor].
    destruct F as (F1 & F2 & F3). destruct (le_lt_dec (k + 4) c) as [Hc|Hc].
    + apply (chain_stop DLT parse _ _ k).
      * split; [exact F1|]. split; [rewrite occ_firstn; [exact F2|cbn; lia]|].
        intros j Hj. rewrite occ_firstn by (cbn; lia). now apply F3.
      * destruct (parse (skipn k (firstn c b))) as [[n v]|] eqn:E; [|reflexivity]. exfalso.
        assert (Cd : dcand (firstn c b) k n v) by (split; [rewrite occ_firstn; [exact F2|cbn; lia]|exact E]).
        apply dcand_iff in Cd. destruct Cd as (m & Mk & Lm & D). apply message_at_firstn in Mk. destruct Mk as [Mk _].
        assert (Cd : dcand b k n v) by (apply dcand_iff; exists m; auto). destruct Cd as [_ Cd]. congruence.
    + constructor. intros j Hj. destruct (occ (marker DLT) (firstn c b) j) eqn:E; [|reflexivity].
      apply occ_firstn_inv in E; [|cbn; lia]. destruct E as [E0 E]. cbn in E0. rewrite F3 in E by lia. discriminate.
  - inversion S as [|x [k' m] l1 ms1 [E1 D] S1]; subst. cbn [fst snd] in E1, D. subst k'.
    inversion A as [|x y Mk A1]; subst. cbn [fst snd] in Mk.
    assert (Cd : dcand b k n v) by (split; [apply F|exact P]).
    apply dcand_iff in Cd. destruct Cd as (m' & Mk' & Lm & D').
    pose proof (message_at_fun _ _ _ _ Mk Mk'). subst m'.
    destruct F as (F1 & F2 & F3). destruct (IH ms1 S1 A1) as (l' & C' & S'). unfold within in *. cbn [filter fst snd].
    destruct (Nat.leb_spec (k + length m) c) as [Hc|Hc].
    + exists ((k, v) :: l'). split; [|constructor; [split; auto|exact S']].
      assert (Mc : message_at (firstn c b) k m) by now apply message_at_firstn.
      assert (Cd : dcand (firstn c b) k n v) by (apply dcand_iff; exists m; auto). destruct Cd as [O1 P1].
      apply (chain_step DLT parse _ _ k n v); [|exact P1|exact C'].
      split; [exact F1|]. split; [exact O1|]. intros j Hj. rewrite occ_firstn; [now apply F3|].
      destruct Mk as [(_ & V & _) _]. cbn. lia.
    + assert (Z : filter (fun p : nat * bytes => fst p + length (snd p) <=? c) ms1 = []).
      { clear - S1 C Hc Lm. assert (Q : forall i e, In (i, e) l -> k + length m <= i).
        { pose proof (chain_items DLT parse dlt_lawful _ _ _ C) as [_ O]. subst n. intros i e I. clear - O I. revert O. generalize (k + length m).
          induction l as [|[i' e'] l IH]; intros o O; [destruct I|]. destruct O as (O1 & O2).
          destruct I as [I|I]; [injection I as -> ->; exact O1|]. specialize (IH I _ O2). lia. }
        clear C. induction S1 as [|[i e] [i' m'] l ms1 [E1 D] S1 IH]; [reflexivity|]. cbn [filter fst snd] in *.
        subst i'. specialize (Q i e (or_introl eq_refl)) as Q1.
        destruct (Nat.leb_spec (i + length m') c); [lia|]. apply IH. intros i0 e0 I. apply (Q i0 e0). now right. }
      exists []. split; [|match goal with |- shows [] ?x => replace x with (@nil (nat * bytes)) by (symmetry; exact Z) end; constructor]. destruct (le_lt_dec (k + 4) c) as [H4|H4].
      * apply (chain_stop DLT parse _ _ k).
        -- split; [exact F1|]. split; [rewrite occ_firstn; [exact F2|cbn; lia]|].
           intros j Hj. rewrite occ_firstn by (cbn; lia). now apply F3.
        -- destruct (parse (skipn k (firstn c b))) as [[n1 v1]|] eqn:E; [|reflexivity]. exfalso.
           assert (Cd : dcand (firstn c b) k n1 v1) by (split; [rewrite occ_firstn; [exact F2|cbn; lia]|exact E]).
           apply dcand_iff in Cd. destruct Cd as (m1 & Mk1 & Lm1 & D1). apply message_at_firstn in Mk1. destruct Mk1 as [Mk1 L1].
           pose proof (message_at_fun _ _ _ _ Mk Mk1). subst m1. lia.
      * constructor. intros j Hj. destruct (occ (marker DLT) (firstn c b) j) eqn:E; [|reflexivity].
        apply occ_firstn_inv in E; [|cbn; lia]. destruct E as [E0 E]. cbn in E0. rewrite F3 in E by lia. discriminate.
Qed.
Lemma cut_read b : exists l ms, dltit_offset b = Ret l /\ shows l ms /\ (forall k m, In (k, m) ms -> message_at b k m) /\
  forall c, exists l', dltit_offset (firstn c b) = Ret l' /\ shows l' (within c ms).
Proof.
  destruct (dltit_offset_total b) as (l & E & C). destruct (chain_placed _ _ _ C) as (ms & S & A).
  exists l, ms. split; [exact E|]. split; [exact S|]. split.
  - rewrite Forall_forall in A. intros k m I. exact (A _ I).
  - intros c. destruct (cut_chain b c 0 l ms C S A) as (l' & C' & S'). exists l'. split; [|exact S']. now apply dltit_offset_chain.
Qed.

(** * Overwriting payloads (C90) *)
Lemma nth_ext_error {A} (l l' : list A) : (forall j, nth_error l j = nth_error l' j) -> l = l'.
Proof.
  revert l'. induction l as [|x l IH]; intros [|y l'] H; [reflexivity|discriminate (H 0)|discriminate (H 0)|].
  pose proof (H 0) as H0. injection H0 as ->. f_equal. apply IH. intros j. exact (H (S j)).
Qed.
Lemma nth_error_skipn {A} (l : list A) k : forall j, nth_error (skipn k l) j = nth_error l (k + j).
Proof. revert l. induction k as [|k IH]; intros [|x l] j; cbn; try reflexivity; [now destruct j|apply IH]. Qed.
Lemma nth_error_firstn {A} (l : list A) n : forall j, nth_error (firstn n l) j = if j <? n then nth_error l j else None.
Proof.
  revert l. induction n as [|n IH]; intros [|x l] [|j]; cbn [firstn nth_error]; try reflexivity.
  - now destruct (S j <? S n).
  - rewrite IH. reflexivity.
Qed.
Lemma range_eq {A} (b b' : list A) k n : (forall j, k <= j < k + n -> nth_error b' j = nth_error b j) ->
  firstn n (skipn k b') = firstn n (skipn k b).
Proof.
  intros H. apply nth_ext_error. intros j. rewrite !nth_error_firstn, !nth_error_skipn.
  destruct (Nat.ltb_spec j n); [apply H; lia|reflexivity].
Qed.
Lemma occ_range b b' k : firstn 4 (skipn k b') = firstn 4 (skipn k b) -> occ the_pattern b' k = occ the_pattern b k.
Proof.
  intros E. destruct (occ the_pattern b k) eqn:O.
  - apply is_prefix_firstn in O. apply is_prefix_firstn. cbn [length the_pattern] in *. congruence.
  - destruct (occ the_pattern b' k) eqn:O'; [|reflexivity]. exfalso. apply is_prefix_firstn in O'.
    cbn [length the_pattern] in *. rewrite E in O'. change 4 with (length the_pattern) in O'. apply is_prefix_firstn in O'. congruence.
Qed.
Lemma nth_firstn_eq {A} (m m' : list A) n j d : firstn n m = firstn n m' -> j < n -> nth j m d = nth j m' d.
Proof.
  revert m m' j. induction n as [|n IH]; intros [|x m] [|y m'] [|j] E L; try lia; try reflexivity; try discriminate E.
  - injection E as ->; reflexivity.
  - cbn. apply (IH m m' j); [now injection E|lia].
Qed.
Lemma valid_same_head m m' : valid_message m -> length m' = length m -> firstn 20 m' = firstn 20 m -> valid_message m'.
Proof.
  intros (V1 & V2 & V3) L E. split; [|split; [lia|]].
  - rewrite <- V1. replace (firstn 4 m') with (firstn 4 (firstn 20 m')) by now rewrite firstn_firstn. rewrite E. now rewrite firstn_firstn.
  - rewrite L, <- V3. unfold u16_at, byte_at.
    rewrite (nth_firstn_eq m' m 20 18 _ E ltac:(lia)), (nth_firstn_eq m' m 20 (18 + 1) _ E ltac:(lia)). reflexivity.
Qed.
Lemma overwritten_chain b b' off l ms : dchain b off l -> shows l ms -> Forall (fun p => message_at b (fst p) (snd p)) ms ->
  length b' = length b ->
  (forall j, off <= j -> (forall k m, In (k, m) ms -> ~ (k + 20 <= j < k + length m)) -> nth_error b' j = nth_error b j) ->
  exists l' ms', dchain b' off l' /\ shows l' ms' /\ Forall (fun p => message_at b' (fst p) (snd p)) ms' /\ Forall2 same_head ms ms'.
Proof.
  intros C. revert ms. induction C as [off N|off k F P|off k n v l F P C IH]; intros ms S A Lb H.
  - inversion S; subst. exists [], []. split; [|split; [constructor|split; constructor]].
    constructor. intros j Hj. rewrite <- (N j Hj). apply occ_range. apply range_eq. intros i Hi. apply H; [lia|]. intros ? ? [].
  - inversion S; subst. exists [], []. split; [|split; [constructor|split; constructor]].
    destruct F as (F1 & F2 & F3). assert (E : skipn k b' = skipn k b).
    { apply nth_ext_error. intros j. rewrite !nth_error_skipn. apply H; [lia|]. intros ? ? []. }
    apply (chain_stop DLT parse _ _ k); [|congruence].
    split; [exact F1|]. split; [now rewrite E|]. intros j Hj. rewrite <- (F3 j Hj). apply occ_range. apply range_eq. intros i Hi. apply H; [lia|]. intros ? ? [].
  - inversion S as [|x [k' m] l1 ms1 [E1 D] S1]; subst. cbn [fst snd] in E1, D. subst k'.
    inversion A as [|x y Mk A1]; subst. cbn [fst snd] in Mk.
    assert (Cd : dcand b k n v) by (split; [apply F|exact P]).
    apply dcand_iff in Cd. destruct Cd as (m' & Mk' & Lm & D').
    pose proof (message_at_fun _ _ _ _ Mk Mk'). subst m'. clear Mk' D'.
    assert (Q : forall i x, In (i, x) ms1 -> k + length m <= i).
    { assert (Q : forall i e, In (i, e) l -> k + length m <= i).
      { pose proof (chain_items DLT parse dlt_lawful _ _ _ C) as [_ O]. subst n. intros i e I. clear - O I. revert O. generalize (k + length m).
        induction l as [|[i' e'] l IH]; intros o O; [destruct I|]. destruct O as (O1 & O2).
        destruct I as [I|I]; [injection I as -> ->; exact O1|]. specialize (IH I _ O2). lia. }
      clear - S1 Q. induction S1 as [|[i e] [i' m'] l ms1 [E1 D] S1 IH]; intros j x I; [destruct I|]. cbn [fst] in E1. subst i'.
      destruct I as [I|I]; [injection I as <- <-; apply (Q i e); now left|]. apply (IH (fun i0 e0 I0 => Q i0 e0 (or_intror I0)) j x I). }
    destruct F as (F1 & F2 & F3). destruct Mk as (V & pre & post & Eb & Lp).
    assert (V20 : 20 <= length m) by apply V.
    assert (Lk : k + length m <= length b) by (rewrite Eb, !app_length; lia).
    assert (Em : m = firstn n (skipn k b)).
    { rewrite Eb, <- Lp, (skipn_app_exact pre _ (length pre) eq_refl), firstn_app, firstn_all2 by lia.
      replace (n - length m) with 0 by lia. cbn [firstn]. now rewrite app_nil_r. }
    set (m' := firstn n (skipn k b')).
    assert (Lm' : length m' = length m) by (subst m'; rewrite firstn_length, skipn_length; lia).
    assert (H20 : forall j, off <= j < k + 20 -> nth_error b' j = nth_error b j).
    { intros j Hj. apply H; [lia|]. intros i x [I|I]; [injection I as <- <-; lia|]. specialize (Q i x I). lia. }
    assert (Hd : firstn 20 m' = firstn 20 m).
    { rewrite Em. subst m'. rewrite !firstn_firstn. replace (Nat.min 20 n) with 20 by lia. apply range_eq. intros j Hj. apply H20. lia. }
    assert (V' : valid_message m') by (apply (valid_same_head m m' V Lm' Hd)).
    assert (Mk' : message_at b' k m').
    { split; [exact V'|]. exists (firstn k b'), (skipn n (skipn k b')). split; [|rewrite firstn_length; lia].
      subst m'. rewrite firstn_skipn. now rewrite firstn_skipn. }
    assert (Cd' : dcand b' k (length m') (entry_of m')) by now apply dcand_entry.
    destruct (IH ms1 S1 A1 Lb) as (l' & ms' & C' & S' & A' & R').
    { intros j Hj Nj. apply H; [lia|]. intros i x [I|I]; [injection I as <- <-; lia|]. now apply Nj. }
    exists ((k, entry_of m') :: l'), ((k, m') :: ms'). split; [|split; [|split]].
    + apply (chain_step DLT parse _ _ k (length m') (entry_of m')); [|apply Cd'|rewrite Lm', Lm; exact C'].
      split; [exact F1|]. split; [apply Cd'|]. intros j Hj. rewrite <- (F3 j Hj). apply occ_range. apply range_eq. intros i Hi. apply H20. lia.
    + constructor; [|exact S']. split; [reflexivity|]. cbn [fst snd].
      assert (Cd2 := Cd'). apply dcand_iff in Cd2. destruct Cd2 as (m2 & Mk2 & _ & D2).
      pose proof (message_at_fun _ _ _ _ Mk' Mk2). subst m2. exact D2.
    + constructor; [exact Mk'|exact A'].
    + constructor; [|exact R']. split; [reflexivity|]. cbn [fst snd]. split; [now symmetry|now symmetry].
Qed.
Lemma overwritten_read b : exists l ms, dltit_offset b = Ret l /\ shows l ms /\ (forall k m, In (k, m) ms -> message_at b k m) /\
  forall b', overwritten ms b b' -> exists l' ms', dltit_offset b' = Ret l' /\ shows l' ms' /\
    (forall k m, In (k, m) ms' -> message_at b' k m) /\ Forall2 same_head ms ms'.
Proof.
  destruct (dltit_offset_total b) as (l & E & C). destruct (chain_placed _ _ _ C) as (ms & S & A).
  exists l, ms. split; [exact E|]. split; [exact S|]. split.
  - rewrite Forall_forall in A. intros k m I. exact (A _ I).
  - intros b' [Lb H]. destruct (overwritten_chain b b' 0 l ms C S A Lb) as (l' & ms' & C' & S' & A' & R').
    { intros j _. apply H. }
    exists l', ms'. split; [now apply dltit_offset_chain|]. split; [exact S'|]. split; [|exact R'].
    rewrite Forall_forall in A'. intros k m I. exact (A' _ I).
Qed.

(** * Searching in a cut file (C89) *)
Lemma greedy_tail b off k m ms : greedy b off ((k, m) :: ms) -> off <= k /\ message_at b k m /\ greedy b (k + length m) ms.
Proof.
  intros (A1 & A2 & A3). destruct (A1 k m (or_introl eq_refl)) as [LA MA]. split; [exact LA|]. split; [exact MA|].
  inversion A2 as [|x y SA FA]; subst. rewrite Forall_forall in FA. cbn [fst snd] in *.
  assert (P20 : 20 <= length m) by apply MA.
  split; [|split; [exact SA|]].
  - intros k1 m1 I. specialize (FA _ I). cbn in FA. split; [exact FA|]. apply (A1 k1 m1). now right.
  - intros k1 m1 M1 L1. destruct (A3 k1 m1 M1 ltac:(lia)) as [[E|I]|(k2 & m2 & [E|I] & J)]; [|now left| |right; exists k2, m2; now split].
    + injection E as <- <-. lia.
    + injection E as <- <-. lia.
Qed.
Lemma greedy_exists b off : exists ms, greedy b off ms.
Proof.
  destruct (collect_schain DLT parse dlt_lawful b (S (length b)) ltac:(lia) (S (length b)) off ltac:(lia)) as (l & _ & C).
  destruct (schain_greedy _ _ _ C) as (ms & _ & G). now exists ms.
Qed.
Lemma greedy_cut b c : forall ms off, greedy b off ms -> exists extra, greedy (firstn c b) off (within c ms ++ extra) /\
  forall k m, In (k, m) extra -> exists k' m', In (k', m') ms /\ k' < k /\ k + length m <= c /\ c < k' + length m'.
Proof.
  induction ms as [|[k m] ms IH]; intros off G.
  - exists []. split; [|intros k m []]. split; [intros k m []|]. split; [constructor|].
    intros k m M L. apply message_at_firstn in M. destruct M as [M _]. destruct G as (_ & _ & G). destruct (G k m M L) as [[]|(? & ? & [] & _)].
  - pose proof (greedy_tail _ _ _ _ _ G) as (L & M & T). unfold within. cbn [filter fst snd].
    destruct (Nat.leb_spec (k + length m) c) as [Hc|Hc].
    + destruct (IH _ T) as (extra & (E1 & E2 & E3) & X). exists extra. split.
      * cbn [app]. assert (P20 : 20 <= length m) by apply M. split; [|split].
        -- intros k1 m1 [E|I]; [injection E as <- <-; split; [exact L|now apply message_at_firstn]|].
           destruct (E1 k1 m1 I) as [Q1 Q2]. split; [lia|exact Q2].
        -- constructor; [exact E2|]. apply Forall_forall. intros [k1 m1] I. cbn [fst snd]. apply (E1 k1 m1 I).
        -- intros k1 m1 M1 L1. destruct (lt_eq_lt_dec k1 k) as [[K|K]|K].
           ++ exfalso. apply message_at_firstn in M1. destruct M1 as [M1 _]. destruct G as (_ & G2 & G3).
              inversion G2 as [|x y SA FA]; subst. rewrite Forall_forall in FA.
              destruct (G3 k1 m1 M1 L1) as [[E|I]|(k2 & m2 & [E|I] & J)].
              ** injection E as <- <-. lia.
              ** specialize (FA _ I). cbn in FA. lia.
              ** injection E as <- <-. lia.
              ** specialize (FA _ I). cbn in FA. lia.
           ++ subst k1. left. left. f_equal. apply message_at_firstn in M1. now apply (message_at_fun b k).
           ++ destruct (le_lt_dec (k + length m) k1) as [Q|Q].
              ** destruct (E3 k1 m1 M1 Q) as [I|(k2 & m2 & I & J)]; [left; now right|right; exists k2, m2; split; [now right|exact J]].
              ** right. exists k, m. split; [now left|lia].
      * intros k1 m1 I. destruct (X k1 m1 I) as (k' & m' & I' & Q). exists k', m'. split; [now right|exact Q].
    + assert (Z : forall k1 m1, In (k1, m1) ((k, m) :: ms) -> c < k1 + length m1).
      { intros k1 m1 [E|I]; [injection E as <- <-; exact Hc|]. destruct T as (T1 & _). destruct (T1 k1 m1 I) as [Q _]. lia. }
      assert (W : filter (fun p : nat * bytes => fst p + length (snd p) <=? c) ms = []).
      { clear - Z. induction ms as [|[k1 m1] ms IH]; [reflexivity|]. cbn [filter fst snd].
        pose proof (Z k1 m1 (or_intror (or_introl eq_refl))). destruct (Nat.leb_spec (k1 + length m1) c); [lia|].
        apply IH. intros k2 m2 [E|I]; apply Z; [now left|right; now right]. }
      destruct (greedy_exists (firstn c b) off) as (extra & X). exists extra. split.
      * match goal with |- greedy _ _ (?x ++ _) => replace x with (@nil (nat * bytes)) by (symmetry; exact W) end. exact X.
      * intros k1 m1 I. destruct X as (X1 & _). destruct (X1 k1 m1 I) as [L1 M1]. apply message_at_firstn in M1. destruct M1 as [M1 C1].
        destruct G as (_ & _ & G3). destruct (G3 k1 m1 M1 L1) as [I1|(k2 & m2 & I1 & J)].
        -- specialize (Z k1 m1 I1). lia.
        -- exists k2, m2. split; [exact I1|]. split; [lia|]. split; [exact C1|]. now apply Z.
Qed.
Lemma search_cut b c : exists l ms l' extra, search_all b = Ret l /\ shows l ms /\ greedy b 0 ms /\
  search_all (firstn c b) = Ret l' /\ shows l' (within c ms ++ extra) /\
  forall k m, In (k, m) extra -> message_at b k m /\ exists k' m', In (k', m') ms /\ k' < k /\ k + length m <= c /\ c < k' + length m'.
Proof.
  destruct (search_exact b 0 (S (length b)) (S (length b)) ltac:(lia) ltac:(lia)) as (l & ms & E & Sh & G & _).
  destruct (search_exact (firstn c b) 0 (S (length (firstn c b))) (S (length (firstn c b))) ltac:(lia) ltac:(lia)) as (l' & ms' & E' & Sh' & G' & U').
  destruct (greedy_cut b c ms 0 G) as (extra & X & Q). pose proof (U' _ X). subst ms'.
  exists l, ms, l', extra. split; [exact E|]. split; [exact Sh|]. split; [exact G|]. split; [exact E'|]. split; [exact Sh'|].
  intros k m I. split; [|now apply Q]. destruct X as (X & _). destruct (X k m) as [_ M]; [apply in_or_app; now right|]. now apply message_at_firstn in M.
Qed.
