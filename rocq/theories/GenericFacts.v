(** matchit for any well-implemented type (C76-C79). *)
From Verif Require Import Base DltModel MatchModel Spec BaseFacts DltFacts FindFacts IterFacts GenericSpec.
From Coq Require Import Sorted ZifyBool ZifyNat ZifyN.

Section G.
  Context {T : Type}.
  Variable R : Readable T.
  Hypothesis W : implements_well R.
  Notation mk := (marker R).
  Notation ml := (length (marker R)).

  Definition pure_read (b : bytes) : option (nat * T) :=
    match try_read_valid R b with Ret r => r | _ => None end.
  Notation pv := pure_read.

  Lemma mk_pos : 0 < ml.
  Proof. pose proof (iw_nonempty R W). destruct (marker R); [congruence|cbn; lia]. Qed.

  Lemma well_lawful : lawful R pv.
  Proof.
    constructor.
    - exact mk_pos.
    - intros x k Hk P. destruct (is_prefix mk (skipn k x)) eqn:Q; [|reflexivity]. exfalso.
      apply is_prefix_app in P, Q. destruct P as [p1 ->], Q as [p2 Q].
      rewrite skipn_app in Q. replace (k - ml) with 0 in Q by lia. cbn [skipn] in Q.
      assert (E1 : mk = firstn k mk ++ skipn k mk) by (now rewrite firstn_skipn).
      assert (E2 : mk = skipn k mk ++ skipn (length (skipn k mk)) mk).
      { assert (Q1 : firstn ml (skipn k mk ++ p1) = mk).
        { rewrite Q, firstn_app, Nat.sub_diag. cbn [firstn]. now rewrite firstn_all, app_nil_r. }
        rewrite firstn_app, (firstn_all2 (skipn k mk)) in Q1 by (rewrite skipn_length; lia).
        transitivity (skipn k mk ++ firstn (ml - length (skipn k mk)) p1); [now symmetry|]. f_equal.
        apply (f_equal (skipn (length (skipn k mk)))) in Q1.
        rewrite skipn_app, skipn_all, Nat.sub_diag in Q1. cbn [skipn app] in Q1. exact Q1. }
      refine (iw_no_overlap R W _ _ _ _ _ E1 E2).
      + intros X. apply (f_equal (@length byte)) in X. rewrite firstn_length in X. cbn in X. lia.
      + intros X. apply (f_equal (@length byte)) in X. rewrite skipn_length in X. cbn in X. lia.
    - intros b P. apply is_prefix_app in P. destruct P as [rest ->]. unfold pv.
      destruct (iw_total R W rest) as [r ->]. reflexivity.
    - intros b n t P. apply is_prefix_app in P. destruct P as [rest ->]. unfold pv.
      destruct (iw_total R W rest) as [r E]. rewrite E. intros ->. exact (iw_fits R W rest n t E).
  Qed.
  Notation L := well_lawful.

  Lemma occ_at b k : occ mk b k = true <-> occurs_at mk b k.
  Proof. apply occ_occurs, mk_pos. Qed.
  Lemma occ_not b k : occ mk b k = false <-> ~ occurs_at mk b k.
  Proof. rewrite <- occ_at. destruct (occ mk b k); split; congruence. Qed.
  Lemma cand_reads b k n v : cand R pv b k n v <-> reads R b k n v.
  Proof.
    unfold cand, reads. rewrite occ_at. split; intros [O P]; (split; [exact O|]).
    - rewrite (l_tv R pv L) by (now apply occ_at). now rewrite P.
    - unfold pv. now rewrite P.
  Qed.
  Lemma reads_bounds b k n v : reads R b k n v -> len_of R v = n /\ ml < n /\ k + n <= length b.
  Proof. intros H. apply cand_reads in H. exact (cand_bounds R pv L b k n v H). Qed.
  Lemma reads_fun b k n v n' v' : reads R b k n v -> reads R b k n' v' -> n = n' /\ v = v'.
  Proof. intros [_ A] [_ B]. rewrite A in B. injection B as -> ->. now split. Qed.
  Lemma unread b k : occurs_at mk b k -> (pv (skipn k b) = None <-> forall n v, ~ reads R b k n v).
  Proof.
    intros O. split.
    - intros P n v Rd. apply cand_reads in Rd. destruct Rd as [_ Q]. congruence.
    - intros H. destruct (pv (skipn k b)) as [[n v]|] eqn:P; [|reflexivity]. exfalso.
      apply (H n v), cand_reads. split; [now apply occ_at|exact P].
  Qed.
  Lemma first_next b off k : first_marker R b off k <-> next_marker R b off k.
  Proof.
    unfold first_marker, next_marker. rewrite occ_at. split; intros (A & B & C); repeat split; try assumption;
      intros j Hj; specialize (C j Hj); now apply occ_not.
  Qed.

  (** ** Sequential *)
  Lemma chain_one b off l : chain R pv b off l -> one_by_one R b off l.
  Proof.
    induction 1 as [off N|off k F P|off k n v l F P C IH].
    - apply no_more. intros j Hj. apply occ_not, N, Hj.
    - apply first_next in F. apply (broken R b off k F). exact (proj1 (unread b k (proj1 (proj2 F))) P).
    - assert (Rd : reads R b k n v) by (apply cand_reads; split; [apply F|exact P]).
      apply first_next in F. now apply (one_more R b off k n v l).
  Qed.
  Lemma one_chain b off l : one_by_one R b off l -> chain R pv b off l.
  Proof.
    induction 1 as [off N|off k F P|off k n v l F P C IH].
    - apply chain_end. intros j Hj. apply occ_not, N, Hj.
    - apply (chain_stop R pv b off k); [now apply first_next|]. exact (proj2 (unread b k (proj1 (proj2 F))) P).
    - apply (chain_step R pv b off k n v l); [now apply first_next| |exact IH]. apply cand_reads in P. apply P.
  Qed.
  Lemma sequential_exact b off fuel calls l : 2 <= fuel -> length b - off < calls ->
    (collect (fallback_next R fuel b) calls off = Ret l <-> one_by_one R b off l).
  Proof.
    intros F C. destruct fuel as [|[|f]]; try lia.
    rewrite (collect_chain_iff R pv L b f calls off l C). split; [apply chain_one|apply one_chain].
  Qed.
  Lemma sequential_total b off fuel calls : 2 <= fuel -> length b - off < calls ->
    exists l, collect (fallback_next R fuel b) calls off = Ret l /\ one_by_one R b off l.
  Proof.
    intros F C. destruct fuel as [|[|f]]; try lia.
    destruct (collect_chain R pv L b f calls off C) as (l & E & H). exists l. split; [exact E|now apply chain_one].
  Qed.

  (** ** Searching *)
  Lemma schain_items b off l : schain R pv b off l -> greedy_items R b off l.
  Proof.
    induction 1 as [off N|off k n v l F C IH].
    - split; [intros k v []|]. split; [constructor|]. intros k n v M Hk. exfalso. apply (N k n v Hk). now apply cand_reads.
    - destruct F as (F1 & F2 & F3). apply cand_reads in F2. pose proof (reads_bounds b k n v F2) as (B1 & B2 & B3).
      destruct IH as (G1 & G2 & G3). split; [|split].
      + intros k' v' [E|I]; [injection E as <- <-; split; [exact F1|now exists n]|]. apply G1 in I. split; [lia|apply I].
      + constructor; [exact G2|]. apply Forall_forall. intros [k' v'] I. cbn [fst snd]. apply G1 in I. lia.
      + intros k' n' v' M' Hk. destruct (lt_eq_lt_dec k' k) as [[K|K]|K].
        * exfalso. apply (F3 k' n' v'); [lia|now apply cand_reads].
        * subst k'. left. left. f_equal. now apply (reads_fun b k n v n' v').
        * destruct (le_lt_dec (k + n) k') as [Q|Q].
          { destruct (G3 k' n' v' M' Q) as [I|(k1 & v1 & I & J)]; [left; now right|]. right. exists k1, v1. split; [now right|exact J]. }
          { right. exists k, v. split; [now left|lia]. }
  Qed.
  Lemma greedy_items_unique b off ms ms' : greedy_items R b off ms -> greedy_items R b off ms' -> ms = ms'.
  Proof.
    revert off ms'. induction ms as [|[k m] ms IH]; intros off [|[k' m'] ms'] (A1 & A2 & A3) (B1 & B2 & B3).
    - reflexivity.
    - exfalso. destruct (B1 k' m' (or_introl eq_refl)) as [Lo [n M]]. destruct (A3 k' n m' M Lo) as [[]|(? & ? & [] & _)].
    - exfalso. destruct (A1 k m (or_introl eq_refl)) as [Lo [n M]]. destruct (B3 k n m M Lo) as [[]|(? & ? & [] & _)].
    - inversion A2 as [|x y SA FA]; subst. inversion B2 as [|x y SB FB]; subst.
      destruct (A1 k m (or_introl eq_refl)) as [LA [n MA]]. destruct (B1 k' m' (or_introl eq_refl)) as [LB [n' MB]].
      rewrite Forall_forall in FA, FB. cbn [fst snd] in *.
      assert (Lk : k' <= k).
      { destruct (B3 k n m MA LA) as [[E|I]|(k1 & m1 & [E|I] & J)].
        - injection E as <- _; lia. - apply FB in I; cbn in I; lia. - injection E as <- _; lia.
        - apply FB in I; cbn in I; lia. }
      assert (Lk' : k <= k').
      { destruct (A3 k' n' m' MB LB) as [[E|I]|(k1 & m1 & [E|I] & J)].
        - injection E as <- _; lia. - apply FA in I; cbn in I; lia. - injection E as <- _; lia.
        - apply FA in I; cbn in I; lia. }
      assert (k = k') by lia. subst k'. destruct (reads_fun b k n m n' m' MA MB) as [<- <-]. f_equal.
      destruct (reads_bounds b k n m MA) as (B & B' & _).
      apply (IH (k + n)).
      + split; [|split; [exact SA|]].
        * intros k1 m1 I. specialize (FA _ I). cbn in FA. split; [lia|]. apply (A1 k1 m1). now right.
        * intros k1 n1 m1 M1 L1. destruct (A3 k1 n1 m1 M1 ltac:(lia)) as [[E|I]|(k2 & m2 & [E|I] & J)]; [|now left| |right; exists k2, m2; now split].
          { injection E as <- <-. lia. }
          { injection E as <- <-. lia. }
      + split; [|split; [exact SB|]].
        * intros k1 m1 I. specialize (FB _ I). cbn in FB. split; [lia|]. apply (B1 k1 m1). now right.
        * intros k1 n1 m1 M1 L1. destruct (B3 k1 n1 m1 M1 ltac:(lia)) as [[E|I]|(k2 & m2 & [E|I] & J)]; [|now left| |right; exists k2, m2; now split].
          { injection E as <- <-. lia. }
          { injection E as <- <-. lia. }
  Qed.
  Lemma search_total b off fuel calls : length b < fuel -> length b - off < calls ->
    exists l, collect (search_next R fuel b) calls off = Ret l /\ greedy_items R b off l.
  Proof.
    intros F C. destruct (collect_schain R pv L b fuel F calls off C) as (l & E & S). exists l. split; [exact E|now apply schain_items].
  Qed.

  (** ** Backwards *)
  Lemma backwards_unique b off l : forall l', backwards R b off l -> backwards R b off l' -> l = l'.
  Proof.
    assert (G : forall l l' : list (nat * T), StronglySorted (fun p q => fst q < fst p) l -> StronglySorted (fun p q => fst q < fst p) l' ->
      (forall x, In x l <-> In x l') -> l = l').
    { clear. induction l as [|x l IH]; intros [|y l'] S S' H.
      - reflexivity.
      - exfalso. now apply (H y); left.
      - exfalso. now apply (H x); left.
      - inversion S as [|? ? S1 F1]; subst. inversion S' as [|? ? S2 F2]; subst. rewrite Forall_forall in F1, F2.
        assert (x = y).
        { destruct (proj1 (H x) (or_introl eq_refl)) as [E|I]; [now symmetry|].
          destruct (proj2 (H y) (or_introl eq_refl)) as [E|I']; [exact E|].
          apply F2 in I. apply F1 in I'. lia. }
        subst y. f_equal. apply (IH l' S1 S2). intros z. split; intros I.
        + destruct (proj1 (H z) (or_intror I)) as [<-|I']; [|exact I']. apply F1 in I. lia.
        + destruct (proj2 (H z) (or_intror I)) as [<-|I']; [|exact I']. apply F2 in I. lia. }
    intros l' [S H] [S' H']. apply G; [exact S|exact S'|]. intros [k v]. now rewrite H, H'.
  Qed.
  Lemma backwards_total b off fuel calls : (N.of_nat (length b) < usize_max)%N -> length b < fuel -> off <= length b -> off < calls ->
    exists l, collect (rev_next R fuel b) calls (N.of_nat off) = Ret l /\ backwards R b off l.
  Proof.
    intros Hb F Ho C. destruct (collect_rev R pv L b fuel Hb F calls off Ho C) as (l & E & S & _ & I).
    exists l. split; [exact E|]. split.
    - clear - S W. induction S as [|x l S IH Fx]; constructor; [exact IH|]. eapply Forall_impl; [|exact Fx].
      intros q. cbn. pose proof mk_pos. lia.
    - intros k v. rewrite I. split.
      + intros [A [n B]]. exists n. split; [now apply cand_reads|exact A].
      + intros (n & B & A). split; [exact A|]. exists n. now apply cand_reads.
  Qed.

  (** ** Grepping *)
  Lemma last_marker_fun b s k k' : last_marker R b s k -> last_marker R b s k' -> k = k'.
  Proof. intros (A & B & C) (A' & B' & C'). pose proof (C k' A' B'). pose proof (C' k A B). lia. Qed.
  Lemma rev_last b s : (N.of_nat (length b) < usize_max)%N -> s <= length b ->
    (exists k n v, last_marker R b s k /\ reads R b k n v /\ rev_search R b (N.of_nat s) = Ret (Some (k, v))) \/
    ((forall k n v, last_marker R b s k -> ~ reads R b k n v) /\ rev_search R b (N.of_nat s) = Ret None).
  Proof.
    intros Hb Hs. rewrite (rev_search_spec R pv L b s Hb Hs). pose proof (rfind_last R pv L b s) as Q.
    assert (X : forall c, c + ml <= s -> occ mk b c = true -> (forall j, c < j -> j + ml <= s -> occ mk b j = false) -> last_marker R b s c).
    { intros c A B C. split; [now apply occ_at|]. split; [exact A|]. intros j O K. destruct (le_lt_dec j c) as [H|H]; [exact H|].
      specialize (C j H K). apply occ_not in C. contradiction. }
    destruct (rfind mk (firstn s b)) as [c|].
    - destruct Q as (Q1 & Q2 & Q3). specialize (X c Q1 Q2 Q3). destruct (pv (skipn c b)) as [[n v]|] eqn:P.
      + left. exists c, n, v. split; [exact X|]. split; [apply cand_reads; now split|reflexivity].
      + right. split; [|reflexivity]. intros k n v Lm Rd. assert (k = c) by now apply (last_marker_fun b s). subst k.
        apply (proj1 (unread b c (proj1 (occ_at b c) Q2)) P n v Rd).
    - right. split; [|reflexivity]. intros k n v (A & B & _) _. apply occ_at in A. rewrite Q in A by exact B. discriminate.
  Qed.

  Section Grep.
    Variable M : matcher.
    Variable fa : bytes -> nat -> option (nat * nat).
    Hypothesis LM : leftmost M fa.
    Variable b : bytes.
    Hypothesis Hb : (N.of_nat (length b) < usize_max)%N.

    Lemma grep_finds fuel : forall off r, grep_search R fa fuel b off = Ret r -> finds R fa b off r.
    Proof.
      induction fuel as [|fuel IH]; intros off r; cbn [grep_search]; [discriminate|].
      destruct (Nat.leb_spec (length b) off) as [K|K].
      { intros H. injection H as <-. now apply finds_end. }
      pose proof (LM b off ltac:(lia)) as F. destruct (fa b off) as [[s e]|] eqn:Q.
      2:{ intros H. injection H as <-. now apply finds_nothing. }
      destruct F as (F1 & F2 & F3 & F4 & F5).
      destruct (rev_last b s Hb ltac:(lia)) as [(k & n & v & Ow & Mk & ->)|(NO & ->)]; cbn [obind].
      - destruct (reads_bounds b k n v Mk) as (-> & B2 & _). pose proof Ow as (_ & Ok & _). pose proof mk_pos as MP.
        destruct (Nat.ltb_spec k s); [|lia]. cbn [andb].
        destruct (Nat.ltb_spec (k + n) e) as [Lt|Lt].
        + intros H1. apply (finds_later R fa b off s e); try assumption; [|now apply IH]. intros k' n' v' Ow' Mk'.
          assert (k' = k) by now apply (last_marker_fun b s). subst k'. destruct (reads_fun b k n v n' v' Mk Mk') as [<- _]. exact Lt.
        + intros H1. injection H1 as <-. now apply (finds_owner R fa b off s e k n v).
      - destruct (Nat.leb_spec (length b) e) as [Lt|Lt].
        + intros H. injection H as <-. apply (finds_later R fa b off s e); try assumption; [|now apply finds_end]. intros k n v Ow Mk. destruct (NO k n v Ow Mk).
        + intros H. apply (finds_later R fa b off s e); try assumption; [|now apply IH]. intros k n v Ow Mk. destruct (NO k n v Ow Mk).
    Qed.
    Lemma finds_grep off r : finds R fa b off r ->
      exists m, forall fuel, m <= fuel -> grep_search R fa fuel b off = Ret r.
    Proof.
      pose proof mk_pos as MP.
      induction 1 as [off Lt|off Q|off s e k n v Lt Q Ow Mk Le|off s e r Lt Q Sk G [m IH]].
      - exists 1. intros [|fuel] Hf; [lia|]. cbn [grep_search]. destruct (Nat.leb_spec (length b) off); [reflexivity|lia].
      - exists 1. intros [|fuel] Hf; [lia|]. cbn [grep_search]. destruct (length b <=? off); [reflexivity|]. now rewrite Q.
      - exists 1. intros [|fuel] Hf; [lia|]. cbn [grep_search]. destruct (Nat.leb_spec (length b) off); [lia|]. rewrite Q.
        pose proof (LM b off ltac:(lia)) as F. rewrite Q in F. destruct F as (F1 & F2 & F3 & F4 & F5).
        destruct (rev_last b s Hb ltac:(lia)) as [(k' & n' & v' & Ow' & Mk' & ->)|(NO & _)]; [|destruct (NO k n v Ow Mk)]. cbn [obind].
        assert (k' = k) by now apply (last_marker_fun b s). subst k'. destruct (reads_fun b k n v n' v' Mk Mk') as [<- <-].
        destruct (reads_bounds b k n v Mk) as (-> & _). destruct (Nat.ltb_spec (k + n) e); [lia|]. now rewrite Bool.andb_false_r.
      - exists (S m). intros [|fuel] Hf; [lia|]. cbn [grep_search]. destruct (Nat.leb_spec (length b) off); [lia|]. rewrite Q.
        pose proof (LM b off ltac:(lia)) as F. rewrite Q in F. destruct F as (F1 & F2 & F3 & F4 & F5).
        destruct (rev_last b s Hb ltac:(lia)) as [(k' & n' & v' & Ow' & Mk' & ->)|(NO & ->)]; cbn [obind].
        + destruct (reads_bounds b k' n' v' Mk') as (-> & _). pose proof Ow' as (_ & Ok & _). destruct (Nat.ltb_spec k' s); [|lia]. cbn [andb].
          pose proof (Sk k' n' v' Ow' Mk'). destruct (Nat.ltb_spec (k' + n') e); [|lia]. apply IH. lia.
        + destruct (Nat.leb_spec (length b) e) as [K|K]; [|apply IH; lia].
          inversion G as [o L'|o Q'|o s1 e1 k1 n1 v1 L' Q' Ow1 Mk1 Le1|o s1 e1 r1 L' Q' Sk1 G1]; subst; try reflexivity; lia.
    Qed.
    Lemma finds_fun off r r' : finds R fa b off r -> finds R fa b off r' -> r = r'.
    Proof.
      intros G. revert r'. induction G as [off Lt|off Q|off s e k n v Lt Q Ow Mk Le|off s e r Lt Q Sk G IH]; intros r' G';
        inversion G' as [o L'|o Q'|o s1 e1 k1 n1 v1 L' Q' Ow1 Mk1 Le1|o s1 e1 r1 L' Q' Sk1 G1]; subst; try reflexivity; try lia; try congruence.
      - rewrite Q in Q'. injection Q' as <- <-. assert (k = k1) by now apply (last_marker_fun b s). subst k1. now destruct (reads_fun b k n v n1 v1 Mk Mk1) as [_ <-].
      - rewrite Q in Q'. injection Q' as <- <-. pose proof (Sk1 k n v Ow Mk). lia.
      - rewrite Q in Q'. injection Q' as <- <-. pose proof (Sk k1 n1 v1 Ow1 Mk1). lia.
      - rewrite Q in Q'. injection Q' as <- <-. now apply IH.
    Qed.
    Lemma grep_no_panic fuel : forall off, grep_search R fa fuel b off <> Panic.
    Proof.
      induction fuel as [|fuel IH]; intros off; cbn [grep_search]; [discriminate|].
      destruct (Nat.leb_spec (length b) off); [discriminate|].
      pose proof (LM b off ltac:(lia)) as F. destruct (fa b off) as [[s e]|]; [|discriminate].
      destruct (rev_last b s Hb ltac:(lia)) as [(k & n & v & Ow & Mk & ->)|(NO & ->)]; cbn [obind].
      - destruct ((k <? s) && (k + len_of R v <? e)); [apply IH|discriminate].
      - destruct (length b <=? e); [discriminate|apply IH].
    Qed.
    Lemma finds_reads off k v : finds R fa b off (Some (k, v)) -> exists n, reads R b k n v.
    Proof.
      intros G. remember (Some (k, v)) as r eqn:E. induction G; try discriminate; [injection E as <- <-; eauto|now apply IHG].
    Qed.
  End Grep.
End G.
