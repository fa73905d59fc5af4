(** GrepIterator and RegExMatcherIterator (C24-C28, C50). *)
From Verif Require Import Base DltModel MatchModel GenModel ToolsModel Spec BaseFacts DltFacts CodecFacts ParseFacts FindFacts IterFacts DltIterFacts LayoutFacts.
From Coq Require Import Sorted.

Lemma rev_at b s : (N.of_nat (length b) < usize_max)%N -> s <= length b ->
  (exists o n v, rev_search DLT b (N.of_nat s) = Ret (Some (o, v)) /\ dcand b o n v /\ o + 4 <= s /\
     forall j, occ dlt_marker b j = true -> j + 4 <= s -> j <= o) \/
  (rev_search DLT b (N.of_nat s) = Ret None /\
     ((forall j, j + 4 <= s -> occ dlt_marker b j = false) \/
      exists c, c + 4 <= s /\ occ dlt_marker b c = true /\ parse (skipn c b) = None /\
        forall j, occ dlt_marker b j = true -> j + 4 <= s -> j <= c)).
Proof.
  intros Hb Hs. rewrite (rev_search_spec DLT parse dlt_lawful b s Hb Hs).
  pose proof (rfind_last DLT parse dlt_lawful b s) as L.
  change (marker DLT) with dlt_marker in *. change (length dlt_marker) with 4 in L.
  assert (X : forall c, (forall j, c < j -> j + 4 <= s -> occ dlt_marker b j = false) ->
     forall j, occ dlt_marker b j = true -> j + 4 <= s -> j <= c).
  { intros c H j O K. destruct (le_lt_dec j c) as [Q|Q]; [exact Q|]. rewrite (H j Q K) in O. discriminate. }
  destruct (rfind dlt_marker (firstn s b)) as [c|].
  - destruct L as (L1 & L2 & L3). destruct (parse (skipn c b)) as [[n v]|] eqn:P.
    + left. exists c, n, v. repeat split; try assumption. now apply X.
    + right. split; [reflexivity|]. right. exists c. repeat split; try assumption. now apply X.
  - right. split; [reflexivity|]. now left.
Qed.

Section G.
  Variable M : matcher.
  Variable fa : bytes -> nat -> option (nat * nat).
  Hypothesis LM : leftmost M fa.
  Variable b : bytes.
  Hypothesis Hb : (N.of_nat (length b) < usize_max)%N.

  Definition hit (off o : nat) (v : storage_entry) : Prop :=
    exists n s e, dcand b o n v /\ off <= s /\ M b s e /\ o + 4 <= s /\ s <= e /\ e <= o + n /\
      forall j, occ dlt_marker b j = true -> j + 4 <= s -> j <= o.

  Lemma grep_search_sound : forall fuel off,
    grep_search DLT fa fuel b off <> Panic /\
    forall o v, grep_search DLT fa fuel b off = Ret (Some (o, v)) -> hit off o v.
  Proof.
    induction fuel as [|fuel IH]; intros off; cbn [grep_search]; [split; [discriminate|intros; discriminate]|].
    destruct (Nat.leb_spec (length b) off) as [K|K]; [split; [discriminate|intros; discriminate]|].
    pose proof (LM b off ltac:(lia)) as F. destruct (fa b off) as [[s e]|]; [|split; [discriminate|intros; discriminate]].
    destruct F as (F1 & F2 & F3 & F4 & F5).
    assert (IH' : grep_search DLT fa fuel b e <> Panic /\
       forall o v, grep_search DLT fa fuel b e = Ret (Some (o, v)) -> hit off o v).
    { destruct (IH e) as [I1 I2]. split; [exact I1|]. intros o v E. apply I2 in E.
      destruct E as (n & s' & e' & E1 & E2 & E3). exists n, s', e'. split; [exact E1|]. split; [lia|exact E3]. }
    destruct (rev_at b s Hb ltac:(lia)) as [(o & n & v & -> & C & O1 & O2)|(-> & _)]; cbn [obind].
    - destruct (cand_bounds DLT parse dlt_lawful b o n v C) as (B1 & B2 & B3). rewrite B1.
      destruct (Nat.ltb_spec o s) as [Q|Q]; [|lia]. cbn [andb].
      destruct (Nat.ltb_spec (o + n) e) as [Q'|Q']; [exact IH'|].
      split; [discriminate|]. intros o' v' E. injection E as <- <-.
      exists n, s, e. repeat split; try assumption; apply C.
    - destruct (Nat.leb_spec (length b) e); [split; [discriminate|intros; discriminate]|]. exact IH'.
  Qed.

  Lemma grep_search_total : never_empty M b -> forall fuel off, length b - off < fuel ->
    exists r, grep_search DLT fa fuel b off = Ret r.
  Proof.
    intros NE. induction fuel as [|fuel IH]; intros off H; [lia|]. cbn [grep_search].
    destruct (Nat.leb_spec (length b) off) as [K|K]; [eexists; reflexivity|].
    pose proof (LM b off ltac:(lia)) as F. destruct (fa b off) as [[s e]|]; [|eexists; reflexivity].
    destruct F as (F1 & F2 & F3 & F4 & F5). pose proof (NE _ _ F4) as Hse.
    assert (IH' : exists r, grep_search DLT fa fuel b e = Ret r) by (apply IH; lia).
    destruct (rev_at b s Hb ltac:(lia)) as [(o & n & v & -> & C & O1 & O2)|(-> & _)]; cbn [obind].
    - destruct ((o <? s) && (o + len_of DLT v <? e)); [exact IH'|eexists; reflexivity].
    - destruct (length b <=? e); [eexists; reflexivity|exact IH'].
  Qed.

  Lemma grep_next_sound fuel off off' k v : grep_next DLT fa fuel b off = Ret (off', Some (k, v)) ->
    hit off k v /\ off' = k + storage_len v.
  Proof.
    unfold grep_next. destruct (grep_search_sound fuel off) as [_ S].
    destruct (grep_search DLT fa fuel b off) as [[[o x]|]| |]; cbn [obind]; intros E; try discriminate.
    injection E as <- <- <-. split; [now apply S|reflexivity].
  Qed.
  Lemma grep_next_no_panic fuel off : grep_next DLT fa fuel b off <> Panic.
  Proof.
    unfold grep_next. destruct (grep_search_sound fuel off) as [N _].
    destruct (grep_search DLT fa fuel b off) as [[[o x]|]| |]; cbn [obind]; try discriminate. congruence.
  Qed.

  (** Items are hits, offsets strictly ascending (for patterns without empty matches). *)
  Lemma grep_collect_run f0 : never_empty M b -> length b < f0 -> forall fuel off, length b - off < fuel ->
    exists l, collect (grep_next DLT fa f0 b) fuel off = Ret l /\
      (forall k v, In (k, v) l -> hit off k v) /\
      StronglySorted (fun x y => fst x < fst y) l.
  Proof.
    intros NE H0. induction fuel as [|fuel IH]; intros off H; [lia|]. cbn [collect].
    destruct (grep_next DLT fa f0 b off) as [[off' [[k v]|]]| |] eqn:E; cbn [obind].
    - destruct (grep_next_sound _ _ _ _ _ E) as [Ht ->].
      destruct Ht as (n & s & e & C & A1 & A2 & A3 & A4 & A5 & A6).
      destruct (cand_bounds DLT parse dlt_lawful b k n v C) as (B1 & B2 & B3).
      change (len_of DLT v) with (storage_len v) in B1. rewrite B1 in *.
      pose proof (NE _ _ A2) as Hse.
      destruct (IH (k + n)) as (l & -> & I1 & I2); [lia|]. cbn [obind].
      exists ((k, v) :: l). split; [reflexivity|]. split.
      + intros k' v' [Q|Q].
        * injection Q as <- <-. exists n, s, e. repeat split; try assumption; apply C.
        * apply I1 in Q. destruct Q as (n' & s' & e' & Q1 & Q2 & Q3).
          exists n', s', e'. split; [exact Q1|]. split; [lia|exact Q3].
      + constructor; [exact I2|]. apply Forall_forall. intros [k' v'] Q. cbn.
        apply I1 in Q. destruct Q as (n' & s' & e' & Q1 & Q2 & Q3 & Q4 & Q5 & Q6 & Q7).
        pose proof (NE _ _ Q3) as Hse'.
        assert (k <= k') by (apply Q7; [apply C|lia]).
        destruct (Nat.eq_dec k k') as [<-|]; [|lia].
        destruct (cand_fun DLT parse b k n v n' v' C Q1) as [<- _]. lia.
    - exists []. split; [reflexivity|]. split; [intros ? ? []|constructor].
    - exfalso. now apply (grep_next_no_panic f0 off).
    - exfalso. unfold grep_next in E.
      destruct (grep_search_total NE f0 off ltac:(lia)) as [[[o x]|] R]; rewrite R in E; discriminate.
  Qed.
End G.

(** * Completeness on clean files *)
Section Complete.
  Variable M : matcher.
  Variable fa : bytes -> nat -> option (nat * nat).
  Hypothesis LM : leftmost M fa.
  Variables (parts : list (bytes * bytes)) (last : bytes).
  Notation b := (layout parts last).
  Notation ms := (placed 0 parts).
  Hypothesis Hb : (N.of_nat (length b) < usize_max)%N.
  Hypothesis CL : clean parts last.
  Hypothesis NE : never_empty M b.
  Hypothesis NC : no_crossing M b ms.

  (** Message [p] contains a match starting at or after [off]. *)
  Definition has (off : nat) (p : nat * bytes) : Prop :=
    exists s e, M b s e /\ off <= s /\ inside p s e.

  Lemma occ_placed k : occ dlt_marker b k = true -> exists m, In (k, m) ms.
  Proof.
    intros O. apply CL. apply occ_occurs; [cbn; lia|exact O].
  Qed.
  Lemma placed_occ k m : In (k, m) ms -> message_at b k m /\ occ dlt_marker b k = true /\ 20 <= length m.
  Proof.
    intros I. destruct CL as [V _]. pose proof (placed_message parts last k m V I) as Q.
    split; [exact Q|]. split; [apply (message_at_prefix b k m Q)|]. apply Q.
  Qed.

  Lemma grep_search_exact : forall fuel off, length b - off < fuel ->
    (exists k m, grep_search DLT fa fuel b off = Ret (Some (k, entry_of m)) /\ In (k, m) ms /\
       has off (k, m) /\ forall k' m', In (k', m') ms -> has off (k', m') -> k <= k') \/
    (grep_search DLT fa fuel b off = Ret None /\ forall p, In p ms -> ~ has off p).
  Proof.
    induction fuel as [|fuel IH]; intros off H; [lia|]. cbn [grep_search].
    destruct (Nat.leb_spec (length b) off) as [K|K].
    { right. split; [reflexivity|]. intros [k m] I (s & e & A1 & A2 & A3 & A4). cbn in A3, A4.
      pose proof (NE _ _ A1). pose proof (placed_end parts last k m I). lia. }
    pose proof (LM b off ltac:(lia)) as F. destruct (fa b off) as [[s e]|].
    2:{ right. split; [reflexivity|]. intros p I (s & e & A1 & A2 & _). exact (F s e A2 A1). }
    destruct F as (F1 & F2 & F3 & F4 & F5). pose proof (NE _ _ F4) as Hse.
    assert (LMs : forall s' e', M b s' e' -> off <= s' -> s <= s').
    { intros s' e' A B. destruct (le_lt_dec s s') as [Q|Q]; [exact Q|]. exfalso. apply (F5 s' e'); [lia|exact A]. }
    destruct (NC s e F4) as [((k & m) & I & A1 & A2)|AP]; [cbn in A1, A2|].
    - (* inside message (k, m) *)
      destruct (placed_occ k m I) as (Q1 & Q2 & Q3).
      destruct (rev_at b s Hb ltac:(lia)) as [(o & n & v & -> & C & O1 & O2)|(_ & [N|(c & _ & C1 & C2 & _)])]; cbn [obind].
      + assert (o = k).
        { assert (k <= o) by (apply O2; [exact Q2|lia]).
          destruct (occ_placed o (proj1 C)) as [mo Io].
          destruct (placed_cases parts 0 o mo k m Io I) as [E|[E|E]]; [congruence| |].
          - destruct (placed_occ o mo Io) as (_ & _ & L). lia.
          - lia. }
        subst o. destruct (cand_fun DLT parse b k n v _ _ C (dcand_entry b k m Q1)) as [-> ->].
        destruct (cand_bounds DLT parse dlt_lawful b k _ _ C) as (-> & _).
        destruct (Nat.ltb_spec (k + length m) e); [lia|]. rewrite Bool.andb_false_r.
        left. exists k, m. split; [reflexivity|]. split; [exact I|]. split.
        * exists s, e. split; [exact F4|]. split; [exact F1|]. split; assumption.
        * intros k' m' I' (s' & e' & D1 & D2 & D3 & D4). cbn in D3, D4.
          pose proof (LMs _ _ D1 D2). pose proof (NE _ _ D1).
          destruct (placed_cases parts 0 k m k' m' I I') as [E|[E|E]]; [injection E as <- <-; lia|lia|].
          lia.
      + rewrite (N k) in Q2 by lia. discriminate.
      + destruct (occ_placed c C1) as [mc Ic]. destruct (placed_occ c mc Ic) as (R1 & _ & _).
        apply dcand_entry in R1. destruct R1 as [_ R1]. congruence.
    - (* apart from all messages: the search goes on behind the match *)
      assert (SK : forall p, In p ms -> has off p -> has e p).
      { intros [k m] I (s' & e' & D1 & D2 & D3 & D4). exists s', e'. split; [exact D1|].
        split; [|split; assumption]. pose proof (LMs _ _ D1 D2). pose proof (NE _ _ D1).
        specialize (AP (k, m) I). unfold apart in AP. cbn in AP, D3, D4. lia. }
      assert (SK' : forall p, has e p -> has off p).
      { intros p (s' & e' & D1 & D2 & D3). exists s', e'. split; [exact D1|]. split; [lia|exact D3]. }
      assert (REC : (exists k m, grep_search DLT fa fuel b e = Ret (Some (k, entry_of m)) /\ In (k, m) ms /\
         has off (k, m) /\ forall k' m', In (k', m') ms -> has off (k', m') -> k <= k') \/
         (grep_search DLT fa fuel b e = Ret None /\ forall p, In p ms -> ~ has off p)).
      { destruct (IH e ltac:(lia)) as [(k & m & A & B & C & D)|(A & B)].
        - left. exists k, m. split; [exact A|]. split; [exact B|]. split; [now apply SK'|].
          intros k' m' I' H'. apply (D k' m' I'). now apply SK.
        - right. split; [exact A|]. intros p I' H'. apply (B p I'). now apply SK. }
      destruct (rev_at b s Hb ltac:(lia)) as [(o & n & v & -> & C & O1 & O2)|(-> & _)]; cbn [obind].
      + destruct (occ_placed o (proj1 C)) as [mo Io]. destruct (placed_occ o mo Io) as (R1 & _ & _).
        destruct (cand_fun DLT parse b o n v _ _ C (dcand_entry b o mo R1)) as [-> ->].
        destruct (cand_bounds DLT parse dlt_lawful b o _ _ C) as (-> & _).
        specialize (AP (o, mo) Io). unfold apart in AP. cbn in AP.
        destruct (Nat.ltb_spec o s); [|lia]. destruct (Nat.ltb_spec (o + length mo) e); [|lia].
        exact REC.
      + destruct (Nat.leb_spec (length b) e) as [Q|Q]; [|exact REC].
        right. split; [reflexivity|]. intros [k m] I H'. apply (SK _ I) in H'.
        destruct H' as (s' & e' & D1 & D2 & D3 & D4). cbn in D3, D4. pose proof (NE _ _ D1).
        pose proof (placed_end parts last k m I). lia.
  Qed.

  Lemma grep_collect_exact f0 : length b < f0 -> forall fuel off, length b - off < fuel ->
    exists sel, collect (grep_next DLT fa f0 b) fuel off = Ret (entries sel) /\
      StronglySorted (fun x y => fst x < fst y) sel /\
      forall p, In p sel <-> In p ms /\ has off p.
  Proof.
    intros H0. induction fuel as [|fuel IH]; intros off H; [lia|]. cbn [collect]. unfold grep_next at 1.
    destruct (grep_search_exact f0 off ltac:(lia)) as [(k & m & -> & I & A & B)|(-> & A)]; cbn [obind].
    - destruct (placed_occ k m I) as (Q1 & Q2 & Q3).
      destruct (cand_bounds DLT parse dlt_lawful b k _ _ (dcand_entry b k m Q1)) as (-> & _ & B3).
      destruct (IH (k + length m)) as (sel & -> & S & J).
      { destruct A as (s & e & A1 & A2 & A3 & A4). cbn in A3, A4. pose proof (NE _ _ A1). lia. }
      cbn [obind]. exists ((k, m) :: sel). split; [reflexivity|].
      assert (after : forall p, In p sel -> k < fst p).
      { intros [k' m'] I'. apply J in I'. destruct I' as [I1 (s & e & D1 & D2 & D3 & D4)]. cbn in *.
        pose proof (NE _ _ D1).
        destruct (placed_cases parts 0 k m k' m' I I1) as [E|[E|E]]; [injection E as <- <-; lia|lia|lia]. }
      split; [constructor; [exact S|]; apply Forall_forall; intros p Hp; cbn; now apply after|].
      intros [k' m']. cbn [In]. split.
      + intros [E|E]; [injection E as <- <-; now split|].
        apply J in E. destruct E as [E1 (s & e & D1 & D2 & D3)]. split; [exact E1|].
        exists s, e. split; [exact D1|]. split; [|exact D3].
        destruct A as (s0 & e0 & A1 & A2 & A3 & A4). cbn in A3, A4. pose proof (NE _ _ A1). lia.
      + intros [I1 Hs]. destruct (placed_cases parts 0 k m k' m' I I1) as [E|[E|E]]; [now left| |].
        * right. apply J. split; [exact I1|]. destruct Hs as (s & e & D1 & D2 & D3 & D4). cbn in D3, D4.
          exists s, e. split; [exact D1|]. split; [lia|]. split; assumption.
        * exfalso. pose proof (B k' m' I1 Hs). destruct (placed_occ k' m' I1). lia.
    - exists []. split; [reflexivity|]. split; [constructor|]. intros p. split; [intros []|].
      intros [I Hs]. exact (A p I Hs).
  Qed.
End Complete.

(** * The literal needle as a pattern *)
Definition find_literal (m : bytes) (b : bytes) (off : nat) : option (nat * nat) :=
  match find m (skipn off b) with
  | Some p => Some (off + p, off + p + length m)
  | None => None
  end.
Lemma literal_leftmost m : 0 < length m -> leftmost (literal m) (find_literal m).
Proof.
  intros Hm b off H. unfold find_literal. destruct (find m (skipn off b)) as [p|] eqn:F.
  - apply find_some in F; [|exact Hm]. destruct F as [O F]. rewrite occ_skipn in O.
    split; [lia|]. split; [lia|]. split; [now apply occ_len|].
    split; [split; [now apply occ_occurs|reflexivity]|].
    intros s' e' Hs [A _]. apply occ_occurs in A; [|exact Hm].
    specialize (F (s' - off) ltac:(lia)). rewrite occ_skipn in F.
    replace (off + (s' - off)) with s' in F by lia. congruence.
  - intros s' e' Hs [A _]. apply occ_occurs in A; [|exact Hm].
    rewrite find_none in F by exact Hm. specialize (F (s' - off)). rewrite occ_skipn in F.
    replace (off + (s' - off)) with s' in F by lia. congruence.
Qed.

Lemma occ_nth m b s : occ m b s = true -> forall i, i < length m -> nth (s + i) b x00 = nth i m x00.
Proof.
  revert b s. induction m as [|x m IH]; intros b s H i Hi; [cbn in Hi; lia|].
  destruct (skipn s b) as [|y t] eqn:E; [discriminate|]. cbn [is_prefix] in H.
  apply andb_prop in H. destruct H as [H1 H2].
  destruct (byte_eqb_spec x y) as [<-|]; [|discriminate].
  assert (Hs : s < length b).
  { destruct (le_lt_dec (length b) s); [|assumption]. rewrite skipn_all2 in E by lia. discriminate. }
  assert (E' : b = firstn s b ++ x :: t) by (rewrite <- E; symmetry; apply firstn_skipn).
  assert (Lf : length (firstn s b) = s) by (rewrite firstn_length; lia).
  destruct i as [|i].
  - rewrite E', Nat.add_0_r, app_nth2, Lf, Nat.sub_diag by lia. reflexivity.
  - cbn [nth length] in *. specialize (IH b (S s)). replace (s + S i) with (S s + i) by lia.
    apply IH; [|lia]. replace (S s) with (s + 1) by lia. rewrite <- skipn_skipn', E. exact H2.
Qed.

Section Literal.
  Variable needle : bytes.
  Hypothesis Hn : 0 < length needle.
  Hypothesis Hfree : forall c, In c needle -> ~ In c the_pattern.

  Lemma free_at b s q : occ needle b s = true -> s <= q < s + length needle -> ~ In (nth q b x00) the_pattern.
  Proof.
    intros O H. pose proof (occ_nth needle b s O (q - s) ltac:(lia)) as E.
    replace (s + (q - s)) with q in E by lia. rewrite E. apply Hfree, nth_In. lia.
  Qed.
  Lemma valid_head m rest i : valid_message m -> i < 4 -> In (nth i (m ++ rest) x00) the_pattern.
  Proof.
    intros (V & L & _) Hi. rewrite app_nth1 by lia.
    assert (E : nth i m x00 = nth i (firstn 4 m) x00).
    { rewrite <- (firstn_skipn 4 m) at 1. rewrite app_nth1; [reflexivity|]. rewrite firstn_length. lia. }
    rewrite E, V. apply nth_In. exact Hi.
  Qed.

  Lemma literal_inside ms : forall k s, Forall valid_message ms -> occ needle (concat ms) s = true ->
    exists p, In p (placed k (bare ms)) /\ inside p (k + s) (k + s + length needle).
  Proof.
    induction ms as [|m ms IH]; intros k s V O.
    - cbn [concat] in O. rewrite skipn_nil, is_prefix_nil in O by exact Hn. discriminate.
    - inversion V as [|x y V1 V2]; subst. cbn [concat bare map placed length] in *. rewrite Nat.add_0_r.
      destruct (le_lt_dec (length m) s) as [Q|Q].
      + destruct (IH (k + length m) (s - length m) V2) as (p & I & J).
        { rewrite skipn_app, skipn_all2 in O by lia. exact O. }
        exists p. split; [right; exact I|]. now replace (k + length m + (s - length m)) with (k + s) in J by lia.
      + exists (k, m). split; [now left|]. unfold inside. cbn [fst snd].
        assert (4 <= s).
        { destruct (le_lt_dec 4 s) as [Z|Z]; [exact Z|]. exfalso.
          apply (free_at _ _ s O); [lia|]. now apply valid_head. }
        split; [lia|].
        destruct (le_lt_dec (s + length needle) (length m)) as [Z|Z]; [lia|]. exfalso.
        apply (free_at _ _ (length m) O); [lia|].
        rewrite app_nth2, Nat.sub_diag by lia.
        destruct ms as [|m' ms].
        * pose proof (occ_len needle _ _ Hn O) as W. cbn [concat] in W. rewrite app_nil_r in W. lia.
        * inversion V2 as [|x y V3 V4]; subst. cbn [concat]. apply (valid_head m' (concat ms) 0 V3). lia.
  Qed.
  Lemma literal_no_crossing ms : Forall valid_message ms ->
    no_crossing (literal needle) (layout (bare ms) []) (placed 0 (bare ms)).
  Proof.
    intros V s e [O ->]. left. rewrite layout_bare in O. apply occ_occurs in O; [|exact Hn].
    destruct (literal_inside ms 0 s V O) as (p & I & J). exists p. split; [exact I|exact J].
  Qed.
End Literal.

(** A message of a layout: matches of a literal inside it are occurrences in its bytes. *)
Lemma has_literal needle parts last k m : 0 < length needle ->
  Forall (fun p => valid_message (snd p)) parts -> In (k, m) (placed 0 parts) ->
  (has (literal needle) parts last 0 (k, m) <-> occurs_in needle (skipn 4 m)).
Proof.
  intros Hn V I. pose proof (placed_message parts last k m V I) as (Vm & pre & post & E & Lp).
  assert (Lm : 20 <= length m) by apply Vm.
  assert (SK : forall i, skipn (k + i) (layout parts last) = skipn i (m ++ post)).
  { intros i. rewrite E, <- Lp, <- skipn_skipn', (skipn_app_exact pre _ _ eq_refl). reflexivity. }
  split.
  - intros (s & e & [O ->] & _ & A & B). cbn in A, B. apply occ_occurs in O; [|exact Hn].
    exists (s - k - 4). apply occ_occurs; [exact Hn|].
    replace s with (k + (4 + (s - k - 4))) in O by lia. rewrite SK, <- skipn_skipn' in O.
    rewrite (skipn_app 4), (proj2 (Nat.sub_0_le 4 (length m)) ltac:(lia)) in O.
    change (skipn 0 post) with post in O.
    assert (Lk : length (skipn 4 m) = length m - 4) by apply skipn_length.
    rewrite skipn_app in O. rewrite is_prefix_app_inv in O; [exact O|].
    rewrite skipn_length. lia.
  - intros (i & O). apply occ_occurs in O; [|exact Hn].
    pose proof (occ_len _ _ _ Hn O) as Lo. rewrite skipn_length in Lo.
    exists (k + (4 + i)), (k + (4 + i) + length needle).
    split; [|split; [lia|unfold inside; cbn [fst snd]; lia]]. split; [|reflexivity].
    apply occ_occurs; [exact Hn|]. rewrite SK, <- skipn_skipn', (skipn_app 4).
    rewrite (proj2 (Nat.sub_0_le 4 (length m)) ltac:(lia)). change (skipn 0 post) with post.
    rewrite skipn_app. now apply is_prefix_app_l.
Qed.

(** * RegExMatcherIterator *)
Section C.
  Variable M : matcher.
  Variable ca : bytes -> nat -> option ((nat * nat) * option (nat * nat)).
  Hypothesis LM : leftmost_capture M ca.
  Variable b : bytes.
  Hypothesis Hb : (N.of_nat (length b) < usize_max)%N.

  Definition chit (off o gs ge : nat) : Prop :=
    exists n v s e, dcand b o n v /\ off <= s /\ M b s e /\ o + 4 <= s /\ s <= gs /\ gs <= ge /\ ge <= e /\
      e <= o + n /\ forall j, occ dlt_marker b j = true -> j + 4 <= s -> j <= o.

  Lemma capture_sound : forall fuel off,
    capture DLT ca fuel b off <> Panic /\
    forall o gs ge, capture DLT ca fuel b off = Ret (Some (o, (gs, ge))) -> chit off o gs ge.
  Proof.
    destruct LM as [LM1 LM2].
    induction fuel as [|fuel IH]; intros off; cbn [capture]; [split; [discriminate|intros; discriminate]|].
    destruct (Nat.leb_spec (length b) off) as [K|K]; [split; [discriminate|intros; discriminate]|].
    pose proof (LM1 b off ltac:(lia)) as F. cbn beta in F. pose proof (LM2 b off) as G.
    destruct (ca b off) as [[[s e] g1]|]; cbn [option_map fst] in F; [|split; [discriminate|intros; discriminate]].
    destruct F as (F1 & F2 & F3 & F4 & F5).
    assert (IH' : capture DLT ca fuel b e <> Panic /\
       forall o gs ge, capture DLT ca fuel b e = Ret (Some (o, (gs, ge))) -> chit off o gs ge).
    { destruct (IH e) as [I1 I2]. split; [exact I1|]. intros o gs ge E. apply I2 in E.
      destruct E as (n & v & s' & e' & E1 & E2 & E3). exists n, v, s', e'. split; [exact E1|]. split; [lia|exact E3]. }
    destruct (rev_at b s Hb ltac:(lia)) as [(o & n & v & -> & C & O1 & O2)|(-> & _)]; cbn [obind].
    - destruct (cand_bounds DLT parse dlt_lawful b o n v C) as (B1 & B2 & B3). rewrite B1.
      destruct (Nat.ltb_spec o s) as [Q|Q]; [|lia]. cbn [andb].
      destruct (Nat.ltb_spec (o + n) e) as [Q'|Q']; [exact IH'|].
      destruct g1 as [[gs ge]|]; (split; [discriminate|]); intros o' gs' ge' E; [|discriminate].
      injection E as <- <- <-. destruct (G s e gs ge eq_refl) as (G1 & G2 & G3).
      exists n, v, s, e. repeat split; try assumption; apply C.
    - destruct (Nat.leb_spec (length b) e); [split; [discriminate|intros; discriminate]|]. exact IH'.
  Qed.

  Lemma capture_total : never_empty M b -> forall fuel off, length b - off < fuel ->
    exists r, capture DLT ca fuel b off = Ret r.
  Proof.
    destruct LM as [LM1 LM2]. intros NE. induction fuel as [|fuel IH]; intros off H; [lia|]. cbn [capture].
    destruct (Nat.leb_spec (length b) off) as [K|K]; [eexists; reflexivity|].
    pose proof (LM1 b off ltac:(lia)) as F. cbn beta in F.
    destruct (ca b off) as [[[s e] g1]|]; cbn [option_map fst] in F; [|eexists; reflexivity].
    destruct F as (F1 & F2 & F3 & F4 & F5). pose proof (NE _ _ F4) as Hse.
    assert (IH' : exists r, capture DLT ca fuel b e = Ret r) by (apply IH; lia).
    destruct (rev_at b s Hb ltac:(lia)) as [(o & n & v & -> & C & O1 & O2)|(-> & _)]; cbn [obind].
    - destruct ((o <? s) && (o + len_of DLT v <? e)); [exact IH'|]. destruct g1; eexists; reflexivity.
    - destruct (length b <=? e); [eexists; reflexivity|exact IH'].
  Qed.

  Lemma capture_next_sound fuel off off' k gs ge :
    capture_next DLT ca fuel b off = Ret (off', Some (k, (gs, ge))) ->
    chit off k gs ge /\ off' = k + ge.
  Proof.
    unfold capture_next. destruct (capture_sound fuel off) as [_ S].
    destruct (capture DLT ca fuel b off) as [[[o [g1 g2]]|]| |]; cbn [obind]; intros E; try discriminate.
    injection E as <- <- <- <-. split; [now apply S|reflexivity].
  Qed.
  Lemma capture_next_no_panic fuel off : capture_next DLT ca fuel b off <> Panic.
  Proof.
    unfold capture_next. destruct (capture_sound fuel off) as [N _].
    destruct (capture DLT ca fuel b off) as [[[o x]|]| |]; cbn [obind]; try discriminate. congruence.
  Qed.
  (** With non-empty matches and groups the cursor moves: the iteration terminates. *)
  Lemma capture_collect_run f0 : never_empty M b ->
    (forall off s e gs ge, ca b off = Some ((s, e), Some (gs, ge)) -> gs < ge) ->
    length b < f0 -> forall fuel off, length b - off < fuel ->
    exists l, collect (capture_next DLT ca f0 b) fuel off = Ret l /\
      (forall k gs ge, In (k, (gs, ge)) l -> chit off k gs ge).
  Proof.
    intros NE GE H0.
    assert (PG : forall fuel off o gs ge, capture DLT ca fuel b off = Ret (Some (o, (gs, ge))) -> gs < ge).
    { induction fuel as [|fuel IH]; intros off o gs ge; cbn [capture]; [discriminate|].
      destruct (length b <=? off); [discriminate|].
      destruct (ca b off) as [[[s e] g1]|] eqn:G; [|discriminate].
      destruct (rev_search DLT b (N.of_nat s)) as [[[o' v]|]| |]; cbn [obind]; try discriminate.
      - destruct ((o' <? s) && (o' + len_of DLT v <? e)); [apply IH|].
        destruct g1 as [[g2 g3]|]; [|discriminate]. intros E. injection E as <- <- <-. exact (GE _ _ _ _ _ G).
      - destruct (length b <=? e); [discriminate|apply IH]. }
    induction fuel as [|fuel IH]; intros off H; [lia|]. cbn [collect].
    destruct (capture_next DLT ca f0 b off) as [[off' [[k [gs ge]]|]]| |] eqn:E; cbn [obind].
    - assert (Hg : gs < ge).
      { unfold capture_next in E. destruct (capture DLT ca f0 b off) as [[[o [g1 g2]]|]| |] eqn:Q; try discriminate.
        cbn [obind] in E. injection E as _ _ <- <-. apply (PG _ _ _ _ _ Q). }
      destruct (capture_next_sound _ _ _ _ _ _ E) as [Ht ->].
      assert (Ht' := Ht). destruct Ht as (n & v & s & e & C & A1 & A2 & A3 & A4 & A5 & A6 & A7 & A8).
      destruct (cand_bounds DLT parse dlt_lawful b k n v C) as (B1 & B2 & B3).
      destruct (IH (k + ge)) as (l & -> & I); [lia|]. cbn [obind].
      exists ((k, (gs, ge)) :: l). split; [reflexivity|]. intros k' gs' ge' [Q|Q].
      + injection Q as <- <- <-. exact Ht'.
      + apply I in Q. destruct Q as (n' & v' & s' & e' & Q1 & Q2 & Q3).
        exists n', v', s', e'. split; [exact Q1|]. split; [lia|exact Q3].
    - exists []. split; [reflexivity|]. intros ? ? ? [].
    - exfalso. now apply (capture_next_no_panic f0 off).
    - exfalso. unfold capture_next in E.
      destruct (capture_total NE f0 off ltac:(lia)) as [[[o x]|] R]; rewrite R in E; discriminate.
  Qed.
End C.
