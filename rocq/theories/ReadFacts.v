(** Exact behaviour of the iterators on arbitrary slices (C65-C69). *)
From Verif Require Import Base DltModel MatchModel GenModel ToolsModel Spec ReadSpec BaseFacts DltFacts CodecFacts ParseFacts FindFacts IterFacts DltIterFacts LayoutFacts GrepFacts GenFacts GroupFacts.
From Coq Require Import Sorted.

Lemma parse_none_unreadable b : is_prefix dlt_marker b = true -> parse b = None -> unreadable b.
Proof.
  intros P N m rest E V. assert (X : parse b = Some (length m, entry_of m)); [|congruence].
  rewrite E. now apply parse_valid.
Qed.
Lemma unreadable_parse b : is_prefix dlt_marker b = true -> unreadable b -> parse b = None.
Proof.
  intros P U. destruct (parse b) as [[n e]|] eqn:E; [|reflexivity]. exfalso.
  apply parse_marker_iff in E; [|exact P]. destruct E as (m & rest & -> & V & _). exact (U m rest eq_refl V).
Qed.
Lemma unreadable_try_read b : unreadable b -> storage_try_read b = Ret None.
Proof.
  intros U. rewrite try_read_parse. destruct (is_prefix dlt_marker b) eqn:P; [|reflexivity].
  now rewrite (unreadable_parse b P U).
Qed.

(** ** Sequential reading *)
Lemma chain_split b off l : dchain b off l -> off <= length b ->
  exists parts last, read_split (skipn off b) parts last /\ l = entries (placed off parts).
Proof.
  induction 1 as [off N|off k F P|off k n v l F P C IH]; intros Ho.
  - exists [], (skipn off b). split; [|reflexivity]. split; [reflexivity|]. split; [constructor|]. left.
    intros [j O]. apply occ_occurs in O; [|cbn; lia]. rewrite occ_skipn in O.
    specialize (N (off + j) ltac:(lia)). change (marker DLT) with the_pattern in N. congruence.
  - destruct F as (F1 & F2 & F3). change (marker DLT) with the_pattern in *.
    pose proof (occ_len the_pattern b k ltac:(cbn; lia) F2) as FL. cbn [length the_pattern] in FL.
    exists [], (skipn off b). split; [|reflexivity]. split; [reflexivity|]. split; [constructor|]. right.
    exists (firstn (k - off) (skipn off b)), (skipn k b).
    assert (SK : skipn k b = skipn (k - off) (skipn off b)) by (rewrite skipn_skipn'; f_equal; lia).
    split; [rewrite SK; symmetry; apply firstn_skipn|]. split; [|split].
    + intros [j O]. apply occ_occurs in O; [|cbn; lia]. apply occ_firstn_inv in O; [|cbn; lia].
      destruct O as [O1 O2]. cbn [length the_pattern] in O1. rewrite occ_skipn in O2. rewrite F3 in O2 by lia. discriminate.
    + apply is_prefix_firstn in F2. exact F2.
    + now apply parse_none_unreadable.
  - destruct F as (F1 & F2 & F3). change (marker DLT) with the_pattern in *.
    assert (Cd : dcand b k n v) by (split; assumption).
    pose proof (cand_bounds DLT parse dlt_lawful b k n v Cd) as (_ & _ & B).
    apply dcand_iff in Cd. destruct Cd as (m & (V & pre & post & Eb & Lp) & Lm & D).
    destruct IH as (parts & last & (E & OK & L) & ->); [lia|].
    exists ((firstn (k - off) (skipn off b), m) :: parts), last. split; [split; [|split; [|exact L]]|].
    + cbn [layout]. rewrite <- E.
      assert (SK : skipn k b = skipn (k - off) (skipn off b)) by (rewrite skipn_skipn'; f_equal; lia).
      assert (SM : skipn k b = m ++ skipn (k + n) b).
      { rewrite <- (skipn_skipn' n k b). rewrite Eb at 1 2. rewrite <- Lp, !(skipn_app_exact pre _ (length pre) eq_refl).
        rewrite (skipn_app_exact m post n); [reflexivity|exact Lm]. }
      rewrite <- SM, SK. symmetry. apply firstn_skipn.
    + constructor; [|exact OK]. cbn [fst snd]. split; [|exact V].
      intros [j O]. apply occ_occurs in O; [|cbn; lia]. apply occ_firstn_inv in O; [|cbn; lia].
      destruct O as [O1 O2]. cbn [length the_pattern] in O1. rewrite occ_skipn in O2. rewrite F3 in O2 by lia. discriminate.
    + cbn [placed entries map]. rewrite firstn_length, skipn_length.
      replace (off + Nat.min (k - off) (length b - off)) with k by lia. cbn [fst snd]. rewrite Lm.
      f_equal. f_equal. apply (denotes_entry_of_iff v m); [apply V|exact D].
Qed.

Lemma read_split_exists b : exists parts last, read_split b parts last.
Proof.
  destruct (dltit_offset_total b) as (l & _ & C). destruct (chain_split b 0 l C (Nat.le_0_l _)) as (parts & last & H & _).
  now exists parts, last.
Qed.
Lemma shows_entries l ms : Forall (fun p => valid_message (snd p)) ms -> shows l ms -> l = entries ms.
Proof.
  intros F S. revert F. induction S as [|[k e] [k' m] l ms [A B] S IH]; intros F; [reflexivity|]. inversion F as [|x y V F']; subst.
  cbn [entries map fst snd] in *. subst k'. f_equal; [|now apply IH]. f_equal.
  apply (denotes_entry_of_iff e m); [apply V|exact B].
Qed.
Lemma read_split_read b parts last : read_split b parts last ->
  exists l, dltit_offset b = Ret l /\ shows l (placed 0 parts) /\ dltit b = Ret (map snd l).
Proof.
  intros (-> & OK & S). destruct S as [N|(x & rest & -> & NX & PR & U)]; [now apply layout_read|].
  destruct (corrupt_stops parts x rest OK NX PR (unreadable_try_read rest U)) as (l & E & Sh).
  exists l. split; [exact E|]. split; [exact Sh|]. now apply dltit_map.
Qed.
Lemma read_split_unique b parts last parts' last' :
  read_split b parts last -> read_split b parts' last' -> parts = parts' /\ last = last'.
Proof.
  intros H H'. destruct (read_split_read _ _ _ H) as (l & E & S & _). destruct (read_split_read _ _ _ H') as (l' & E' & S' & _).
  assert (l' = l) by congruence. subst l'. clear E'.
  destruct H as (Eb & OK & _), H' as (Eb' & OK' & _). rewrite Eb in Eb'. clear E Eb b.
  revert S S' . revert parts' OK' Eb' OK l. generalize 0.
  induction parts as [|[j m] ps IH]; intros k [|[j' m'] ps'] OK' Eb' OK l S S'; cbn [placed] in S, S'.
  - cbn [layout] in Eb'. now split.
  - inversion S; subst. inversion S'.
  - inversion S'; subst. inversion S.
  - inversion S as [|x y l1 ms1 [A1 D1] S1 Q1 Q2]; subst. inversion S' as [|x' y' l1' ms1' [A2 D2] S1' Q1' Q2']; subst.
    inversion OK as [|u w [_ V] OKr]; subst. inversion OK' as [|u' w' [_ V'] OKr']; subst. cbn [fst snd layout] in *.
    assert (j = j').
    { assert (L : length j = length j') by lia. apply (f_equal (firstn (length j))) in Eb'.
      rewrite firstn_app_exact in Eb' by reflexivity. rewrite (firstn_app_exact j' _ (length j)) in Eb' by auto. exact Eb'. }
    subst j'. apply app_inv_head in Eb'.
    destruct (valid_prefix_unique m _ m' _ Eb' V V') as [<- Er].
    destruct (IH _ _ OKr' Er OKr _ S1 S1') as [-> ->]. now split.
Qed.

(** ** Searching *)
Lemma schain_greedy b off l : schain DLT parse b off l -> exists ms, shows l ms /\ greedy b off ms.
Proof.
  induction 1 as [off N|off k n v l F C IH].
  - exists []. split; [constructor|]. split; [intros k m []|]. split; [constructor|].
    intros k m M Hk. exfalso. apply (N k (length m) (entry_of m) Hk). now apply dcand_entry.
  - destruct F as (F1 & F2 & F3). pose proof (cand_bounds DLT parse dlt_lawful b k n v F2) as (_ & B & _).
    pose proof F2 as F2'. apply dcand_iff in F2'. destruct F2' as (m & M & <- & D). destruct IH as (ms & S & G1 & G2 & G3).
    exists ((k, m) :: ms). split; [constructor; [split; [reflexivity|exact D]|exact S]|]. split; [|split].
    + intros k' m' [E|I]; [injection E as <- <-; now split|]. apply G1 in I. split; [lia|apply I].
    + constructor; [exact G2|]. apply Forall_forall. intros [k' m'] I. cbn [fst snd]. apply G1 in I. lia.
    + intros k' m' M' Hk. destruct (lt_eq_lt_dec k' k) as [[K|K]|K].
      * exfalso. apply (F3 k' (length m') (entry_of m')); [lia|now apply dcand_entry].
      * subst k'. left. left. f_equal. now apply (message_at_fun b k).
      * destruct (le_lt_dec (k + length m) k') as [Q|Q].
        { destruct (G3 k' m' M' Q) as [I|(k1 & m1 & I & J)]; [left; now right|]. right. exists k1, m1. split; [now right|exact J]. }
        { right. exists k, m. split; [now left|lia]. }
Qed.
Lemma greedy_unique b off ms ms' : greedy b off ms -> greedy b off ms' -> ms = ms'.
Proof.
  revert off ms'. induction ms as [|[k m] ms IH]; intros off [|[k' m'] ms'] (A1 & A2 & A3) (B1 & B2 & B3).
  - reflexivity.
  - exfalso. destruct (B1 k' m' (or_introl eq_refl)) as [L M]. destruct (A3 k' m' M L) as [[]|(? & ? & [] & _)].
  - exfalso. destruct (A1 k m (or_introl eq_refl)) as [L M]. destruct (B3 k m M L) as [[]|(? & ? & [] & _)].
  - inversion A2 as [|x y SA FA]; subst. inversion B2 as [|x y SB FB]; subst.
    destruct (A1 k m (or_introl eq_refl)) as [LA MA]. destruct (B1 k' m' (or_introl eq_refl)) as [LB MB].
    rewrite Forall_forall in FA, FB. cbn [fst snd] in *.
    assert (P20 : forall k m, message_at b k m -> 20 <= length m) by (intros ? ? ((_ & V & _) & _); exact V).
    assert (Lk : k' <= k).
    { destruct (B3 k m MA LA) as [[E|I]|(k1 & m1 & [E|I] & J)].
      - injection E as <- _; lia. - apply FB in I; cbn in I; lia. - injection E as <- _; lia.
      - apply FB in I; cbn in I; lia. }
    assert (Lk' : k <= k').
    { destruct (A3 k' m' MB LB) as [[E|I]|(k1 & m1 & [E|I] & J)].
      - injection E as <- _; lia. - apply FA in I; cbn in I; lia. - injection E as <- _; lia.
      - apply FA in I; cbn in I; lia. }
    assert (k = k') by lia. subst k'. assert (m = m') by (now apply (message_at_fun b k)). subst m'. f_equal.
    apply (IH (k + length m)).
    + split; [|split; [exact SA|]].
      * intros k1 m1 I. specialize (FA _ I). cbn in FA. split; [exact FA|]. apply (A1 k1 m1). now right.
      * intros k1 m1 M1 L1. destruct (A3 k1 m1 M1 ltac:(lia)) as [[E|I]|(k2 & m2 & [E|I] & J)]; [|now left| |right; exists k2, m2; now split].
        { injection E as <- <-. pose proof (P20 _ _ MA). lia. }
        { injection E as <- <-. lia. }
    + split; [|split; [exact SB|]].
      * intros k1 m1 I. specialize (FB _ I). cbn in FB. split; [exact FB|]. apply (B1 k1 m1). now right.
      * intros k1 m1 M1 L1. destruct (B3 k1 m1 M1 ltac:(lia)) as [[E|I]|(k2 & m2 & [E|I] & J)]; [|now left| |right; exists k2, m2; now split].
        { injection E as <- <-. pose proof (P20 _ _ MA). lia. }
        { injection E as <- <-. lia. }
Qed.
Lemma search_exact b off fuel depth : length b < depth -> length b - off < fuel ->
  exists l ms, collect (search_next DLT depth b) fuel off = Ret l /\ shows l ms /\ greedy b off ms /\
    forall ms', greedy b off ms' -> ms' = ms.
Proof.
  intros Hd Hf. destruct (collect_schain DLT parse dlt_lawful b depth Hd fuel off Hf) as (l & E & C).
  destruct (schain_greedy b off l C) as (ms & S & G). exists l, ms. split; [exact E|]. split; [exact S|]. split; [exact G|].
  intros ms' G'. exact (greedy_unique b off ms' ms G' G).
Qed.

(** ** Grepping *)
Lemma owner_fun b s k k' : owner b s k -> owner b s k' -> k = k'.
Proof. intros (A & B & C) (A' & B' & C'). pose proof (C k' A' B'). pose proof (C' k A B). lia. Qed.
Lemma owner_occ b s k : k + 4 <= s -> occ dlt_marker b k = true ->
  (forall j, occ dlt_marker b j = true -> j + 4 <= s -> j <= k) -> owner b s k.
Proof.
  intros A B C. split; [apply occ_occurs; [cbn; lia|exact B]|]. split; [exact A|].
  intros j O. apply C. apply occ_occurs; [cbn; lia|exact O].
Qed.
(** The reverse search of grep finds the owner, if it reads. *)
Lemma rev_owner b s : (N.of_nat (length b) < usize_max)%N -> s <= length b ->
  (exists k m, owner b s k /\ message_at b k m /\ rev_search DLT b (N.of_nat s) = Ret (Some (k, entry_of m))) \/
  ((forall k m, owner b s k -> ~ message_at b k m) /\ rev_search DLT b (N.of_nat s) = Ret None).
Proof.
  intros Hb Hs. destruct (rev_at b s Hb Hs) as [(o & n & v & E & C & O1 & O2)|(E & D)].
  - left. pose proof (proj1 C) as Oc. apply dcand_iff in C. destruct C as (m & M & _ & Dn). exists o, m. split; [|split; [exact M|]].
    + now apply owner_occ.
    + rewrite E. do 3 f_equal. apply (denotes_entry_of_iff v m); [|exact Dn]. apply M.
  - right. split; [|exact E]. intros k m Ow M. pose proof Ow as (A & B & _). destruct (message_at_prefix b k m M) as [_ O].
    destruct D as [D|(c & D1 & D2 & D3 & D4)].
    + rewrite D in O by exact B. discriminate.
    + assert (k = c) by (apply (owner_fun b s); [exact Ow|now apply owner_occ]).
      subst k. apply dcand_entry in M. destruct M as [_ M]. change (parse (skipn c b) = Some (length m, entry_of m)) in M. congruence.
Qed.

Section Grep.
  Variable M : matcher.
  Variable fa : bytes -> nat -> option (nat * nat).
  Hypothesis LM : leftmost M fa.
  Variable b : bytes.
  Hypothesis Hb : (N.of_nat (length b) < usize_max)%N.

  Definition found (r : option (nat * bytes)) : option (nat * storage_entry) :=
    option_map (fun p => (fst p, entry_of (snd p))) r.

  Lemma entry_len k m : message_at b k m -> len_of DLT (entry_of m) = length m.
  Proof. intros H. apply dcand_entry in H. now destruct (cand_bounds DLT parse dlt_lawful _ _ _ _ H) as (-> & _). Qed.

  Lemma grep_search_step fuel : forall off r, grep_search DLT fa fuel b off = Ret r ->
    exists r', grep_step fa b off r' /\ r = found r'.
  Proof.
    induction fuel as [|fuel IH]; intros off r; cbn [grep_search]; [discriminate|].
    destruct (Nat.leb_spec (length b) off) as [K|K].
    { intros H. injection H as <-. exists None. split; [now apply grep_end|reflexivity]. }
    pose proof (LM b off ltac:(lia)) as F. destruct (fa b off) as [[s e]|] eqn:Q.
    2:{ intros H. injection H as <-. exists None. split; [now apply grep_no_match|reflexivity]. }
    destruct F as (F1 & F2 & F3 & F4 & F5).
    destruct (rev_owner b s Hb ltac:(lia)) as [(k & m & Ow & Mk & ->)|(NO & ->)]; cbn [obind].
    - rewrite (entry_len k m Mk). pose proof Ow as (_ & Ok & _).
      destruct (Nat.ltb_spec k s); [|lia]. cbn [andb].
      destruct (Nat.ltb_spec (k + length m) e) as [L|L].
      + intros H1. destruct (IH _ _ H1) as (r' & G & ->). exists r'. split; [|reflexivity].
        apply (grep_skip fa b off s e); try assumption. intros k' m' Ow' Mk'.
        assert (k' = k) by now apply (owner_fun b s). subst k'. rewrite (message_at_fun b k m' m Mk' Mk). exact L.
      + intros H1. injection H1 as <-. exists (Some (k, m)). split; [|reflexivity].
        now apply (grep_hit fa b off s e).
    - destruct (Nat.leb_spec (length b) e) as [L|L].
      + intros H. injection H as <-. exists None. split; [|reflexivity].
        apply (grep_skip fa b off s e); try assumption; [|now apply grep_end]. intros k m Ow Mk. destruct (NO k m Ow Mk).
      + intros H. destruct (IH _ _ H) as (r' & G & ->). exists r'. split; [|reflexivity].
        apply (grep_skip fa b off s e); try assumption. intros k m Ow Mk. destruct (NO k m Ow Mk).
  Qed.

  Lemma grep_step_search off r : grep_step fa b off r ->
    exists n, forall fuel, n <= fuel -> grep_search DLT fa fuel b off = Ret (found r).
  Proof.
    induction 1 as [off L|off Q|off s e k m L Q Ow Mk Le|off s e r L Q Sk G [n IH]].
    - exists 1. intros [|fuel] Hf; [lia|]. cbn [grep_search]. destruct (Nat.leb_spec (length b) off); [reflexivity|lia].
    - exists 1. intros [|fuel] Hf; [lia|]. cbn [grep_search]. destruct (length b <=? off); [reflexivity|]. now rewrite Q.
    - exists 1. intros [|fuel] Hf; [lia|]. cbn [grep_search]. destruct (Nat.leb_spec (length b) off); [lia|]. rewrite Q.
      pose proof (LM b off ltac:(lia)) as F. rewrite Q in F. destruct F as (F1 & F2 & F3 & F4 & F5).
      destruct (rev_owner b s Hb ltac:(lia)) as [(k' & m' & Ow' & Mk' & ->)|(NO & _)]; [|destruct (NO k m Ow Mk)]. cbn [obind].
      assert (k' = k) by now apply (owner_fun b s). subst k'. rewrite <- (message_at_fun b k m m' Mk Mk').
      rewrite (entry_len k m Mk). destruct (Nat.ltb_spec (k + length m) e); [lia|]. now rewrite Bool.andb_false_r.
    - exists (S n). intros [|fuel] Hf; [lia|]. cbn [grep_search]. destruct (Nat.leb_spec (length b) off); [lia|]. rewrite Q.
      pose proof (LM b off ltac:(lia)) as F. rewrite Q in F. destruct F as (F1 & F2 & F3 & F4 & F5).
      destruct (rev_owner b s Hb ltac:(lia)) as [(k' & m' & Ow' & Mk' & ->)|(NO & ->)]; cbn [obind].
      + rewrite (entry_len k' m' Mk'). pose proof Ow' as (_ & Ok & _). destruct (Nat.ltb_spec k' s); [|lia]. cbn [andb].
        pose proof (Sk k' m' Ow' Mk'). destruct (Nat.ltb_spec (k' + length m') e); [|lia]. apply IH. lia.
      + destruct (Nat.leb_spec (length b) e) as [K|K]; [|apply IH; lia].
        inversion G as [o L'|o Q'|o s1 e1 k1 m1 L' Q' Ow1 Mk1 Le1|o s1 e1 r1 L' Q' Sk1 G1]; subst; try reflexivity; lia.
  Qed.

  Lemma grep_step_fun off r r' : grep_step fa b off r -> grep_step fa b off r' -> r = r'.
  Proof.
    intros G. revert r'. induction G as [off L|off Q|off s e k m L Q Ow Mk Le|off s e r L Q Sk G IH]; intros r' G';
      inversion G' as [o L'|o Q'|o s1 e1 k1 m1 L' Q' Ow1 Mk1 Le1|o s1 e1 r1 L' Q' Sk1 G1]; subst; try reflexivity; try lia; try congruence.
    - rewrite Q in Q'. injection Q' as <- <-. assert (k = k1) by now apply (owner_fun b s). subst k1. now rewrite (message_at_fun b k m m1).
    - rewrite Q in Q'. injection Q' as <- <-. pose proof (Sk1 k m Ow Mk). lia.
    - rewrite Q in Q'. injection Q' as <- <-. pose proof (Sk k1 m1 Ow1 Mk1). lia.
    - rewrite Q in Q'. injection Q' as <- <-. now apply IH.
  Qed.

  Lemma grep_search_no_panic fuel off : grep_search DLT fa fuel b off <> Panic.
  Proof. apply (grep_search_sound M fa LM b Hb fuel off). Qed.
End Grep.

(** What a step of [find] means when driving the iterator. *)
Lemma grep_exact M fa b : leftmost M fa -> (N.of_nat (length b) < usize_max)%N -> forall off,
  (forall k m, grep_step fa b off (Some (k, m)) ->
     exists e n, denotes e m /\ forall fuel, n <= fuel -> grep_next DLT fa fuel b off = Ret (k + length m, Some (k, e))) /\
  (grep_step fa b off None ->
     exists n, forall fuel, n <= fuel -> grep_next DLT fa fuel b off = Ret (off, None)) /\
  ((forall r, ~ grep_step fa b off r) -> forall fuel, grep_next DLT fa fuel b off = Fuel) /\
  (forall r r', grep_step fa b off r -> grep_step fa b off r' -> r = r').
Proof.
  intros LM Hb off. split; [|split; [|split]].
  - intros k m G. destruct (grep_step_search M fa LM b Hb off _ G) as [n H]. exists (entry_of m), n.
    assert (Mk : message_at b k m).
    { clear - G. remember (Some (k, m)) as r eqn:E. induction G; try discriminate; [injection E as <- <-; assumption|now apply IHG]. }
    split; [apply denotes_entry_of, Mk|]. intros fuel L. unfold grep_next. rewrite H by exact L. cbn [obind found option_map fst snd].
    now rewrite (entry_len b k m Mk).
  - intros G. destruct (grep_step_search M fa LM b Hb off _ G) as [n H]. exists n. intros fuel L.
    unfold grep_next. now rewrite H by exact L.
  - intros N fuel. unfold grep_next. destruct (grep_search DLT fa fuel b off) as [r| |] eqn:E; [| |reflexivity].
    + destruct (grep_search_step M fa LM b Hb fuel off r E) as (r' & G & _). destruct (N r' G).
    + destruct (grep_search_no_panic M fa LM b Hb fuel off E).
  - intros r r'. apply (grep_step_fun fa b Hb).
Qed.

(** ** Capturing *)
Section Capture.
  Variable M : matcher.
  Variable ca : bytes -> nat -> option ((nat * nat) * option (nat * nat)).
  Hypothesis LC : leftmost_capture M ca.
  Variable b : bytes.
  Hypothesis Hb : (N.of_nat (length b) < usize_max)%N.

  Lemma ca_bound off s e g : off <= length b -> ca b off = Some ((s, e), g) -> s <= length b.
  Proof.
    intros L Q. destruct LC as [LM _]. specialize (LM b off L). cbn beta in LM. rewrite Q in LM. cbn in LM. lia.
  Qed.

  Lemma capture_sound_step fuel : forall off r, capture DLT ca fuel b off = Ret r -> capture_step ca b off r.
  Proof.
    induction fuel as [|fuel IH]; intros off r; cbn [capture]; [discriminate|].
    destruct (Nat.leb_spec (length b) off) as [K|K].
    { intros H. injection H as <-. now apply capture_end. }
    destruct (ca b off) as [[[s e] g]|] eqn:Q.
    2:{ intros H. injection H as <-. now apply capture_no_match. }
    pose proof (ca_bound off s e g ltac:(lia) Q) as F.
    destruct (rev_owner b s Hb F) as [(k & m & Ow & Mk & ->)|(NO & ->)]; cbn [obind].
    - rewrite (entry_len b k m Mk). pose proof Ow as (_ & Ok & _).
      destruct (Nat.ltb_spec k s); [|lia]. cbn [andb].
      destruct (Nat.ltb_spec (k + length m) e) as [L|L].
      + intros H1. apply (capture_skip ca b off s e g); try assumption; [|now apply IH]. intros k' m' Ow' Mk'.
        assert (k' = k) by now apply (owner_fun b s). subst k'. rewrite (message_at_fun b k m' m Mk' Mk). exact L.
      + destruct g as [g|]; intros H1; injection H1 as <-.
        * now apply (capture_hit ca b off s e g k m).
        * now apply (capture_absent ca b off s e k m).
    - destruct (Nat.leb_spec (length b) e) as [L|L].
      + intros H. injection H as <-. apply (capture_skip ca b off s e g); try assumption; [|now apply capture_end].
        intros k m Ow Mk. destruct (NO k m Ow Mk).
      + intros H. apply (capture_skip ca b off s e g); try assumption; [|now apply IH]. intros k m Ow Mk. destruct (NO k m Ow Mk).
  Qed.

  Lemma capture_step_next off r : capture_step ca b off r ->
    exists n, forall fuel, n <= fuel -> capture DLT ca fuel b off = Ret r.
  Proof.
    assert (Hit : forall off s e g k m, off < length b -> ca b off = Some ((s, e), g) -> owner b s k -> message_at b k m ->
      e <= k + length m -> forall fuel, 1 <= fuel ->
      capture DLT ca fuel b off = match g with None => Ret None | Some g => Ret (Some (k, g)) end).
    { intros off0 s e g k m L Q Ow Mk Le [|fuel] Hf; [lia|]. cbn [capture]. destruct (Nat.leb_spec (length b) off0); [lia|]. rewrite Q.
      pose proof (ca_bound off0 s e g ltac:(lia) Q) as F.
      destruct (rev_owner b s Hb F) as [(k' & m' & Ow' & Mk' & ->)|(NO & _)]; [|destruct (NO k m Ow Mk)]. cbn [obind].
      assert (k' = k) by now apply (owner_fun b s). subst k'. rewrite <- (message_at_fun b k m m' Mk Mk').
      rewrite (entry_len b k m Mk). destruct (Nat.ltb_spec (k + length m) e); [lia|]. now rewrite Bool.andb_false_r. }
    induction 1 as [off L|off Q|off s e g k m L Q Ow Mk Le|off s e k m L Q Ow Mk Le|off s e g r L Q Sk G [n IH]].
    - exists 1. intros [|fuel] Hf; [lia|]. cbn [capture]. destruct (Nat.leb_spec (length b) off); [reflexivity|lia].
    - exists 1. intros [|fuel] Hf; [lia|]. cbn [capture]. destruct (length b <=? off); [reflexivity|]. now rewrite Q.
    - exists 1. intros fuel Hf. exact (Hit off s e (Some g) k m L Q Ow Mk Le fuel Hf).
    - exists 1. intros fuel Hf. exact (Hit off s e None k m L Q Ow Mk Le fuel Hf).
    - exists (S n). intros [|fuel] Hf; [lia|]. cbn [capture]. destruct (Nat.leb_spec (length b) off); [lia|]. rewrite Q.
      pose proof (ca_bound off s e g ltac:(lia) Q) as F.
      destruct (rev_owner b s Hb F) as [(k' & m' & Ow' & Mk' & ->)|(NO & ->)]; cbn [obind].
      + rewrite (entry_len b k' m' Mk'). pose proof Ow' as (_ & Ok & _). destruct (Nat.ltb_spec k' s); [|lia]. cbn [andb].
        pose proof (Sk k' m' Ow' Mk'). destruct (Nat.ltb_spec (k' + length m') e); [|lia]. apply IH. lia.
      + destruct (Nat.leb_spec (length b) e) as [K|K]; [|apply IH; lia].
        inversion G; subst; try reflexivity; lia.
  Qed.

  Lemma capture_no_panic fuel off : capture DLT ca fuel b off <> Panic.
  Proof.
    revert off. induction fuel as [|fuel IH]; intros off; cbn [capture]; [discriminate|].
    destruct (Nat.leb_spec (length b) off) as [K|K]; [discriminate|].
    destruct (ca b off) as [[[s e] g]|] eqn:Q; [|discriminate].
    pose proof (ca_bound off s e g ltac:(lia) Q) as F.
    destruct (rev_owner b s Hb F) as [(k & m & Ow & Mk & ->)|(NO & ->)]; cbn [obind].
    - destruct ((k <? s) && (k + len_of DLT (entry_of m) <? e)); [apply IH|]. destruct g; discriminate.
    - destruct (length b <=? e); [discriminate|apply IH].
  Qed.
End Capture.

Lemma capture_exact M ca b : leftmost_capture M ca -> (N.of_nat (length b) < usize_max)%N -> forall off,
  (forall k gs ge, capture_step ca b off (Some (k, (gs, ge))) ->
     exists n, forall fuel, n <= fuel -> capture_next DLT ca fuel b off = Ret (k + ge, Some (k, (gs, ge)))) /\
  (capture_step ca b off None ->
     exists n, forall fuel, n <= fuel -> capture_next DLT ca fuel b off = Ret (off, None)) /\
  ((forall r, ~ capture_step ca b off r) -> forall fuel, capture_next DLT ca fuel b off = Fuel) /\
  (forall r r', capture_step ca b off r -> capture_step ca b off r' -> r = r').
Proof.
  intros LM Hb off. split; [|split; [|split]].
  - intros k gs ge G. destruct (capture_step_next M ca LM b Hb off _ G) as [n H]. exists n.
    intros fuel L. unfold capture_next. now rewrite H by exact L.
  - intros G. destruct (capture_step_next M ca LM b Hb off _ G) as [n H]. exists n. intros fuel L.
    unfold capture_next. now rewrite H by exact L.
  - intros N fuel. unfold capture_next. destruct (capture DLT ca fuel b off) as [r| |] eqn:E; [| |reflexivity].
    + destruct (N r (capture_sound_step M ca LM b Hb fuel off r E)).
    + destruct (capture_no_panic M ca LM b Hb fuel off E).
  - intros r r' G G'. destruct (capture_step_next M ca LM b Hb off _ G) as [n H].
    destruct (capture_step_next M ca LM b Hb off _ G') as [n' H']. specialize (H (n + n') ltac:(lia)). specialize (H' (n + n') ltac:(lia)). congruence.
Qed.

(** ** groupby for arbitrary relations *)
Section Runs.
  Context {A : Type}.
  Variable rel : A -> A -> bool.

  Lemma linked_snoc l x : linked rel l -> (forall d, l <> [] -> rel (last l d) x = true) -> linked rel (l ++ [x]).
  Proof.
    induction l as [|y l IH]; intros H L; [exact I|]. destruct l as [|z l].
    - cbn. split; [apply (L y); discriminate|exact I].
    - change (linked rel (y :: (z :: l) ++ [x])). destruct H as [H1 H2]. cbn [app]. split; [exact H1|]. apply IH; [exact H2|].
      intros d _. exact (L d ltac:(discriminate)).
  Qed.
  Lemma last_snoc (l : list A) x d : last (l ++ [x]) d = x.
  Proof. induction l as [|y l IH]; [reflexivity|]. cbn [app last]. destruct (l ++ [x]) eqn:E; [destruct l; discriminate|exact IH]. Qed.
  Lemma last_any (l : list A) d d' : l <> [] -> last l d = last l d'.
  Proof. induction l as [|y l IH]; [congruence|]. intros _. destruct l; [reflexivity|]. cbn [last] in *. apply IH. discriminate. Qed.

  (** A pending run [s :: ys] followed by [xs]. *)
  Lemma pend_runs xs : forall s ys, linked rel (s :: ys) ->
    (ys = [] -> runs_of rel (s :: xs) (pend rel false s s xs)) /\
    (ys <> [] -> runs_of rel (s :: ys ++ xs) (pend rel true s (last (s :: ys) s) xs)).
  Proof.
    induction xs as [|x xs IH]; intros s ys Ls.
    - cbn [pend]. split; intros Hy.
      + subst. destruct (rel s s) eqn:R; [|now apply runs_lost].
        apply (runs_run rel s [] [] []); [exact I|now right|discriminate|constructor].
      + apply (runs_run rel s ys [] []); [exact Ls|now left|discriminate|constructor].
    - cbn [pend]. split; intros Hy.
      + subst. destruct (rel s x) eqn:R.
        * destruct (IH s [x] ltac:(cbn; auto)) as [_ H]. apply H. discriminate.
        * destruct (rel s s) eqn:R'.
          { apply (runs_run rel s [] (x :: xs)); [exact I|now right| |].
            - intros d z zs E. injection E as <- <-. exact R.
            - destruct (IH x [] I) as [H _]. now apply H. }
          { apply runs_wait; [exact R'|exact R|]. destruct (IH s [] I) as [H _]. now apply H. }
      + destruct (rel (last (s :: ys) s) x) eqn:R.
        * assert (L' : linked rel (s :: ys ++ [x])).
          { change (linked rel ((s :: ys) ++ [x])). apply linked_snoc; [exact Ls|]. intros d _. rewrite (last_any _ d s) by discriminate. exact R. }
          destruct (IH s (ys ++ [x]) L') as [_ H]. rewrite <- app_assoc in H. change (s :: ys ++ [x]) with ((s :: ys) ++ [x]) in H.
          rewrite last_snoc in H. apply H. destruct ys; discriminate.
        * apply (runs_run rel s ys (x :: xs)); [exact Ls|now left| |].
          { intros d z zs E. injection E as <- <-. rewrite (last_any _ d s) by discriminate. exact R. }
          destruct (IH x [] I) as [H _]. now apply H.
  Qed.
  Lemma grouped_exact xs : runs_of rel xs (grouped rel xs).
  Proof. destruct xs as [|x xs]; [constructor|]. cbn [grouped]. now apply (pend_runs xs x [] I). Qed.

  Lemma pend_run ys : forall lz s e rest, linked rel (e :: ys) -> ys <> [] \/ lz = true \/ rel e e = true ->
    (forall d z zs, rest = z :: zs -> rel (last (e :: ys) d) z = false) ->
    pend rel lz s e (ys ++ rest) = (s, last (e :: ys) e) :: grouped rel rest.
  Proof.
    induction ys as [|y ys IH]; intros lz s e rest Ls NE Br.
    - cbn [app last]. destruct rest as [|z zs]; cbn [pend grouped].
      + destruct lz; [reflexivity|]. destruct NE as [NE|[NE|NE]]; [congruence|discriminate|]. now rewrite NE.
      + pose proof (Br e z zs eq_refl) as Bz. cbn [last] in Bz. rewrite Bz. destruct lz; [reflexivity|]. destruct NE as [NE|[NE|NE]]; [congruence|discriminate|]. now rewrite NE.
    - destruct Ls as [R Ls]. cbn [app pend]. rewrite R. rewrite (IH true s y rest Ls); [|now right; left|].
      + f_equal. f_equal. cbn [last]. destruct ys; [reflexivity|]. apply last_any. discriminate.
      + intros d z zs E. apply (Br d z zs E).
  Qed.
  Lemma runs_grouped xs out : runs_of rel xs out -> out = grouped rel xs.
  Proof.
    induction 1 as [|x ys rest out Ls NE Br R IH|x y rest out R1 R2 R IH|x R1].
    - reflexivity.
    - cbn [grouped]. rewrite (pend_run ys false x x rest Ls); [now rewrite IH| |exact Br]. tauto.
    - rewrite IH. cbn [grouped pend]. now rewrite R2, R1.
    - cbn. now rewrite R1.
  Qed.
End Runs.

Lemma groupby_exact {A} (rel : A -> A -> bool) (f : A -> A -> outcome bool) (xs : list A) :
  (forall x y, In x xs -> In y xs -> f x y = Ret (rel x y)) ->
  exists pairs, runs_of rel xs pairs /\ (forall pairs', runs_of rel xs pairs' -> pairs' = pairs) /\
    from_adapt (GroupBy f) 2 (S (length xs) + 1) GEmpty xs = Ret pairs /\
    forall (S R : Type) (r : Reduce S (A * A) R) (s : S) fuel, 3 <= fuel ->
      run_reduce (ReducerOver r (Adapter (GroupBy f) NilAdapter fuel) fuel) (s, (GEmpty, tt)) xs = run_reduce r s pairs.
Proof.
  intros F. exists (grouped rel xs). split; [apply grouped_exact|]. split; [intros p; apply runs_grouped|].
  destruct (delivers_groupby rel f xs F) as (n & Ln & D). split.
  - apply (from_delivers _ n _ _ _ D); [exact Ln|]. pose proof (grouped_len rel xs). lia.
  - intros S R r s fuel L.
    destruct (delivers_comp (GroupBy f) NilAdapter fuel n 1 GEmpty tt xs xs (grouped rel xs) (delivers_nil xs) D) as (k & Lk & Dk); [lia|].
    apply (run_over r _ k _ xs _ Dk). lia.
Qed.
