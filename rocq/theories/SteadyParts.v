(** Facts for C130: partitioning a mapped file of which a front part does not change. *)
From Verif Require Import Base DltModel MatchModel MappedModel Spec MappedSpec BaseFacts DltFacts ParseFacts FindFacts IterFacts DltIterFacts ContainFacts CommandFacts
  ExactFacts MappedFacts MappedStill.
From Coq Require Import Sorted ZifyBool ZifyNat ZifyN.
Ltac Zify.zify_post_hook ::= idtac.

Lemma offsets_late {A} (size : A -> nat) : forall l k x, In x (with_offsets size k l) -> k <= fst x.
Proof. induction l as [|a l IH]; intros k x []; [subst; cbn [fst]; lia|]. specialize (IH _ _ H). lia. Qed.

Section Parts.
  Variables (W : world) (b : bytes) (c : nat).
  Hypothesis ST : steady W b c.
  Hypothesis Hc : c <= length b.
  Let n := length b.

  Lemma front_read a : a + 20 <= c -> safe (eq (option_map (fun x => (fst x, (a, fst x))) (parse (skipn a b)))) (m_read W n a).
  Proof.
    intros Ha. assert (Hn : a + 20 <= n) by (unfold n; lia). unfold m_read, parse. rewrite skipn_length. fold n.
    destruct (Nat.ltb_spec (n - a) 20) as [L|L]; [lia|].
    destruct (Nat.ltb_spec (n - a) 16); [lia|]. destruct (Nat.ltb_spec (n - a - 16) 4); [lia|].
    eapply safe_follow; [apply (steady_len W b c ST); lia|]. intros s <-. rewrite u16_skipn. cbv zeta.
    replace (N.to_nat (u16_at b (a + 18))) with (field_at b (a + 16)) by (unfold field_at; do 2 f_equal; lia).
    destruct (Nat.ltb_spec (field_at b (a + 16)) 4); [now apply safe_done|]. cbn [orb].
    destruct (Nat.ltb_spec (n - a) (16 + field_at b (a + 16))); destruct (Nat.ltb_spec (n - a - 16) (field_at b (a + 16))); try lia; now apply safe_done.
  Qed.
  Lemma front_try_read a : a + 20 <= c -> occ dlt_marker b a = true ->
    safe (eq (option_map (fun x => (fst x, (a, fst x))) (parse (skipn a b)))) (m_try_read W n a).
  Proof.
    intros Ha O. unfold m_try_read. destruct (Nat.ltb_spec (n - a) 4) as [L|L]; [unfold n in L; lia|].
    eapply safe_follow; [apply (steady_mark W b c ST); lia|]. intros mk <-. rewrite O. now apply front_read.
  Qed.
  Lemma front_len k x v : parse (skipn k b) = Some (x, v) -> k + 20 <= c -> safe (eq (storage_len v)) (m_len W (k, x)).
  Proof.
    intros P Hk. destruct (parse_place b k x v P) as (E1 & E2 & E3 & E4). unfold m_len. cbn [fst snd].
    eapply safe_follow; [now apply (steady_len W b c ST)|]. intros l <-. apply safe_done. lia.
  Qed.
  (** The first marker behind [pos], if it lies in the front part; else none or something behind it. *)
  Lemma front_found pos x : pos <= x -> x + 4 <= c -> occ dlt_marker b x = true -> (forall q, pos <= q < x -> occ dlt_marker b q = false) ->
    safe (eq (Some x)) (m_find W n pos).
  Proof.
    intros H1 H2 H3 H4. unfold m_find. eapply safe_follow; [apply (safe_ask (eq (Some x))); intros t; symmetry; apply (steady_found W b c ST); try lia|].
    - apply (occ_occurs dlt_marker b x); [cbn; lia|exact H3].
    - intros q Hq O. apply (occ_occurs dlt_marker b q) in O; [|cbn; lia]. rewrite (H4 q) in O by lia. discriminate.
    - intros r <-. destruct (Nat.leb_spec pos x); [|lia]. destruct (Nat.leb_spec (x + 4) n); [|unfold n in *; lia]. now apply safe_done.
  Qed.
  Lemma front_none pos : (forall q, pos <= q -> q + 4 <= c -> occ dlt_marker b q = false) ->
    safe (fun r => forall p, r = Some p -> c < p + 4) (m_find W n pos).
  Proof.
    intros H. unfold m_find.
    eapply safe_follow; [apply (safe_ask (fun r => forall p, r = Some p -> p + 4 <= c -> occurs_at the_pattern b p)); intros t p; apply (steady_beyond W b c ST)|].
    intros [p|] Hp; [|apply safe_done; discriminate]. destruct (Nat.leb_spec pos p) as [L|L]; [|apply safe_done; discriminate]. cbn [andb].
    destruct (p + 4 <=? n); [|apply safe_done; discriminate]. apply safe_done. intros q [= <-]. apply Nat.nle_gt. intros K.
    specialize (Hp p eq_refl K). apply (occ_occurs dlt_marker b p) in Hp; [|cbn; lia]. rewrite (H p L K) in Hp. discriminate.
  Qed.

  Lemma front_scan rec m_rec p0 p1 back : back <= n -> p0 + 20 <= c ->
    (forall x r, x < p0 -> rec x (x + 4) = Ret r -> safe (eq (option_map place r)) (m_rec x (x + 4))) ->
    forall cands fuel pos r, n - pos < fuel -> pos <= n ->
      (forall x, In x cands <-> pos <= x + back /\ occ dlt_marker b (x + back) = true) ->
      back <= pos -> StronglySorted lt cands ->
      scan DLT rec b back p0 p1 cands = Ret r -> safe (eq (option_map place r)) (m_scan W n m_rec p0 p1 fuel pos).
  Proof.
    intros Hb Hp HR. assert (Hn : c <= n) by exact Hc. induction cands as [|x cs IH]; intros fuel pos r Hf Hpos HI Hbp HS E; destruct fuel as [|f]; try lia; cbn [m_scan].
    - cbn [scan] in E. injection E as <-. eapply safe_follow.
      + apply front_none. intros q Q1 Q2. destruct (occ dlt_marker b q) eqn:O; [|reflexivity]. exfalso. apply (HI (q - back)).
        replace (q - back + back) with q by lia. split; [lia|exact O].
      + intros [p|] Q; [|now apply safe_done]. specialize (Q p eq_refl). destruct (Nat.leb_spec p0 p); [now apply safe_done|lia].
    - assert (X : pos <= x + back /\ occ dlt_marker b (x + back) = true) by (apply HI; now left). destruct X as [X1 X2].
      assert (FX : forall q, pos <= q < x + back -> occ dlt_marker b q = false).
      { intros q Hq. destruct (occ dlt_marker b q) eqn:O; [|reflexivity]. exfalso.
        assert (I : In (q - back) (x :: cs)) by (apply HI; replace (q - back + back) with q by lia; split; [lia|exact O]).
        inversion HS as [|? ? HS' HF]; subst. destruct I as [I|I]; [lia|]. rewrite Forall_forall in HF. specialize (HF _ I). lia. }
      assert (X4 : x + back + 4 <= n).
      { apply is_prefix_len in X2. rewrite skipn_length in X2. change (length dlt_marker) with 4 in X2. fold n in X2. lia. }
      cbn [scan] in E. destruct (Nat.leb_spec p0 (x + back)) as [PL|PL].
      { injection E as <-. destruct (Nat.leb_spec (x + back + 4) c) as [C4|C4].
        - eapply safe_follow; [now apply (front_found pos (x + back))|]. intros y <-. destruct (Nat.leb_spec p0 (x + back)); [now apply safe_done|lia].
        - eapply safe_follow; [apply front_none; intros q Q1 Q2; apply FX; lia|]. intros [p|] Q; [|now apply safe_done]. specialize (Q p eq_refl).
          destruct (Nat.leb_spec p0 p); [now apply safe_done|lia]. }
      eapply safe_follow; [apply (front_found pos (x + back)); auto; lia|]. intros y <-. destruct (Nat.leb_spec p0 (x + back)); [lia|].
      unfold slice_from in E. fold n in E. destruct (Nat.leb_spec (x + back) n) in E; [|lia]. cbn [obind] in E. rewrite try_read_occ in E by exact X2. cbn [obind] in E.
      eapply safe_follow; [apply safe_from; lia|]. intros _ _. eapply safe_follow; [apply front_try_read; [lia|exact X2]|]. intros y <-.
      assert (NEXT : forall r, scan DLT rec b back p0 p1 cs = Ret r -> safe (eq (option_map place r)) (m_scan W n m_rec p0 p1 f (x + back + 4))).
      { intros r' E'. inversion HS as [|? ? HS' HF]; subst. rewrite Forall_forall in HF. apply IH; try assumption; try lia. intros z. split.
        - intros I. pose proof (HF _ I). assert (O : occ dlt_marker b (z + back) = true) by (apply (proj1 (HI z)); now right). split; [|exact O].
          pose proof (no_overlap_occ dlt_marker b (x + back) (z + back) dlt_marker_no_overlap X2 O ltac:(lia)) as Z. change (length dlt_marker) with 4 in Z. lia.
        - intros [Z1 Z2]. destruct (proj2 (HI z) ltac:(split; [lia|exact Z2])) as [Z|Z]; [lia|exact Z]. }
      destruct (parse (skipn (x + back) b)) as [[k v]|] eqn:P; cbn [option_map fst]; [|now apply NEXT].
      pose proof (parse_place b _ k v P) as (K1 & _). change (len_of DLT v) with (storage_len v) in E.
      eapply safe_follow; [apply (front_len (x + back) k v P); lia|]. intros l <-.
      destruct (p1 <=? x + back + storage_len v); [|now apply NEXT]. change (length (marker DLT)) with 4 in E.
      destruct (rec (x + back) (x + back + 4)) as [q| |] eqn:RQ; [|discriminate|discriminate]. cbn [obind] in E.
      eapply safe_follow; [exact (HR _ q PL RQ)|]. intros y <-. destruct q as [q|]; cbn [option_map]; [now apply NEXT|injection E as <-].
      apply safe_done. unfold place. cbn [option_map fst snd]. now rewrite K1.
  Qed.
  Lemma front_contained_by : forall fuel p0 p1 r, p0 + 20 <= c -> contained_by DLT fuel b p0 p1 = Ret r ->
    safe (eq (option_map place r)) (m_contained_by W n fuel p0 p1).
  Proof.
    induction fuel as [|f IH]; intros p0 p1 r Hp E; [discriminate|]. cbn [contained_by m_contained_by] in *. fold n in E.
    destruct ((n <=? p0) || (n <=? p1) || (p1 <=? p0) || (p1 =? 0)) eqn:C; [injection E as <-; now apply safe_done|].
    assert (p0 < n) by lia. cbv zeta in *. change (max_len DLT) with dlt_max_len in E. set (back := p0 - dlt_max_len) in *.
    assert (HB : back <= p0) by (unfold back; apply Nat.le_sub_l). clearbody back.
    unfold slice_from in E. fold n in E. destruct (Nat.leb_spec back n) in E; [|lia]. cbn [obind] in E. change (marker DLT) with dlt_marker in E.
    eapply safe_follow; [apply safe_from; lia|]. intros _ _.
    apply (front_scan (contained_by DLT f b) _ p0 p1 back ltac:(lia) ltac:(lia) (fun x r Hx => IH x (x + 4) r ltac:(lia)) (find_iter dlt_marker (skipn back b))); try lia; try exact E.
    - intros x. rewrite find_iter_in by (try apply dlt_marker_no_overlap; cbn; lia). rewrite occ_skipn, (Nat.add_comm back x). intuition lia.
    - apply find_iter_sorted; [cbn; lia|apply dlt_marker_no_overlap].
  Qed.

  (** Parts as places. *)
  Definition span_of (x : nat * bytes) : nat * nat := (fst x, fst x + length (snd x)).
  Lemma front_partition_loop size : forall fuel c0 r, n - c0 < fuel -> partition_loop DLT fuel b size c0 (c0 + size) = Ret r ->
    safe (fun l => exists more, l = map span_of (filter (fun x => fst x + size + 20 <=? c) (with_offsets (@length byte) c0 r)) ++ more)
      (m_partition_loop W n fuel size c0 (c0 + size)).
  Proof.
    assert (Hn : c <= n) by exact Hc.
    induction fuel as [|f IH]; intros c0 r Hf E; [discriminate|].
    assert (LATE : c < c0 + size + 20 -> safe (fun l => exists more, l = map span_of (filter (fun x => fst x + size + 20 <=? c) (with_offsets (@length byte) c0 r)) ++ more)
      (m_partition_loop W n (S f) size c0 (c0 + size))).
    { intros L. eapply safe_weak; [apply (safe_partition_loop W n size (S f) c0 (c0 + size)); lia|]. intros l _. rewrite filter_none; [now exists l|].
      intros x I. apply offsets_late in I. destruct (Nat.leb_spec (fst x + size + 20) c); [lia|reflexivity]. }
    destruct (Nat.le_gt_cases (c0 + size + 20) c) as [FR|FR]; [|now apply LATE]. clear LATE.
    cbn [partition_loop m_partition_loop] in *. fold n in E.
    destruct (Nat.ltb_spec n c0); [lia|]. destruct (Nat.ltb_spec n (c0 + size)); [lia|]. cbn [orb] in *.
    destruct (contained_by DLT (S (c0 + size)) b (c0 + size) (c0 + size + 1)) as [q| |] eqn:Q; [|discriminate|discriminate]. cbn [obind] in E. cbv zeta in *.
    eapply safe_follow; [exact (front_contained_by _ _ _ _ FR Q)|]. intros y <-.
    replace (match option_map place q with Some v => fst v | None => c0 + size end) with (match q with Some (c, _) => c | None => c0 + size end) by (destruct q as [[? v]|]; reflexivity).
    set (d := match q with Some (c, _) => c | None => c0 + size end) in *.
    destruct (Nat.leb_spec d c0); [injection E as <-; apply safe_done; now exists []|]. destruct (n <=? d + size / 4).
    - unfold slice_from in E. fold n in E. destruct (Nat.leb_spec c0 n) in E; [|lia]. injection E as <-. eapply safe_follow; [apply safe_from; lia|]. intros _ _.
      apply safe_done. cbn [with_offsets filter fst snd]. destruct (Nat.leb_spec (c0 + size + 20) c); [|lia]. exists []. rewrite app_nil_r. cbn [map]. unfold span_of. cbn [fst snd].
      rewrite skipn_length. fold n. now replace (c0 + (n - c0)) with n by lia.
    - unfold slice in E. fold n in E. destruct (Nat.leb_spec c0 d); [|lia]. cbn [andb] in E. destruct (Nat.leb_spec d n) as [CN|CN]; [|discriminate]. cbn [obind] in E.
      destruct (partition_loop DLT f b size d (d + size)) as [l| |] eqn:PL; [|discriminate|discriminate]. injection E as <-.
      eapply safe_follow; [apply safe_slice; lia|]. intros _ _. eapply safe_follow; [apply (IH d l); [lia|exact PL]|].
      intros l' [more ->]. apply safe_done. cbn [with_offsets filter fst snd]. destruct (Nat.leb_spec (c0 + size + 20) c); [|lia].
      exists more. cbn [map app]. unfold span_of at 2. cbn [fst snd].
      assert (LS : length (firstn (d - c0) (skipn c0 b)) = d - c0) by (rewrite firstn_length, skipn_length; fold n; lia).
      rewrite LS. replace (c0 + (d - c0)) with d by lia. reflexivity.
  Qed.
  Lemma front_partition num r : partition_from DLT b num = Ret r ->
    safe (fun l => exists more, l = map span_of (filter (fun x => fst x + n / num + 20 <=? c) (with_offsets (@length byte) 0 r)) ++ more) (m_partition W n num).
  Proof.
    unfold partition_from, m_partition. destruct (num =? 0); [discriminate|]. cbv zeta. fold n. intros E. apply (front_partition_loop (n / num) (S n) 0 r); [lia|exact E].
  Qed.

  (** ** The searching iterator *)
  Lemma front_search_next k len v : k + 20 <= c -> forall fuel off, n - off < fuel -> first_cand DLT parse b off k len v ->
    safe (eq (k + len, Some (k, len))) (m_search_next W n fuel off).
  Proof.
    intros Hk. assert (Hn : c <= n) by exact Hc. induction fuel as [|f IH]; intros off Hf FC; [lia|]. pose proof FC as (H1 & [H2 H3] & H4). change (marker DLT) with dlt_marker in H2.
    pose proof (find_first DLT parse dlt_lawful b off) as FF. change (marker DLT) with dlt_marker in FF.
    destruct (find dlt_marker (skipn off b)) as [p|] eqn:Q; [|exfalso; specialize (FF k H1); change (marker DLT) with dlt_marker in FF; rewrite FF in H2; discriminate].
    destruct FF as (F1 & F2 & F3). change (marker DLT) with dlt_marker in F2, F3.
    assert (PK : off + p <= k) by (destruct (Nat.le_gt_cases (off + p) k) as [L|L]; [exact L|rewrite (F3 k) in H2 by lia; discriminate]).
    cbn [m_search_next]. unfold m_search. destruct (Nat.leb_spec n off); [lia|].
    assert (S1 : safe (eq (match parse (skipn (off + p) b) with Some (l, _) => Some (off + p, l) | None => None end))
      (see _ <- m_from n off; see r <- m_find W n off;
       match r with
       | None => done None
       | Some c => see _ <- m_from n c; see q <- m_read W n c; match q with None => done None | Some (_, v) => done (Some v) end
       end)).
    { eapply safe_follow; [apply safe_from; lia|]. intros _ _. eapply safe_follow; [apply (front_found off (off + p)); auto; lia|]. intros r <-.
      eapply safe_follow; [apply safe_from; lia|]. intros _ _. eapply safe_follow; [apply front_read; lia|]. intros r <-.
      destruct (parse (skipn (off + p) b)) as [[l w]|]; cbn [option_map fst]; now apply safe_done. }
    eapply safe_follow; [exact S1|]. intros r <-. destruct (parse (skipn (off + p) b)) as [[l w]|] eqn:P.
    - assert (E : off + p = k).
      { destruct (Nat.eq_dec (off + p) k) as [E|NE]; [exact E|]. exfalso. apply (H4 (off + p) l w); [lia|]. now split. }
      rewrite E in *. rewrite H3 in P. injection P as <- <-.
      eapply safe_follow; [apply (front_len k len v H3 Hk)|]. intros x <-. apply safe_done.
      rewrite (proj1 (parse_place b k len v H3)). reflexivity.
    - assert (NE : off + p <> k) by (intros E; rewrite E, H3 in P; discriminate).
      pose proof (no_overlap_occ dlt_marker b (off + p) k dlt_marker_no_overlap F2 H2 ltac:(lia)) as Z. change (length dlt_marker) with 4 in Z.
      destruct (Nat.leb_spec n (off + 4)); [lia|]. apply IH; [lia|]. split; [lia|]. split; [now split|]. intros j l' w Hj. apply H4. lia.
  Qed.
  Lemma front_collect_search : forall off l, schain DLT parse b off l -> forall fuel, n - off < fuel ->
    safe (fun l' => exists more, l' = places (filter (fun x => fst x + 20 <=? c) l) ++ more) (m_collect (m_search_next W n (S n)) fuel off).
  Proof.
    induction 1 as [off _|off k len v l FC CH IH]; intros fuel Hf.
    - eapply safe_weak; [now apply safe_collect_advancing|]. intros l _. now exists l.
    - pose proof FC as (F1 & [_ P] & _). pose proof (parse_place b k len v P) as (E1 & E2 & E3 & E4). fold n in E3.
      cbn [filter fst snd]. destruct (Nat.leb_spec (k + 20) c) as [K|K].
      + destruct fuel as [|f]; [lia|]. cbn [m_collect]. eapply safe_follow; [apply (front_search_next k len v K); [lia|exact FC]|]. intros r <-.
        eapply safe_follow; [apply IH; lia|]. intros l' [more ->]. apply safe_done. exists more. unfold places. cbn [map fst snd app]. now rewrite E1.
      + rewrite filter_none.
        * eapply safe_weak; [now apply safe_collect_advancing|]. intros l' _. now exists l'.
        * intros [k' v'] I. destruct (schain_in DLT parse b _ _ CH k' v' I) as [G _]. cbn [fst]. destruct (Nat.leb_spec (k' + 20) c); [lia|reflexivity].
  Qed.
  (** ** Reading contiguously *)
  Lemma front_collect_read : forall fuel off l, collect (readit_next DLT b) fuel off = Ret l -> forall fuel', n - off < fuel' ->
    safe (fun l' => exists more, l' = places (filter (fun x => fst x + 20 <=? c) l) ++ more) (m_collect (m_readit_next W n) fuel' off).
  Proof.
    assert (Hn : c <= n) by exact Hc.
    induction fuel as [|f IH]; intros off l E fuel' Hf; [discriminate|]. cbn [collect] in E. unfold readit_next at 1 in E. fold n in E.
    assert (ANY : forall xs, (forall x, In x xs -> c < fst x + 20) ->
      safe (fun l' => exists more, l' = places (filter (fun x => fst x + 20 <=? c) xs) ++ more) (m_collect (m_readit_next W n) fuel' off)).
    { intros xs H. rewrite filter_none; [|intros x I; specialize (H x I); destruct (Nat.leb_spec (fst x + 20) c); [lia|reflexivity]].
      eapply safe_weak; [now apply safe_collect_touching|]. intros l' _. now exists l'. }
    destruct (Nat.leb_spec n off) as [L|L]; [cbn [obind] in E; injection E as <-; apply ANY; intros x []|].
    unfold slice_from in E. fold n in E. destruct (Nat.leb_spec off n) in E; [|lia]. cbn [obind] in E.
    change (try_read DLT) with storage_try_read in E. rewrite try_read_parse in E. cbn [obind] in E.
    destruct (is_prefix dlt_marker (skipn off b)) eqn:O; [|cbn [obind] in E; injection E as <-; apply ANY; intros x []].
    destruct (parse (skipn off b)) as [[k v]|] eqn:P; [|cbn [obind] in E; injection E as <-; apply ANY; intros x []]. cbn [obind] in E.
    pose proof (parse_place b off k v P) as (E1 & E2 & E3 & E4). fold n in E3.
    destruct (collect (readit_next DLT b) f (off + k)) as [l'| |] eqn:C; [|discriminate|discriminate]. cbn [obind] in E. injection E as <-.
    cbn [filter fst]. destruct (Nat.leb_spec (off + 20) c) as [K|K].
    - destruct fuel' as [|g]; [lia|]. cbn [m_collect]. unfold m_readit_next at 1. destruct (Nat.leb_spec n off); [lia|].
      eapply safe_follow.
      { eapply safe_follow; [apply safe_from; lia|]. intros _ _. eapply safe_follow; [apply front_try_read; [exact K|exact O]|]. intros r <-. rewrite P. cbn [option_map fst].
        apply (safe_done (eq (off + k, Some (off, k)))). reflexivity. }
      intros r <-. eapply safe_follow; [apply (IH (off + k) l' C); lia|]. intros m [more ->]. apply safe_done. exists more. unfold places. cbn [map fst snd app]. now rewrite E1.
    - rewrite filter_none.
      + eapply safe_weak; [now apply safe_collect_touching|]. intros m _. now exists m.
      + intros x I. enough (off <= fst x) by (destruct (Nat.leb_spec (fst x + 20) c); [lia|reflexivity]).
        clear - C I L. enough (A : off + k <= fst x) by lia. revert l' C I. generalize (off + k). clear. induction f as [|f IH]; intros off l E I; [discriminate|]. cbn [collect] in E.
        unfold readit_next at 1 in E. destruct (length b <=? off); [cbn [obind] in E; injection E as <-; destruct I|].
        destruct (slice_from b off) as [s| |]; [|discriminate|discriminate]. cbn [obind] in E.
        destruct (try_read DLT s) as [[[k v]|]| |]; [|cbn [obind] in E; injection E as <-; destruct I|discriminate|discriminate]. cbn [obind] in E.
        destruct (collect (readit_next DLT b) f (off + k)) as [l'| |] eqn:C; [|discriminate|discriminate]. cbn [obind] in E. injection E as <-.
        destruct I as [<-|I]; [cbn [fst]; lia|]. specialize (IH _ _ C I). lia.
  Qed.

  (** ** Iterating *)
  Lemma front_next off k len v fuel : first_marker DLT b off k -> parse (skipn k b) = Some (len, v) -> k + 20 <= c -> 1 < fuel ->
    safe (eq (k + len, Some (k, len))) (m_fallback_next W n fuel off).
  Proof.
    intros (H1 & H2 & H3) P Hk Hf. assert (Hn : c <= n) by exact Hc. destruct fuel as [|[|f]]; try lia. clear Hf.
    change (marker DLT) with dlt_marker in *.
    assert (AT : forall g, safe (eq (k + len, Some (k, len))) (m_fallback_next W n (S g) k)).
    { intros g. cbn [m_fallback_next]. destruct (Nat.leb_spec n (k + 4)); [lia|].
      eapply safe_follow; [apply safe_slice; lia|]. intros _ _. eapply safe_follow; [apply (steady_mark W b c ST); lia|]. intros mk <-. rewrite H2.
      eapply safe_follow; [apply safe_from; lia|]. intros _ _. eapply safe_follow; [now apply front_read|]. intros r <-. rewrite P. cbn [option_map fst]. now apply safe_done. }
    destruct (Nat.eq_dec k off) as [->|NE]; [apply AT|].
    remember (S f) as g eqn:Eg. cbn [m_fallback_next]. destruct (Nat.leb_spec n (off + 4)); [lia|].
    eapply safe_follow; [apply safe_slice; lia|]. intros _ _. eapply safe_follow; [apply (steady_mark W b c ST); lia|]. intros mk <-. rewrite (H3 off) by lia.
    eapply safe_follow; [apply safe_from; lia|]. intros _ _. eapply safe_follow; [apply (front_found off k); auto; lia|].
    intros r <-. destruct (Nat.eqb_spec (k - off) 0); [lia|]. replace (off + (k - off)) with k by lia. subst g. apply AT.
  Qed.
  Lemma front_collect : forall off l, dchain b off l -> forall fuel, n - off < fuel ->
    safe (fun l' => exists more, l' = places (filter (fun x => fst x + 20 <=? c) l) ++ more) (m_collect (m_fallback_next W n (S (S n))) fuel off).
  Proof.
    induction 1 as [off _|off k _ _|off k len v l FM P CH IH]; intros fuel Hf.
    - eapply safe_weak; [now apply safe_collect_spread|]. intros l _. now exists l.
    - eapply safe_weak; [now apply safe_collect_spread|]. intros l _. now exists l.
    - pose proof (parse_place b k len v P) as (E1 & E2 & E3 & E4). pose proof FM as (F1 & _). fold n in E3.
      cbn [filter fst snd]. destruct (Nat.leb_spec (k + 20) c) as [K|K].
      + destruct fuel as [|f]; [lia|]. cbn [m_collect]. eapply safe_follow; [apply (front_next off k len v); auto; lia|]. intros r <-.
        eapply safe_follow; [apply IH; lia|]. intros l' [more ->]. apply safe_done. exists more. unfold places. cbn [map fst snd app]. now rewrite E1.
      + rewrite filter_none.
        * eapply safe_weak; [now apply safe_collect_spread|]. intros l' _. now exists l'.
        * intros x I. pose proof (chain_late b c Hc _ _ CH x I). destruct (Nat.leb_spec (fst x + 20) c); [lia|reflexivity].
  Qed.
End Parts.
