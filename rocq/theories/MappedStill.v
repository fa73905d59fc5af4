(** Facts about MappedModel.v for files that do not change, and for files of which a front part does not. *)
From Verif Require Import Base DltModel MatchModel MappedModel Spec MappedSpec BaseFacts DltFacts ParseFacts FindFacts IterFacts DltIterFacts ContainFacts CommandFacts ExactFacts MappedFacts.
From Coq Require Import Sorted ZifyBool ZifyNat ZifyN.
Ltac Zify.zify_post_hook ::= idtac.

Definition place (x : nat * storage_entry) : item := (fst x, storage_len (snd x)).
Lemma u16_skipn b k i : u16_at (skipn k b) i = u16_at b (k + i).
Proof. unfold u16_at, byte_at. rewrite !nth_skipn_x. now rewrite Nat.add_assoc. Qed.
Lemma u16_bound b k : (u16_at b k < 65536)%N.
Proof.
  unfold u16_at, byte_at. pose proof (Strings.Byte.to_N_bounded (nth k b x00)). pose proof (Strings.Byte.to_N_bounded (nth (k + 1) b x00)). lia.
Qed.
Lemma field_bound b k : (N.of_nat (field_at b k) < 65536)%N.
Proof. unfold field_at. rewrite N2Nat.id. apply u16_bound. Qed.
Lemma parse_place b a k v : parse (skipn a b) = Some (k, v) ->
  storage_len v = k /\ 20 <= k /\ a + k <= length b /\ field_at b (a + 16) + 16 = k.
Proof.
  intros P. split; [now apply (parse_len (skipn a b) k v)|]. apply parse_some_iff in P. destruct P as (H1 & H2 & H3 & _).
  rewrite skipn_length in H2. rewrite u16_skipn in H3. unfold field_at. replace (a + 16 + 2) with (a + 18) by lia. rewrite H3, Nat2N.id. repeat split; lia.
Qed.
Lemma occ_marker b a : bytes_eqb (firstn 4 (skipn a b)) the_pattern = occ dlt_marker b a.
Proof.
  destruct (bytes_eqb_spec (firstn 4 (skipn a b)) the_pattern) as [E|E]; symmetry.
  - apply is_prefix_firstn. exact E.
  - destruct (is_prefix dlt_marker (skipn a b)) eqn:P; [|reflexivity]. apply is_prefix_firstn in P. now elim E.
Qed.

Section Still.
  Variable b : bytes.
  Variable F : bytes -> nat -> option (nat * nat).
  Let W := still b F.
  Let n := length b.

  Lemma still_length a : safe (eq (field_at b (a + 16))) (m_length W a).
  Proof.
    unfold m_length. eapply safe_follow; [apply (safe_ask (eq (field_at b (a + 16)))); reflexivity|]. intros l <-. apply safe_done.
    rewrite N.mod_small by apply field_bound. now rewrite Nat2N.id.
  Qed.
  Lemma still_read a : a <= n -> safe (eq (option_map (fun x => (fst x, (a, fst x))) (parse (skipn a b)))) (m_read W n a).
  Proof.
    intros Ha. unfold m_read, parse. rewrite skipn_length. fold n.
    destruct (Nat.ltb_spec (n - a) 20) as [L|L].
    { destruct (Nat.ltb_spec (n - a) 16); [now apply safe_done|]. destruct (Nat.ltb_spec (n - a - 16) 4); [now apply safe_done|lia]. }
    destruct (Nat.ltb_spec (n - a) 16); [lia|]. destruct (Nat.ltb_spec (n - a - 16) 4); [lia|].
    eapply safe_follow; [apply still_length|]. intros s <-. rewrite u16_skipn. cbv zeta.
    replace (N.to_nat (u16_at b (a + 18))) with (field_at b (a + 16)) by (unfold field_at; do 2 f_equal; lia).
    destruct (Nat.ltb_spec (field_at b (a + 16)) 4); [now apply safe_done|]. cbn [orb].
    destruct (Nat.ltb_spec (n - a) (16 + field_at b (a + 16))); destruct (Nat.ltb_spec (n - a - 16) (field_at b (a + 16))); try lia; now apply safe_done.
  Qed.
  Lemma still_len k v : parse (skipn k b) = Some v -> safe (eq (storage_len (snd v))) (m_len W (k, storage_len (snd v))).
  Proof.
    intros P. destruct v as [x v]. destruct (parse_place b k x v P) as (E1 & E2 & E3 & E4). unfold m_len. cbn [fst snd].
    eapply safe_follow; [apply still_length|]. intros l <-. apply safe_done. lia.
  Qed.
  Lemma still_try_read a : a <= n ->
    safe (eq (option_map (fun x => (fst x, (a, fst x))) (if occ dlt_marker b a then parse (skipn a b) else None))) (m_try_read W n a).
  Proof.
    intros Ha. unfold m_try_read. destruct (Nat.ltb_spec (n - a) 4) as [L|L].
    { apply safe_done. destruct (occ dlt_marker b a) eqn:O; [|reflexivity]. unfold parse. rewrite skipn_length. fold n.
      destruct (Nat.ltb_spec (n - a) 20); [reflexivity|lia]. }
    eapply safe_follow; [apply (safe_ask (eq (occ dlt_marker b a))); intros; symmetry; apply occ_marker|]. intros mk <-.
    destruct (occ dlt_marker b a); [now apply still_read|now apply safe_done].
  Qed.
  Lemma still_find a : a <= n -> safe (eq (option_map (fun p => a + p) (find dlt_marker (skipn a b)))) (m_find W n a).
  Proof.
    intros Ha. unfold m_find. eapply safe_follow; [apply (safe_ask (eq (option_map (fun p => a + p) (find dlt_marker (skipn a b))))); reflexivity|].
    intros r <-. destruct (find dlt_marker (skipn a b)) as [p|] eqn:E; [|now apply safe_done]. cbn [option_map].
    apply find_some in E; [|cbn; lia]. destruct E as [E _]. rewrite occ_skipn in E. apply is_prefix_len in E. rewrite skipn_length in E.
    change (length dlt_marker) with 4 in E. fold n in E. destruct (Nat.leb_spec a (a + p)); [|lia]. destruct (Nat.leb_spec (a + p + 4) n); [now apply safe_done|lia].
  Qed.
  Lemma still_rfind z : z <= n -> safe (eq (rfind dlt_marker (firstn z b))) (m_rfind W z).
  Proof.
    intros Hz. unfold m_rfind. eapply safe_follow; [apply (safe_ask (eq (rfind dlt_marker (firstn z b)))); reflexivity|].
    intros r <-. destruct (rfind dlt_marker (firstn z b)) as [p|] eqn:E; [|now apply safe_done].
    apply rfind_some in E; [|cbn; lia]. destruct E as [E _]. apply is_prefix_len in E. rewrite skipn_length, firstn_length in E.
    change (length dlt_marker) with 4 in E. destruct (Nat.leb_spec (p + 4) z); [now apply safe_done|lia].
  Qed.
  Lemma safe_unit x (P : x <= n) : safe (eq tt) (m_from n x).
  Proof. eapply safe_weak; [now apply safe_from|]. now intros [] _. Qed.
  Lemma safe_unit2 x y : x <= y -> y <= n -> safe (eq tt) (m_slice n x y).
  Proof. intros. eapply safe_weak; [now apply safe_slice|]. now intros [] _. Qed.

  Lemma slice_from_le a : a <= n -> slice_from b a = Ret (skipn a b).
  Proof. intros. unfold slice_from. destruct (Nat.leb_spec a (length b)); [reflexivity|]. unfold n in *. lia. Qed.

  Lemma still_fallback : forall fuel off r, fallback_next DLT fuel b off = Ret r -> safe (eq (moved r)) (m_fallback_next W n fuel off).
  Proof.
    induction fuel as [|f IH]; intros off r E; [discriminate|]. cbn [fallback_next m_fallback_next] in *.
    change (length (marker DLT)) with 4 in E. fold n in E.
    destruct (Nat.leb_spec n (off + 4)) as [L|L]; [injection E as <-; now apply safe_done|].
    destruct (slice_marker DLT b off) as (s & Es & Q); [unfold n in L; change (length (marker DLT)) with 4; lia|].
    change (length (marker DLT)) with 4 in Es. rewrite Es in E. cbn [obind] in E. rewrite Q in E.
    eapply safe_follow; [apply safe_unit2; lia|]. intros _ _.
    eapply safe_follow; [apply (safe_ask (eq (occ dlt_marker b off))); intros; symmetry; apply occ_marker|]. intros mk <-.
    change (marker DLT) with dlt_marker in E. rewrite slice_from_le in E by lia. cbn [obind] in E.
    destruct (occ dlt_marker b off) eqn:O.
    - change (try_read_valid DLT) with storage_try_read_valid in E. rewrite try_read_valid_parse in E. cbn [obind] in E.
      eapply safe_follow; [apply safe_unit; lia|]. intros _ _. eapply safe_follow; [apply still_read; lia|]. intros x <-.
      destruct (parse (skipn off b)) as [[k v]|] eqn:P; injection E as <-; apply safe_done; [|reflexivity].
      unfold moved, place. cbn [fst snd option_map]. now rewrite (proj1 (parse_place b off k v P)).
    - eapply safe_follow; [apply safe_unit; lia|]. intros _ _. eapply safe_follow; [apply still_find; lia|]. intros x <-.
      unfold search_marker in E. change (marker DLT) with dlt_marker in E. destruct (find dlt_marker (skipn off b)) as [p|]; cbn [option_map].
      + replace (off + p - off) with p by lia. destruct (p =? 0); [injection E as <-; now apply safe_done|]. now apply IH.
      + injection E as <-. now apply safe_done.
  Qed.
  Lemma still_readit off r : readit_next DLT b off = Ret r -> safe (eq (moved r)) (m_readit_next W n off).
  Proof.
    unfold readit_next, m_readit_next. fold n. intros E. destruct (Nat.leb_spec n off) as [L|L]; [injection E as <-; now apply safe_done|].
    rewrite slice_from_le in E by lia. cbn [obind] in E. change (try_read DLT) with storage_try_read in E. rewrite try_read_parse in E. cbn [obind] in E.
    eapply safe_follow; [apply safe_unit; lia|]. intros _ _. eapply safe_follow; [apply still_try_read; lia|]. intros x <-.
    destruct (is_prefix dlt_marker (skipn off b)); [|injection E as <-; now apply safe_done].
    destruct (parse (skipn off b)) as [[k v]|] eqn:P; injection E as <-; apply safe_done; [|reflexivity].
    unfold moved, place. cbn [fst snd option_map]. now rewrite (proj1 (parse_place b off k v P)).
  Qed.
  Lemma still_search off r : search_search DLT b off = Ret r ->
    safe (eq (option_map place r)) (m_search W n off) /\ forall c v, r = Some (c, v) -> exists k, parse (skipn c b) = Some (k, v).
  Proof.
    unfold search_search, m_search. fold n. intros E. destruct (Nat.leb_spec n off) as [L|L]; [injection E as <-; split; [now apply safe_done|discriminate]|].
    rewrite slice_from_le in E by lia. cbn [obind] in E. change (marker DLT) with dlt_marker in E.
    destruct (find dlt_marker (skipn off b)) as [p|] eqn:Q.
    - assert (Hp : off + p + 4 <= n).
      { apply find_some in Q; [|cbn; lia]. destruct Q as [Q _]. rewrite occ_skipn in Q. apply is_prefix_len in Q. rewrite skipn_length in Q.
        change (length dlt_marker) with 4 in Q. fold n in Q. lia. }
      rewrite (Nat.add_comm p off) in E. rewrite slice_from_le in E by lia. cbn [obind] in E.
      change (try_read_valid DLT) with storage_try_read_valid in E. rewrite try_read_valid_parse in E. cbn [obind] in E. split.
      + eapply safe_follow; [apply safe_unit; lia|]. intros _ _. eapply safe_follow; [apply still_find; lia|]. intros x <-. rewrite Q. cbn [option_map].
        eapply safe_follow; [apply safe_unit; lia|]. intros _ _. eapply safe_follow; [apply still_read; lia|]. intros x <-.
        destruct (parse (skipn (off + p) b)) as [[k v]|] eqn:P; injection E as <-; apply safe_done; [|reflexivity].
        unfold place. cbn [fst snd option_map]. now rewrite (proj1 (parse_place b (off + p) k v P)).
      + intros c v ->. destruct (parse (skipn (off + p) b)) as [[k v']|] eqn:P; [|discriminate]. injection E as <- <-. now exists k.
    - injection E as <-. split; [|discriminate]. eapply safe_follow; [apply safe_unit; lia|]. intros _ _. eapply safe_follow; [apply still_find; lia|]. intros x <-.
      rewrite Q. now apply safe_done.
  Qed.
  Lemma still_search_next : forall fuel off r, search_next DLT fuel b off = Ret r -> safe (eq (moved r)) (m_search_next W n fuel off).
  Proof.
    induction fuel as [|f IH]; intros off r E; [discriminate|]. cbn [search_next m_search_next] in *.
    destruct (search_search DLT b off) as [x| |] eqn:Q; [|discriminate|discriminate]. cbn [obind] in E.
    destruct (still_search off x Q) as [S1 S2]. eapply safe_follow; [exact S1|]. intros y <-. destruct x as [[c v]|]; cbn [option_map].
    - destruct (S2 c v eq_refl) as [k P]. injection E as <-. unfold place. cbn [fst snd].
      eapply safe_follow; [apply (still_len c (k, v) P)|]. cbn [snd]. intros l <-. now apply safe_done.
    - change (length (marker DLT)) with 4 in E. fold n in E. destruct (n <=? off + 4); [injection E as <-; now apply safe_done|]. now apply IH.
  Qed.
  Lemma still_rev_search off r : rev_search DLT b off = Ret r ->
    safe (eq (option_map place r)) (m_rev_search W n off) /\ forall c v, r = Some (c, v) -> exists k, parse (skipn c b) = Some (k, v).
  Proof.
    unfold rev_search, m_rev_search. fold n. intros E. destruct (N.ltb_spec (N.of_nat n) off) as [L|L]; [injection E as <-; split; [now apply safe_done|discriminate]|].
    cbn [orb] in *. destruct (off =? usize_max)%N; [injection E as <-; split; [now apply safe_done|discriminate]|].
    unfold slice_to in E. fold n in E. destruct (Nat.leb_spec (N.to_nat off) n) as [L'|L']; [|lia]. cbn [obind] in E. change (marker DLT) with dlt_marker in E.
    destruct (rfind dlt_marker (firstn (N.to_nat off) b)) as [c|] eqn:Q.
    - assert (Hp : c + 4 <= N.to_nat off).
      { apply rfind_some in Q; [|cbn; lia]. destruct Q as [Q _]. apply is_prefix_len in Q. rewrite skipn_length, firstn_length in Q.
        change (length dlt_marker) with 4 in Q. lia. }
      rewrite slice_from_le in E by lia. cbn [obind] in E.
      change (try_read_valid DLT) with storage_try_read_valid in E. rewrite try_read_valid_parse in E. cbn [obind] in E. split.
      + eapply safe_follow; [apply safe_unit2; lia|]. intros _ _. eapply safe_follow; [apply still_rfind; lia|]. intros x <-. rewrite Q.
        eapply safe_follow; [apply safe_unit; lia|]. intros _ _. eapply safe_follow; [apply still_read; lia|]. intros x <-.
        destruct (parse (skipn c b)) as [[k v]|] eqn:P; injection E as <-; apply safe_done; [|reflexivity].
        unfold place. cbn [fst snd option_map]. now rewrite (proj1 (parse_place b c k v P)).
      + intros c' v ->. destruct (parse (skipn c b)) as [[k v']|] eqn:P; [|discriminate]. injection E as <- <-. now exists k.
    - injection E as <-. split; [|discriminate]. eapply safe_follow; [apply safe_unit2; lia|]. intros _ _. eapply safe_follow; [apply still_rfind; lia|]. intros x <-.
      rewrite Q. now apply safe_done.
  Qed.
  Lemma still_rev_next : forall fuel off r, rev_next DLT fuel b off = Ret r -> safe (eq (moved r)) (m_rev_next W n fuel off).
  Proof.
    induction fuel as [|f IH]; intros off r E; [discriminate|]. cbn [rev_next m_rev_next] in *.
    destruct (rev_search DLT b off) as [x| |] eqn:Q; [|discriminate|discriminate]. cbn [obind] in E.
    destruct (still_rev_search off x Q) as [S1 S2]. eapply safe_follow; [exact S1|]. intros y <-. destruct x as [[c v]|]; cbn [option_map].
    - injection E as <-. now apply safe_done.
    - change (N.of_nat (length (marker DLT))) with 4%N in E. cbv zeta in *. destruct ((if 4 <=? off then off - 4 else usize_max) =? usize_max)%N; [injection E as <-; now apply safe_done|].
      now apply IH.
  Qed.
  Lemma still_collect {S} (next : S -> outcome (S * option (nat * storage_entry))) (m_next : S -> act (S * option item)) :
    (forall s r, next s = Ret r -> safe (eq (moved r)) (m_next s)) ->
    forall fuel s l, collect next fuel s = Ret l -> safe (eq (map place l)) (m_collect m_next fuel s).
  Proof.
    intros H. induction fuel as [|f IH]; intros s l E; [discriminate|]. cbn [collect m_collect] in *.
    destruct (next s) as [[s' o]| |] eqn:Q; [|discriminate|discriminate]. cbn [obind] in E.
    eapply safe_follow; [exact (H s _ Q)|]. intros p <-. unfold moved. cbn [fst snd option_map]. destruct o as [x|]; cbn [option_map].
    - destruct (collect next f s') as [l'| |] eqn:C; [|discriminate|discriminate]. cbn [obind] in E. injection E as <-.
      eapply safe_follow; [exact (IH s' l' C)|]. intros l <-. now apply safe_done.
    - injection E as <-. now apply safe_done.
  Qed.

  (** ** Partitioning *)
  Lemma still_scan rec m_rec p0 p1 back : back <= n -> p0 <= n ->
    (forall c r, c < p0 -> rec c (c + 4) = Ret r -> safe (eq (option_map place r)) (m_rec c (c + 4))) ->
    forall cands fuel pos r, n - pos < fuel -> pos <= n ->
      (forall x, In x cands <-> pos <= x + back /\ occ dlt_marker b (x + back) = true) ->
      back <= pos -> StronglySorted lt cands ->
      scan DLT rec b back p0 p1 cands = Ret r -> safe (eq (option_map place r)) (m_scan W n m_rec p0 p1 fuel pos).
  Proof.
    intros Hb Hp HR. induction cands as [|x cs IH]; intros fuel pos r Hf Hpos HI Hbp HS E; destruct fuel as [|f]; try lia; cbn [m_scan].
    - cbn [scan] in E. injection E as <-. eapply safe_follow; [apply still_find; lia|]. intros y <-.
      destruct (find dlt_marker (skipn pos b)) as [p|] eqn:Q; [|now apply safe_done]. exfalso. apply find_some in Q; [|cbn; lia]. destruct Q as [Q _].
      rewrite occ_skipn in Q. apply (HI (pos + p - back)). replace (pos + p - back + back) with (pos + p) by lia. split; [lia|exact Q].
    - assert (X : pos <= x + back /\ occ dlt_marker b (x + back) = true) by (apply HI; now left). destruct X as [X1 X2].
      assert (FX : find dlt_marker (skipn pos b) = Some (x + back - pos)).
      { apply find_some; [cbn; lia|]. rewrite occ_skipn. replace (pos + (x + back - pos)) with (x + back) by lia. split; [exact X2|].
        intros j Hj. rewrite occ_skipn. destruct (occ dlt_marker b (pos + j)) eqn:O; [|reflexivity]. exfalso.
        assert (I : In (pos + j - back) (x :: cs)) by (apply HI; replace (pos + j - back + back) with (pos + j) by lia; split; [lia|exact O]).
        inversion HS as [|? ? HS' HF]; subst. destruct I as [I|I]; [lia|]. rewrite Forall_forall in HF. specialize (HF _ I). lia. }
      assert (X4 : x + back + 4 <= n).
      { apply is_prefix_len in X2. rewrite skipn_length in X2. change (length dlt_marker) with 4 in X2. fold n in X2. lia. }
      eapply safe_follow; [apply still_find; lia|]. intros y <-. rewrite FX. cbn [option_map]. replace (pos + (x + back - pos)) with (x + back) by lia.
      cbn [scan] in E. destruct (Nat.leb_spec p0 (x + back)) as [PL|PL]; [injection E as <-; now apply safe_done|].
      rewrite slice_from_le in E by lia. cbn [obind] in E. rewrite try_read_occ in E by exact X2. cbn [obind] in E.
      eapply safe_follow; [apply safe_unit; lia|]. intros _ _. eapply safe_follow; [apply still_try_read; lia|]. intros y <-. rewrite X2.
      assert (NEXT : forall r, scan DLT rec b back p0 p1 cs = Ret r -> safe (eq (option_map place r)) (m_scan W n m_rec p0 p1 f (x + back + 4))).
      { intros r' E'. inversion HS as [|? ? HS' HF]; subst. rewrite Forall_forall in HF. apply IH; try assumption; try lia. intros z. split.
        - intros I. pose proof (HF _ I). assert (O : occ dlt_marker b (z + back) = true) by (apply (proj1 (HI z)); now right). split; [|exact O].
          pose proof (no_overlap_occ dlt_marker b (x + back) (z + back) dlt_marker_no_overlap X2 O ltac:(lia)) as Z. change (length dlt_marker) with 4 in Z. lia.
        - intros [Z1 Z2]. destruct (proj2 (HI z) ltac:(split; [lia|exact Z2])) as [Z|Z]; [lia|exact Z]. }
      destruct (parse (skipn (x + back) b)) as [[k v]|] eqn:P; cbn [option_map fst]; [|now apply NEXT].
      pose proof (parse_place b _ k v P) as (K1 & _). change (len_of DLT v) with (storage_len v) in E.
      rewrite <- K1. eapply safe_follow; [apply (still_len (x + back) (k, v) P)|]. cbn [snd]. intros l <-.
      destruct (p1 <=? x + back + storage_len v); [|now apply NEXT]. change (length (marker DLT)) with 4 in E.
      destruct (rec (x + back) (x + back + 4)) as [q| |] eqn:RQ; [|discriminate|discriminate]. cbn [obind] in E.
      eapply safe_follow; [exact (HR _ q PL RQ)|]. intros y <-. destruct q as [q|]; cbn [option_map]; [now apply NEXT|injection E as <-; now apply safe_done].
  Qed.
  Lemma still_contained_by : forall fuel p0 p1 r, contained_by DLT fuel b p0 p1 = Ret r -> safe (eq (option_map place r)) (m_contained_by W n fuel p0 p1).
  Proof.
    induction fuel as [|f IH]; intros p0 p1 r E; [discriminate|]. cbn [contained_by m_contained_by] in *. fold n in E.
    destruct ((n <=? p0) || (n <=? p1) || (p1 <=? p0) || (p1 =? 0)) eqn:C; [injection E as <-; now apply safe_done|].
    assert (p0 < n) by lia. cbv zeta in *. change (max_len DLT) with dlt_max_len in E. set (back := p0 - dlt_max_len) in *.
    assert (HB : back <= p0) by (unfold back; apply Nat.le_sub_l). clearbody back.
    rewrite slice_from_le in E by lia. cbn [obind] in E. change (marker DLT) with dlt_marker in E.
    eapply safe_follow; [apply safe_unit; lia|]. intros _ _.
    apply (still_scan (contained_by DLT f b) _ p0 p1 back ltac:(lia) ltac:(lia) (fun c r _ => IH c (c + 4) r) (find_iter dlt_marker (skipn back b))); try lia; try exact E.
    - intros x. rewrite find_iter_in by (try apply dlt_marker_no_overlap; cbn; lia). rewrite occ_skipn, (Nat.add_comm back x). intuition lia.
    - apply find_iter_sorted; [cbn; lia|apply dlt_marker_no_overlap].
  Qed.
  (** Parts of a file at these places. *)
  Definition cut_out (l : list (nat * nat)) : list bytes := map (fun p => firstn (snd p - fst p) (skipn (fst p) b)) l.
  Lemma still_partition_loop size : forall fuel c0 c1 r, partition_loop DLT fuel b size c0 c1 = Ret r ->
    safe (fun l => cut_out l = r) (m_partition_loop W n fuel size c0 c1).
  Proof.
    induction fuel as [|f IH]; intros c0 c1 r E; [discriminate|]. cbn [partition_loop m_partition_loop] in *. fold n in E.
    destruct (Nat.ltb_spec n c0); [injection E as <-; now apply safe_done|]. destruct (Nat.ltb_spec n c1); [injection E as <-; now apply safe_done|]. cbn [orb] in *.
    destruct (contained_by DLT (S c1) b c1 (c1 + 1)) as [q| |] eqn:Q; [|discriminate|discriminate]. cbn [obind] in E. cbv zeta in *.
    eapply safe_follow; [exact (still_contained_by _ _ _ _ Q)|]. intros y <-.
    replace (match option_map place q with Some v => fst v | None => c1 end) with (match q with Some (c, _) => c | None => c1 end) by (destruct q as [[c v]|]; reflexivity).
    set (c := match q with Some (c, _) => c | None => c1 end) in *.
    destruct (Nat.leb_spec c c0); [injection E as <-; now apply safe_done|]. destruct (n <=? c + size / 4).
    - rewrite slice_from_le in E by lia. injection E as <-. eapply safe_follow; [apply safe_unit; lia|]. intros _ _. apply safe_done. unfold cut_out. cbn [map fst snd].
      f_equal. apply firstn_all2. rewrite skipn_length. fold n. lia.
    - unfold slice in E. fold n in E. destruct (Nat.leb_spec c0 c); [|lia]. cbn [andb] in E. destruct (Nat.leb_spec c n) as [CN|CN]; [|discriminate]. cbn [obind] in E.
      destruct (partition_loop DLT f b size c (c + size)) as [l| |] eqn:PL; [|discriminate|discriminate]. injection E as <-.
      eapply safe_follow; [apply safe_unit2; lia|]. intros _ _. eapply safe_follow; [exact (IH _ _ _ PL)|]. intros l' <-. now apply safe_done.
  Qed.
  Lemma still_partition num r : partition_from DLT b num = Ret r -> safe (fun l => cut_out l = r) (m_partition W n num).
  Proof.
    unfold partition_from, m_partition. destruct (num =? 0); [discriminate|]. cbv zeta. apply still_partition_loop.
  Qed.

  (** ** Captures *)
  Section Captures.
  Variable CF : bytes -> nat -> option ((nat * nat) * option (nat * nat)).
  Hypothesis COK : forall a s e g, CF b a = Some ((s, e), g) -> a <= s /\ s <= e /\ e <= n /\ forall gs ge, g = Some (gs, ge) -> s <= gs /\ gs <= ge /\ ge <= e.
  Lemma still_groups a : safe (eq (CF b a)) (m_groups n (fun _ a => CF b a) a).
  Proof.
    unfold m_groups. eapply safe_follow; [apply (safe_ask (eq (CF b a))); reflexivity|]. intros r <-. destruct (CF b a) as [[[s e] g]|] eqn:E; [|now apply safe_done].
    destruct (COK a s e g E) as (A & B & C & D). destruct (Nat.leb_spec a s); [|lia]. destruct (Nat.leb_spec s e); [|lia]. destruct (Nat.leb_spec e n); [|lia]. cbn [andb].
    destruct g as [[gs ge]|]; [|now apply safe_done]. destruct (D _ _ eq_refl) as (D1 & D2 & D3).
    destruct (Nat.leb_spec s gs); [|lia]. destruct (Nat.leb_spec gs ge); [|lia]. destruct (Nat.leb_spec ge e); [|lia]. now apply safe_done.
  Qed.
  Lemma still_capture : forall fuel off r, capture DLT CF fuel b off = Ret r -> safe (eq r) (m_capture W n (fun _ a => CF b a) fuel off).
  Proof.
    induction fuel as [|f IH]; intros off r E; [discriminate|]. cbn [capture m_capture] in *. fold n in E.
    destruct (n <=? off); [injection E as <-; now apply safe_done|].
    eapply safe_follow; [apply still_groups|]. intros x <-.
    destruct (CF b off) as [[[s e] g]|] eqn:M; [|injection E as <-; now apply safe_done].
    destruct (rev_search DLT b (N.of_nat s)) as [x| |] eqn:Q; [|discriminate|discriminate]. cbn [obind] in E.
    destruct (still_rev_search _ x Q) as [S1 S2]. eapply safe_follow; [exact S1|]. intros y <-. cbv zeta. destruct x as [[o v]|]; cbn [option_map].
    - destruct (S2 o v eq_refl) as [k P]. change (len_of DLT v) with (storage_len v) in E. unfold place. cbn [fst snd].
      assert (RS : match g with Some g => Ret (Some (o, g)) | None => Ret None end = Ret r ->
        safe (eq r) (match g with Some g => done (Some (o, g)) | None => done None end)).
      { destruct g; intros [= <-]; now apply safe_done. }
      destruct (o <? s) eqn:OS; cbn [andb] in E; [|now apply RS].
      eapply safe_follow; [apply (still_len o (k, v) P)|]. cbn [snd]. intros l <-. destruct (o + storage_len v <? e); [now apply IH|now apply RS].
    - destruct (n <=? e); [injection E as <-; now apply safe_done|now apply IH].
  Qed.
  Lemma still_capture_next fuel off r : capture_next DLT CF fuel b off = Ret r -> safe (eq r) (m_capture_next W n (fun _ a => CF b a) fuel off).
  Proof.
    unfold capture_next, m_capture_next. destruct (capture DLT CF fuel b off) as [x| |] eqn:Q; [|discriminate|discriminate]. cbn [obind]. intros E.
    eapply safe_follow; [apply still_capture; exact Q|]. intros y <-. destruct x as [[o g]|]; injection E as <-; now apply safe_done.
  Qed.
  End Captures.
  (** ** Grep *)
  Hypothesis FOK : forall a s e, F b a = Some (s, e) -> a <= s /\ s <= e /\ e <= n.
  Lemma still_match a : safe (eq (F b a)) (m_match W n a).
  Proof.
    unfold m_match. eapply safe_follow; [apply (safe_ask (eq (F b a))); reflexivity|]. intros r <-. destruct (F b a) as [[s e]|] eqn:E; [|now apply safe_done].
    destruct (FOK a s e E) as (A & B & C). destruct (Nat.leb_spec a s); [|lia]. destruct (Nat.leb_spec s e); [|lia]. destruct (Nat.leb_spec e n); [|lia]. now apply safe_done.
  Qed.
  Lemma still_grep_search : forall fuel off r, grep_search DLT F fuel b off = Ret r ->
    safe (eq (option_map place r)) (m_grep_search W n fuel off) /\ forall c v, r = Some (c, v) -> exists k, parse (skipn c b) = Some (k, v).
  Proof.
    induction fuel as [|f IH]; intros off r E; [discriminate|]. cbn [grep_search m_grep_search] in *. fold n in E.
    destruct (n <=? off); [injection E as <-; split; [now apply safe_done|discriminate]|].
    destruct (F b off) as [[s e]|] eqn:M.
    2: { injection E as <-. split; [|discriminate]. eapply safe_follow; [apply still_match|]. intros x <-. rewrite M. now apply safe_done. }
    destruct (rev_search DLT b (N.of_nat s)) as [x| |] eqn:Q; [|discriminate|discriminate]. cbn [obind] in E.
    destruct (still_rev_search _ x Q) as [S1 S2]. destruct x as [[o v]|].
    - destruct (S2 o v eq_refl) as [k P]. change (len_of DLT v) with (storage_len v) in E. destruct (o <? s) eqn:OS; cbn [andb] in E.
      + destruct (o + storage_len v <? e) eqn:OE.
        * split; [|exact (proj2 (IH e r E))]. eapply safe_follow; [apply still_match|]. intros x <-. rewrite M. eapply safe_follow; [exact S1|]. intros y <-.
          unfold place. cbn [option_map fst snd]. rewrite OS. eapply safe_follow; [apply (still_len o (k, v) P)|]. cbn [snd]. intros l <-. rewrite OE. exact (proj1 (IH e r E)).
        * injection E as <-. split; [|intros c v' [= <- <-]; now exists k]. eapply safe_follow; [apply still_match|]. intros x <-. rewrite M. eapply safe_follow; [exact S1|]. intros y <-.
          unfold place. cbn [option_map fst snd]. rewrite OS. eapply safe_follow; [apply (still_len o (k, v) P)|]. cbn [snd]. intros l <-. rewrite OE. now apply safe_done.
      + injection E as <-. split; [|intros c v' [= <- <-]; now exists k]. eapply safe_follow; [apply still_match|]. intros x <-. rewrite M. eapply safe_follow; [exact S1|]. intros y <-.
        unfold place. cbn [option_map fst snd]. rewrite OS. now apply safe_done.
    - destruct (n <=? e) eqn:NE.
      + injection E as <-. split; [|discriminate]. eapply safe_follow; [apply still_match|]. intros x <-. rewrite M. eapply safe_follow; [exact S1|]. intros y <-.
        cbn [option_map]. rewrite NE. now apply safe_done.
      + split; [|exact (proj2 (IH e r E))]. eapply safe_follow; [apply still_match|]. intros x <-. rewrite M. eapply safe_follow; [exact S1|]. intros y <-.
        cbn [option_map]. rewrite NE. exact (proj1 (IH e r E)).
  Qed.
  Lemma still_grep_next fuel off r : grep_next DLT F fuel b off = Ret r -> safe (eq (moved r)) (m_grep_next W n fuel off).
  Proof.
    unfold grep_next, m_grep_next. destruct (grep_search DLT F fuel b off) as [x| |] eqn:Q; [|discriminate|discriminate]. cbn [obind]. intros E.
    destruct (still_grep_search fuel off x Q) as [S1 S2]. eapply safe_follow; [exact S1|]. intros y <-. destruct x as [[o v]|]; cbn [option_map].
    - destruct (S2 o v eq_refl) as [k P]. injection E as <-. unfold place. cbn [fst snd]. eapply safe_follow; [apply (still_len o (k, v) P)|]. cbn [snd]. intros l <-. now apply safe_done.
    - injection E as <-. now apply safe_done.
  Qed.
End Still.

Lemma filter_none {A} (f : A -> bool) l : (forall x, In x l -> f x = false) -> filter f l = [].
Proof. induction l as [|x l IH]; intros H; [reflexivity|]. cbn [filter]. rewrite (H x (or_introl eq_refl)). apply IH. intros y I. apply H. now right. Qed.
(** A front part that does not change. *)
Section Steady.
  Variables (W : world) (b : bytes) (c : nat).
  Hypothesis ST : steady W b c.
  Hypothesis Hc : c <= length b.
  Let n := length b.

  Lemma steady_len a : a + 20 <= c -> safe (eq (field_at b (a + 16))) (m_length W a).
  Proof.
    intros Ha. unfold m_length. eapply safe_follow; [apply (safe_ask (eq (field_at b (a + 16)))); intros t; symmetry; apply (steady_length W b c ST); lia|].
    intros l <-. apply safe_done. rewrite N.mod_small by apply field_bound. now rewrite Nat2N.id.
  Qed.
  Lemma steady_read a k v : parse (skipn a b) = Some (k, v) -> a + k <= c -> safe (eq (Some (k, (a, k)))) (m_read W n a).
  Proof.
    intros P Hk. destruct (parse_place b a k v P) as (E1 & E2 & E3 & E4). unfold m_read. fold n in E3.
    destruct (Nat.ltb_spec (n - a) 16); [lia|]. destruct (Nat.ltb_spec (n - a - 16) 4); [lia|].
    eapply safe_follow; [apply steady_len; lia|]. intros s <-.
    destruct (Nat.ltb_spec (field_at b (a + 16)) 4); [lia|]. destruct (Nat.ltb_spec (n - a - 16) (field_at b (a + 16))); [lia|]. cbn [orb].
    apply safe_done. replace (16 + field_at b (a + 16)) with k by lia. reflexivity.
  Qed.
  Lemma steady_mark a : a + 4 <= c -> safe (eq (occ dlt_marker b a)) (ask (fun t => sees_marker W t a)).
  Proof.
    intros Ha. apply safe_ask. intros t. pose proof (steady_marker W b c ST t a Ha) as H. change the_pattern with dlt_marker in H.
    rewrite <- (occ_occurs dlt_marker b a) in H by (cbn; lia). destruct (sees_marker W t a), (occ dlt_marker b a); intuition congruence.
  Qed.
  Lemma steady_next off k len v fuel : first_marker DLT b off k -> parse (skipn k b) = Some (len, v) -> k + len <= c -> 1 < fuel ->
    safe (eq (k + len, Some (k, len))) (m_fallback_next W n fuel off).
  Proof.
    intros (H1 & H2 & H3) P Hk Hf. destruct fuel as [|[|f]]; try lia. clear Hf.
    pose proof (parse_place b k len v P) as (E1 & E2 & E3 & E4). change (marker DLT) with dlt_marker in *.
    assert (AT : forall g, safe (eq (k + len, Some (k, len))) (m_fallback_next W n (S g) k)).
    { intros g. cbn [m_fallback_next]. fold n in E3. destruct (Nat.leb_spec n (k + 4)); [lia|].
      eapply safe_follow; [apply safe_slice; lia|]. intros _ _. eapply safe_follow; [apply steady_mark; lia|]. intros mk <-. rewrite H2.
      eapply safe_follow; [apply safe_from; lia|]. intros _ _. eapply safe_follow; [now apply (steady_read k len v)|]. intros r <-. now apply safe_done. }
    destruct (Nat.eq_dec k off) as [->|NE]; [apply AT|].
    assert (LK : off < k) by lia. fold n in E3. remember (S f) as g eqn:Eg. cbn [m_fallback_next]. destruct (Nat.leb_spec n (off + 4)); [lia|].
    eapply safe_follow; [apply safe_slice; lia|]. intros _ _. eapply safe_follow; [apply steady_mark; lia|]. intros mk <-. rewrite (H3 off) by lia.
    eapply safe_follow; [apply safe_from; lia|]. intros _ _.
    assert (FD : safe (eq (Some k)) (m_find W n off)).
    { unfold m_find. eapply safe_follow; [apply (safe_ask (eq (Some k))); intros t; symmetry; apply (steady_found W b c ST); try lia|].
      - apply (occ_occurs dlt_marker b k); [cbn; lia|exact H2].
      - intros q Hq O. apply (occ_occurs dlt_marker b q) in O; [|cbn; lia]. rewrite (H3 q) in O by lia. discriminate.
      - intros r <-. destruct (Nat.leb_spec off k); [|lia]. destruct (Nat.leb_spec (k + 4) n); [|lia]. now apply safe_done. }
    eapply safe_follow; [exact FD|]. intros r <-. destruct (Nat.eqb_spec (k - off) 0); [lia|]. replace (off + (k - off)) with k by lia. subst g. apply AT.
  Qed.
  Lemma chain_late : forall off l, dchain b off l -> forall x, In x l -> off <= fst x.
  Proof.
    induction 1 as [| |off k len v l (F1 & _) P CH IH]; intros x I; [destruct I|destruct I|]. destruct I as [<-|I]; [exact F1|].
    specialize (IH x I). lia.
  Qed.
  Lemma steady_collect : forall off l, dchain b off l -> forall fuel, n - off < fuel ->
    safe (fun l' => exists more, l' = places (filter (fun x => fst x + storage_len (snd x) <=? c) l) ++ more) (m_collect (m_fallback_next W n (S (S n))) fuel off).
  Proof.
    induction 1 as [off _|off k _ _|off k len v l FM P CH IH]; intros fuel Hf.
    - eapply safe_weak; [now apply safe_collect_spread|]. intros l _. now exists l.
    - eapply safe_weak; [now apply safe_collect_spread|]. intros l _. now exists l.
    - pose proof (parse_place b k len v P) as (E1 & E2 & E3 & E4). pose proof FM as (F1 & _).
      cbn [filter fst snd]. rewrite E1. destruct (Nat.leb_spec (k + len) c) as [K|K].
      + destruct fuel as [|f]; [lia|]. cbn [m_collect]. eapply safe_follow; [apply (steady_next off k len v); auto; lia|]. intros r <-.
        eapply safe_follow; [apply IH; fold n in E3; lia|]. intros l' [more ->]. apply safe_done. exists more. unfold places. cbn [map fst snd app]. now rewrite E1.
      + rewrite filter_none.
        * eapply safe_weak; [now apply safe_collect_spread|]. intros l' _. now exists l'.
        * intros x I. pose proof (chain_late _ _ CH x I). destruct (Nat.leb_spec (fst x + storage_len (snd x)) c); [lia|reflexivity].
  Qed.
End Steady.
