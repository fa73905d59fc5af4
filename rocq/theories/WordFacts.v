(** Facts for C87-C89: offsets as machine words. *)
From Verif Require Import Base DltModel MatchModel DdModel WordModel Spec WordSpec GenericSpec BaseFacts DltFacts FindFacts IterFacts GenericFacts.
From Coq Require Import ZifyBool ZifyNat ZifyN.

Lemma sizes m : usize_mod m = (2 * slice_max m + 2)%N /\ (2147483647 <= slice_max m)%N.
Proof. unfold usize_mod, slice_max, bits. destruct (usize_width m); cbn; lia. Qed.
Ltac words := match goal with m : target |- _ => pose proof (sizes m) end; unfold word_len in *; lia.

Lemma add_ok m a b : (a + b < usize_mod m)%N -> add m a b = Ret (a + b)%N.
Proof. intros H. unfold add, checked. now rewrite (proj2 (N.ltb_lt _ _) H). Qed.
Lemma add_nat m a b : (N.of_nat (a + b) < usize_mod m)%N -> add m (N.of_nat a) (N.of_nat b) = Ret (N.of_nat (a + b)).
Proof. intros H. rewrite add_ok; [f_equal|]; lia. Qed.
Lemma add_over m a b : (usize_mod m <= a + b)%N -> add m a b = match build m with Debug => Panic | Release => Ret ((a + b) mod usize_mod m)%N end.
Proof. intros H. unfold add, checked. now rewrite (proj2 (N.ltb_ge _ _) H). Qed.
Lemma len_leb b o : (word_len b <=? N.of_nat o)%N = (length b <=? o).
Proof. unfold word_len. lia. Qed.
Lemma from_nat b o : word_from b (N.of_nat o) = slice_from b o.
Proof. unfold word_from. now rewrite Nat2N.id. Qed.
Lemma slice_nat b i j : word_slice b (N.of_nat i) (N.of_nat j) = slice b i j.
Proof. unfold word_slice. now rewrite !Nat2N.id. Qed.
Lemma slice_from_len b o s : slice_from b o = Ret s -> s = skipn o b /\ o <= length b.
Proof. unfold slice_from. destruct (Nat.leb_spec o (length b)); [|discriminate]. intros E. injection E as <-. auto. Qed.

Section Words.
  Context {T : Type}.
  Variable R : Readable T.
  Variable m : target.
  Notation ml := (length (marker R)).

  Lemma readit_words b o : reads_fit R -> (word_len b <= slice_max m)%N ->
    readit_word R m b (N.of_nat o) = in_words (readit_next R b o).
  Proof.
    intros F Hb. unfold word_len in Hb. unfold readit_word, readit_next. rewrite len_leb. destruct (length b <=? o); [reflexivity|]. rewrite from_nat.
    destruct (slice_from b o) as [s| |] eqn:S; cbn [obind]; try reflexivity. apply slice_from_len in S. destruct S as [-> Lo].
    destruct (try_read R (skipn o b)) as [[[n v]|]| |] eqn:E; cbn [obind]; try reflexivity.
    apply F in E. rewrite skipn_length in E. rewrite add_nat by words. reflexivity.
  Qed.

  Hypothesis W : implements_well R.
  Hypothesis Wm : (N.of_nat ml <= slice_max m)%N.

  Lemma valid_fits b k n v : is_prefix (marker R) (skipn k b) = true -> k <= length b -> try_read_valid R (skipn k b) = Ret (Some (n, v)) ->
    len_of R v = n /\ k + n <= length b.
  Proof.
    intros P Lk E. apply is_prefix_app in P. destruct P as [r P]. rewrite P in E. destruct (iw_fits R W _ _ _ E) as (A & _ & B).
    rewrite <- P, skipn_length in B. split; [exact A|lia].
  Qed.

  Lemma ml_pos : 0 < ml.
  Proof. pose proof (iw_nonempty R W). destruct (marker R); [congruence|cbn; lia]. Qed.
  Lemma find_bound b p : find (marker R) b = Some p -> p + ml <= length b /\ is_prefix (marker R) (skipn p b) = true.
  Proof. intros H. apply (FindFacts.find_some _ _ _ ml_pos) in H. destruct H as [H _]. split; [now apply (occ_len _ _ _ ml_pos)|exact H]. Qed.

  Lemma fallback_words fuel : forall b o, (word_len b <= slice_max m)%N -> (N.of_nat o + N.of_nat ml < usize_mod m)%N ->
    fallback_word R m fuel b (N.of_nat o) = in_words (fallback_next R fuel b o).
  Proof.
    induction fuel as [|f IH]; intros b o Hb Ho; [reflexivity|]. cbn [fallback_word fallback_next].
    assert (Hb' := Hb). unfold word_len in Hb'.  
    rewrite add_nat by words. cbn [obind]. rewrite len_leb. destruct (Nat.leb_spec (length b) (o + ml)); [reflexivity|].
    rewrite slice_nat. destruct (slice b o (o + ml)) as [s| |] eqn:S; cbn [obind]; try reflexivity. rewrite from_nat.
    destruct (bytes_eqb s (marker R)) eqn:Q.
    - destruct (slice_from b o) as [t| |] eqn:E; cbn [obind]; try reflexivity. apply slice_from_len in E. destruct E as [-> Lo].
      destruct (try_read_valid R (skipn o b)) as [[[n v]|]| |] eqn:E; cbn [obind]; try reflexivity.
      assert (P : is_prefix (marker R) (skipn o b) = true).
      { destruct (slice_marker R b o ltac:(lia)) as (s' & S' & Q'). rewrite S in S'. injection S' as <-. rewrite Q in Q'. symmetry in Q'. exact Q'. }
      destruct (valid_fits b o n v P Lo E) as [_ Ln]. rewrite add_nat by words. reflexivity.
    - destruct (slice_from b o) as [t| |] eqn:E; cbn [obind]; try reflexivity. apply slice_from_len in E. destruct E as [-> Lo].
      unfold search_marker. destruct (find (marker R) (skipn o b)) as [p|] eqn:Fd; [|reflexivity]. destruct (p =? 0); [reflexivity|].
      assert (p + ml <= length b - o). { apply find_bound in Fd. rewrite skipn_length in Fd. lia. }
      rewrite add_nat by words. cbn [obind]. apply IH; [exact Hb|words].
  Qed.

  Lemma search_search_words b o : (word_len b <= slice_max m)%N ->
    search_search_word R m b (N.of_nat o) = match search_search R b o with Ret i => Ret (item_word i) | Panic => Panic | Fuel => Fuel end.
  Proof.
    intros Hb. unfold word_len in Hb. unfold search_search_word, search_search. rewrite len_leb. destruct (length b <=? o); [reflexivity|]. rewrite from_nat.
    destruct (slice_from b o) as [s| |] eqn:E; cbn [obind]; try reflexivity. apply slice_from_len in E. destruct E as [-> Lo].
    destruct (find (marker R) (skipn o b)) as [c|] eqn:Fd; [|reflexivity]. apply find_bound in Fd. destruct Fd as [Fd _]. rewrite skipn_length in Fd.
    rewrite add_nat by words. cbn [obind]. rewrite from_nat.
    destruct (slice_from b (c + o)) as [s| |]; cbn [obind]; try reflexivity.
    destruct (try_read_valid R s) as [[[n v]|]| |]; reflexivity.
  Qed.
  Lemma search_search_fits b o c t : search_search R b o = Ret (Some (c, t)) -> c + len_of R t <= length b.
  Proof.
    unfold search_search. destruct (length b <=? o); [discriminate|]. destruct (slice_from b o) as [s| |] eqn:E; cbn [obind]; try discriminate.
    apply slice_from_len in E. destruct E as [-> Lo]. destruct (find (marker R) (skipn o b)) as [p|] eqn:Fd; [|discriminate].
    destruct (slice_from b (p + o)) as [s| |] eqn:E; cbn [obind]; try discriminate. apply slice_from_len in E. destruct E as [-> Lp].
    destruct (try_read_valid R (skipn (p + o) b)) as [[[n v]|]| |] eqn:E; cbn [obind]; try discriminate. intros H. injection H as <- <-.
    apply find_bound in Fd. destruct Fd as [_ P]. rewrite skipn_skipn' in P. rewrite (Nat.add_comm p o) in *.
    destruct (valid_fits b (o + p) n v P Lp E). lia.
  Qed.

  Lemma search_words fuel : forall b o, (word_len b <= slice_max m)%N -> (N.of_nat o + N.of_nat ml < usize_mod m)%N ->
    search_word R m fuel b (N.of_nat o) = in_words (search_next R fuel b o).
  Proof.
    induction fuel as [|f IH]; intros b o Hb Ho; [reflexivity|]. cbn [search_word search_next]. rewrite search_search_words by exact Hb.
    assert (Hb' := Hb). unfold word_len in Hb'. 
    destruct (search_search R b o) as [[[c t]|]| |] eqn:E; cbn [obind item_word option_map fst snd]; try reflexivity.
    - apply search_search_fits in E. rewrite add_nat by words. reflexivity.
    - rewrite add_nat by lia. cbn [obind]. rewrite len_leb. destruct (Nat.leb_spec (length b) (o + ml)); [reflexivity|].
      apply IH; [exact Hb|words].
  Qed.

  Lemma rev_search_fits b s o v : rev_search R b s = Ret (Some (o, v)) -> o + len_of R v <= length b.
  Proof.
    unfold rev_search. destruct ((_ <? s)%N || _); [discriminate|]. unfold slice_to. destruct (Nat.leb_spec (N.to_nat s) (length b)); [|discriminate]. cbn [obind].
    destruct (rfind (marker R) (firstn (N.to_nat s) b)) as [c|] eqn:Fd; [|discriminate].
    destruct (slice_from b c) as [t| |] eqn:E; cbn [obind]; try discriminate. apply slice_from_len in E. destruct E as [-> Lc].
    destruct (try_read_valid R (skipn c b)) as [[[n u]|]| |] eqn:E; cbn [obind]; try discriminate. intros H'. injection H' as <- <-.
    apply (rfind_some _ _ _ ml_pos) in Fd. destruct Fd as [P _]. apply (occ_firstn_inv _ _ _ _ ml_pos) in P. destruct P as [_ P].
    destruct (valid_fits b c n u P Lc E). lia.
  Qed.

  Lemma rev_search_words b off : (word_len b <= slice_max m)%N ->
    rev_search_word R m b off = match rev_search R b off with Ret i => Ret (item_word i) | Panic => Panic | Fuel => Fuel end.
  Proof.
    intros Hb. unfold rev_search_word, rev_search. unfold word_len in *. destruct (N.ltb_spec (N.of_nat (length b)) off) as [L|L]; cbn [orb]; [reflexivity|].
    assert (E1 : (off =? usize_mod m - 1)%N = false) by words. assert (E2 : (off =? usize_max)%N = false).
    { apply N.eqb_neq. intros ->. clear E1. assert (2 ^ 32 - 1 < usize_max)%N by reflexivity. unfold slice_max, bits in Hb.
      destruct (usize_width m); [change (2 ^ (32 - 1) - 1)%N with 2147483647%N in Hb|change (2 ^ (64 - 1) - 1)%N with 9223372036854775807%N in Hb]; change usize_max with 18446744073709551615%N in L; lia. }
    rewrite E1, E2. unfold word_slice, slice, slice_to, word_from. cbn [N.to_nat Nat.leb andb]. destruct (N.to_nat off <=? length b); cbn [obind]; [|reflexivity].
    rewrite Nat.sub_0_r. cbn [skipn]. destruct (rfind (marker R) (firstn (N.to_nat off) b)) as [c|]; [|reflexivity]. rewrite Nat2N.id.
    destruct (slice_from b c) as [s| |]; cbn [obind]; try reflexivity. destruct (try_read_valid R s) as [[[n t]|]| |]; reflexivity.
  Qed.

  Lemma grep_search_words find_at b : (word_len b <= slice_max m)%N -> forall fuel o,
    grep_search_word R m find_at fuel b (N.of_nat o) = match grep_search R find_at fuel b o with Ret i => Ret (item_word i) | Panic => Panic | Fuel => Fuel end.
  Proof.
    intros Hb. induction fuel as [|f IH]; intros o; [reflexivity|]. cbn [grep_search_word grep_search].
    rewrite len_leb. destruct (length b <=? o); [reflexivity|]. rewrite Nat2N.id. destruct (find_at b o) as [[s e]|]; [|reflexivity].
    rewrite (rev_search_words b _ Hb). destruct (rev_search R b (N.of_nat s)) as [[[k v]|]| |] eqn:E; cbn [obind item_word option_map fst snd]; try reflexivity.
    - apply rev_search_fits in E. replace (N.of_nat k <? N.of_nat s)%N with (k <? s) by lia. destruct (k <? s); cbn [andb]; [|reflexivity]. rewrite add_nat by words. cbn [obind].
      replace (N.of_nat (k + len_of R v) <? N.of_nat e)%N with (k + len_of R v <? e) by lia.
      destruct (k + len_of R v <? e); [apply IH|reflexivity].
    - destruct (length b <=? e); [reflexivity|apply IH].
  Qed.
  Lemma grep_search_fits find_at b : forall fuel o k v, grep_search R find_at fuel b o = Ret (Some (k, v)) -> k + len_of R v <= length b.
  Proof.
    induction fuel as [|f IH]; intros o k v; [discriminate|]. cbn [grep_search]. destruct (length b <=? o); [discriminate|].
    destruct (find_at b o) as [[s e]|]; [|discriminate]. destruct (rev_search R b (N.of_nat s)) as [[[c u]|]| |] eqn:E; cbn [obind]; try discriminate.
    - destruct ((c <? s) && (c + len_of R u <? e)); [apply IH|]. intros H. injection H as <- <-. now apply rev_search_fits in E.
    - destruct (length b <=? e); [discriminate|apply IH].
  Qed.
  Lemma grep_words find_at fuel b o : (word_len b <= slice_max m)%N -> grep_word R m find_at fuel b (N.of_nat o) = in_words (grep_next R find_at fuel b o).
  Proof.
    intros Hb. unfold grep_word, grep_next. rewrite grep_search_words by exact Hb. unfold word_len in Hb.
    destruct (grep_search R find_at fuel b o) as [[[k v]|]| |] eqn:E; cbn [obind item_word option_map fst snd]; try reflexivity.
    apply grep_search_fits in E. rewrite add_nat by words. reflexivity.
  Qed.

  Lemma capture_search_words captures_at b : (word_len b <= slice_max m)%N -> forall fuel o,
    capture_search_word R m captures_at fuel b (N.of_nat o) = match capture R captures_at fuel b o with Ret i => Ret (item_word i) | Panic => Panic | Fuel => Fuel end.
  Proof.
    intros Hb. induction fuel as [|f IH]; intros o; [reflexivity|]. cbn [capture_search_word capture].
    rewrite len_leb. destruct (length b <=? o); [reflexivity|]. rewrite Nat2N.id. destruct (captures_at b o) as [[[s e] g]|]; [|reflexivity].
    rewrite (rev_search_words b _ Hb). destruct (rev_search R b (N.of_nat s)) as [[[k v]|]| |] eqn:E; cbn [obind item_word option_map fst snd]; try reflexivity.
    - apply rev_search_fits in E. replace (N.of_nat k <? N.of_nat s)%N with (k <? s) by lia. destruct (k <? s); cbn [andb]; [|destruct g; reflexivity]. rewrite add_nat by words. cbn [obind].
      replace (N.of_nat (k + len_of R v) <? N.of_nat e)%N with (k + len_of R v <? e) by lia.
      destruct (k + len_of R v <? e); [apply IH|destruct g; reflexivity].
    - destruct (length b <=? e); [reflexivity|apply IH].
  Qed.
  Lemma capture_search_fits captures_at b : groups_inside captures_at b -> forall fuel o k v, capture R captures_at fuel b o = Ret (Some (k, v)) ->
    k <= length b /\ snd v <= length b.
  Proof.
    intros G. induction fuel as [|f IH]; intros o k v; [discriminate|]. cbn [capture]. destruct (length b <=? o); [discriminate|].
    destruct (captures_at b o) as [[[s e] g]|] eqn:C; [|discriminate]. destruct (rev_search R b (N.of_nat s)) as [[[c u]|]| |] eqn:E; cbn [obind]; try discriminate.
    - destruct ((c <? s) && (c + len_of R u <? e)); [apply IH|]. destruct g as [[gs ge]|]; [|discriminate]. intros H. injection H as <- <-.
      apply rev_search_fits in E. split; [lia|]. exact (G _ _ _ _ C).
    - destruct (length b <=? e); [discriminate|apply IH].
  Qed.
  Lemma capture_words captures_at fuel b o : groups_inside captures_at b -> (word_len b <= slice_max m)%N ->
    capture_word R m captures_at fuel b (N.of_nat o) = in_words (capture_next R captures_at fuel b o).
  Proof.
    intros G Hb. unfold capture_word, capture_next. rewrite capture_search_words by exact Hb. unfold word_len in Hb.
    destruct (capture R captures_at fuel b o) as [[[k v]|]| |] eqn:E; cbn [obind item_word option_map fst snd]; try reflexivity.
    apply (capture_search_fits _ _ G) in E. rewrite add_nat by words. reflexivity.
  Qed.

  Lemma rev_word_words b : (word_len b <= slice_max m)%N -> forall fuel off, (off < usize_mod m - 1)%N ->
    rev_word R m fuel b off = rev_words m (rev_next R fuel b off) /\
    forall o x, rev_next R fuel b off = Ret (o, Some x) -> (o < usize_mod m - 1)%N.
  Proof.
    intros Hb. induction fuel as [|f IH]; intros off L; [split; [reflexivity|discriminate]|]. cbn [rev_word rev_next]. rewrite (rev_search_words b off Hb).
    assert (U : (usize_mod m - 1 <= usize_max)%N) by (unfold usize_mod, bits; destruct (usize_width m); discriminate).
    destruct (rev_search R b off) as [[[c t]|]| |] eqn:E; cbn [obind item_word option_map fst snd rev_words]; try (split; [reflexivity|discriminate]).
    - apply rev_search_fits in E. assert (N.of_nat c < usize_mod m - 1)%N by words. split; [|intros o x Q; injection Q as <- _; assumption].
      unfold rev_state. change (2 ^ 64 - 1)%N with usize_max. replace (N.of_nat c =? usize_max)%N with false by lia. reflexivity.
    - cbv zeta. destruct (N.of_nat (length (marker R)) <=? off)%N.
      + replace (off - N.of_nat (length (marker R)) =? usize_mod m - 1)%N with false by lia.
        replace (off - N.of_nat (length (marker R)) =? usize_max)%N with false by lia. apply IH. lia.
      + rewrite !N.eqb_refl. split; [reflexivity|discriminate].
  Qed.
  Lemma rev_collect_words b fuel : (word_len b <= slice_max m)%N -> forall n off, (off < usize_mod m - 1)%N ->
    collect (rev_word R m fuel b) n off = list_words (collect (rev_next R fuel b) n off).
  Proof.
    intros Hb. induction n as [|n IH]; intros off L; [reflexivity|]. cbn [collect]. destruct (rev_word_words b Hb fuel off L) as [-> F'].
    destruct (rev_next R fuel b off) as [[o [[k v]|]]| |] eqn:E; cbn [obind rev_words item_word option_map fst snd]; try reflexivity.
    specialize (F' o (k, v) eq_refl). unfold rev_state. change (2 ^ 64 - 1)%N with usize_max.
    assert (U : (usize_mod m - 1 <= usize_max)%N) by (unfold usize_mod, bits; destruct (usize_width m); discriminate).
    replace (o =? usize_max)%N with false by lia. rewrite IH by exact F'. destruct (collect (rev_next R fuel b) n o); reflexivity.
  Qed.

  Lemma find_iter_from_bound mk b : forall pos skip k, In k (find_iter_from mk b pos skip) -> k <= pos + length b.
  Proof.
    induction b as [|x b IH]; intros pos skip k H; destruct skip as [|skip]; cbn [find_iter_from length] in H |- *.
    - destruct (is_prefix mk []); cbn in H; [|contradiction]. destruct H as [<-|[]]. lia.
    - contradiction.
    - destruct (is_prefix mk (x :: b)); [destruct H as [<-|H]; [lia|]|]; apply IH in H; lia.
    - apply IH in H. lia.
  Qed.

  Hypothesis F : reads_fit R.
  Definition option_words (r : outcome (option (nat * T))) : outcome (option (N * T)) :=
    match r with Ret i => Ret (item_word i) | Panic => Panic | Fuel => Fuel end.

  Lemma scan_words b rec_w rec back p0 p1 : (word_len b <= slice_max m)%N ->
    (forall i j, i <= length b -> rec_w (N.of_nat i) (N.of_nat j) = option_words (rec i j)) ->
    forall cands, (forall x, In x cands -> x + back <= length b) ->
    scan_word R m rec_w b (N.of_nat back) (N.of_nat p0) (N.of_nat p1) cands = option_words (scan R rec b back p0 p1 cands).
  Proof.
    intros Hb HR. unfold word_len in Hb. induction cands as [|x cs IH]; intros HC; [reflexivity|].
    pose proof (HC x (or_introl eq_refl)) as Hx. assert (HC' : forall y, In y cs -> y + back <= length b) by (intros y Hy; apply HC; now right).
    cbn [scan_word scan]. rewrite add_nat by words. cbn [obind].
    replace (N.of_nat p0 <=? N.of_nat (x + back))%N with (p0 <=? x + back) by lia. destruct (p0 <=? x + back); [reflexivity|].
    rewrite from_nat. destruct (slice_from b (x + back)) as [s| |] eqn:E; cbn [obind]; try reflexivity. apply slice_from_len in E. destruct E as [-> _].
    destruct (try_read R (skipn (x + back) b)) as [[[n v]|]| |] eqn:E; cbn [obind]; try reflexivity; [|now apply IH].
    apply F in E. rewrite skipn_length in E. rewrite add_nat by words. cbn [obind].
    replace (N.of_nat p1 <=? N.of_nat (x + back + len_of R v))%N with (p1 <=? x + back + len_of R v) by lia.
    destruct (p1 <=? x + back + len_of R v); [|now apply IH]. rewrite add_nat by words. cbn [obind].
    rewrite HR by exact Hx. destruct (rec (x + back) (x + back + ml)) as [[p|]| |]; cbn [option_words item_word option_map obind]; try reflexivity. now apply IH.
  Qed.
  Lemma contained_words b : (word_len b <= slice_max m)%N -> forall fuel p0 p1,
    contained_word R m fuel b (N.of_nat p0) (N.of_nat p1) = option_words (contained_by R fuel b p0 p1).
  Proof.
    intros Hb. induction fuel as [|f IH]; intros p0 p1; [reflexivity|]. cbn [contained_word contained_by].
    rewrite !len_leb. replace (N.of_nat p1 <=? N.of_nat p0)%N with (p1 <=? p0) by lia. replace (N.of_nat p1 =? 0)%N with (p1 =? 0) by lia.
    destruct ((length b <=? p0) || (length b <=? p1) || (p1 <=? p0) || (p1 =? 0)); [reflexivity|].
    replace (N.of_nat p0 - N.of_nat (max_len R))%N with (N.of_nat (p0 - max_len R)) by lia. rewrite from_nat.
    destruct (slice_from b (p0 - max_len R)) as [s| |] eqn:E; cbn [obind]; try reflexivity. apply slice_from_len in E. destruct E as [-> L].
    apply scan_words; [exact Hb|intros i j _; apply IH|]. intros x Hx. apply find_iter_from_bound in Hx. rewrite skipn_length in Hx. lia.
  Qed.
  Lemma scan_before rec b back p0 p1 k v : forall cands, scan R rec b back p0 p1 cands = Ret (Some (k, v)) -> k < p0.
  Proof.
    induction cands as [|x cs IH]; [discriminate|]. cbn [scan]. destruct (Nat.leb_spec p0 (x + back)); [discriminate|].
    destruct (slice_from b (x + back)) as [s| |]; cbn [obind]; try discriminate. destruct (try_read R s) as [[[n u]|]| |]; cbn [obind]; try discriminate; [|exact IH].
    destruct (p1 <=? x + back + len_of R u); [|exact IH]. destruct (rec (x + back) (x + back + ml)) as [[p|]| |]; cbn [obind]; try discriminate; [exact IH|].
    intros E. injection E as <- _. exact H.
  Qed.
  Lemma contained_before b fuel p0 p1 k v : contained_by R fuel b p0 p1 = Ret (Some (k, v)) -> k < p0.
  Proof.
    destruct fuel as [|f]; [discriminate|]. cbn [contained_by]. destruct (_ || _); [discriminate|].
    destruct (slice_from b (p0 - max_len R)) as [s| |]; cbn [obind]; try discriminate. apply scan_before.
  Qed.

  Lemma partition_loop_words b size : (word_len b <= slice_max m)%N -> size <= length b -> forall fuel c0 c1,
    partition_loop_word R m fuel b (N.of_nat size) (N.of_nat c0) (N.of_nat c1) = partition_loop R fuel b size c0 c1.
  Proof.
    intros Hb Hs. assert (Hb' := Hb). unfold word_len in Hb'. 
    induction fuel as [|f IH]; intros c0 c1; [reflexivity|]. cbn [partition_loop_word partition_loop].
    replace ((word_len b <? N.of_nat c0) || (word_len b <? N.of_nat c1))%N with ((length b <? c0) || (length b <? c1)) by (unfold word_len; lia).
    destruct (Nat.ltb_spec (length b) c0); [reflexivity|]. destruct (Nat.ltb_spec (length b) c1); [reflexivity|]. cbn [orb].
    change 1%N with (N.of_nat 1). rewrite add_nat by words. cbn [obind]. rewrite Nat2N.id, contained_words by exact Hb.
    destruct (contained_by R (S c1) b c1 (c1 + 1)) as [r| |] eqn:C; cbn [option_words obind]; try reflexivity.
    assert (exists d, d <= c1 /\ match r with Some (container, _) => container | None => c1 end = d /\
      match item_word r with Some (container, _) => container | None => N.of_nat c1 end = N.of_nat d) as (d & Ld & -> & ->).
    { destruct r as [[k v]|]; [|exists c1; auto]. apply contained_before in C. exists k. repeat split. lia. }
    replace (N.of_nat d <=? N.of_nat c0)%N with (d <=? c0) by lia. destruct (d <=? c0); [reflexivity|].
    pose proof (Nat.div_le_mono size size 4 ltac:(lia) ltac:(lia)). assert (size / 4 <= size) by (apply Nat.div_le_upper_bound; lia).
    replace (N.of_nat size / 4)%N with (N.of_nat (size / 4)) by (rewrite Nat2N.inj_div; reflexivity).
    rewrite add_nat by words. cbn [obind]. rewrite len_leb. destruct (length b <=? d + size / 4); [now rewrite from_nat|].
    rewrite slice_nat. destruct (slice b c0 d) as [s| |]; cbn [obind]; try reflexivity. rewrite add_nat by words. cbn [obind].
    now rewrite IH.
  Qed.
  Lemma partition_words b num : (word_len b <= slice_max m)%N -> partition_word R m b (N.of_nat num) = partition_from R b num.
  Proof.
    intros Hb. unfold partition_word, partition_from. replace (N.of_nat num =? 0)%N with (num =? 0) by lia. destruct (Nat.eqb_spec num 0) as [E|E]; [reflexivity|].
    unfold word_len. rewrite <- Nat2N.inj_div. change 0%N with (N.of_nat 0) at 1. apply partition_loop_words; [exact Hb|].
    apply Nat.div_le_upper_bound; [exact E|]. nia.
  Qed.
End Words.

(** * Whole iterations *)
Lemma collect_words {A} (next : nat -> outcome (nat * option (nat * A))) (next_w : N -> outcome (N * option (N * A))) (I : nat -> Prop) :
  (forall o, I o -> next_w (N.of_nat o) = in_words (next o)) -> (forall o o' i, I o -> next o = Ret (o', Some i) -> I o') ->
  forall fuel o, I o -> collect next_w fuel (N.of_nat o) = list_words (collect next fuel o).
Proof.
  intros H K. induction fuel as [|f IH]; intros o Ho; [reflexivity|]. cbn [collect]. rewrite (H o Ho).
  destruct (next o) as [[o' [p|]]| |] eqn:E; cbn [in_words obind item_word option_map]; try reflexivity.
  rewrite (IH o' (K _ _ _ Ho E)). destruct (collect next f o') as [l| |]; reflexivity.
Qed.
Section Iterations.
  Context {T : Type}.
  Variable R : Readable T.
  Variable m : target.
  Hypothesis W : implements_well R.
  Hypothesis Wm : (N.of_nat (length (marker R)) <= slice_max m)%N.
  Notation ml := (length (marker R)).
  Lemma fallback_fits fuel : forall b o o' i, fallback_next R fuel b o = Ret (o', Some i) -> o' <= length b.
  Proof.
    induction fuel as [|f IH]; intros b o o' i; [discriminate|]. cbn [fallback_next].
    destruct (Nat.leb_spec (length b) (o + ml)); [discriminate|]. destruct (slice b o (o + ml)) as [s| |] eqn:S; cbn [obind]; try discriminate.
    destruct (bytes_eqb s (marker R)) eqn:Q.
    - destruct (slice_from b o) as [t| |] eqn:E; cbn [obind]; try discriminate. apply slice_from_len in E. destruct E as [-> Lo].
      destruct (try_read_valid R (skipn o b)) as [[[n v]|]| |] eqn:E; cbn [obind]; try discriminate.
      assert (P : is_prefix (marker R) (skipn o b) = true).
      { destruct (slice_marker R b o ltac:(lia)) as (s' & S' & Q'). rewrite S in S'. injection S' as <-. rewrite Q in Q'. symmetry in Q'. exact Q'. }
      intros E'. injection E' as <- <-. now destruct (valid_fits R m W Wm b o n v P Lo E).
    - destruct (slice_from b o) as [t| |]; cbn [obind]; try discriminate. destruct (search_marker R t) as [p|]; [|discriminate].
      destruct (p =? 0); [discriminate|apply IH].
  Qed.
  Lemma search_fits fuel : forall b o o' i, search_next R fuel b o = Ret (o', Some i) -> o' <= length b.
  Proof.
    induction fuel as [|f IH]; intros b o o' i; [discriminate|]. cbn [search_next].
    destruct (search_search R b o) as [[[c t]|]| |] eqn:E; cbn [obind]; try discriminate.
    - intros E'. injection E' as <- <-. now apply (search_search_fits R m W Wm) in E.
    - destruct (length b <=? o + ml); [discriminate|apply IH].
  Qed.
  Lemma fallback_collect_words b fuel n o : (word_len b <= slice_max m)%N -> (N.of_nat o + N.of_nat ml < usize_mod m)%N ->
    collect (fallback_word R m fuel b) n (N.of_nat o) = list_words (collect (fallback_next R fuel b) n o).
  Proof.
    intros Hb Ho. apply (collect_words _ _ (fun o => (N.of_nat o + N.of_nat ml < usize_mod m)%N)); [|clear Ho|exact Ho].
    - intros k Hk. now apply fallback_words.
    - intros k k' i _ E. apply fallback_fits in E. unfold word_len in *. words.
  Qed.
  Lemma search_collect_words b fuel n o : (word_len b <= slice_max m)%N -> (N.of_nat o + N.of_nat ml < usize_mod m)%N ->
    collect (search_word R m fuel b) n (N.of_nat o) = list_words (collect (search_next R fuel b) n o).
  Proof.
    intros Hb Ho. apply (collect_words _ _ (fun o => (N.of_nat o + N.of_nat ml < usize_mod m)%N)); [|clear Ho|exact Ho].
    - intros k Hk. now apply search_words.
    - intros k k' i _ E. apply search_fits in E. unfold word_len in *. words.
  Qed.

  (** Offsets so large that adding the marker's length overflows. *)
  Lemma wrap off : (off < usize_mod m)%N -> (usize_mod m <= off + N.of_nat ml)%N -> ((off + N.of_nat ml) mod usize_mod m = off + N.of_nat ml - usize_mod m)%N.
  Proof.
    intros H1 H2.   symmetry. apply (N.mod_unique _ _ 1); words.
  Qed.
  Lemma fallback_wrap b fuel off : (word_len b <= slice_max m)%N -> (off < usize_mod m)%N -> (usize_mod m <= off + N.of_nat ml)%N ->
    fallback_word R m (S fuel) b off =
    match build m with
    | Debug => Panic
    | Release => if (word_len b <=? off + N.of_nat ml - usize_mod m)%N then Ret (off, None) else Panic
    end.
  Proof.
    intros Hb H1 H2. cbn [fallback_word]. rewrite add_over by exact H2. destruct (build m); [reflexivity|]. cbn [obind]. rewrite wrap by assumption.
    destruct (word_len b <=? off + N.of_nat ml - usize_mod m)%N; [reflexivity|].
    unfold word_slice, slice. unfold word_len in *.  
    replace (N.to_nat off <=? N.to_nat (off + N.of_nat ml - usize_mod m)) with false by words. reflexivity.
  Qed.
  Lemma search_wrap b fuel off : (word_len b <= slice_max m)%N -> (off < usize_mod m)%N -> (usize_mod m <= off + N.of_nat ml)%N ->
    search_word R m (S fuel) b off =
    match build m with
    | Debug => Panic
    | Release =>
        let start := N.to_nat (off + N.of_nat ml - usize_mod m) in
        if length b <=? start then Ret (N.of_nat start, None) else in_words (search_next R fuel b start)
    end.
  Proof.
    intros Hb H1 H2. assert (Hb' := Hb). unfold word_len in Hb'. assert (Wm' := Wm). unfold word_len in Wm'.
    cbn [search_word]. unfold search_search_word. replace (word_len b <=? off)%N with true by words. cbn [obind].
    rewrite add_over by exact H2. destruct (build m); [reflexivity|]. cbn [obind]. rewrite wrap by assumption. cbv zeta.
    assert (exists k, (off + N.of_nat ml - usize_mod m)%N = N.of_nat k) as [k Q] by (exists (N.to_nat (off + N.of_nat ml - usize_mod m)); lia).
    rewrite Q, Nat2N.id, len_leb. destruct (length b <=? k); [reflexivity|]. apply search_words; try assumption.   words.
  Qed.

  (** Calls after the end. *)
  Lemma search_nones b fuel : (word_len b <= slice_max m)%N -> forall n off, (word_len b <= off)%N -> (off + N.of_nat n * N.of_nat ml < usize_mod m)%N ->
    calls (search_word R m (S fuel) b) n off = Ret (repeat None n) /\
    forall k, calls (search_word R m (S fuel) b) (n + k) off =
      match calls (search_word R m (S fuel) b) k (off + N.of_nat n * N.of_nat ml)%N with Ret os => Ret (repeat None n ++ os) | Panic => Panic | Fuel => Fuel end.
  Proof.
    intros Hb. induction n as [|n IH]; intros off H1 H2.
    - split; [reflexivity|]. intros k. cbn [plus repeat app]. replace (off + N.of_nat 0 * N.of_nat ml)%N with off by lia.
      destruct (calls _ k off); reflexivity.
    - assert (E : search_word R m (S fuel) b off = Ret ((off + N.of_nat ml)%N, None)).
      { cbn [search_word]. unfold search_search_word. replace (word_len b <=? off)%N with true by lia. cbn [obind].
        rewrite add_ok by lia. cbn [obind]. replace (word_len b <=? off + N.of_nat ml)%N with true by lia. reflexivity. }
      destruct (IH (off + N.of_nat ml)%N ltac:(lia) ltac:(lia)) as [A B]. split.
      + cbn [calls repeat]. rewrite E, A. reflexivity.
      + intros k. cbn [plus calls]. rewrite E, B. replace (off + N.of_nat (S n) * N.of_nat ml)%N with (off + N.of_nat ml + N.of_nat n * N.of_nat ml)%N by lia.
        destruct (calls _ k (off + N.of_nat ml + N.of_nat n * N.of_nat ml)%N); reflexivity.
  Qed.
End Iterations.
Lemma add_lt m a b c : add m a b = Ret c -> (c < usize_mod m)%N.
Proof.
  unfold add, checked. destruct (N.ltb_spec (a + b) (usize_mod m)); [intros E; injection E as <-; exact H|]. destruct (build m); [discriminate|].
  intros E. injection E as <-. apply N.mod_lt. unfold usize_mod. destruct (usize_width m); apply N.pow_nonzero; discriminate.
Qed.
Lemma search_word_none {T} (R : Readable T) m fuel : forall b off off', search_word R m fuel b off = Ret (off', None) -> (word_len b <= off' < usize_mod m)%N.
Proof.
  induction fuel as [|f IH]; intros b off off'; [discriminate|]. cbn [search_word].
  destruct (search_search_word R m b off) as [[[c t]|]| |]; cbn [obind]; try discriminate.
  - destruct (add m c (N.of_nat (len_of R t))); cbn [obind]; discriminate.
  - destruct (add m off (N.of_nat (length (marker R)))) as [o| |] eqn:E; cbn [obind]; try discriminate. apply add_lt in E.
    destruct (N.leb_spec (word_len b) o); [intros H'; injection H' as <-; lia|apply IH].
Qed.
Lemma search_next_mono {T} (R : Readable T) f : forall b o r g, search_next R f b o = Ret r -> f <= g -> search_next R g b o = Ret r.
Proof.
  induction f as [|f IH]; intros b o r g H L; [discriminate|]. destruct g as [|g]; [lia|]. cbn [search_next] in *.
  destruct (search_search R b o) as [[[c t]|]| |]; cbn [obind] in *; try exact H.
  destruct (length b <=? o + length (marker R)); [exact H|]. apply IH with (1 := H). lia.
Qed.
Lemma collect_more {S A} (f g : S -> outcome (S * option A)) : (forall s r, f s = Ret r -> g s = Ret r) ->
  forall n s l, collect f n s = Ret l -> collect g n s = Ret l.
Proof.
  intros H. induction n as [|n IH]; intros s l E; [discriminate|]. cbn [collect] in *.
  destruct (f s) as [[s' [x|]]| |] eqn:Q; cbn [obind] in E; try discriminate; rewrite (H _ _ Q); cbn [obind]; [|exact E].
  destruct (collect f n s') as [xs| |] eqn:C; cbn [obind] in E; try discriminate. now rewrite (IH _ _ C).
Qed.
