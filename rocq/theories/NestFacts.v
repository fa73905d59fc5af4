(** Facts for C114: how deep the calls nest. *)
From Verif Require Import Base DltModel MatchModel Spec ReadSpec BaseFacts DltFacts CodecFacts ParseFacts FindFacts IterFacts DltIterFacts LayoutFacts GrepFacts ReadFacts
  ContainFacts CostSpec CostPart HelloRegex NestSpec.
From Coq Require Import Sorted.
Opaque dlt_max_len.

(** * Grepping *)
Section Grep.
  Variable M : matcher.
  Variable fa : bytes -> nat -> option (nat * nat).
  Hypothesis LM : leftmost M fa.
  Variable b : bytes.
  Hypothesis Hb : (N.of_nat (length b) < usize_max)%N.
  Lemma grep_deep off n : passes fa b off n -> (forall f, f < n -> grep_search DLT fa f b off = Fuel) /\ (forall f, n < f -> exists r, grep_search DLT fa f b off = Ret r).
  Proof.
    induction 1 as [off L|off Q|off s e k m Q Ow Mk Le|off s e n L Q Sk P [IH1 IH2]].
    1-3: split; [intros; lia|]; intros [|f] Hf; [lia|]; cbn [grep_search]; destruct (Nat.leb_spec (length b) off); [eexists; reflexivity|]; try lia.
    - rewrite Q. eexists; reflexivity.
    - rewrite Q. pose proof (LM b off ltac:(lia)) as F. rewrite Q in F. destruct F as (F1 & F2 & F3 & F4 & F5).
      destruct (rev_owner b s Hb ltac:(lia)) as [(k' & m' & Ow' & Mk' & ->)|(NO & _)]; [|destruct (NO k m Ow Mk)]. cbn [obind].
      assert (k' = k) by now apply (owner_fun b s). subst k'. rewrite <- (message_at_fun b k m m' Mk Mk').
      rewrite (entry_len b k m Mk). destruct (Nat.ltb_spec (k + length m) e); [lia|]. rewrite Bool.andb_false_r. eexists; reflexivity.
    - pose proof (LM b off ltac:(lia)) as F. rewrite Q in F. destruct F as (F1 & F2 & F3 & F4 & F5).
      assert (G : forall f, grep_search DLT fa (S f) b off = if length b <=? e then grep_search DLT fa (S f) b off else grep_search DLT fa f b e).
      { intros f. destruct (Nat.leb_spec (length b) e) as [K|K]; [reflexivity|]. cbn [grep_search]. destruct (Nat.leb_spec (length b) off); [lia|]. rewrite Q.
        destruct (rev_owner b s Hb ltac:(lia)) as [(k' & m' & Ow' & Mk' & ->)|(NO & ->)]; cbn [obind].
        - rewrite (entry_len b k' m' Mk'). pose proof Ow' as (_ & Ok & _). destruct (Nat.ltb_spec k' s); [|lia]. cbn [andb].
          pose proof (Sk k' m' Ow' Mk'). destruct (Nat.ltb_spec (k' + length m') e); [|lia]. reflexivity.
        - destruct (Nat.leb_spec (length b) e); [lia|reflexivity]. }
      split; intros [|f] Hf; [reflexivity| |lia|].
      + rewrite G. destruct (Nat.leb_spec (length b) e) as [K|K]; [|apply IH1; lia].
        inversion P; subst; lia.
      + rewrite G. destruct (Nat.leb_spec (length b) e) as [K|K]; [|apply IH2; lia].
        cbn [grep_search]. destruct (Nat.leb_spec (length b) off); [lia|]. rewrite Q.
        destruct (rev_owner b s Hb ltac:(lia)) as [(k' & m' & Ow' & Mk' & ->)|(NO & ->)]; cbn [obind].
        * destruct (_ && _); [apply IH2; lia|eexists; reflexivity].
        * destruct (_ <=? _); [eexists; reflexivity|apply IH2; lia].
  Qed.
End Grep.
Section Capture.
  Variable M : matcher.
  Variable ca : bytes -> nat -> option ((nat * nat) * option (nat * nat)).
  Hypothesis LC : leftmost_capture M ca.
  Variable b : bytes.
  Hypothesis Hb : (N.of_nat (length b) < usize_max)%N.
  Notation fa := (fun b off => option_map fst (ca b off)).
  (** The calls of [capture] nest like those of [grep_search]. *)
  Lemma capture_like_grep : forall f off, match grep_search DLT fa f b off with
    | Fuel => capture DLT ca f b off = Fuel
    | Panic => capture DLT ca f b off = Panic
    | Ret _ => exists r, capture DLT ca f b off = Ret r
    end.
  Proof.
    induction f as [|f IH]; intros off; cbn [grep_search capture]; [reflexivity|]. destruct (length b <=? off); [eexists; reflexivity|].
    destruct (ca b off) as [[[s e] g]|]; cbn [option_map fst]; [|eexists; reflexivity].
    destruct (rev_search DLT b (N.of_nat s)) as [[[o v]|]| |]; cbn [obind]; try reflexivity.
    - destruct (_ && _); [apply IH|destruct g; eexists; reflexivity].
    - destruct (_ <=? _); [eexists; reflexivity|apply IH].
  Qed.
  Lemma capture_deep off n : passes fa b off n -> (forall f, f < n -> capture DLT ca f b off = Fuel) /\ (forall f, n < f -> exists r, capture DLT ca f b off = Ret r).
  Proof.
    intros P. destruct (grep_deep M fa (proj1 LC) b Hb off n P) as [A B]. split; intros f Hf; pose proof (capture_like_grep f off) as C.
    - now rewrite (A f Hf) in C.
    - destruct (B f Hf) as [r E]. now rewrite E in C.
  Qed.
End Capture.

(** ** The text *)
Lemma hello_skip n : forall i, i <= n -> skipn (12 * i) (hello_text n) = hello_text (n - i).
Proof.
  induction n as [|n IH]; intros [|i] H; try reflexivity; try lia. replace (12 * S i) with (12 + 12 * i) by lia.
  change (hello_text (S n)) with (hello_line ++ hello_text n). rewrite skipn_app, skipn_all2 by (cbn [length hello_line]; lia).
  replace (12 + 12 * i - length hello_line) with (12 * i) by (cbn [length hello_line]; lia). apply IH. lia.
Qed.
Lemma hello_length n : length (hello_text n) = 12 * n.
Proof. induction n as [|n IH]; [reflexivity|]. change (hello_text (S n)) with (hello_line ++ hello_text n). rewrite app_length, IH. cbn [length hello_line]. lia. Qed.
Lemma hello_no_marker n : ~ occurs_in the_pattern (hello_text n).
Proof.
  assert (A : ~ In x44 (hello_text n)).
  { intros I. apply in_concat in I. destruct I as (l & J & I). apply repeat_spec in J. subst l. cbn in I. intuition discriminate. }
  intros (k & pre & post & E & _). apply A. rewrite E. apply in_or_app. right. now left.
Qed.
Lemma hello_found n i : i < n -> find_hw (hello_text n) (12 * i) = Some (12 * i, 12 * i + 11).
Proof.
  intros H. unfold find_hw. rewrite hello_skip by lia. destruct (n - i) as [|m] eqn:E; [lia|]. reflexivity.
Qed.
Lemma hello_found' n i : S i < n -> find_hw (hello_text n) (12 * i + 11) = Some (12 * S i, 12 * S i + 11).
Proof.
  intros H. unfold find_hw. replace (12 * i + 11) with (11 + 12 * i) by lia.
  assert (E : skipn (11 + 12 * i) (hello_text n) = x0a :: hello_text (n - S i)).
  { rewrite Nat.add_comm, <- skipn_skipn', hello_skip by lia. replace (n - i) with (S (n - S i)) by lia. reflexivity. }
  rewrite E. destruct (n - S i) as [|m] eqn:E'; [lia|].
  assert (Q : forall r k, hw_scan (x0a :: hello_line ++ r) k = Some (S k, S k + 11)) by reflexivity.
  change (hello_text (S m)) with (hello_line ++ hello_text m). rewrite Q. do 2 f_equal; lia.
Qed.
Lemma hello_last i : find_hw (hello_text (S i)) (12 * i + 11) = None.
Proof.
  unfold find_hw. assert (E : skipn (12 * i + 11) (hello_text (S i)) = [x0a]).
  { rewrite <- skipn_skipn', hello_skip by lia. replace (S i - i) with 1 by lia. reflexivity. }
  rewrite E. reflexivity.
Qed.
Lemma hello_passes n : 0 < n -> passes find_hw (hello_text n) 0 n.
Proof.
  intros H. assert (NO : forall s k m, owner (hello_text n) s k -> message_at (hello_text n) k m -> forall e, k + length m < e).
  { intros s k m (O & _) _ e. destruct (hello_no_marker n). exists k. exact O. }
  assert (T : forall j i, n = i + S j -> passes find_hw (hello_text n) (12 * i + 11) j).
  { induction j as [|j IH]; intros i E.
    - apply passes_no_match. replace n with (S i) by lia. apply hello_last.
    - apply (passes_over _ _ _ (12 * S i) (12 * S i + 11)).
      + rewrite hello_length. lia.
      + apply hello_found'. lia.
      + intros k m O Ma. exact (NO _ k m O Ma _).
      + apply IH. lia. }
  destruct n as [|j]; [lia|]. apply (passes_over _ _ _ 0 11).
  - rewrite hello_length. lia.
  - exact (hello_found (S j) 0 H).
  - intros k m O Ma. exact (NO _ k m O Ma _).
  - exact (T j 0 eq_refl).
Qed.

(** * Cutting *)
Lemma scan_returns rec b back p0 p1 : forall cs, (forall x, In x cs -> occ dlt_marker b (x + back) = true) ->
  (forall i n v, i < p0 -> dcand b i n v -> p1 <= i + n -> exists r, rec i (i + 4) = Ret r) -> exists r, scan DLT rec b back p0 p1 cs = Ret r.
Proof.
  induction cs as [|x cs IH]; intros O H; [eexists; reflexivity|]. cbn [scan]. pose proof (O x (or_introl eq_refl)) as Ox.
  pose proof (occ_len dlt_marker b (x + back) ltac:(cbn; lia) Ox) as Lx. cbn [length dlt_marker] in Lx.
  destruct (Nat.leb_spec p0 (x + back)) as [K|K]; [eexists; reflexivity|].
  rewrite slice_from_ok by lia. cbn [obind]. rewrite (try_read_occ b _ Ox). cbn [obind].
  assert (NX : exists r, scan DLT rec b back p0 p1 cs = Ret r) by (apply IH; [intros y I; apply O; now right|exact H]).
  destruct (parse (skipn (x + back) b)) as [[n v]|] eqn:P; [|exact NX]. assert (C : dcand b (x + back) n v) by (split; assumption).
  destruct (cand_bounds DLT parse dlt_lawful b _ n v C) as (B1 & _). rewrite B1. destruct (Nat.leb_spec p1 (x + back + n)) as [Q|Q]; [|exact NX].
  change (length (marker DLT)) with 4. destruct (H (x + back) n v K C Q) as [r ->]. cbn [obind]. destruct r; [exact NX|eexists; reflexivity].
Qed.
Lemma contained_returns f b p0 p1 : (forall i n v, i < p0 -> dcand b i n v -> p1 <= i + n -> exists r, contained_by DLT f b i (i + 4) = Ret r) ->
  exists r, contained_by DLT (S f) b p0 p1 = Ret r.
Proof.
  intros H. cbn [contained_by]. destruct (Nat.leb_spec (length b) p0) as [K|K]; [eexists; reflexivity|]. cbn [orb]. destruct (_ || _); [eexists; reflexivity|].
  rewrite slice_from_ok by lia. cbn [obind]. apply scan_returns; [|exact H].
  intros x I. apply find_iter_in in I; [|cbn; lia|apply dlt_marker_no_overlap]. rewrite occ_skipn in I. now rewrite Nat.add_comm.
Qed.
(** Markers are four bytes apart at least. *)
Lemma contained_at b : forall f i, occ dlt_marker b i = true -> i < 4 * f -> forall p1, i < p1 -> exists r, contained_by DLT f b i p1 = Ret r.
Proof.
  induction f as [|f IH]; intros i O H p1 Hp; [lia|]. apply contained_returns. intros j n v L [Oj _] _. apply IH; [exact Oj| |lia].
  pose proof (no_overlap_occ dlt_marker b j i dlt_marker_no_overlap Oj O L) as Q. cbn [length dlt_marker] in Q. lia.
Qed.
Lemma contained_deep f b p0 p1 : p0 + 3 < 4 * f -> exists r, contained_by DLT f b p0 p1 = Ret r.
Proof.
  intros H. destruct f as [|f]; [lia|]. apply contained_returns. intros i n v L [O _] _. apply contained_at; [exact O|lia|lia].
Qed.
(** Where no message begins within another, two calls are enough. *)
Lemma contained_two b : (forall i n v i' n' v', dcand b i n v -> dcand b i' n' v' -> i < i' -> i + n <= i') ->
  forall p0 p1, exists r, contained_by DLT 2 b p0 p1 = Ret r.
Proof.
  intros D p0 p1. apply contained_returns. intros i n v _ C _. apply contained_returns. intros j n' v' L C' Q. pose proof (D j n' v' i n v C' C L). lia.
Qed.

(** Messages within messages. *)
Lemma scan_fuel rec b back p0 p1 x n v l2 : forall l1,
  Forall (fun y => occ dlt_marker b (y + back) = true /\ y + back < p0 /\ match parse (skipn (y + back) b) with Some (m, _) => y + back + m < p1 | None => True end) l1 ->
  dcand b (x + back) n v -> x + back < p0 -> p1 <= x + back + n -> rec (x + back) (x + back + 4) = Fuel -> scan DLT rec b back p0 p1 (l1 ++ x :: l2) = Fuel.
Proof.
  intros l1 F C L Q E. induction F as [|y l1 (O & Ly & Py) F IH]; cbn [app scan].
  - destruct (Nat.leb_spec p0 (x + back)); [lia|]. pose proof (occ_len dlt_marker b (x + back) ltac:(cbn; lia) (proj1 C)) as Lx. cbn [length dlt_marker] in Lx.
    rewrite slice_from_ok by lia. cbn [obind]. rewrite (try_read_occ b _ (proj1 C)). cbn [obind]. pose proof C as [_ P].
    change (parse (skipn (x + back) b) = Some (n, v)) in P. rewrite P.
    destruct (cand_bounds DLT parse dlt_lawful b _ n v C) as (B1 & _). rewrite B1. destruct (Nat.leb_spec p1 (x + back + n)); [|lia].
    change (length (marker DLT)) with 4. now rewrite E.
  - destruct (Nat.leb_spec p0 (y + back)); [lia|]. pose proof (occ_len dlt_marker b (y + back) ltac:(cbn; lia) O) as Lx. cbn [length dlt_marker] in Lx.
    rewrite slice_from_ok by lia. cbn [obind]. rewrite (try_read_occ b _ O). cbn [obind]. destruct (parse (skipn (y + back) b)) as [[m w]|] eqn:P; [|exact IH].
    destruct (cand_bounds DLT parse dlt_lawful b _ m w (conj O P)) as (B1 & _). rewrite B1. destruct (Nat.leb_spec p1 (y + back + m)); [lia|exact IH].
Qed.
Lemma overlapping_deep n : forall f j p1, 2 * f <= j -> j + 3 <= n -> 20 * j < p1 -> p1 <= 20 * j + 4 -> contained_by DLT f (overlapping n) (20 * j) p1 = Fuel.
Proof.
  induction f as [|f IH]; intros j p1 H Hj L1 L2; [reflexivity|]. cbn [contained_by]. rewrite overlapping_length.
  destruct (Nat.leb_spec (20 * n) (20 * j)); [lia|]. destruct (Nat.leb_spec (20 * n) p1); [lia|]. destruct (Nat.leb_spec p1 (20 * j)); [lia|].
  destruct (Nat.eqb_spec p1 0); [lia|]. cbn [orb].
  assert (B : 20 * j - max_len DLT <= 20 * (j - 2)).
  { assert (max_len DLT = S (S (40 + (max_len DLT - 42)))) as -> by (assert (42 <= max_len DLT) by (pose proof max_len_N; change (max_len DLT) with dlt_max_len; lia); lia). lia. }
  set (back := 20 * j - max_len DLT) in *. rewrite slice_from_ok by (rewrite overlapping_length; lia). cbn [obind]. change (marker DLT) with dlt_marker.
  destruct (from_split n back 0 _ (from_start n back ltac:(lia)) (j - 2) ltac:(lia)) as (l1 & l2 & -> & G2 & F2).
  destruct (from_cons n back (0 + (j - 2)) l2 G2 ltac:(lia) ltac:(cbn [Nat.add]; exact B)) as (l3 & -> & _). cbn [Nat.add].
  destruct (overlapping_parse n (j - 2)) as [v Pv]; [lia|].
  assert (X : 20 * (j - 2) - back + back = 20 * (j - 2)) by lia.
  apply (scan_fuel _ _ _ _ _ _ 60 v).
  - eapply Forall_impl; [|exact F2]. cbn beta. intros x (i' & ? & ? & E). rewrite E. split; [apply overlapping_occ; exists i'; lia|]. split; [lia|].
    destruct (overlapping_parse n i') as [w Pw]; [lia|]. rewrite Pw. lia.
  - rewrite X. split; [apply overlapping_occ; exists (j - 2); lia|exact Pv].
  - lia.
  - lia.
  - rewrite X. apply IH; lia.
Qed.
(** Two amounts of fuel agree where the calls below agree. *)
Lemma contained_same f f' b p0 p1 : (forall i n v, i < p0 -> dcand b i n v -> p1 <= i + n -> contained_by DLT f b i (i + 4) = contained_by DLT f' b i (i + 4)) ->
  contained_by DLT (S f) b p0 p1 = contained_by DLT (S f') b p0 p1.
Proof.
  intros H. cbn [contained_by]. destruct (Nat.leb_spec (length b) p0) as [K|K]; [reflexivity|]. cbn [orb]. destruct (_ || _); [reflexivity|].
  rewrite slice_from_ok by lia. cbn [obind]. set (back := p0 - max_len DLT).
  assert (O : forall x, In x (find_iter (marker DLT) (skipn back b)) -> occ dlt_marker b (x + back) = true).
  { intros x I. apply find_iter_in in I; [|cbn; lia|apply dlt_marker_no_overlap]. rewrite occ_skipn in I. now rewrite Nat.add_comm. }
  induction (find_iter (marker DLT) (skipn back b)) as [|x cs IH]; [reflexivity|]. cbn [scan]. specialize (IH (fun y I => O y (or_intror I))).
  pose proof (O x (or_introl eq_refl)) as Ox. destruct (Nat.leb_spec p0 (x + back)) as [L|L]; [reflexivity|].
  rewrite slice_from_ok by lia. cbn [obind]. rewrite (try_read_occ b _ Ox). cbn [obind]. destruct (parse (skipn (x + back) b)) as [[n v]|] eqn:P; [|exact IH].
  assert (C : dcand b (x + back) n v) by (split; assumption).
  destruct (cand_bounds DLT parse dlt_lawful b _ n v C) as (B1 & _). rewrite B1. destruct (Nat.leb_spec p1 (x + back + n)) as [Q|Q]; [|exact IH].
  change (length (marker DLT)) with 4. rewrite (H (x + back) n v L C Q). destruct (contained_by DLT f' b (x + back) (x + back + 4)) as [[y|]| |]; cbn [obind]; try reflexivity. exact IH.
Qed.

(** * Cutting where messages overlap *)
Lemma contained_chain b chain : (forall j i m, In j chain -> message_at b i m -> i < j < i + length m -> In i chain) ->
  forall f p0 p1, (forall i m, message_at b i m -> i < p0 < i + length m -> In i chain) -> length (filter (fun i => i <? p0) chain) < f ->
  exists r, contained_by DLT f b p0 p1 = Ret r.
Proof.
  intros CL. induction f as [|f IH]; intros p0 p1 H L; [lia|]. destruct (le_lt_dec p1 p0) as [K|K].
  { cbn [contained_by]. destruct (Nat.leb_spec p1 p0); [|lia]. rewrite !Bool.orb_true_r. cbn [orb]. eexists. reflexivity. }
  apply contained_returns. intros i n v Li C Q. destruct (proj1 (dcand_iff b i n v) C) as (m & M & <- & _).
  assert (IN : In i chain) by (apply (H i m M); lia). apply IH; [intros j m' M' L'; exact (CL _ _ _ IN M' L')|].
  pose proof (cnt_succ chain i IN) as S1. pose proof (cnt_filter chain (S i) p0 Li) as S2. lia.
Qed.
