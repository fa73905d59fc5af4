(** Facts for C103: work of contained_by and of the partitioner. *)
From Verif Require Import Base DltModel MatchModel CostModel Spec BaseFacts DltFacts CodecFacts ParseFacts FindFacts IterFacts DltIterFacts LayoutFacts ContainFacts CostFacts CostIter CostSpec.
From Coq Require Import Sorted.
Transparent dlt_max_len.

Ltac Zify.zify_post_hook ::= idtac.
Lemma sorted_split (l : list nat) a : StronglySorted lt l -> In a l ->
  exists l1 l2, l = l1 ++ a :: l2 /\ Forall (fun x => x < a) l1 /\ Forall (fun x => a < x) l2 /\ StronglySorted lt l2.
Proof.
  induction 1 as [|x l S IH F]; [intros []|]. intros [->|I].
  - exists [], l. now repeat split; auto.
  - destruct (IH I) as (l1 & l2 & -> & F1 & F2 & S2). exists (x :: l1), l2. split; [reflexivity|]. split; [|now split].
    constructor; [|exact F1]. rewrite Forall_forall in F. apply F. apply in_or_app. right. now left.
Qed.

(** One round of the loop, at a candidate that is a message. *)
Section Round.
  Variable recurse : nat -> nat -> work (option (nat * storage_entry)).
  Variable b : bytes.
  Variables back p0 p1 : nat.
  Lemma scan_skip cs rest P : Forall (fun x => occ dlt_marker b (x + back) = true /\ x + back < p0 /\
      match parse (skipn (x + back) b) with Some (n, _) => x + back + n < p1 | None => True end) cs ->
    spends (scan_work DLT recurse b back p0 p1 rest) P -> spends (scan_work DLT recurse b back p0 p1 (cs ++ rest)) P.
  Proof.
    induction 1 as [|x cs (O & L & N) F IH]; intros H; [exact H|]. cbn [app scan_work]. destruct (Nat.leb_spec p0 (x + back)) as [K|K]; [lia|].
    pose proof (occ_len dlt_marker b _ ltac:(cbn; lia) O) as Lx. cbn [length dlt_marker] in Lx.
    apply spends_free. intros s Es. rewrite slice_from_ok in Es by lia. injection Es as <-. apply spends_free. intros r Er.
    rewrite try_read_occ in Er by exact O. injection Er as <-. destruct (parse (skipn (x + back) b)) as [[n v]|] eqn:P'; [|now apply IH].
    rewrite (parse_len _ _ _ P' : len_of DLT v = n). destruct (Nat.leb_spec p1 (x + back + n)) as [Q|Q]; [lia|]. now apply IH.
  Qed.
  Lemma scan_hit x cs P n v : occ dlt_marker b (x + back) = true -> x + back < p0 -> parse (skipn (x + back) b) = Some (n, v) -> p1 <= x + back + n ->
    spends (recurse (x + back) (x + back + 4)) (fun r c => match r with
      | Some _ => spends (scan_work DLT recurse b back p0 p1 cs) (fun y d => P y (cost_add c d))
      | None => P (Some (x + back, v)) {| steps := steps c; scanned := scanned c + (x + 4) |}
      end) -> spends (scan_work DLT recurse b back p0 p1 (x :: cs)) P.
  Proof.
    intros O L P' Q H. cbn [scan_work]. destruct (Nat.leb_spec p0 (x + back)) as [K|K]; [lia|].
    pose proof (occ_len dlt_marker b _ ltac:(cbn; lia) O) as Lx. cbn [length dlt_marker] in Lx.
    apply spends_free. intros s Es. rewrite slice_from_ok in Es by lia. injection Es as <-. apply spends_free. intros r Er.
    rewrite try_read_occ in Er by exact O. injection Er as <-. rewrite P'.
    rewrite (parse_len _ _ _ P' : len_of DLT v = n). destruct (Nat.leb_spec p1 (x + back + n)) as [_|?]; [|lia]. apply spends_bind.
    change (length (marker DLT)) with 4. eapply spends_weaken; [exact H|]. intros [y|] c; cbn beta iota; [trivial|].
    intros Hc. apply spends_look, spends_done. unfold cost_add, no_cost. cbn [steps scanned]. now rewrite !Nat.add_0_r.
  Qed.
  (** Behind the queried range the loop ends. *)
  Lemma scan_end cs (P : option (nat * storage_entry) -> cost -> Prop) : Forall (fun x => p0 <= x + back) cs -> (forall n, P None {| steps := 0; scanned := n |}) ->
    spends (scan_work DLT recurse b back p0 p1 cs) P.
  Proof.
    intros F H. destruct F as [|x cs F _]; cbn [scan_work]; [apply spends_look, spends_done; apply H|].
    destruct (Nat.leb_spec p0 (x + back)) as [K|K]; [|lia]. apply spends_look, spends_done. apply H.
  Qed.
End Round.

Lemma overlapping_nth n : forall q r, q < n -> r < 20 -> nth_error (overlapping n) (20 * q + r) = nth_error overlap_unit r.
Proof.
  induction n as [|n IH]; intros q r Hq Hr; [lia|]. unfold overlapping. cbn [repeat concat]. destruct q as [|q].
  - rewrite nth_error_app1 by (cbn [length overlap_unit]; lia). reflexivity.
  - rewrite nth_error_app2 by (cbn [length overlap_unit]; lia). rewrite <- (IH q r) by lia. unfold overlapping. f_equal. cbn [length overlap_unit]. lia.
Qed.
Lemma overlapping_skip n : forall j, j <= n -> skipn (20 * j) (overlapping n) = overlapping (n - j).
Proof.
  induction n as [|n IH]; intros j Hj; [replace j with 0 by lia; reflexivity|]. destruct j as [|j]; [reflexivity|].
  unfold overlapping. cbn [repeat concat]. rewrite skipn_app. rewrite skipn_all2 by (cbn [length overlap_unit]; lia). cbn [app].
  replace (20 * S j - length overlap_unit) with (20 * j) by (cbn [length overlap_unit]; lia). change (S n - S j) with (n - j). apply IH. lia.
Qed.
Lemma overlapping_length n : length (overlapping n) = 20 * n.
Proof. unfold overlapping. induction n as [|n IH]; [reflexivity|]. cbn [repeat concat]. rewrite app_length, IH. cbn [length overlap_unit]. lia. Qed.
Lemma overlapping_occ n k : occ dlt_marker (overlapping n) k = true <-> exists j, j < n /\ k = 20 * j.
Proof.
  split.
  - intros O. pose proof (occ_len dlt_marker _ _ ltac:(cbn; lia) O) as L. cbn [length dlt_marker] in L. rewrite overlapping_length in L.
    pose proof (Nat.div_mod k 20 ltac:(lia)) as D. pose proof (Nat.mod_upper_bound k 20 ltac:(lia)) as U.
    remember (k / 20) as q. remember (k mod 20) as r. clear Heqq Heqr. assert (q < n) by lia. exists q. split; [lia|].
    assert (N0 : nth_error (overlapping n) k = Some x44).
    { rewrite <- (firstn_skipn k (overlapping n)) at 1. rewrite nth_error_app2 by (rewrite firstn_length; lia).
      rewrite firstn_length, overlapping_length, Nat.min_l, Nat.sub_diag by lia. destruct (skipn k (overlapping n)) as [|x l]; [discriminate|]. cbn [is_prefix dlt_marker] in O.
      apply andb_prop in O. destruct O as [O _]. destruct (byte_eqb_spec x44 x) as [<-|]; [reflexivity|discriminate]. }
    rewrite D, overlapping_nth in N0 by assumption. do 20 (destruct r as [|r]; [try discriminate N0; lia|]). lia.
  - intros (j & Hj & ->). rewrite overlapping_skip by lia. replace (n - j) with (S (n - j - 1)) by lia. reflexivity.
Qed.
Lemma overlapping_parse n j : j + 3 <= n -> exists v, parse (skipn (20 * j) (overlapping n)) = Some (60, v).
Proof.
  intros H. rewrite overlapping_skip by lia. replace (n - j) with (3 + (n - j - 3)) by lia. unfold overlapping. rewrite repeat_app, concat_app.
  eexists. apply (parse_valid (concat (repeat overlap_unit 3))). repeat split; cbn; lia.
Qed.

Section Overlapping.
  Variable n : nat.
  Let F := overlapping n.

  (** The candidates from the [i]th message on, seen from [back]. *)
  Definition from (back i : nat) (l : list nat) : Prop :=
    StronglySorted lt l /\ forall x, In x l <-> exists i', i <= i' /\ i' < n /\ back <= 20 * i' /\ x = 20 * i' - back.
  Lemma from_start back : back <= 20 * n -> from back 0 (find_iter dlt_marker (skipn back F)).
  Proof.
    intros H. split; [apply find_iter_sorted; [cbn; lia|apply dlt_marker_no_overlap]|]. intros x.
    rewrite find_iter_in by (try apply dlt_marker_no_overlap; cbn; lia). rewrite occ_skipn. unfold F. rewrite overlapping_occ. split.
    - intros (i & Hi & E). exists i. lia.
    - intros (i & _ & Hi & E1 & E2). exists i. lia.
  Qed.
  Lemma from_cons back i l : from back i l -> i < n -> back <= 20 * i -> exists l', l = (20 * i - back) :: l' /\ from back (S i) l'.
  Proof.
    intros [S I] Hi Hb. destruct (sorted_split l (20 * i - back) S) as (l1 & l2 & E & F1 & F2 & S2); [apply I; exists i; lia|].
    assert (l1 = []).
    { destruct l1 as [|y l1]; [reflexivity|exfalso]. inversion F1 as [|? ? Y _]; subst. assert (J : In y ((y :: l1) ++ (20 * i - back) :: l2)) by now left.
      apply I in J. destruct J as (i' & ? & ? & ? & ->). lia. }
    subst l1. cbn [app] in E. exists l2. split; [exact E|]. split; [exact S2|]. intros x. split.
    - intros J. rewrite Forall_forall in F2. specialize (F2 x J). assert (J' : In x l) by (rewrite E; now right). apply I in J'.
      destruct J' as (i' & ? & ? & ? & ->). exists i'. lia.
    - intros (i' & ? & ? & ? & ->). assert (J : In (20 * i' - back) l) by (apply I; exists i'; lia). rewrite E in J. destruct J as [J|J]; [lia|exact J].
  Qed.
  Lemma from_split back i : forall l, from back i l -> forall k, i + k <= n -> exists l1 l2, l = l1 ++ l2 /\ from back (i + k) l2 /\
    Forall (fun x => exists i', i <= i' /\ i' < i + k /\ x + back = 20 * i') l1.
  Proof.
    intros l H k. revert i l H. induction k as [|k IH]; intros i l H Hk.
    { exists [], l. rewrite Nat.add_0_r. now repeat split; try apply H. }
    destruct (le_lt_dec back (20 * i)) as [Hb|Hb].
    - destruct (from_cons back i l H ltac:(lia) Hb) as (l' & -> & H'). destruct (IH (S i) l' H' ltac:(lia)) as (l1 & l2 & -> & H2 & F2).
      exists ((20 * i - back) :: l1), l2. split; [reflexivity|]. split; [now replace (i + S k) with (S i + k) by lia|]. constructor; [exists i; lia|].
      eapply Forall_impl; [|exact F2]. cbn. intros x (i' & ?). exists i'. lia.
    - assert (H' : from back (S i) l).
      { destruct H as [S I]. split; [exact S|]. intros x. rewrite I. split; intros (i' & ? & ? & ? & ->); exists i'; [|lia].
        assert (i' <> i) by (intros ->; lia). lia. }
      destruct (IH (S i) l H' ltac:(lia)) as (l1 & l2 & -> & H2 & F2). exists l1, l2. split; [reflexivity|]. split; [now replace (i + S k) with (S i + k) by lia|].
      eapply Forall_impl; [|exact F2]. cbn. intros x (i' & ?). exists i'. lia.
  Qed.

  (** A question about the [j]th message only has to look at the two in front of it. *)
  Lemma contained_tail fuel j i p1 P : j + 3 <= n -> 20 * j < p1 -> p1 <= 20 * j + 4 -> i <= j -> j <= i + 2 -> (i = 0 \/ j = i + 2) ->
    (forall back l, back <= 20 * i -> from back i l ->
      spends (scan_work DLT (contained_work DLT fuel F) F back (20 * j) p1 l) (fun r c => P r {| steps := S (steps c); scanned := scanned c |})) ->
    spends (contained_work DLT (S fuel) F (20 * j) p1) P.
  Proof.
    intros Hj L1 L2 Hi Hi2 Hi3 H. cbn [contained_work]. apply spends_call. unfold F at 1 2. rewrite overlapping_length.
    destruct (Nat.leb_spec (20 * n) (20 * j)); [lia|]. destruct (Nat.leb_spec (20 * n) p1); [lia|]. destruct (Nat.leb_spec p1 (20 * j)); [lia|].
    destruct (Nat.eqb_spec p1 0); [lia|]. cbn [orb].
    assert (B : 20 * j - max_len DLT <= 20 * i).
    { assert (max_len DLT = S (S (40 + (max_len DLT - 42)))) as -> by (assert (42 <= max_len DLT) by (pose proof max_len_N; change (max_len DLT) with dlt_max_len; lia); lia). lia. }
    set (back := 20 * j - max_len DLT) in *. apply spends_free. intros s Es. rewrite slice_from_ok in Es by (unfold F; rewrite overlapping_length; lia). injection Es as <-.
    change (marker DLT) with dlt_marker. destruct (from_split back 0 _ (from_start back ltac:(lia)) i ltac:(lia)) as (l1 & l2 & -> & G2 & F2).
    apply scan_skip.
    - eapply Forall_impl; [|exact F2]. cbn beta. intros x (i' & ? & ? & E). rewrite E. split; [apply overlapping_occ; exists i'; lia|]. split; [lia|].
      destruct (overlapping_parse n i') as [v Pv]; [lia|]. fold F in Pv. rewrite Pv. lia.
    - apply H; assumption.
  Qed.
  (** The two of them in turn. *)
  Lemma scan_at fuel back i j p1 l P : from back i l -> back <= 20 * i -> i < j -> j + 3 <= n -> j <= i + 2 -> p1 <= 20 * j + 4 -> 
    (forall l' v, from back (S i) l' -> spends (contained_work DLT fuel F (20 * i) (20 * i + 4)) (fun r c => match r with
      | Some _ => spends (scan_work DLT (contained_work DLT fuel F) F back (20 * j) p1 l') (fun y d => P y (cost_add c d))
      | None => P (Some (20 * i, v)) {| steps := steps c; scanned := scanned c + (20 * i - back + 4) |}
      end)) -> spends (scan_work DLT (contained_work DLT fuel F) F back (20 * j) p1 l) P.
  Proof.
    intros H Hb Hi Hj Hij Hp K. destruct (from_cons back i l H ltac:(lia) Hb) as (l' & -> & H').
    destruct (overlapping_parse n i) as [v Pv]; [lia|]. replace (20 * i) with (20 * i - back + back) in Pv by lia. eapply (scan_hit _ _ _ _ _ _ _ _ 60 v).
    - apply overlapping_occ. exists i. lia.
    - lia.
    - exact Pv.
    - lia.
    - specialize (K l' v H'). replace (20 * i - back + back) with (20 * i) by lia. exact K.
  Qed.
  Lemma scan_over fuel back j p1 l (P : option (nat * storage_entry) -> cost -> Prop) : from back j l -> (forall n, P None {| steps := 0; scanned := n |}) ->
    spends (scan_work DLT (contained_work DLT fuel F) F back (20 * j) p1 l) P.
  Proof.
    intros [_ I] H. apply scan_end; [|exact H]. rewrite Forall_forall. intros x J. apply I in J. destruct J as (i' & ? & ? & ? & ->). lia.
  Qed.

  Definition answers (j : nat) (yes : bool) (lo : nat) : Prop :=
    forall fuel p1, 20 * j < p1 -> p1 <= 20 * j + 4 -> spends (contained_work DLT fuel F (20 * j) p1) (fun r c => lo <= steps c /\ (if r then true else false) = yes).
  Lemma exponential : forall k, (3 * k + 3 <= n -> answers (3 * k) false (2 ^ k)) /\ (3 * k + 4 <= n -> answers (3 * k + 1) true (2 ^ k)) /\ (3 * k + 5 <= n -> answers (3 * k + 2) true (2 ^ k)).
  Proof.
    assert (Z : 3 <= n -> answers 0 false 1).
    { intros Hn [|fuel] p1 L1 L2; [exact I|]. apply (contained_tail fuel 0 0 p1); try lia. intros back l Hb H. apply scan_over; [exact H|]. cbn [steps]. intros. split; [lia|reflexivity]. }
    assert (ONE : 4 <= n -> answers 1 true 1).
    { intros Hn [|fuel] p1 L1 L2; [exact I|]. apply (contained_tail fuel 1 0 p1); try lia. intros back l Hb H. apply (scan_at fuel back 0 1 p1 l); try lia; try assumption.
      intros l' v _. eapply spends_weaken; [apply (Z ltac:(lia)); lia|]. intros r c [C1 C2]. destruct r; [discriminate|]. cbn [steps]. split; [lia|reflexivity]. }
    assert (TWO : 5 <= n -> answers 2 true 1).
    { intros Hn [|fuel] p1 L1 L2; [exact I|]. apply (contained_tail fuel 2 0 p1); try lia. intros back l Hb H. apply (scan_at fuel back 0 2 p1 l); try lia; try assumption.
      intros l' v _. eapply spends_weaken; [apply (Z ltac:(lia)); lia|]. intros r c [C1 C2]. destruct r; [discriminate|]. cbn [steps]. split; [lia|reflexivity]. }
    induction k as [|k IH]; [exact (conj Z (conj ONE TWO))|].
    destruct IH as (A0 & A1 & A2). rewrite Nat.pow_succ_r'. generalize dependent (2 ^ k). intros lo A0 A1 A2.
    assert (B0 : 3 * S k + 3 <= n -> answers (3 * S k) false (2 * lo)).
    { intros Hn [|fuel] p1 L1 L2; [exact I|]. apply (contained_tail fuel (3 * S k) (3 * k + 1) p1); try lia. intros back l Hb H.
      apply (scan_at fuel back (3 * k + 1) (3 * S k) p1 l); try lia; try assumption. intros l' v H'. eapply spends_weaken; [apply A1; lia|].
      intros r c [C1 C2]. destruct r as [r|]; [|discriminate]. replace (S (3 * k + 1)) with (3 * k + 2) in H' by lia.
      apply (scan_at fuel back (3 * k + 2) (3 * S k) p1 l'); try lia; try assumption. intros l2 v2 H2. eapply spends_weaken; [apply A2; lia|].
      intros r2 c2 [D1 D2]. destruct r2 as [r2|]; [|discriminate]. replace (S (3 * k + 2)) with (3 * S k) in H2 by lia. apply scan_over; [exact H2|].
      intros m. cbn [steps cost_add]. split; [lia|reflexivity]. }
    assert (B1 : 3 * S k + 4 <= n -> answers (3 * S k + 1) true (2 * lo)).
    { intros Hn [|fuel] p1 L1 L2; [exact I|]. apply (contained_tail fuel (3 * S k + 1) (3 * k + 2) p1); try lia. intros back l Hb H.
      apply (scan_at fuel back (3 * k + 2) (3 * S k + 1) p1 l); try lia; try assumption. intros l' v H'. eapply spends_weaken; [apply A2; lia|].
      intros r c [C1 C2]. destruct r as [r|]; [|discriminate]. replace (S (3 * k + 2)) with (3 * S k) in H' by lia.
      apply (scan_at fuel back (3 * S k) (3 * S k + 1) p1 l'); try lia; try assumption. intros l2 v2 H2. eapply spends_weaken; [apply B0; lia|].
      intros r2 c2 [D1 D2]. destruct r2 as [r2|]; [discriminate|]. cbn [steps cost_add]. split; [lia|reflexivity]. }
    split; [exact B0|]. split; [exact B1|].
    intros Hn [|fuel] p1 L1 L2; [exact I|]. apply (contained_tail fuel (3 * S k + 2) (3 * S k) p1); try lia. intros back l Hb H.
    apply (scan_at fuel back (3 * S k) (3 * S k + 2) p1 l); try lia; try assumption. intros l' v H'. eapply spends_weaken; [apply B0; lia|].
    intros r c [C1 C2]. destruct r as [r|]; [discriminate|]. cbn [steps]. split; [lia|reflexivity].
  Qed.
End Overlapping.

(** * At most the whole slice is searched at every step *)
Lemma contained_scanned b : forall fuel p0 p1, spends (contained_work DLT fuel b p0 p1) (fun _ c => scanned c <= steps c * length b).
Proof.
  induction fuel as [|fuel IH]; intros p0 p1; [exact I|]. cbn [contained_work]. apply spends_call.
  destruct ((length b <=? p0) || (length b <=? p1) || (p1 <=? p0) || (p1 =? 0)); [apply spends_done; cbn; lia|].
  apply spends_free. intros s Es. set (back := p0 - max_len DLT) in *. assert (Hb : back <= length b).
  { unfold slice_from in Es. destruct (Nat.leb_spec back (length b)); [assumption|discriminate]. }
  rewrite slice_from_ok in Es by exact Hb. injection Es as <-.
  assert (O : Forall (fun x => x + 4 <= length b) (find_iter (marker DLT) (skipn back b))).
  { rewrite Forall_forall. intros x J. apply find_iter_in in J; [|cbn; lia|apply dlt_marker_no_overlap]. apply occ_len in J; [|cbn; lia].
    rewrite skipn_length in J. cbn in J. lia. }
  eapply spends_weaken with (P := fun _ c => scanned c <= steps c * length b + length b); [|cbn [steps scanned]; intros; nia].
  induction O as [|x cs Hx O IHc]; cbn [scan_work]; [apply spends_look, spends_done; cbn [steps scanned no_cost]; lia|].
  destruct (p0 <=? x + back); [apply spends_look, spends_done; change (length (marker DLT)) with 4; cbn [steps scanned no_cost]; lia|].
  apply spends_free. intros s Es. apply spends_free. intros r Er. destruct r as [[n v]|]; [|exact IHc].
  destruct (p1 <=? x + back + len_of DLT v); [|exact IHc]. apply spends_bind. eapply spends_weaken; [apply IH|]. intros [y|] c C.
  - eapply spends_weaken; [exact IHc|]. cbn beta. intros a d D. cbn [steps scanned cost_add]. lia.
  - apply spends_look, spends_done. change (length (marker DLT)) with 4. cbn [steps scanned cost_add no_cost]. lia.
Qed.
Lemma partition_scanned b size : forall fuel c0 c1, spends (partition_loop_work DLT fuel b size c0 c1) (fun _ c => scanned c <= steps c * length b).
Proof.
  induction fuel as [|fuel IH]; intros c0 c1; [exact I|]. cbn [partition_loop_work]. destruct (_ || _); [apply spends_done; cbn; lia|].
  apply spends_bind. eapply spends_weaken; [apply contained_scanned|]. intros r c C. set (c1' := match r with Some (i, _) => i | None => c1 end).
  destruct (c1' <=? c0); [apply spends_done; unfold cost_add, no_cost; cbn [steps scanned]; rewrite !Nat.add_0_r; exact C|].
  destruct (length b <=? c1' + size / 4); [apply spends_free; intros s _; apply spends_done; unfold cost_add, no_cost; cbn [steps scanned]; rewrite !Nat.add_0_r; exact C|].
  apply spends_free. intros s _. apply spends_bind. eapply spends_weaken; [apply IH|]. intros l d D. apply spends_done. unfold cost_add, no_cost. cbn [steps scanned]. rewrite !Nat.add_0_r, Nat.mul_add_distr_r. now apply Nat.add_le_mono.
Qed.

(** * Files whose messages do not overlap *)
Section Disjoint.
  Variable b : bytes.
  Hypothesis D : forall i n v i' n' v', dcand b i n v -> dcand b i' n' v' -> i < i' -> i + n <= i'.

  Lemma candidates_occ back : Forall (fun x => occ dlt_marker b (x + back) = true) (find_iter dlt_marker (skipn back b)).
  Proof.
    rewrite Forall_forall. intros x J. apply find_iter_in in J; [|cbn; lia|apply dlt_marker_no_overlap]. rewrite occ_skipn in J. now rewrite Nat.add_comm.
  Qed.
  Lemma start_spends fuel i n v : dcand b i n v -> spends (contained_work DLT fuel b i (i + 4)) (fun r c => r = None /\ steps c <= 1).
  Proof.
    intros C. destruct fuel as [|fuel]; [exact I|]. cbn [contained_work]. apply spends_call.
    destruct (_ || _); [apply spends_done; cbn; split; [reflexivity|lia]|]. apply spends_free. intros s Es. set (back := i - max_len DLT) in *.
    assert (Hb : back <= length b). { unfold slice_from in Es. destruct (Nat.leb_spec back (length b)); [assumption|discriminate]. }
    rewrite slice_from_ok in Es by exact Hb. injection Es as <-. change (marker DLT) with dlt_marker.
    eapply spends_weaken with (P := fun r c => r = None /\ steps c = 0); [|intros r c [? E]; cbn [steps]; rewrite E; split; [assumption|lia]].
    induction (candidates_occ back) as [|x cs Ox O IH]; [cbn [scan_work]; apply spends_look, spends_done; now split|].
    destruct (le_lt_dec i (x + back)) as [K|K].
    { cbn [scan_work]. destruct (Nat.leb_spec i (x + back)); [|lia]. apply spends_look, spends_done. now split. }
    apply (scan_skip (contained_work DLT fuel b) b back i (i + 4) [x] cs); [|exact IH]. constructor; [|constructor]. split; [exact Ox|]. split; [exact K|].
    destruct (parse (skipn (x + back) b)) as [[n' v']|] eqn:P; [|exact Logic.I]. pose proof (D (x + back) n' v' i n v (conj Ox P) C K). lia.
  Qed.
  Lemma contained_spends fuel p0 p1 : spends (contained_work DLT fuel b p0 p1) (fun _ c => steps c <= 2).
  Proof.
    destruct fuel as [|fuel]; [exact I|]. cbn [contained_work]. apply spends_call.
    destruct (_ || _); [apply spends_done; cbn; lia|]. apply spends_free. intros s Es. set (back := p0 - max_len DLT) in *.
    assert (Hb : back <= length b). { unfold slice_from in Es. destruct (Nat.leb_spec back (length b)); [assumption|discriminate]. }
    rewrite slice_from_ok in Es by exact Hb. injection Es as <-. change (marker DLT) with dlt_marker.
    eapply spends_weaken with (P := fun r c => steps c <= 1); [|intros r c E; cbn [steps]; lia].
    induction (candidates_occ back) as [|x cs Ox O IH]; [cbn [scan_work]; apply spends_look, spends_done; cbn; lia|].
    destruct (le_lt_dec p0 (x + back)) as [K|K].
    { cbn [scan_work]. destruct (Nat.leb_spec p0 (x + back)); [|lia]. apply spends_look, spends_done. cbn; lia. }
    destruct (parse (skipn (x + back) b)) as [[n' v']|] eqn:P.
    - destruct (le_lt_dec p1 (x + back + n')) as [Q|Q].
      + apply (scan_hit (contained_work DLT fuel b) b back p0 p1 x cs _ n' v' Ox K P Q). eapply spends_weaken; [apply (start_spends fuel (x + back) n' v'); now split|].
        intros r c [-> C]. exact C.
      + apply (scan_skip (contained_work DLT fuel b) b back p0 p1 [x] cs); [|exact IH]. constructor; [|constructor]. split; [exact Ox|]. split; [exact K|]. now rewrite P.
    - apply (scan_skip (contained_work DLT fuel b) b back p0 p1 [x] cs); [|exact IH]. constructor; [|constructor]. split; [exact Ox|]. split; [exact K|]. now rewrite P.
  Qed.
  Lemma partition_spends size : forall fuel c0 c1, spends (partition_loop_work DLT fuel b size c0 c1) (fun l c => steps c <= 2 * length l + 2).
  Proof.
    induction fuel as [|fuel IH]; intros c0 c1; [exact I|]. cbn [partition_loop_work]. destruct (_ || _); [apply spends_done; cbn; lia|].
    apply spends_bind. eapply spends_weaken; [apply contained_spends|]. intros r c C. cbn beta in C. set (c1' := match r with Some (i, _) => i | None => c1 end).
    destruct (c1' <=? c0); [apply spends_done; cbn [steps cost_add no_cost length]; lia|].
    destruct (length b <=? c1' + size / 4); [apply spends_free; intros s _; apply spends_done; cbn [steps cost_add no_cost length]; lia|].
    apply spends_free. intros s _. apply spends_bind. eapply spends_weaken; [apply IH|]. intros l d Hd. cbn beta in Hd. apply spends_done. cbn [steps cost_add no_cost length]. lia.
  Qed.
End Disjoint.

Lemma clean_disjoint parts last : clean parts last -> forall i n v i' n' v',
  dcand (layout parts last) i n v -> dcand (layout parts last) i' n' v' -> i < i' -> i + n <= i'.
Proof.
  intros [V C] i n v i' n' v' D D' L. destruct D as [O P], D' as [O' P']. assert (P4 : 0 < length the_pattern) by (cbn; lia).
  destruct (C i) as [m M]; [now apply (occ_occurs the_pattern)|]. destruct (C i') as [m' M']; [now apply (occ_occurs the_pattern)|].
  pose proof (placed_message parts last i m V M) as MA. pose proof (dcand_entry _ _ _ MA) as DE.
  destruct (cand_fun DLT parse _ _ _ _ _ _ (conj O P) DE) as [-> _].
  destruct (placed_cases parts 0 i m i' m' M M') as [H|[H|H]]; [|lia|lia]. injection H as ? ?. lia.
Qed.

Lemma occurrences b back : Forall (fun x => occ dlt_marker b (x + back) = true) (find_iter dlt_marker (skipn back b)).
Proof.
  rewrite Forall_forall. intros x J. apply find_iter_in in J; [|cbn; lia|apply dlt_marker_no_overlap]. rewrite occ_skipn in J. now rewrite Nat.add_comm.
Qed.
Lemma cnt_filter (l : list nat) p q : p <= q -> length (filter (fun i => i <? p) l) <= length (filter (fun i => i <? q) l).
Proof.
  intros H. induction l as [|x l IH]; [reflexivity|]. cbn [filter].
  destruct (Nat.ltb_spec x p), (Nat.ltb_spec x q); cbn [length]; lia.
Qed.
Lemma cnt_succ (l : list nat) x : In x l -> S (length (filter (fun i => i <? x) l)) <= length (filter (fun i => i <? S x) l).
Proof.
  induction l as [|y l IH]; [intros []|]. intros [->|J]; cbn [filter].
  - rewrite Nat.ltb_irrefl. destruct (Nat.ltb_spec x (S x)); [|lia]. cbn [length]. apply le_n_S, cnt_filter. lia.
  - specialize (IH J). destruct (Nat.ltb_spec y x), (Nat.ltb_spec y (S x)); cbn [length]; lia.
Qed.
(** * Messages that overlap: at most two to the number of messages one can be led back to *)
Section Chain.
  Variable b : bytes.
  Variable chain : list nat.
  Hypothesis CL : forall j i m, In j chain -> message_at b i m -> i < j < i + length m -> In i chain.
  Let cnt (p : nat) : nat := length (filter (fun i => i <? p) chain).
  Lemma chain_spends : forall fuel p0 p1, p0 < p1 -> (forall i m, message_at b i m -> i < p0 < i + length m -> In i chain) ->
    spends (contained_work DLT fuel b p0 p1) (fun _ c => steps c <= 2 ^ cnt p0).
  Proof.
    induction fuel as [|fuel IH]; intros p0 p1 L01 H; [exact I|]. cbn [contained_work]. apply spends_call.
    assert (POS : forall k, 1 <= 2 ^ k) by (intros k; pose proof (Nat.pow_nonzero 2 k); lia).
    destruct (_ || _); [apply spends_done; cbn [steps no_cost]; apply POS|]. apply spends_free. intros s Es. set (back := p0 - max_len DLT) in *.
    assert (Hb : back <= length b). { unfold slice_from in Es. destruct (Nat.leb_spec back (length b)); [assumption|discriminate]. }
    rewrite slice_from_ok in Es by exact Hb. injection Es as <-. change (marker DLT) with dlt_marker.
    assert (G : forall cs lo, StronglySorted lt cs -> Forall (fun x => occ dlt_marker b (x + back) = true) cs -> Forall (fun x => lo <= x + back) cs -> lo <= p0 ->
      spends (scan_work DLT (contained_work DLT fuel b) b back p0 p1 cs) (fun _ c => steps c + 2 ^ cnt lo <= 2 ^ cnt p0)).
    { assert (MONO : forall p q, p <= q -> 2 ^ cnt p <= 2 ^ cnt q) by (intros p q Hpq; apply Nat.pow_le_mono_r; [lia|now apply cnt_filter]).
      induction cs as [|x cs IHc]; intros lo So O F Hlo.
      { cbn [scan_work]. apply spends_look, spends_done. cbn [steps no_cost]. now apply MONO. }
      inversion So as [|? ? S' Sx]; subst. inversion O as [|? ? Ox O']; subst. inversion F as [|? ? Fx F']; subst.
      destruct (le_lt_dec p0 (x + back)) as [K|K].
      { cbn [scan_work]. destruct (Nat.leb_spec p0 (x + back)); [|lia]. apply spends_look, spends_done. cbn [steps no_cost]. now apply MONO. }
      destruct (parse (skipn (x + back) b)) as [[n v]|] eqn:P.
      2:{ apply (scan_skip (contained_work DLT fuel b) b back p0 p1 [x] cs); [|now apply IHc]. constructor; [|constructor]. split; [exact Ox|]. split; [exact K|]. now rewrite P. }
      destruct (le_lt_dec p1 (x + back + n)) as [Q|Q].
      2:{ apply (scan_skip (contained_work DLT fuel b) b back p0 p1 [x] cs); [|now apply IHc]. constructor; [|constructor]. split; [exact Ox|]. split; [exact K|]. now rewrite P. }
      assert (IN : In (x + back) chain).
      { destruct (proj1 (dcand_iff b (x + back) n v) (conj Ox P)) as (m & M & Lm & _). apply (H _ m M). lia. }
      apply (scan_hit (contained_work DLT fuel b) b back p0 p1 x cs _ n v Ox K P Q). eapply spends_weaken.
      { apply (IH (x + back) (x + back + 4)); [lia|]. intros i m M L. exact (CL _ _ _ IN M L). }
      intros r c Hc. cbn beta in Hc. pose proof (cnt_succ chain (x + back) IN) as SC. fold (cnt (x + back)) in SC. fold (cnt (S (x + back))) in SC.
      assert (D2 : 2 * 2 ^ cnt (x + back) <= 2 ^ cnt (S (x + back))) by (rewrite <- Nat.pow_succ_r'; apply Nat.pow_le_mono_r; [lia|exact SC]).
      pose proof (MONO lo (x + back) Fx) as Mlo.
      destruct r as [r|].
      - eapply spends_weaken; [apply (IHc (S (x + back)) S' O')|].
        + rewrite Forall_forall in Sx |- *. intros y J. specialize (Sx y J). lia.
        + lia.
        + cbn beta. intros a d Hd. cbn [steps cost_add]. lia.
      - cbn [steps]. pose proof (MONO (S (x + back)) p0 K). lia. }
    eapply spends_weaken; [apply (G _ back)|].
    - apply find_iter_sorted; [cbn; lia|apply dlt_marker_no_overlap].
    - apply occurrences.
    - rewrite Forall_forall. intros x _. lia.
    - unfold back. lia.
    - cbn beta. intros r c Hc. cbn [steps]. pose proof (POS (cnt back)). lia.
  Qed.
End Chain.
Section Depth.
  Variable b : bytes.
  Variable k : nat.
  Hypothesis CH : forall p, exists chain, length chain <= k /\ (forall i m, message_at b i m -> i < p < i + length m -> In i chain) /\
    (forall j i m, In j chain -> message_at b i m -> i < j < i + length m -> In i chain).
  Lemma depth_spends fuel p0 p1 : p0 < p1 -> spends (contained_work DLT fuel b p0 p1) (fun _ c => steps c <= 2 ^ k).
  Proof.
    intros L. destruct (CH p0) as (chain & L1 & C1 & C2). eapply spends_weaken; [apply (chain_spends b chain C2 fuel p0 p1 L C1)|].
    cbn beta. intros _ c Hc. eapply Nat.le_trans; [exact Hc|]. apply Nat.pow_le_mono_r; [lia|]. eapply Nat.le_trans; [|exact L1].
    clear. induction chain as [|x l IH]; [reflexivity|]. cbn [filter]. destruct (x <? p0); cbn [length]; lia.
  Qed.
  Lemma partition_depth size : forall fuel c0 c1, spends (partition_loop_work DLT fuel b size c0 c1) (fun l c => steps c <= (length l + 1) * 2 ^ k).
  Proof.
    induction fuel as [|fuel IH]; intros c0 c1; [exact I|]. cbn [partition_loop_work]. destruct (_ || _); [apply spends_done; cbn; lia|].
    apply spends_bind. eapply spends_weaken; [apply depth_spends; lia|]. intros r c C. cbn beta in C. set (c1' := match r with Some (i, _) => i | None => c1 end).
    destruct (c1' <=? c0); [apply spends_done; cbn [steps cost_add no_cost length]; lia|].
    destruct (length b <=? c1' + size / 4); [apply spends_free; intros s _; apply spends_done; cbn [steps cost_add no_cost length]; lia|].
    apply spends_free. intros s _. apply spends_bind. eapply spends_weaken; [apply IH|]. intros l d Hd. cbn beta in Hd. apply spends_done. cbn [steps cost_add no_cost length]. lia.
  Qed.
End Depth.

Lemma covered_dec b p : forall q, (exists i m, i < q /\ message_at b i m /\ p < i + length m) \/ ~ (exists i m, i < q /\ message_at b i m /\ p < i + length m).
Proof.
  induction q as [|q [IH|IH]].
  - right. intros (i & m & L & _). lia.
  - left. destruct IH as (i & m & L & H). exists i, m. split; [lia|exact H].
  - destruct (occ dlt_marker b q) eqn:O; [destruct (parse (skipn q b)) as [[n v]|] eqn:P; [destruct (le_lt_dec (q + n) p) as [K|K]|]|].
    + right. intros (i & m & L & M & C). destruct (Nat.eq_dec i q) as [->|]; [|apply IH; exists i, m; repeat split; try apply M; try assumption; lia].
      destruct (proj1 (dcand_iff b q n v) (conj O P)) as (m' & M' & <- & _). rewrite (message_at_fun _ _ _ _ M M') in C. lia.
    + left. destruct (proj1 (dcand_iff b q n v) (conj O P)) as (m' & M' & <- & _). exists q, m'. split; [lia|]. now split.
    + right. intros (i & m & L & M & C). destruct (Nat.eq_dec i q) as [->|]; [|apply IH; exists i, m; repeat split; try apply M; try assumption; lia].
      destruct (dcand_entry _ _ _ M) as [_ P']. unfold parse in *. congruence.
    + right. intros (i & m & L & M & C). destruct (Nat.eq_dec i q) as [->|]; [|apply IH; exists i, m; repeat split; try apply M; try assumption; lia].
      destruct (dcand_entry _ _ _ M) as [O' _]. change (marker DLT) with dlt_marker in O'. congruence.
Qed.
