(** Facts about substring search (MatchModel.v: [is_prefix], [find], [rfind], [find_iter]). *)
From Verif Require Import Base DltModel MatchModel Spec BaseFacts DltFacts.
From Coq Require Import Sorted.

(** [m] occurs in [b] at [k] (as a boolean). *)
Notation occ m b k := (is_prefix m (skipn k b)).

Lemma occ_occurs m b k : 0 < length m -> (occ m b k = true <-> occurs_at m b k).
Proof.
  intros Hm. rewrite is_prefix_app. unfold occurs_at. split.
  - intros [post E]. exists (firstn k b), post.
    assert (k <= length b).
    { destruct (le_lt_dec k (length b)); [assumption|].
      rewrite skipn_all2 in E by lia. destruct m; [cbn in Hm; lia|discriminate]. }
    split; [rewrite <- E; symmetry; apply firstn_skipn|rewrite firstn_length; lia].
  - intros (pre & post & -> & <-). exists post.
    now rewrite skipn_app, Nat.sub_diag, skipn_all.
Qed.

Lemma occ_len m b k : 0 < length m -> occ m b k = true -> k + length m <= length b.
Proof.
  intros Hm H. apply is_prefix_len in H. rewrite skipn_length in H. lia.
Qed.

Lemma occ_skipn m b k j : occ m (skipn k b) j = occ m b (k + j).
Proof. now rewrite skipn_skipn'. Qed.

Lemma is_prefix_nil m : 0 < length m -> is_prefix m [] = false.
Proof. destruct m; [cbn; lia|reflexivity]. Qed.

Lemma is_prefix_app_l m b c : is_prefix m b = true -> is_prefix m (b ++ c) = true.
Proof.
  rewrite !is_prefix_app. intros [p ->]. exists (p ++ c). now rewrite app_assoc.
Qed.
Lemma is_prefix_app_inv m b c : length m <= length b -> is_prefix m (b ++ c) = is_prefix m b.
Proof.
  revert b. induction m as [|x m IH]; intros [|y b] H; cbn in *; try reflexivity; try lia.
  rewrite IH by lia. reflexivity.
Qed.

Lemma occ_firstn m b k n : k + length m <= n -> occ m (firstn n b) k = occ m b k.
Proof.
  intros H. rewrite skipn_firstn_comm.
  destruct (le_lt_dec (length m) (length (skipn k b))) as [L|L].
  - transitivity (is_prefix m (firstn (n - k) (skipn k b) ++ skipn (n - k) (skipn k b))).
    + symmetry. apply is_prefix_app_inv. rewrite firstn_length. lia.
    + now rewrite firstn_skipn.
  - rewrite firstn_all2 by lia. reflexivity.
Qed.

Lemma occ_firstn_inv m b k n : 0 < length m -> occ m (firstn n b) k = true -> k + length m <= n /\ occ m b k = true.
Proof.
  intros Hm H. assert (k + length m <= n).
  { apply occ_len in H; [|exact Hm]. rewrite firstn_length in H. lia. }
  split; [assumption|]. now rewrite occ_firstn in H.
Qed.

(** * find *)
Lemma find_some m b k : 0 < length m ->
  (find m b = Some k <-> occ m b k = true /\ forall j, j < k -> occ m b j = false).
Proof.
  intros Hm. revert k. induction b as [|x b IH]; intros k.
  - cbn [find]. rewrite is_prefix_nil by exact Hm. split; [discriminate|].
    intros [H _]. rewrite skipn_nil, is_prefix_nil in H by exact Hm. discriminate.
  - cbn [find]. destruct (is_prefix m (x :: b)) eqn:E.
    + split.
      * intros H. injection H as <-. split; [exact E|lia].
      * intros [H1 H2]. destruct k as [|k]; [reflexivity|].
        specialize (H2 0 ltac:(lia)). cbn [skipn] in H2. congruence.
    + destruct k as [|k].
      * split.
        { destruct (find m b); cbn; discriminate. }
        { intros [H _]. cbn [skipn] in H. congruence. }
      * cbn [skipn]. split.
        { intros H. destruct (find m b) as [p|]; [|discriminate]. cbn in H.
          injection H as ->. destruct (proj1 (IH k) eq_refl) as [A B].
          split; [exact A|]. intros [|j] Hj; [exact E|]. apply B. lia. }
        { intros [A B]. enough (find m b = Some k) as -> by reflexivity.
          apply IH. split; [exact A|]. intros j Hj. apply (B (S j)). lia. }
Qed.

Lemma find_none m b : 0 < length m ->
  (find m b = None <-> forall k, occ m b k = false).
Proof.
  intros Hm. induction b as [|x b IH].
  - cbn [find]. rewrite is_prefix_nil by exact Hm. split; [|reflexivity].
    intros _ k. now rewrite skipn_nil, is_prefix_nil.
  - cbn [find]. destruct (is_prefix m (x :: b)) eqn:E.
    + split; [discriminate|]. intros H. specialize (H 0). cbn [skipn] in H. congruence.
    + destruct (find m b) as [p|].
      * cbn. split; [discriminate|]. intros H. exfalso.
        assert (@None nat = None) as _ by reflexivity.
        assert (Some p = None) as X; [|discriminate]. apply IH. intros k. apply (H (S k)).
      * cbn. split; [|reflexivity]. intros _ [|k]; [exact E|].
        apply (proj1 IH eq_refl).
Qed.

(** * rfind *)
Lemma rfind_none m b : 0 < length m ->
  (rfind m b = None <-> forall k, occ m b k = false).
Proof.
  intros Hm. induction b as [|x b IH].
  - cbn [rfind]. rewrite is_prefix_nil by exact Hm. split; [|reflexivity].
    intros _ k. now rewrite skipn_nil, is_prefix_nil.
  - cbn [rfind]. destruct (rfind m b) as [p|].
    + split; [discriminate|]. intros H. exfalso.
      assert (Some p = None) as X; [|discriminate]. apply IH. intros k. apply (H (S k)).
    + destruct (is_prefix m (x :: b)) eqn:E.
      * split; [discriminate|]. intros H. specialize (H 0). cbn [skipn] in H. congruence.
      * split; [|reflexivity]. intros _ [|k]; [exact E|]. apply (proj1 IH eq_refl).
Qed.

Lemma rfind_some m b k : 0 < length m ->
  (rfind m b = Some k <-> occ m b k = true /\ forall j, k < j -> occ m b j = false).
Proof.
  intros Hm. revert k. induction b as [|x b IH]; intros k.
  - cbn [rfind]. rewrite is_prefix_nil by exact Hm. split; [discriminate|].
    intros [H _]. rewrite skipn_nil, is_prefix_nil in H by exact Hm. discriminate.
  - cbn [rfind]. destruct (rfind m b) as [p|] eqn:R.
    + destruct (proj1 (IH p) eq_refl) as [A B]. split.
      * intros H. injection H as <-. split; [exact A|].
        intros [|j] Hj; [lia|]. apply B. lia.
      * intros [A' B']. f_equal. destruct k as [|k].
        { specialize (B' (S p) ltac:(lia)). cbn [skipn] in B'. congruence. }
        { f_equal. cbn [skipn] in A'. destruct (lt_eq_lt_dec p k) as [[L| ->]|L]; [|reflexivity|].
          - rewrite (B k L) in A'. discriminate.
          - specialize (B' (S p) ltac:(lia)). cbn [skipn] in B'. congruence. }
    + assert (RN : forall j, occ m b j = false) by now apply rfind_none.
      destruct (is_prefix m (x :: b)) eqn:E.
      * split.
        { intros H. injection H as <-. split; [exact E|]. intros [|j] Hj; [lia|]. apply RN. }
        { intros [A _]. destruct k as [|k]; [reflexivity|]. cbn [skipn] in A. rewrite RN in A. discriminate. }
      * split; [discriminate|]. intros [A _]. destruct k as [|k]; cbn [skipn] in A; [congruence|].
        rewrite RN in A. discriminate.
Qed.

(** * Markers that do not overlap themselves *)
Definition no_overlap (m : bytes) : Prop :=
  forall x k, 0 < k < length m -> is_prefix m x = true -> is_prefix m (skipn k x) = false.

Lemma no_overlap_occ m b i j : no_overlap m -> occ m b i = true -> occ m b j = true ->
  i < j -> i + length m <= j.
Proof.
  intros N A B L. destruct (le_lt_dec (i + length m) j) as [H|H]; [exact H|].
  assert (X : occ m b j = false); [|congruence].
  specialize (N (skipn i b) (j - i)). rewrite skipn_skipn' in N.
  replace (i + (j - i)) with j in N by lia. apply N; [lia|exact A].
Qed.

Lemma dlt_marker_no_overlap : no_overlap dlt_marker.
Proof.
  intros x k Hk P. cbn [dlt_marker length] in Hk.
  apply is_prefix_app in P. destruct P as [post ->].
  assert (C : k = 1 \/ k = 2 \/ k = 3) by lia.
  destruct C as [-> | [-> | ->]]; reflexivity.
Qed.

(** Any occurrence in the middle of [j ++ m'] starting before [length j] reaches into [m']. *)
Lemma find_after_junk m j x : 0 < length m -> no_overlap m ->
  (forall k, occ m j k = false) -> is_prefix m x = true ->
  find m (j ++ x) = Some (length j).
Proof.
  intros Hm N J P. apply find_some; [exact Hm|]. split.
  - rewrite skipn_app, Nat.sub_diag, skipn_all. exact P.
  - intros k Hk. destruct (occ m (j ++ x) k) eqn:E; [|reflexivity]. exfalso.
    assert (Q : occ m (j ++ x) (length j) = true).
    { rewrite skipn_app, Nat.sub_diag, skipn_all. exact P. }
    pose proof (no_overlap_occ m (j ++ x) k (length j) N E Q Hk) as L.
    rewrite skipn_app in E. rewrite is_prefix_app_inv in E by (rewrite skipn_length; lia).
    rewrite J in E. discriminate.
Qed.

(** * find_iter *)
Lemma find_iter_from_spec m b : 0 < length m -> no_overlap m ->
  forall pos skip,
    (forall k, k < skip -> occ m b k = false) ->
    (forall k, In k (find_iter_from m b pos skip) <-> exists i, k = pos + i /\ occ m b i = true) /\
    StronglySorted lt (find_iter_from m b pos skip).
Proof.
  intros Hm N. induction b as [|x b IH]; intros pos skip Hs.
  - assert (E : find_iter_from m [] pos skip = []).
    { destruct skip; cbn [find_iter_from]; [|reflexivity]. now rewrite is_prefix_nil. }
    rewrite E. split; [|constructor]. intros k. split; [intros []|].
    intros (i & _ & H). rewrite skipn_nil, is_prefix_nil in H by exact Hm. discriminate.
  - destruct skip as [|skip].
    + cbn [find_iter_from]. destruct (is_prefix m (x :: b)) eqn:P.
      * assert (Hs' : forall k, k < length m - 1 -> occ m b k = false).
        { intros k Hk. specialize (N (x :: b) (S k)). cbn [skipn] in N. apply N; [lia|exact P]. }
        destruct (IH (S pos) (length m - 1) Hs') as [I1 I2]. split.
        { intros k. cbn [In]. rewrite I1. split.
          - intros [<-|(i & -> & H)].
            + exists 0. split; [lia|exact P].
            + exists (S i). split; [lia|exact H].
          - intros ([|i] & -> & H).
            + left. lia.
            + right. exists i. split; [lia|exact H]. }
        { constructor; [exact I2|]. apply Forall_forall. intros k Hk. apply I1 in Hk.
          destruct Hk as (i & -> & _). lia. }
      * assert (Hs' : forall k, k < 0 -> occ m b k = false) by lia.
        destruct (IH (S pos) 0 Hs') as [I1 I2]. split; [|exact I2].
        intros k. rewrite I1. split.
        { intros (i & -> & H). exists (S i). split; [lia|exact H]. }
        { intros ([|i] & -> & H); [cbn [skipn] in H; congruence|].
          exists i. split; [lia|exact H]. }
    + cbn [find_iter_from].
      assert (Hs' : forall k, k < skip -> occ m b k = false).
      { intros k Hk. apply (Hs (S k)). lia. }
      destruct (IH (S pos) skip Hs') as [I1 I2]. split; [|exact I2].
      intros k. rewrite I1. split.
      { intros (i & -> & H). exists (S i). split; [lia|exact H]. }
      { intros ([|i] & -> & H).
        - rewrite (Hs 0) in H by lia. discriminate.
        - exists i. split; [lia|exact H]. }
Qed.

Lemma find_iter_in m b k : 0 < length m -> no_overlap m ->
  (In k (find_iter m b) <-> occ m b k = true).
Proof.
  intros Hm N. destruct (find_iter_from_spec m b Hm N 0 0) as [H _]; [lia|].
  unfold find_iter. rewrite H. split.
  - intros (i & -> & H'). exact H'.
  - intros H'. now exists k.
Qed.
Lemma find_iter_sorted m b : 0 < length m -> no_overlap m -> StronglySorted lt (find_iter m b).
Proof.
  intros Hm N. now destruct (find_iter_from_spec m b Hm N 0 0) as [_ H]; [lia|].
Qed.

(** [find_iter] is empty iff [find] fails, for any needle. *)
Lemma find_iter_from_nil m b pos : 0 < length m ->
  (find_iter_from m b pos 0 = [] <-> find m b = None).
Proof.
  intros Hm. revert pos. induction b as [|x b IH]; intros pos; cbn [find_iter_from find].
  - rewrite is_prefix_nil by exact Hm. tauto.
  - destruct (is_prefix m (x :: b)); [split; discriminate|].
    rewrite IH. destruct (find m b); cbn; split; congruence.
Qed.
