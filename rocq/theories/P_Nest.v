(** Property theorem C114: how deep the calls nest (cf. C11: two for [DltIterator]; C51: no bound for the two searching
    iterators).  The fuel of the recursive functions of the model is the number of calls that may be active at once. *)
From Verif Require Import Base DltModel MatchModel Spec ReadSpec IterFacts DltIterFacts LayoutFacts ContainFacts CostSpec CostPart GrepFacts ReadFacts HelloRegex NestSpec NestFacts.
From Verif Require Samples P_Grep.
From Coq Require Import Lia.
Import Samples(m1, m2, m3, hello).
Opaque dlt_max_len.

(** C114: no bound for grepping: a text of [n] lines without any message in it, searched for ripdlt's pattern, needs [n]
    calls at once; and so does capturing, whatever group 1 is. *)
Theorem C114_grep_refuted : leftmost (h_star_world one_line) find_hw /\ forall n : nat, (N.of_nat n < 2 ^ 60)%N -> exists b,
  b = hello_text n /\ length b = 12 * n /\
  (forall f, f < n -> grep_next DLT find_hw f b 0 = Fuel) /\
  (forall f, n < f -> grep_next DLT find_hw f b 0 = Ret (0, None)) /\
  (forall g f, f < n -> capture_next DLT (fun b off => option_map (fun m => (m, g)) (find_hw b off)) f b 0 = Fuel).
Proof.
  split; [exact find_hw_leftmost|]. intros n Hn. exists (hello_text n). split; [reflexivity|]. split; [apply hello_length|].
  assert (Hb : (N.of_nat (length (hello_text n)) < usize_max)%N) by (rewrite hello_length; unfold usize_max; change (2 ^ 60)%N with 1152921504606846976%N in Hn; lia).
  destruct n as [|n]; [split; [intros; lia|]; split; [|intros; lia]; intros [|f] Hf; [lia|reflexivity]|].
  pose proof (hello_passes (S n) ltac:(lia)) as P. destruct (grep_deep _ _ find_hw_leftmost _ Hb _ _ P) as [A B]. split; [|split].
  - intros f Hf. unfold grep_next. now rewrite (A f Hf).
  - intros f Hf. unfold grep_next. destruct (B f Hf) as [[[o v]|] E]; rewrite E; [exfalso|reflexivity].
    destruct (GrepFacts.grep_search_sound _ _ find_hw_leftmost _ Hb f 0) as [_ SO]. destruct (SO o v E) as (n' & s & e & [O _] & _).
    apply (hello_no_marker (S n)). exists o. apply (FindFacts.occ_occurs the_pattern); [cbn; lia|exact O].
  - intros g f Hf. unfold capture_next. pose proof (capture_like_grep (fun b off => option_map (fun m => (m, g)) (find_hw b off)) (hello_text (S n)) f 0) as C.
    assert (G : forall f off, grep_search DLT (fun b off => option_map fst (option_map (fun m => (m, g)) (find_hw b off))) f (hello_text (S n)) off = grep_search DLT find_hw f (hello_text (S n)) off).
    { clear. induction f as [|f IH]; intros off; cbn [grep_search]; [reflexivity|]. destruct (find_hw (hello_text (S n)) off) as [[s e]|]; cbn [option_map fst]; [|reflexivity]. now rewrite !IH. }
    rewrite G, (A f Hf) in C. now rewrite C.
Qed.
Print Assumptions C114_grep_refuted.
(** What holds: the calls nest once for every match passed over. *)
Theorem C114_grep_counted_partial : forall M find_at, leftmost M find_at -> forall b : bytes, (N.of_nat (length b) < usize_max)%N ->
  forall off n, passes find_at b off n ->
  (forall f, f < n -> grep_next DLT find_at f b off = Fuel) /\ (forall f, n < f -> exists r, grep_next DLT find_at f b off = Ret r).
Proof.
  intros M fa LM b Hb off n P. destruct (grep_deep M fa LM b Hb off n P) as [A B]. split; intros f Hf; unfold grep_next.
  - now rewrite (A f Hf).
  - destruct (B f Hf) as [r ->]. cbn [obind]. destruct r as [[o v]|]; eexists; reflexivity.
Qed.
Print Assumptions C114_grep_counted_partial.
Theorem C114_capture_counted_partial : forall M captures_at, leftmost_capture M captures_at -> forall b : bytes, (N.of_nat (length b) < usize_max)%N ->
  forall off n, passes (fun b off => option_map fst (captures_at b off)) b off n ->
  (forall f, f < n -> capture_next DLT captures_at f b off = Fuel) /\ (forall f, n < f -> exists r, capture_next DLT captures_at f b off = Ret r).
Proof.
  intros M ca LC b Hb off n P. destruct (capture_deep M ca LC b Hb off n P) as [A B]. split; intros f Hf; unfold capture_next.
  - now rewrite (A f Hf).
  - destruct (B f Hf) as [r ->]. cbn [obind]. destruct r as [[o g]|]; eexists; reflexivity.
Qed.
Print Assumptions C114_capture_counted_partial.

(** C114: no bound for cutting: the very first question of the partitioner, what the end of the first part is contained in,
    nests as deep as one likes. *)
Theorem C114_cut_refuted : forall k num : nat, 2 <= num -> exists b,
  b = overlapping (num * (2 * k + 3)) /\ let size := length b / num in contained_by DLT k b size (size + 1) = Fuel.
Proof.
  intros k num H. eexists. split; [reflexivity|]. cbv zeta. rewrite overlapping_length.
  replace (20 * (num * (2 * k + 3)) / num) with (20 * (2 * k + 3)) by (replace (20 * (num * (2 * k + 3))) with (20 * (2 * k + 3) * num) by lia; rewrite Nat.div_mul; lia).
  apply overlapping_deep; nia.
Qed.
Print Assumptions C114_cut_refuted.
(** What holds: the nesting is at most one call per four bytes in front of the place asked about, and two where no message
    begins within another. *)
Theorem C114_cut_counted_partial : forall (b : bytes) f p0 p1, p0 + 3 < 4 * f -> exists r, contained_by DLT f b p0 p1 = Ret r.
Proof. intros b f p0 p1 H. now apply contained_deep. Qed.
Print Assumptions C114_cut_counted_partial.
Theorem C114_cut_clean_partial : forall parts last, clean parts last -> forall p0 p1, exists r,
  forall f, 2 <= f -> contained_by DLT f (layout parts last) p0 p1 = Ret r.
Proof.
  intros parts last CL p0 p1. set (b := layout parts last). assert (T : forall f, 2 <= f -> exists r, contained_by DLT f b p0 p1 = Ret r).
  { intros [|[|f]] Hf; [lia|lia|]. apply contained_returns. intros i n v _ C _. apply contained_returns. intros j n' v' L C' Q.
    pose proof (clean_disjoint parts last CL j n' v' i n v C' C L). lia. }
  destruct (contained_by_total b p0 p1) as [r R]. exists r.
  (* enough fuel and two calls agree: both are the answer of the same two calls *)
  assert (D : forall f i n v, dcand b i n v -> contained_by DLT (S f) b i (i + 4) = Ret None).
  { intros f i n v C. destruct (contained_by_total b i (i + 4)) as [r' R'].
    assert (E : forall f f', contained_by DLT (S f) b i (i + 4) = contained_by DLT (S f') b i (i + 4)).
    { clear - C CL. intros f f'. apply contained_same. intros j n' v' L C' Q. pose proof (clean_disjoint parts last CL j n' v' i n v C' C L). lia. }
    destruct (Nat.le_gt_cases (length b) (i + 4)) as [K|K].
    - cbn [contained_by]. destruct (Nat.leb_spec (length b) (i + 4)); [|lia]. now rewrite Bool.orb_true_r.
    - rewrite (E f i). destruct (cb_spec b i (i + 4) ltac:(lia) K) as [(j & n' & v' & _ & Hj & _ & Cj & L & _)|[-> _]]; [|reflexivity].
      pose proof (clean_disjoint parts last CL j n' v' i n v Cj C ltac:(lia)). lia. }
  intros [|[|f]] Hf; [lia|lia|]. rewrite <- (R (S (S p0)) ltac:(lia)). apply contained_same. intros i n v _ C _. now rewrite !(D _ _ _ _ C).
Qed.
Print Assumptions C114_cut_clean_partial.
(** In general, one call for each message one is led back to, and one more. *)
Theorem C114_cut_overlap_partial : forall (b : bytes) k, led_back b k -> forall f p0 p1, k < f -> exists r, contained_by DLT f b p0 p1 = Ret r.
Proof.
  intros b k H f p0 p1 Hf. destruct (H p0) as (chain & L & C1 & C2). apply (contained_chain b chain C2); [exact C1|].
  eapply Nat.le_lt_trans; [|exact Hf]. eapply Nat.le_trans; [|exact L]. clear. induction chain as [|x l IH]; [reflexivity|]. cbn [filter]. destruct (x <? p0); cbn [length]; lia.
Qed.
Print Assumptions C114_cut_overlap_partial.

(** Two matches are passed over in front of a message with the third. *)
Definition greeting : bytes := hello_text 2 ++ m1.
Example C114_example : passes find_hw (hello_text 3) 0 3 /\ grep_next DLT find_hw 2 (hello_text 3) 0 = Fuel /\ grep_next DLT find_hw 4 (hello_text 3) 0 = Ret (0, None) /\
  passes (find_literal hello) greeting 0 2 /\ grep_next DLT (find_literal hello) 1 greeting 0 = Fuel /\
  (exists v, grep_next DLT (find_literal hello) 3 greeting 0 = Ret (length greeting, Some (24, v))).
Proof.
  split; [apply hello_passes; lia|]. split; [reflexivity|]. split; [reflexivity|]. split; [|split; [reflexivity|eexists; vm_compute; reflexivity]].
  assert (NO : forall s k m e, s < 24 -> owner greeting s k -> message_at greeting k m -> k + length m < e).
  { intros s k m e Hs (O & L & _) _. apply (FindFacts.occ_occurs the_pattern greeting k ltac:(cbn; lia)) in O. exfalso.
    assert (N : forallb (fun k => negb (FindFacts.occ the_pattern greeting k)) (seq 0 24) = true) by (vm_compute; reflexivity).
    rewrite forallb_forall in N. specialize (N k). rewrite O in N. discriminate N. apply in_seq. lia. }
  apply (passes_over _ _ _ 0 11); [cbn; lia|reflexivity|intros k m; apply NO; lia|].
  apply (passes_over _ _ _ 12 23); [cbn; lia|reflexivity|intros k m; apply NO; lia|].
  assert (OB : forall k, FindFacts.occ the_pattern greeting k = true -> k = 24).
  { intros k O. pose proof (FindFacts.occ_len the_pattern greeting k ltac:(cbn; lia) O) as L. change (length greeting) with 69 in L. cbn [length the_pattern] in L.
    assert (N : forallb (fun k => (k =? 24) || negb (FindFacts.occ the_pattern greeting k)) (seq 0 69) = true) by (vm_compute; reflexivity).
    rewrite forallb_forall in N. specialize (N k ltac:(apply in_seq; lia)). rewrite O in N. cbn in N. rewrite Bool.orb_false_r in N. now apply Nat.eqb_eq. }
  apply (passes_hit _ _ _ 58 69 24 m1); [vm_compute; reflexivity| | |vm_compute; lia].
  - apply owner_occ; [lia|vm_compute; reflexivity|]. intros j O _. rewrite (OB j O). lia.
  - split; [exact Samples.m1_valid|]. exists (hello_text 2), []. split; reflexivity.
Qed.
Example C114_cut_example : contained_by DLT 5 (overlapping 24) 240 241 = Fuel /\ (exists r, contained_by DLT 13 (overlapping 24) 240 241 = Ret r) /\ 240 + 3 < 4 * 61 /\ clean (bare [m2; m1; m3; m1]) [].
Proof.
  split; [vm_compute; reflexivity|]. split; [eexists; vm_compute; reflexivity|]. split; [lia|]. split.
  - repeat constructor; cbn [snd]; first [exact Samples.m1_valid|exact Samples.m2_valid|exact Samples.m3_valid].
  - rewrite layout_bare, placed_bare. apply P_Grep.clean_check. vm_compute. reflexivity.
Qed.
