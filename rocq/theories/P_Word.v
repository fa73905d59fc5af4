(** Property theorems C87 and C88 and the refutation of C17 for the search iterator: offsets as
    machine words, 32 or 64 bits wide (vocabulary in WordSpec.v, GenericSpec.v). *)
From Verif Require Import Base DltModel MatchModel DdModel WordModel Spec Samples WordSpec GenericSpec BaseFacts DltFacts ParseFacts FindFacts IterFacts DltIterFacts
  GenericFacts WordFacts TestModel.
From Verif Require P_Generic.
From Coq Require Import ZifyBool ZifyNat ZifyN.

(** C87.  Sequential and searching iterator, for every type, both widths of usize, both builds and every start offset from
    which the end of the marker can be computed: one call and a whole iteration are the same as with
    unbounded offsets. *)
Theorem C87_sequential : forall (T : Type) (R : Readable T) m b (off : N) fuel n, implements_well R ->
  (word_len b <= slice_max m)%N -> (N.of_nat (length (marker R)) <= slice_max m)%N -> (off + N.of_nat (length (marker R)) < 2 ^ bits m)%N ->
  fallback_word R m fuel b off = in_words (fallback_next R fuel b (N.to_nat off)) /\
  collect (fallback_word R m fuel b) n off = list_words (collect (fallback_next R fuel b) n (N.to_nat off)).
Proof.
  intros T R m b off fuel n W Hb Hm Ho. rewrite <- (N2Nat.id off) at 1 3. change (2 ^ bits m)%N with (usize_mod m) in Ho. split.
  - apply fallback_words; try assumption. now rewrite N2Nat.id.
  - apply fallback_collect_words; try assumption. now rewrite N2Nat.id.
Qed.
Print Assumptions C87_sequential.

Theorem C87_search : forall (T : Type) (R : Readable T) m b (off : N) fuel n, implements_well R ->
  (word_len b <= slice_max m)%N -> (N.of_nat (length (marker R)) <= slice_max m)%N -> (off + N.of_nat (length (marker R)) < 2 ^ bits m)%N ->
  search_word R m fuel b off = in_words (search_next R fuel b (N.to_nat off)) /\
  collect (search_word R m fuel b) n off = list_words (collect (search_next R fuel b) n (N.to_nat off)).
Proof.
  intros T R m b off fuel n W Hb Hm Ho. rewrite <- (N2Nat.id off) at 1 3. change (2 ^ bits m)%N with (usize_mod m) in Ho. split.
  - apply search_words; try assumption. now rewrite N2Nat.id.
  - apply search_collect_words; try assumption. now rewrite N2Nat.id.
Qed.
Print Assumptions C87_search.

(** Contiguous reading and both regular expression iterators: from every offset. *)
Theorem C87_read : forall (T : Type) (R : Readable T) m b (off : N), reads_fit R -> (word_len b <= slice_max m)%N ->
  readit_word R m b off = in_words (readit_next R b (N.to_nat off)).
Proof. intros T R m b off F Hb. rewrite <- (N2Nat.id off) at 1. now apply readit_words. Qed.
Print Assumptions C87_read.
Theorem C87_grep : forall (T : Type) (R : Readable T) m find_at fuel b (off : N), implements_well R ->
  (word_len b <= slice_max m)%N -> (N.of_nat (length (marker R)) <= slice_max m)%N ->
  grep_word R m find_at fuel b off = in_words (grep_next R find_at fuel b (N.to_nat off)).
Proof. intros T R m find_at fuel b off W Hb Hm. rewrite <- (N2Nat.id off) at 1. now apply grep_words. Qed.
Print Assumptions C87_grep.
Theorem C87_capture : forall (T : Type) (R : Readable T) m captures_at fuel b (off : N), implements_well R -> groups_inside captures_at b ->
  (word_len b <= slice_max m)%N -> (N.of_nat (length (marker R)) <= slice_max m)%N ->
  capture_word R m captures_at fuel b off = in_words (capture_next R captures_at fuel b (N.to_nat off)).
Proof. intros T R m captures_at fuel b off W G Hb Hm. rewrite <- (N2Nat.id off) at 1. now apply capture_words. Qed.
Print Assumptions C87_capture.

(** Backward search, from every offset but the one at which it has ended; only that one depends on the width. *)
Theorem C87_backward : forall (T : Type) (R : Readable T) m b (off : N) fuel n, implements_well R ->
  (word_len b <= slice_max m)%N -> (N.of_nat (length (marker R)) <= slice_max m)%N -> (off < 2 ^ bits m - 1)%N ->
  rev_word R m fuel b off = rev_words m (rev_next R fuel b off) /\
  collect (rev_word R m fuel b) n off = list_words (collect (rev_next R fuel b) n off).
Proof.
  intros T R m b off fuel n W Hb Hm Ho. change (2 ^ bits m)%N with (usize_mod m) in Ho. split.
  - now apply rev_word_words.
  - now apply rev_collect_words.
Qed.
Print Assumptions C87_backward.

(** Containment, for any two numbers, and partitioning, into any number of pieces. *)
Theorem C87_contained : forall (T : Type) (R : Readable T) m fuel b (p0 p1 : N), implements_well R -> reads_fit R ->
  (word_len b <= slice_max m)%N -> (N.of_nat (length (marker R)) <= slice_max m)%N ->
  contained_word R m fuel b p0 p1 =
  match contained_by R fuel b (N.to_nat p0) (N.to_nat p1) with Ret i => Ret (item_word i) | Panic => Panic | Fuel => Fuel end.
Proof.
  intros T R m fuel b p0 p1 W F Hb Hm. rewrite <- (N2Nat.id p0) at 1. rewrite <- (N2Nat.id p1) at 1. now apply contained_words.
Qed.
Print Assumptions C87_contained.
Theorem C87_partition : forall (T : Type) (R : Readable T) m b (num : N), implements_well R -> reads_fit R ->
  (word_len b <= slice_max m)%N -> (N.of_nat (length (marker R)) <= slice_max m)%N ->
  partition_word R m b num = partition_from R b (N.to_nat num).
Proof. intros T R m b num W F Hb Hm. rewrite <- (N2Nat.id num) at 1. now apply partition_words. Qed.
Print Assumptions C87_partition.

(** Both types of the repository meet the conditions. *)
Example C87_types : implements_well DLT /\ reads_fit DLT /\ implements_well TEST /\ reads_fit TEST /\
  forall m, (N.of_nat (length (marker DLT)) <= slice_max m)%N /\ (N.of_nat (length (marker TEST)) <= slice_max m)%N.
Proof.
  split; [apply P_Generic.C76_dlt_well|]. split.
  { intros s n v E. change (try_read DLT s) with (storage_try_read s) in E. rewrite try_read_parse in E. destruct (is_prefix dlt_marker s); [|discriminate].
    injection E as E. pose proof (parse_len s n v E) as L. apply parse_some_iff in E. change (len_of DLT v) with (storage_len v). lia. }
  split; [apply P_Generic.C76_test_well|]. split; [|intros m; destruct (sizes m); change (length (marker DLT)) with 4; change (length (marker TEST)) with 4; lia].
  intros s n v E. unfold TEST, try_read in E. destruct (slice s 0 4) as [t| |]; cbn [obind] in E; try discriminate.
  destruct (bytes_eqb t test_marker); [|discriminate]. unfold slice_from in E. destruct (Nat.leb_spec 4 (length s)); [|discriminate]. cbn [obind] in E.
  change (len_of TEST v) with 8. assert (E' : test_read (skipn 4 s) = Some (n, v)) by congruence. clear E. rename E' into E. unfold test_read in E. assert (L : 8 <= length (skipn 4 s) /\ n = 8).
  { destruct (skipn 4 s) as [|b0 [|b1 [|b2 [|b3 [|b4 [|b5 [|b6 [|b7 r]]]]]]]]; try discriminate E. split; [exact (Nat.le_add_r 8 (length r))|]. now injection E as <- _. }
  rewrite skipn_length in L. lia.
Qed.
(** Iterating from the last offset for which the end of the marker can be computed. *)
Example C87_example :
  fallback_word DLT {| usize_width := Bits64; build := Debug |} 2 (m1 ++ m2) (2 ^ 64 - 5) = Ret ((2 ^ 64 - 5)%N, None) /\
  search_word DLT {| usize_width := Bits32; build := Debug |} 2 (m1 ++ m2) (2 ^ 32 - 5) = Ret ((2 ^ 32 - 1)%N, None) /\
  rev_word DLT {| usize_width := Bits32; build := Debug |} 2 (m1 ++ m2) 3 = Ret ((2 ^ 32 - 1)%N, None) /\
  rev_word DLT {| usize_width := Bits64; build := Debug |} 2 (m1 ++ m2) 3 = Ret ((2 ^ 64 - 1)%N, None).
Proof. repeat split; vm_compute; reflexivity. Qed.

(** C88: what the forward iterators do at an offset behind the end. *)
Theorem C88_behind_partial : forall (T : Type) (R : Readable T) m b (off : N) fuel find_at captures_at,
  (word_len b <= off)%N ->
  readit_word R m b off = Ret (off, None) /\
  grep_word R m find_at (S fuel) b off = Ret (off, None) /\
  capture_word R m captures_at (S fuel) b off = Ret (off, None) /\
  ((off + N.of_nat (length (marker R)) < 2 ^ bits m)%N ->
    fallback_word R m (S fuel) b off = Ret (off, None) /\
    search_word R m (S fuel) b off = Ret ((off + N.of_nat (length (marker R)))%N, None)).
Proof.
  intros T R m b off fuel find_at captures_at H. assert (L : (word_len b <=? off)%N = true) by lia.
  unfold readit_word, grep_word, capture_word. cbn [grep_search_word capture_search_word]. rewrite L. cbn [obind].
  repeat (split; [reflexivity|]). change (2 ^ bits m)%N with (usize_mod m). intros Ho. cbn [fallback_word search_word]. unfold search_search_word. rewrite L. cbn [obind].
  rewrite add_ok by exact Ho. cbn [obind]. replace (word_len b <=? off + N.of_nat (length (marker R)))%N with true by lia. split; reflexivity.
Qed.
Print Assumptions C88_behind_partial.

(** C88 is false for the last offsets: the sequential iterator panics (in a release build on every
    slice of at least four bytes) ... *)
Theorem C88_sequential_refuted : forall (m : target) b fuel (off : N), (word_len b <= slice_max m)%N -> (2 ^ bits m - 4 <= off < 2 ^ bits m)%N ->
  build m = Debug \/ 4 <= length b -> fallback_word DLT m (S fuel) b off = Panic.
Proof.
  intros m b fuel off Hb Ho H. change (2 ^ bits m)%N with (usize_mod m) in Ho. destruct C87_types as (W & _ & _ & _ & Wm). specialize (Wm m). destruct Wm as [Wm _].
  assert (H2 : (usize_mod m <= off + N.of_nat (length (marker DLT)))%N) by (change (N.of_nat (length (marker DLT))) with 4%N; words).
  rewrite !(fallback_wrap DLT m Wm) by (assumption || lia). destruct (build m); [reflexivity|]. destruct H as [H|H]; [discriminate|]. change (N.of_nat (length (marker DLT))) with 4%N.
  replace (word_len b <=? off + 4 - usize_mod m)%N with false; [reflexivity|]. words.
Qed.
Print Assumptions C88_sequential_refuted.

(** ... and the search iterator panics in a debug build, and in a release build starts over from the
    beginning of the slice. *)
Theorem C88_search_refuted : forall (m : target) b fuel (off : N), (word_len b <= slice_max m)%N -> (2 ^ bits m - 4 <= off < 2 ^ bits m)%N -> length b < fuel ->
  (build m = Debug -> search_word DLT m (S fuel) b off = Panic) /\
  (build m = Release -> forall n, length b < n -> exists l,
    collect (search_next DLT fuel b) n (N.to_nat (off - (2 ^ bits m - 4))) = Ret l /\
    collect (search_word DLT m (S fuel) b) n off = list_words (Ret l)).
Proof.
  intros m b fuel off Hb Ho Hf. change (2 ^ bits m)%N with (usize_mod m) in *. destruct C87_types as (W & _ & _ & _ & Wm). specialize (Wm m). destruct Wm as [Wm _].
  assert (M4 : N.of_nat (length (marker DLT)) = 4%N) by reflexivity.
  assert (H2 : (usize_mod m <= off + N.of_nat (length (marker DLT)))%N) by (rewrite M4; words).
  split; intros Bm; [rewrite (search_wrap DLT m W Wm), Bm by (assumption || lia); reflexivity|]. intros n Hn.
  destruct (collect_schain DLT parse dlt_lawful b fuel Hf n (N.to_nat (off - (usize_mod m - 4))) ltac:(lia)) as (l & E & _). exists l. split; [exact E|].
  destruct n as [|n]; [lia|]. cbn [collect] in *. rewrite (search_wrap DLT m W Wm) by (assumption || lia). rewrite Bm. cbv zeta. rewrite M4.
  replace (off + 4 - usize_mod m)%N with (off - (usize_mod m - 4))%N by words. set (st := N.to_nat (off - (usize_mod m - 4))) in *.
  destruct (Nat.leb_spec (length b) st) as [Le|Le].
  - cbn [obind]. destruct fuel as [|f]; [lia|]. cbn [search_next] in E. unfold search_search in E. rewrite (proj2 (Nat.leb_le _ _) Le) in E. cbn [obind] in E.
    rewrite (proj2 (Nat.leb_le (length b) (st + length (marker DLT)))) in E by lia. cbn [obind] in E. injection E as <-. reflexivity.
  - destruct (search_next DLT fuel b st) as [[o' [p|]]| |] eqn:Sn; cbn [obind in_words item_word option_map] in *; try discriminate; [|injection E as <-; reflexivity].
    pose proof (search_fits DLT m W Wm _ _ _ _ _ Sn) as Lo. rewrite (search_collect_words DLT m W Wm) by (rewrite ?M4; words).
    destruct (collect (search_next DLT fuel b) n o') as [l1| |] eqn:E1; cbn [obind] in E; try discriminate. injection E as <-.
    rewrite (collect_more _ (search_next DLT (S fuel) b) ltac:(intros s r Q; apply (search_next_mono DLT fuel _ _ _ _ Q); lia) _ _ _ E1). reflexivity.
Qed.
Print Assumptions C88_search_refuted.
Example C88_example :
  search_word DLT {| usize_width := Bits64; build := Release |} 200 (m1 ++ m2) (2 ^ 64 - 4) = in_words (search_next DLT 199 (m1 ++ m2) 0) /\
  exists e, search_next DLT 199 (m1 ++ m2) 0 = Ret (45, Some (0, e)).
Proof. split; [vm_compute; reflexivity|]. eexists. vm_compute. reflexivity. Qed.

(** C17 for the search iterator: every call after the end moves its offset on by four bytes; while the
    offset fits into a machine word, the iterator stays at its end ... *)
Theorem C17_search_calls_partial : forall m b (off off' : N) fuel n, (word_len b <= slice_max m)%N ->
  search_word DLT m (S fuel) b off = Ret (off', None) -> (off' + 4 * N.of_nat n < 2 ^ bits m)%N ->
  calls (search_word DLT m (S fuel) b) n off' = Ret (repeat None n).
Proof.
  intros m b off off' fuel n Hb H Hn. apply search_word_none in H. change (2 ^ bits m)%N with (usize_mod m) in Hn.
  destruct C87_types as (W & _ & _ & _ & Wm). specialize (Wm m). destruct Wm as [Wm _]. apply (search_nones DLT m Wm b fuel Hb n off' ltac:(lia)).
  change (N.of_nat (length (marker DLT))) with 4%N. lia.
Qed.
Print Assumptions C17_search_calls_partial.

(** ... but less than a quarter of 2^64 (or 2^32) calls later it panics (debug build) or starts over and delivers a message
    again (release build; for every slice with a message at offset 3 or later). *)
Theorem C17_search_refuted : forall b k msg (off off' : N) m, (word_len b <= slice_max m)%N -> message_at b k msg -> 3 <= k ->
  search_word DLT m (S (S (length b))) b off = Ret (off', None) ->
  exists n, (N.of_nat n < 2 ^ bits m / 4)%N /\
    match build m with
    | Debug => calls (search_word DLT m (S (S (length b))) b) (n + 1) off' = Panic
    | Release => exists x, calls (search_word DLT m (S (S (length b))) b) (n + 1) off' = Ret (repeat None n ++ [Some x])
    end.
Proof.
  intros b k msg off off' m Hb [V O] Hk H. apply search_word_none in H. destruct C87_types as (W & _ & _ & _ & Wm). specialize (Wm m). destruct Wm as [Wm _].
  assert (M4 : N.of_nat (length (marker DLT)) = 4%N) by reflexivity.
  set (q := ((usize_mod m - 1 - off') / 4)%N). assert (Q : (4 * q <= usize_mod m - 1 - off' < 4 * q + 4)%N).
  { unfold q. pose proof (N.div_mod (usize_mod m - 1 - off') 4 ltac:(discriminate)). pose proof (N.mod_lt (usize_mod m - 1 - off') 4 ltac:(discriminate)). lia. }
  exists (N.to_nat q). split.
  { assert (exists h, usize_mod m = 4 * h /\ 2 ^ bits m / 4 = h)%N as (h & Eh & ->); [|lia].
    unfold usize_mod, bits. destruct (usize_width m); [exists (2 ^ 30)%N|exists (2 ^ 62)%N]; split; vm_compute; reflexivity. }
  destruct (search_nones DLT m Wm b (S (length b)) Hb (N.to_nat q) off' ltac:(lia) ltac:(rewrite M4; words)) as [_ C].
  rewrite C. clear C. set (o := (off' + N.of_nat (N.to_nat q) * N.of_nat (length (marker DLT)))%N).
  assert (Ho : (o < usize_mod m /\ usize_mod m <= o + 4)%N) by (unfold o; rewrite M4; words). cbn [calls].
  rewrite (search_wrap DLT m W Wm) by (assumption || (rewrite ?M4; lia)). destruct (build m); [reflexivity|]. cbv zeta. rewrite M4.
  set (st := N.to_nat (o + 4 - usize_mod m)). assert (st <= 3) by (unfold st; words).
  assert (k < length b). { pose proof (message_at_prefix b k msg (conj V O)) as [L _]. destruct V as (_ & V & _). lia. }
  rewrite (proj2 (Nat.leb_gt (length b) st)) by lia.
  destruct (search_next_spec DLT parse dlt_lawful b (S (length b)) st ltac:(lia)) as [(j & n & t & _ & ->)|(NC & _)].
  - cbn [in_words item_word option_map]. eexists. reflexivity.
  - exfalso. exact (NC k (length msg) (entry_of msg) ltac:(lia) (dcand_entry b k msg (conj V O))).
Qed.
Print Assumptions C17_search_refuted.
Example C17_search_example : exists e, message_at (m1 ++ m2) 45 m2 /\ search_word DLT {| usize_width := Bits64; build := Release |} 200 (m1 ++ m2) (2 ^ 64 - 12) = Ret ((2 ^ 64 - 8)%N, None) /\ calls (search_word DLT {| usize_width := Bits64; build := Release |} 200 (m1 ++ m2)) 2 (2 ^ 64 - 8)%N = Ret [None; Some (0%N, e)].
Proof.
  eexists. split; [split; [exact m2_valid|exists m1, []; split; reflexivity]|]. split; vm_compute; reflexivity.
Qed.
