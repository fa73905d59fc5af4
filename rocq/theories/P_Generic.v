(** Property theorems C76-C79 (matchit with any type; vocabulary in GenericSpec.v) and the positive
    part of C51. *)
From Verif Require Import Base DltModel MatchModel GenModel Spec BaseFacts DltFacts CodecFacts ParseFacts FindFacts IterFacts DltIterFacts
  GrepFacts ContainFacts GenericSpec GenericFacts GenericCut TestModel.
From Verif Require Samples.
From Coq Require Import Sorted ZifyBool ZifyNat ZifyN.
Import Samples(m1, m2, m3, m_corrupt).
Opaque dlt_max_len.

Lemma is_prefix_self m rest : is_prefix m (m ++ rest) = true.
Proof. apply is_prefix_app. now exists rest. Qed.

(** The two types of the repository are such types: DLT storage entries, and the type of the tests
    (which has different read functions, so that partition_from is not covered for it). *)
Theorem C76_dlt_well : implements_well DLT /\ reads_agree DLT.
Proof.
  split; [constructor|].
  - discriminate.
  - intros x y z Hx Hy E1 E2. change (marker DLT) with [x44; x4c; x54; x01] in *.
    destruct x as [|a [|b [|c [|d x]]]]; cbn [app] in E1; try congruence.
    + injection E1 as <- <-. destruct z; discriminate.
    + injection E1 as <- <- <-. discriminate.
    + injection E1 as <- <- <- <-. discriminate.
    + injection E1 as <- <- <- <- E. symmetry in E. apply app_eq_nil in E. destruct E as [_ ->]. congruence.
  - intros rest. eexists. apply (l_tv DLT parse dlt_lawful). now apply is_prefix_self.
  - intros rest n v E. rewrite (l_tv DLT parse dlt_lawful) in E by now apply is_prefix_self. injection E as E.
    apply (l_len DLT parse dlt_lawful _ n v); [now apply is_prefix_self|exact E].
  - intros rest. rewrite (l_tv DLT parse dlt_lawful) by now apply is_prefix_self.
    change (marker DLT ++ rest) with (skipn 0 (marker DLT ++ rest)). apply try_read_occ. cbn [skipn]. now apply is_prefix_self.
Qed.
Print Assumptions C76_dlt_well.

Theorem C76_test_well : implements_well TEST.
Proof.
  constructor.
  - discriminate.
  - intros x y z Hx Hy E1 E2. change (marker TEST) with [x01; x02; x03; x04] in *.
    destruct x as [|a [|b [|c [|d x]]]]; cbn [app] in E1; try congruence.
    + injection E1 as <- <-. destruct z; discriminate.
    + injection E1 as <- <- <-. discriminate.
    + injection E1 as <- <- <- <-. discriminate.
    + injection E1 as <- <- <- <- E. symmetry in E. apply app_eq_nil in E. destruct E as [_ ->]. congruence.
  - intros rest. eexists. reflexivity.
  - intros rest n v. cbn [TEST try_read_valid marker test_marker app test_read len_of].
    destruct rest as [|r3 [|r2 [|r1 [|r0 rest]]]]; intros E; try discriminate. injection E as <- <-.
    simpl. repeat split; lia.
Qed.
Print Assumptions C76_test_well.

(** C76: for every type [T] that implements the traits well, every byte string and every start
    offset, the three iterators deliver exactly what GenericSpec.v describes. *)
Theorem C76_sequential : forall (T : Type) (R : Readable T) (b : bytes) (off fuel calls : nat),
  implements_well R -> 2 <= fuel -> length b - off < calls ->
  (exists l, collect (fallback_next R fuel b) calls off = Ret l) /\
  forall l, collect (fallback_next R fuel b) calls off = Ret l <-> one_by_one R b off l.
Proof.
  intros T R b off fuel calls W F C. split.
  - destruct (sequential_total R W b off fuel calls F C) as (l & E & _). now exists l.
  - intros l. now apply sequential_exact.
Qed.
Print Assumptions C76_sequential.

Theorem C76_search : forall (T : Type) (R : Readable T) (b : bytes) (off fuel calls : nat),
  implements_well R -> length b < fuel -> length b - off < calls ->
  exists l, collect (search_next R fuel b) calls off = Ret l /\ greedy_items R b off l /\
    forall l', greedy_items R b off l' -> l' = l.
Proof.
  intros T R b off fuel calls W F C. destruct (search_total R W b off fuel calls F C) as (l & E & G).
  exists l. split; [exact E|]. split; [exact G|]. intros l' G'. now apply (greedy_items_unique R W b off).
Qed.
Print Assumptions C76_search.

Theorem C76_backwards : forall (T : Type) (R : Readable T) (b : bytes) (off fuel calls : nat),
  implements_well R -> (N.of_nat (length b) < usize_max)%N -> length b < fuel -> off <= length b -> off < calls ->
  exists l, collect (rev_next R fuel b) calls (N.of_nat off) = Ret l /\ backwards R b off l /\
    forall l', backwards R b off l' -> l' = l.
Proof.
  intros T R b off fuel calls W Hb F Ho C. destruct (backwards_total R W b off fuel calls Hb F Ho C) as (l & E & G).
  exists l. split; [exact E|]. split; [exact G|]. intros l' G'. now apply (backwards_unique R b off).
Qed.
Print Assumptions C76_backwards.

(** The test type on garbage, a value, garbage, two values and a cut-off value. *)
Definition test_bytes : bytes :=
  [x22; x22] ++ test_marker ++ [x00; x00; x00; x01] ++ [x22] ++ test_marker ++ [x00; x00; x01; x00] ++
  test_marker ++ [x00; x00; x00; x07] ++ test_marker ++ [x00].
Example C76_example : exists l l' l'',
  collect (fallback_next TEST 2 test_bytes) 40 0 = Ret l /\ map (fun x => (fst x, ts_val (snd x))) l = [(2, 1%N); (11, 256%N); (19, 7%N)] /\
  collect (search_next TEST 40 test_bytes) 40 3 = Ret l' /\ map fst l' = [11; 19] /\
  collect (rev_next TEST 40 test_bytes) 40 20%N = Ret l'' /\ map fst l'' = [11; 2].
Proof. do 3 eexists. repeat split; vm_compute; reflexivity. Qed.

(** C77: grepping for values of any such type, with any regular expression. *)
Theorem C77_grep : forall (T : Type) (R : Readable T) (M : matcher) (find : bytes -> nat -> option (nat * nat)) (b : bytes) (off : nat),
  implements_well R -> leftmost M find -> (N.of_nat (length b) < usize_max)%N ->
  (forall k v, finds R find b off (Some (k, v)) -> exists n m, reads R b k n v /\
     forall fuel, m <= fuel -> grep_next R find fuel b off = Ret (k + n, Some (k, v))) /\
  (finds R find b off None -> exists m, forall fuel, m <= fuel -> grep_next R find fuel b off = Ret (off, None)) /\
  ((forall r, ~ finds R find b off r) -> forall fuel, grep_next R find fuel b off = Fuel) /\
  (forall r r', finds R find b off r -> finds R find b off r' -> r = r').
Proof.
  intros T R M find b off W LM Hb. split; [|split; [|split]].
  - intros k v G. destruct (finds_reads R find b off k v G) as [n Rd].
    destruct (finds_grep R W M find LM b Hb off _ G) as [m H]. exists n, m. split; [exact Rd|]. intros fuel L.
    unfold grep_next. rewrite H by exact L. cbn [obind]. now destruct (reads_bounds R W b k n v Rd) as (-> & _).
  - intros G. destruct (finds_grep R W M find LM b Hb off _ G) as [m H]. exists m. intros fuel L. unfold grep_next. now rewrite H by exact L.
  - intros N fuel. unfold grep_next. destruct (grep_search R find fuel b off) as [r| |] eqn:E; [| |reflexivity].
    + destruct (N r). now apply (grep_finds R W M find LM b Hb fuel).
    + destruct (grep_no_panic R W M find LM b Hb fuel off E).
  - intros r r' G G'. eapply finds_fun; eassumption.
Qed.
Print Assumptions C77_grep.

(** test_matchit's test_grepit2, with the literal 0C 0A 0F 0F: found in the value at 8 only. *)
Example C77_example :
  let needle := [x0c; x0a; x0f; x0f] in
  let b := needle ++ needle ++ test_marker ++ needle ++ test_marker ++ [x00; x00; x00; xff] ++ needle in
  implements_well TEST /\ leftmost (literal needle) (find_literal needle) /\
  exists v, grep_next TEST (find_literal needle) 9 b 0 = Ret (16, Some (8, v)) /\
            grep_next TEST (find_literal needle) 9 b 16 = Ret (16, None).
Proof.
  cbv zeta. split; [exact C76_test_well|]. split; [apply literal_leftmost; cbn; lia|]. eexists. split; vm_compute; reflexivity.
Qed.

(** C78: partition_from for any such type. *)
Theorem C78_partition : forall (T : Type) (R : Readable T) (b : bytes) (num : nat),
  implements_well R -> reads_agree R -> 0 < num ->
  exists outermost l, outermost_items R b outermost /\ partition_from R b num = Ret l /\
    parts_from R b outermost (length b / num) 0 (length b / num) l /\
    forall outermost' l', outermost_items R b outermost' ->
      parts_from R b outermost' (length b / num) 0 (length b / num) l' -> l' = l.
Proof.
  intros T R b num W A H. destruct (partition_g R W A b num H) as (l & E & P). exists (outer_g R b), l.
  split; [now apply outer_g_law|]. split; [exact E|]. split; [exact P|]. intros o l' O P'.
  apply (parts_from_fun R b (outer_g R b) (length b / num) 0 (length b / num)); [|exact P].
  apply (parts_from_ext R b o); [|exact P']. apply (outer_unique R b); [exact O|now apply outer_g_law].
Qed.
Print Assumptions C78_partition.
Example C78_example : implements_well DLT /\ reads_agree DLT /\ exists l,
  partition_from DLT (m1 ++ m2 ++ m3) 2 = Ret l /\ l <> [] /\ l <> [m1 ++ m2 ++ m3].
Proof.
  split; [apply C76_dlt_well|]. split; [apply C76_dlt_well|]. eexists. split; [vm_compute; reflexivity|]. split; discriminate.
Qed.

(** C79: without the condition on the marker, what the search iterator delivers can still be read ... *)
Theorem C79_search_sound_partial : forall (T : Type) (R : Readable T) (b : bytes) (fuel off off' k : nat) (v : T),
  marker R <> [] -> search_next R fuel b off = Ret (off', Some (k, v)) ->
  off <= k /\ (exists n, reads R b k n v) /\ off' = k + len_of R v.
Proof.
  intros T R b fuel off off' k v NE. assert (MP : 0 < length (marker R)) by (destruct (marker R); [congruence|cbn; lia]).
  revert off. induction fuel as [|fuel IH]; intros off; cbn [search_next]; [discriminate|]. unfold search_search.
  destruct (Nat.leb_spec (length b) off) as [L|L].
  { cbn [obind]. destruct (Nat.leb_spec (length b) (off + length (marker R))); [discriminate|lia]. }
  rewrite slice_from_ok by lia. cbn [obind].
  assert (NX : (if length b <=? off + length (marker R) then Ret (off + length (marker R), None)
                else search_next R fuel b (off + length (marker R))) = Ret (off', Some (k, v)) ->
          off <= k /\ (exists n, reads R b k n v) /\ off' = k + len_of R v).
  { destruct (length b <=? off + length (marker R)); [discriminate|]. intros H. apply IH in H. destruct H as (A & B). split; [lia|exact B]. }
  destruct (find (marker R) (skipn off b)) as [c|] eqn:F; [|exact NX].
  pose proof F as F'. apply find_some in F'; [|exact MP]. destruct F' as [O _]. rewrite occ_skipn in O.
  pose proof (occ_len (marker R) b (off + c) MP O) as OL.
  rewrite slice_from_ok by lia. cbn [obind]. rewrite (Nat.add_comm c off).
  destruct (try_read_valid R (skipn (off + c) b)) as [[[n t]|]| |] eqn:P; cbn [obind]; try discriminate; [|exact NX].
  intros E. injection E as <- <- <-. split; [lia|]. split; [|reflexivity]. exists n. split; [|exact P]. now apply occ_occurs.
Qed.
Print Assumptions C79_search_sound_partial.

(** ... but values are missed: marker 1 1, a value is 1 1 2, and the bytes are 1 1 1 2. *)
Definition OVERLAPPING : Readable unit := {|
  marker := [x01; x01];
  max_len := 3;
  try_read := fun b => Ret (if is_prefix [x01; x01; x02] b then Some (3, tt) else None);
  try_read_valid := fun b => Ret (if is_prefix [x01; x01; x02] b then Some (3, tt) else None);
  len_of := fun _ => 3
|}.
Theorem C79_refuted : exists (T : Type) (R : Readable T) (b : bytes) (k n : nat) (v : T),
  marker R <> [] /\
  (forall rest n v, try_read_valid R (marker R ++ rest) = Ret (Some (n, v)) ->
     len_of R v = n /\ length (marker R) < n /\ n <= length (marker R ++ rest)) /\
  (forall rest, exists r, try_read_valid R (marker R ++ rest) = Ret r) /\
  reads R b k n v /\ forall fuel calls, 2 <= fuel -> 0 < calls -> collect (search_next R fuel b) calls 0 = Ret [].
Proof.
  exists unit, OVERLAPPING, [x01; x01; x01; x02], 1, 3, tt. split; [discriminate|]. split; [|split; [|split]].
  - intros rest n v. cbn [OVERLAPPING try_read_valid marker len_of].
    destruct (is_prefix [x01; x01; x02] ([x01; x01] ++ rest)) eqn:P; [|discriminate]. intros E. injection E as <- <-.
    apply is_prefix_app in P. destruct P as [post ->]. rewrite app_length. cbn [length]. repeat split; lia.
  - intros rest. eexists. reflexivity.
  - split; [exists [x01], [x02]; now split|reflexivity].
  - intros fuel calls F C. destruct fuel as [|[|fuel]]; try lia. destruct calls as [|calls]; [lia|]. reflexivity.
Qed.
Print Assumptions C79_refuted.

(** C51, the positive part: the nesting is at most one call per four bytes left (and C51_refuted
    shows that this many are needed). *)
Lemma search_depth {T} (R : Readable T) (W : implements_well R) b : forall n off, 0 < n -> length b <= off + length (marker R) * n ->
  search_next R n b off <> Fuel /\ search_next R n b off <> Panic.
Proof.
  pose proof (mk_pos R W) as MP.
  induction n as [|n IH]; intros off Hn H; [lia|]. cbn [search_next].
  rewrite (search_search_spec R _ (well_lawful R W)). cbn [obind].
  assert (NX : (if length b <=? off + length (marker R) then Ret (off + length (marker R), None)
                else search_next R n b (off + length (marker R))) <> Fuel /\
               (if length b <=? off + length (marker R) then Ret (off + length (marker R), None)
                else search_next R n b (off + length (marker R))) <> Panic).
  { destruct (Nat.leb_spec (length b) (off + length (marker R))) as [L|L]; [split; discriminate|].
    apply IH; [|lia]. destruct n; lia. }
  destruct (find (marker R) (skipn off b)) as [p|]; [|exact NX].
  destruct (pure_read R (skipn (off + p) b)) as [[m t]|]; [split; discriminate|exact NX].
Qed.
Lemma rev_depth {T} (R : Readable T) (W : implements_well R) b : (N.of_nat (length b) < usize_max)%N ->
  forall n off, off <= length b -> off < length (marker R) * n ->
  rev_next R n b (N.of_nat off) <> Fuel /\ rev_next R n b (N.of_nat off) <> Panic.
Proof.
  intros Hb. pose proof (mk_pos R W) as MP.
  induction n as [|n IH]; intros off Ho H; [lia|]. cbn [rev_next].
  rewrite (rev_search_spec R _ (well_lawful R W)) by assumption. cbn [obind].
  set (nx := (if N.of_nat (length (marker R)) <=? N.of_nat off then N.of_nat off - N.of_nat (length (marker R)) else usize_max)%N).
  assert (NX : (if (nx =? usize_max)%N then Ret (nx, None) else rev_next R n b nx) <> Fuel /\
               (if (nx =? usize_max)%N then Ret (nx, None) else rev_next R n b nx) <> Panic).
  { unfold nx. destruct (N.leb_spec (N.of_nat (length (marker R))) (N.of_nat off)) as [L|L].
    - destruct (N.eqb_spec (N.of_nat off - N.of_nat (length (marker R))) usize_max) as [E|E]; [split; discriminate|].
      replace (N.of_nat off - N.of_nat (length (marker R)))%N with (N.of_nat (off - length (marker R))) by lia.
      apply IH; lia.
    - rewrite N.eqb_refl. split; discriminate. }
  destruct (rfind (marker R) (firstn off b)) as [c|]; [|exact NX].
  destruct (pure_read R (skipn c b)) as [[m t]|]; [split; discriminate|exact NX].
Qed.
Theorem C51_depth_partial : forall (b : bytes) (n off : nat),
  (0 < n -> length b <= off + 4 * n ->
     search_next DLT n b off <> Fuel /\ search_next DLT n b off <> Panic) /\
  ((N.of_nat (length b) < usize_max)%N -> off <= length b -> off < 4 * n ->
     rev_next DLT n b (N.of_nat off) <> Fuel /\ rev_next DLT n b (N.of_nat off) <> Panic).
Proof.
  intros b n off. destruct C76_dlt_well as [W _]. split.
  - intros Hn H. now apply (search_depth DLT W).
  - intros Hb Ho H. now apply (rev_depth DLT W).
Qed.
Print Assumptions C51_depth_partial.
Example C51_example : length (repeat x00 9) <= 0 + 4 * 3 /\ search_next DLT 3 (repeat x00 9) 0 = Ret (12, None) /\ search_next DLT 2 (repeat x00 9) 0 = Fuel.
Proof. vm_compute. repeat split; lia. Qed.
