(** Property theorems C65-C74: exact behaviour of the library on arbitrary input (vocabulary in
    ReadSpec.v). *)
From Verif Require Import Base DltModel MatchModel GenModel ToolsModel DdModel Spec CommandSpec ReadSpec BaseFacts DltFacts CodecFacts ParseFacts
  FindFacts IterFacts DltIterFacts LayoutFacts GrepFacts GrepTools ContainFacts PartitionFacts GenFacts GroupFacts MapFacts MergeFacts DdFacts
  ExactFacts ReadFacts CutFacts MoreFacts P_Grep P_Gen P_DD.
From Verif Require Samples.
From Coq Require Import Sorted ZifyBool ZifyNat ZifyN.
Import Samples(m1, m2, m3, m_nested, m_short, m_corrupt, m1_valid, m2_valid, m3_valid, m_nested_valid, m_short_valid, quad_ECU1, sample_storage).
Opaque dlt_max_len.

(** * C65: sequential reading of any byte string *)
Theorem C65_sequential_exact : forall b : bytes, exists parts last,
  read_split b parts last /\
  (forall parts' last', read_split b parts' last' -> parts' = parts /\ last' = last) /\
  exists l, dltit_offset b = Ret l /\ shows l (placed 0 parts) /\ dltit b = Ret (map snd l).
Proof.
  intros b. destruct (read_split_exists b) as (parts & last & H). exists parts, last. split; [exact H|]. split.
  - intros parts' last' H'. destruct (read_split_unique _ _ _ _ _ H' H) as [-> ->]. now split.
  - exact (read_split_read b parts last H).
Qed.
Print Assumptions C65_sequential_exact.
(** A corrupted message hides the one behind it. *)
Example C65_example : exists parts last l, read_split ([x2a] ++ m1 ++ m2 ++ m_corrupt ++ m3) parts last /\
  parts = [([x2a], m1); ([], m2)] /\ last = m_corrupt ++ m3 /\
  dltit_offset ([x2a] ++ m1 ++ m2 ++ m_corrupt ++ m3) = Ret l /\ map fst l = [1; 46].
Proof.
  exists [([x2a], m1); ([], m2)], (m_corrupt ++ m3). eexists. split; [|split; [reflexivity|split; [reflexivity|split; vm_compute; reflexivity]]].
  split; [reflexivity|].
  assert (N0 : ~ occurs_in the_pattern []).
  { intros (k & pre & post & E & _). symmetry in E. apply app_eq_nil in E. destruct E as [_ E]. discriminate. }
  split.
  - constructor; [|constructor; [|constructor]]; (split; cbn [fst snd]).
    + intros (k & [|c pre] & post & E & _); [discriminate|]. injection E as _ E. symmetry in E. apply app_eq_nil in E. destruct E; discriminate.
    + exact m1_valid.
    + exact N0.
    + exact m2_valid.
  - right. exists [], (m_corrupt ++ m3). split; [reflexivity|]. split; [exact N0|]. split; [reflexivity|].
    intros m rest E (V1 & V2 & V3).
    assert (U : u16_at m 18 = 3%N).
    { transitivity (u16_at (m ++ rest) 18); [|now rewrite <- E]. unfold u16_at, byte_at. rewrite !app_nth1 by lia. reflexivity. }
    rewrite U in V3. lia.
Qed.

(** * C66: the searching iterator on any byte string *)
Theorem C66_search_exact : forall (b : bytes) (off fuel depth : nat), length b < depth -> length b - off < fuel ->
  exists l ms, collect (search_next DLT depth b) fuel off = Ret l /\ shows l ms /\ greedy b off ms /\
    forall ms', greedy b off ms' -> ms' = ms.
Proof. exact search_exact. Qed.
Print Assumptions C66_search_exact.
(** The searching iterator passes the corrupted message, and takes a nested one only if it starts inside. *)
Example C66_example : let b := m_corrupt ++ m_nested ++ m1 in
  exists l l', collect (search_next DLT 200 b) 200 0 = Ret l /\ map fst l = [20; 63] /\
    collect (search_next DLT 200 b) 200 21 = Ret l' /\ map fst l' = [40; 63].
Proof. cbv zeta. do 2 eexists. repeat split; vm_compute; reflexivity. Qed.

(** * C67: grep on any byte string and with any pattern *)
Theorem C67_grep_step_exact : forall (M : matcher) find_at (b : bytes), leftmost M find_at -> (N.of_nat (length b) < 2 ^ 64 - 1)%N ->
  forall off,
  (forall k m, grep_step find_at b off (Some (k, m)) ->
     exists e n, denotes e m /\ forall fuel, n <= fuel -> grep_next DLT find_at fuel b off = Ret (k + length m, Some (k, e))) /\
  (grep_step find_at b off None ->
     exists n, forall fuel, n <= fuel -> grep_next DLT find_at fuel b off = Ret (off, None)) /\
  ((forall r, ~ grep_step find_at b off r) -> forall fuel, grep_next DLT find_at fuel b off = Fuel) /\
  (forall r r', grep_step find_at b off r -> grep_step find_at b off r' -> r = r').
Proof. exact grep_exact. Qed.
Print Assumptions C67_grep_step_exact.

Lemma grep_next_step M fa b : leftmost M fa -> (N.of_nat (length b) < usize_max)%N -> forall fuel off off' r, grep_next DLT fa fuel b off = Ret (off', r) ->
  exists r', grep_step fa b off r' /\ r = found r' /\ match r' with Some (k, m) => off' = k + length m /\ message_at b k m | None => off' = off end.
Proof.
  intros LM Hb fuel off off' r E. unfold grep_next in E. destruct (grep_search DLT fa fuel b off) as [r1| |] eqn:G; cbn [obind] in E; try discriminate.
  destruct (grep_search_step M fa LM b Hb fuel off r1 G) as (r' & S & Q). exists r'. split; [exact S|].
  destruct r' as [[k m]|]; subst r1; cbn [found option_map fst snd] in E.
  - assert (Mk : message_at b k m).
    { clear - S. remember (Some (k, m)) as r eqn:E. induction S; try discriminate; [injection E as <- <-; assumption|now apply IHS]. }
    rewrite (entry_len b k m Mk) in E. injection E as <- <-. auto.
  - injection E as <- <-. auto.
Qed.
Theorem C67_grep_exact : forall (M : matcher) find_at (b : bytes), leftmost M find_at -> (N.of_nat (length b) < 2 ^ 64 - 1)%N ->
  forall off,
  (forall ms, grep_run find_at b off ms ->
     exists l n, shows l ms /\ forall fuel items, n <= fuel -> n <= items -> collect (grep_next DLT find_at fuel b) items off = Ret l) /\
  ((forall ms, ~ grep_run find_at b off ms) -> forall fuel items, collect (grep_next DLT find_at fuel b) items off = Fuel) /\
  (forall ms ms', grep_run find_at b off ms -> grep_run find_at b off ms' -> ms = ms').
Proof.
  intros M fa b LM Hb off. split; [|split].
  - intros ms H. induction H as [off S|off k m ms S R IH].
    + destruct (grep_exact M fa b LM Hb off) as (_ & H & _). destruct (H S) as [n Hn]. exists [], (n + 1). split; [constructor|].
      intros fuel [|items] L1 L2; [lia|]. cbn [collect]. now rewrite (Hn fuel ltac:(lia)).
    + destruct IH as (l & n & Sh & Hn). destruct (grep_exact M fa b LM Hb off) as (H & _). destruct (H k m S) as (e & n' & D & Hn').
      exists ((k, e) :: l), (1 + (n + n')). split; [constructor; [now split|exact Sh]|].
      intros fuel [|items] L1 L2; [lia|]. cbn [collect]. rewrite (Hn' fuel ltac:(lia)). cbn [obind]. now rewrite (Hn fuel items ltac:(lia) ltac:(lia)).
  - intros N fuel items. revert off N. induction items as [|items IH]; intros off N; [reflexivity|]. cbn [collect].
    destruct (grep_next DLT fa fuel b off) as [[off' r]| |] eqn:E; [| |reflexivity].
    + destruct (grep_next_step M fa b LM Hb fuel off off' r E) as (r' & S & -> & Q). cbn [obind]. destruct r' as [[k m]|].
      * destruct Q as [-> _]. cbn [found option_map fst snd]. rewrite IH; [reflexivity|]. intros ms R. apply (N ((k, m) :: ms)). now constructor.
      * destruct (N []). now constructor.
    + destruct (grep_next_no_panic M fa LM b Hb fuel off E).
  - intros ms ms' H. revert ms'. induction H as [off S|off k m ms S R IH]; intros ms' H'; inversion H' as [? S'|? k' m' ms1 S' R']; subst.
    + reflexivity.
    + pose proof (grep_step_fun fa b Hb off _ _ S S'). discriminate.
    + pose proof (grep_step_fun fa b Hb off _ _ S S'). discriminate.
    + pose proof (grep_step_fun fa b Hb off _ _ S S') as Q. injection Q as <- <-. f_equal. now apply IH.
Qed.
Print Assumptions C67_grep_exact.
(** The second match, in the garbage behind m1, is skipped; so is the pattern-free garbage. *)
Example C67_example : let b := m1 ++ Samples.hello ++ m2 ++ m1 in
  leftmost (literal Samples.hello) (find_literal Samples.hello) /\
  grep_run (find_literal Samples.hello) b 0 [(0, m1); (79, m1)].
Proof.
  cbv zeta. set (b := m1 ++ Samples.hello ++ m2 ++ m1). split; [apply literal_leftmost; cbn; lia|].
  assert (Ob : forall k, occ dlt_marker b k = true -> In k [0; 56; 79]).
  { intros k Ok. assert (L : k + 4 <= length b) by (apply (occ_len dlt_marker b k); [cbn; lia|exact Ok]). change (length b) with 124 in L.
    assert (C : forallb (fun k => negb (occ dlt_marker b k) || existsb (Nat.eqb k) [0; 56; 79]) (seq 0 121) = true) by (vm_compute; reflexivity).
    rewrite forallb_forall in C. specialize (C k). rewrite Ok in C. cbn [negb orb] in C. rewrite existsb_exists in C.
    destruct C as (x & Ix & E); [apply in_seq; lia|]. apply Nat.eqb_eq in E. now subst x. }
  assert (Ow : forall s k, k + 4 <= s -> occ dlt_marker b k = true -> (forall j, In j [0; 56; 79] -> j + 4 <= s -> j <= k) -> owner b s k).
  { intros s k A B C. apply owner_occ; [exact A|exact B|]. intros j Oj Lj. apply C; [now apply Ob|exact Lj]. }
  assert (P0 : message_at b 0 m1) by (split; [exact m1_valid|exists [], (Samples.hello ++ m2 ++ m1); split; reflexivity]).
  assert (P1 : message_at b 79 m1) by (split; [exact m1_valid|exists (m1 ++ Samples.hello ++ m2), []; split; vm_compute; reflexivity]).
  apply grep_run_hit.
  { apply (grep_hit _ b 0 34 45 0 m1); [vm_compute; lia|vm_compute; reflexivity| |exact P0|vm_compute; lia].
    apply Ow; [lia|reflexivity|]. cbn. intros j Ij; repeat (destruct Ij as [<-|Ij]; [lia|]); destruct Ij. }
  change (0 + length m1) with 45. apply grep_run_hit.
  { apply (grep_skip _ b 45 45 56); [vm_compute; lia|vm_compute; reflexivity| |].
    - intros k m O1 M1. assert (k = 0) by (apply (owner_fun b 45); [exact O1|]; apply Ow; [lia|reflexivity|]; cbn; intros j Ij; repeat (destruct Ij as [<-|Ij]; [lia|]); destruct Ij).
      subst k. rewrite (message_at_fun b 0 m m1 M1 P0). vm_compute. lia.
    - apply (grep_hit _ b 56 113 124 79 m1); [vm_compute; lia|vm_compute; reflexivity| |exact P1|vm_compute; lia].
      apply Ow; [lia|reflexivity|]. cbn. intros j Ij; repeat (destruct Ij as [<-|Ij]; [lia|]); destruct Ij. }
  change (79 + length m1) with 124. apply grep_run_end. apply grep_end. vm_compute. lia.
Qed.

(** * C68: capture, step by step *)
Theorem C68_capture_exact : forall (M : matcher) captures_at (b : bytes), leftmost_capture M captures_at -> (N.of_nat (length b) < 2 ^ 64 - 1)%N ->
  forall off,
  (forall k gs ge, capture_step captures_at b off (Some (k, (gs, ge))) ->
     exists n, forall fuel, n <= fuel -> capture_next DLT captures_at fuel b off = Ret (k + ge, Some (k, (gs, ge)))) /\
  (capture_step captures_at b off None ->
     exists n, forall fuel, n <= fuel -> capture_next DLT captures_at fuel b off = Ret (off, None)) /\
  ((forall r, ~ capture_step captures_at b off r) -> forall fuel, capture_next DLT captures_at fuel b off = Fuel) /\
  (forall r r', capture_step captures_at b off r -> capture_step captures_at b off r' -> r = r').
Proof. exact capture_exact. Qed.
Print Assumptions C68_capture_exact.
Example C68_example : leftmost_capture (literal Samples.hello) (capture_literal Samples.hello) /\
  capture_next DLT (capture_literal Samples.hello) 100 (m1 ++ m2 ++ m1) 0 = Ret (45, Some (0, (34, 45))) /\
  capture_next DLT (capture_literal Samples.hello) 100 (m1 ++ m2 ++ m1) 45 = Ret (68 + 113, Some (68, (102, 113))).
Proof. split; [apply capture_literal_leftmost; cbn; lia|]. split; vm_compute; reflexivity. Qed.

(** * C69: groupby for any predicate that returns *)
Theorem C69_groupby_exact : forall (A : Type) (rel : A -> A -> bool) (f : A -> A -> outcome bool) (xs : list A),
  (forall x y, In x xs -> In y xs -> f x y = Ret (rel x y)) ->
  exists pairs, runs_of rel xs pairs /\ (forall pairs', runs_of rel xs pairs' -> pairs' = pairs) /\
    from_adapt (GroupBy f) 2 (S (length xs) + 1) GEmpty xs = Ret pairs /\
    forall (S R : Type) (r : Reduce S (A * A) R) (s : S) fuel, 3 <= fuel ->
      run_reduce (ReducerOver r (Adapter (GroupBy f) NilAdapter fuel) fuel) (s, (GEmpty, tt)) xs = run_reduce r s pairs.
Proof. exact @groupby_exact. Qed.
Print Assumptions C69_groupby_exact.
(** Groups under "strictly smaller": 5 is not related to itself and waits, dropping 3 and 4, until 6. *)
Example C69_example : runs_of Nat.ltb [5; 3; 4; 6; 8; 1] [(5, 8)] /\
  from_adapt (GroupBy (fun x y => Ret (Nat.ltb x y))) 2 8 GEmpty [5; 3; 4; 6; 8; 1] = Ret [(5, 8)].
Proof.
  split; [|reflexivity]. apply runs_wait; [reflexivity|reflexivity|]. apply runs_wait; [reflexivity|reflexivity|].
  apply (runs_run Nat.ltb 5 [6; 8] [1] []); [repeat split|left; discriminate|intros d z zs [= <- _]; reflexivity|].
  now apply runs_lost.
Qed.

(** * C70: partitioning of any byte string into any number of pieces *)
Theorem C70_partition_exact : forall (b : bytes) (num : nat), 0 < num ->
  exists outermost, outermost_law b outermost /\
    (forall o, outermost_law b o -> forall i, o i <-> outermost i) /\
    exists l, partition_from DLT b num = Ret l /\ pieces b outermost (length b / num) 0 (length b / num) l /\
      forall l', pieces b outermost (length b / num) 0 (length b / num) l' -> l' = l.
Proof.
  intros b num H. exists (outer b). split; [apply outer_law|]. split.
  - intros o L. apply (outermost_unique b); [exact L|apply outer_law].
  - destruct (partition_exact b num H) as (l & E & P). exists l. split; [exact E|]. split; [exact P|].
    intros l' P'. exact (pieces_fun _ _ _ _ _ _ _ P' P).
Qed.
Print Assumptions C70_partition_exact.
Theorem C70_partition_zero : forall b : bytes, partition_from DLT b 0 = Panic.
Proof. reflexivity. Qed.
Print Assumptions C70_partition_zero.
(** The last message is lost: the cut planned behind it is beyond the end. *)
Example C70_example : let b := m1 ++ m2 ++ m3 ++ m1 ++ m2 in
  length b = 172 /\ partition_from DLT b 3 = Ret [m1; m2; m3; m1] /\ partition_from DLT [x01; x02] 3 = Ret [].
Proof. cbv zeta. split; [vm_compute; reflexivity|]. split; vm_compute; reflexivity. Qed.

(** * C71: accessors on any message *)
Theorem C71_accessors_exact : forall m rest : bytes, valid_message m ->
  let h := nth 16 m x00 in
  let ts_at := 20 + (if flag h 2 then 4 else 0) + (if flag h 3 then 4 else 0) in
  let opt_end := 20 + announced h in
  exists e, storage_try_read (m ++ rest) = Ret (Some (length m, e)) /\
    ecu_id (dlt e) = (if flag h 2 then if length m <? 24 then Panic else Ret (Some (u32be_at m 20)) else Ret None) /\
    timestamp (dlt e) = Ret (if flag h 4 && (ts_at + 4 <=? length m) then Some (u32be_at m ts_at) else None) /\
    extended_header (dlt e) =
      (if negb (flag h 0) then Ret None
       else if length m <? opt_end then Panic
       else if length m <? opt_end + 10 then Ret None
       else Ret (Some {| msin := nth opt_end m x00; noar := nth (opt_end + 1) m x00;
                         apid := quad_at m (opt_end + 2); ctid := quad_at m (opt_end + 6) |})) /\
    payload (dlt e) =
      (if flag h 0 then
         if length m <? opt_end then Panic
         else if length m <? opt_end + 10 then Ret None else Ret (Some (skipn (opt_end + 10) m))
       else if length m <? opt_end then Ret None else Ret (Some (skipn opt_end m))).
Proof.
  intros m rest V h ts_at opt_end. exists (entry_of m). pose proof V as (VP & V20 & _).
  split.
  { rewrite try_read_parse. rewrite (parse_valid m rest V).
    replace (is_prefix dlt_marker (m ++ rest)) with true; [reflexivity|]. symmetry.
    destruct (message_at_prefix (m ++ rest) 0 m) as [_ O]; [split; [exact V|exists [], rest; split; reflexivity]|exact O]. }
  assert (HT : header_type (header (dlt (entry_of m))) = h) by reflexivity.
  assert (TL : tail (dlt (entry_of m)) = skipn 20 m) by reflexivity.
  assert (LL : forall n, (length (skipn 20 m) <? n) = (length m <? 20 + n)).
  { intros n. rewrite skipn_length. destruct (Nat.ltb_spec (length m - 20) n), (Nat.ltb_spec (length m) (20 + n)); try reflexivity; lia. }
  rewrite ecu_id_exact, timestamp_exact, extended_header_exact, payload_exact, !HT, !TL. cbv zeta. rewrite !LL. fold opt_end.
  rewrite !Nat.add_assoc. fold opt_end.
  split; [|split; [|split]].
  - rewrite u32be_skipn. reflexivity.
  - assert (TO : ts_at = 20 + ts_offset h) by (unfold ts_at, ts_offset; lia).
    assert (LB : (ts_offset h + 4 <=? length (skipn 20 m)) = (ts_at + 4 <=? length m)).
    { rewrite skipn_length. destruct (Nat.leb_spec (ts_offset h + 4) (length m - 20)), (Nat.leb_spec (ts_at + 4) (length m)); try reflexivity; lia. }
    rewrite LB. destruct (flag h 4 && (ts_at + 4 <=? length m)); [|reflexivity]. do 2 f_equal. rewrite !u32be_skipn. f_equal. lia.
  - destruct (flag h 0); cbn [negb]; [|reflexivity]. destruct (length m <? opt_end); [reflexivity|].
    rewrite skipn_skipn'. fold opt_end. rewrite ext_prefix_at. destruct (length m <? opt_end + 10); reflexivity.
  - rewrite !skipn_skipn', Nat.add_assoc. fold opt_end.
    destruct (flag h 0); destruct (length m <? opt_end); try destruct (length m <? opt_end + 10); reflexivity.
Qed.
Print Assumptions C71_accessors_exact.
Example C71_example : exists e e', storage_try_read m1 = Ret (Some (45, e)) /\
  extended_header (dlt e) = Ret (Some {| msin := x41; noar := x00; apid := Quad x41 x50 x50 x31; ctid := Quad x43 x54 x58 x31 |}) /\
  timestamp (dlt e) = Ret (Some 256%N) /\
  storage_try_read m_short = Ret (Some (21, e')) /\ ecu_id (dlt e') = Panic /\ timestamp (dlt e') = Ret None.
Proof. do 2 eexists. repeat split; vm_compute; reflexivity. Qed.

(** * C72: merge, for any merge function and key *)
Theorem C72_merge_exact : forall (K I : Type) (cmp : K -> K -> comparison) (f : I -> I -> option I) (key : I -> K) (xs : list I),
  total_order cmp ->
  exists out, merge_run cmp f key [] xs out /\ (forall out', merge_run cmp f key [] xs out' -> out' = out) /\
    exists n, forall fuel, n <= fuel -> forall (S R : Type) (r : Reduce S I R) (s : S),
      run_reduce (ReducerOver r (Adapter (Merge cmp (fun a b => Ret (f a b)) (fun x => Ret (key x))) NilAdapter fuel) fuel)
        (s, (([], None), tt)) xs = run_reduce r s out.
Proof.
  intros K I cmp f key xs O. exists (merged cmp f key xs).
  assert (R : merge_run cmp f key [] xs (merged cmp f key xs)) by (apply (fold_merge_run cmp O f key xs []), filed_nil).
  split; [exact R|]. split; [intros out' R'; exact (merge_run_fun cmp O f key _ _ _ _ R' R)|].
  destruct (delivers_merge cmp f key xs) as (n & _ & D). exists (n + 1). intros fuel L S R' r s.
  destruct (delivers_comp _ NilAdapter fuel n 1 ([], None) tt xs xs _ (delivers_nil xs) D) as (k & Lk & Dk); [lia|].
  apply (run_over r _ k _ xs _ Dk). lia.
Qed.
Print Assumptions C72_merge_exact.
(** ... and for the periods of ripdlt. *)
Theorem C72_periods_exact : forall ps : list (storage_entry * storage_entry),
  Forall (fun p => (start_of p <= end_of p)%N) ps ->
  exists out,
    (exists n, forall fuel, n <= fuel -> forall (S R : Type) (r : Reduce S (storage_entry * storage_entry) R) (s : S),
      run_reduce (ReducerOver r (Adapter MergeOverlapping NilAdapter fuel) fuel) (s, (([], None), tt)) ps = run_reduce r s out) /\
    map (fun p => (start_of p, end_of p)) out = joined (map (fun p => (start_of p, end_of p)) ps) /\
    StronglySorted (fun p q => (start_of p < start_of q)%N) out.
Proof.
  intros ps PR. destruct (C72_merge_exact _ _ pair_cmp merge_overlapping period_key ps pair_order) as (out & R & _ & D).
  assert (Eo : out = merged pair_cmp merge_overlapping period_key ps).
  { apply (merge_run_fun pair_cmp pair_order merge_overlapping period_key [] ps); [exact R|].
    apply (fold_merge_run pair_cmp pair_order merge_overlapping period_key ps []), filed_nil. }
  exists out. split; [exact D|]. subst out.
  set (m := fold_left (merge_in pair_cmp merge_overlapping period_key) ps []).
  assert (Fm : filed pair_cmp period_key m) by (apply (fold_filed pair_cmp pair_order), filed_nil).
  assert (E : map fst m = joined (map period_key ps)).
  { apply (fold_periods ps []); [apply filed_nil|constructor|exact PR|constructor]. }
  assert (KE : map fst m = map period_key (map snd m)) by (now apply filed_keys with (cmp := pair_cmp)).
  unfold merged. fold m. split.
  - rewrite KE in E. exact E.
  - assert (RS : rising (map fst m)).
    { unfold m. clear - PR. enough (G : forall m, filed pair_cmp period_key m -> Forall proper (map snd m) -> rising (map fst m) ->
        rising (map fst (fold_left (merge_in pair_cmp merge_overlapping period_key) ps m))) by (apply G; [apply filed_nil|constructor|constructor]).
      induction PR as [|x ps Px PR IH]; intros m Fm Pm R; [exact R|]. cbn [fold_left].
      destruct (merge_in_periods x m Fm Pm Px R) as [E R']. apply IH; [now apply (merge_in_filed pair_cmp pair_order)| |now rewrite E].
      assert (F1 : Forall proper [x]) by (constructor; [assumption|constructor]). exact (proj1 (proj2 (pm_fold [x] m Fm Pm F1))). }
    rewrite KE in RS. clear - RS. induction (map snd m) as [|p l IH]; [constructor|]. cbn [map] in RS. inversion RS as [|? ? S F]; subst.
    constructor; [now apply IH|]. rewrite Forall_map in F. exact F.
Qed.
Print Assumptions C72_periods_exact.
(** The third input meets both others but is joined with the first only. *)
Example C72_example : joined [(0, 1); (4, 5); (1, 4)]%N = [(0, 4); (4, 5)]%N.
Proof. reflexivity. Qed.

(** * C73: merge keeps what it is given *)
Theorem C73_merge_conserves_partial : forall (K I : Type) (cmp : K -> K -> comparison) (f : I -> I -> option I) (key : I -> K) (w : I -> nat) (xs : list I),
  total_order cmp -> (forall p x v, f p x = Some v -> w v = w p + w x) ->
  exists out,
    (exists n, forall fuel, n <= fuel ->
      run_reduce (ReducerOver Collect (Adapter (Merge cmp (fun a b => Ret (f a b)) (fun x => Ret (key x))) NilAdapter fuel) fuel)
        ([], (([], None), tt)) xs = Ret out) /\
    list_sum (map w out) <= list_sum (map w xs) /\
    ((forall p x v, f p x = Some v -> key v = key p) -> (forall p x, key p = key x -> f p x <> None) ->
     list_sum (map w out) = list_sum (map w xs)).
Proof.
  intros K I cmp f key w xs O Ad. destruct (C72_merge_exact K I cmp f key xs O) as (out & R & _ & n & D). exists out. split; [|split].
  - exists n. intros fuel L. rewrite (D fuel L). apply run_collect.
  - exact (merge_run_total cmp O f key w Ad [] xs out R).
  - intros Kp Me. apply (merge_run_exact cmp O f key w Ad Kp Me [] xs out); [constructor|exact R].
Qed.
Print Assumptions C73_merge_conserves_partial.
(** Two items with the same key that do not merge: the first one is lost. *)
Theorem C73_refuted : exists (f : N * nat -> N * nat -> option (N * nat)) (xs : list (N * nat)),
  (forall p x v, f p x = Some v -> snd v = snd p + snd x) /\
  run_reduce (ReducerOver Collect (Adapter (Merge N.compare (fun a b => Ret (f a b)) (fun x => Ret (fst x))) NilAdapter 5) 5)
    ([], (([], None), tt)) xs = Ret [(7%N, 2)] /\ xs = [(7%N, 1); (7%N, 2)].
Proof. exists (fun _ _ => None), [(7%N, 1); (7%N, 2)]. split; [discriminate|]. split; reflexivity. Qed.
Print Assumptions C73_refuted.
(** Counting by key. *)
Example C73_example : let f (p x : N * nat) := if (fst p =? fst x)%N then Some (fst p, snd p + snd x) else None in
  (forall p x v, f p x = Some v -> snd v = snd p + snd x) /\ (forall p x v, f p x = Some v -> fst v = fst p) /\
  (forall p x, fst p = fst x -> f p x <> None) /\
  run_reduce (ReducerOver Collect (Adapter (Merge N.compare (fun a b => Ret (f a b)) (fun x => Ret (fst x))) NilAdapter 5) 5)
    ([], (([], None), tt)) [(3%N, 1); (2%N, 1); (3%N, 4)] = Ret [(2%N, 1); (3%N, 5)].
Proof.
  cbv zeta. repeat split; intros.
  - destruct (fst p =? fst x)%N; [injection H as <-; reflexivity|discriminate].
  - destruct (fst p =? fst x)%N; [injection H as <-; reflexivity|discriminate].
  - rewrite H, N.eqb_refl. discriminate.
Qed.

(** * C74: everything dd_dlt writes, in every build and for every size *)
(** Message number [i] of the input [stdin]: its bytes show the running number and what arrives of
    the [i]-th chunk. *)
Definition dd_output (v : std_version) (A : ctor_addrs) (e a : quad) (psize : N) (stdin : bytes) (ms : list bytes) : Prop :=
  forall i m, nth_error ms i = Some m ->
    exists p, arrives (takes v) (firstn (N.to_nat psize) (skipn (i * N.to_nat psize) stdin)) p /\
      dd_wire e a (create_message_type A true (TypeLog LogInfo)) psize i p m.

Lemma wiresw_output v A e a psize (stdin : bytes) (chunks : list bytes) len :
  (forall i (c : bytes), nth_error chunks i = Some c -> c = firstn (N.to_nat psize) (skipn (i * N.to_nat psize) stdin)) ->
  len = ((18 + psize) mod u16_mod)%N ->
  dd_output v A e a psize stdin (wiresw v A e a len 0 chunks).
Proof.
  intros H -> i m Hm. 
  assert (L : i < length chunks).
  { pose proof (wiresw_length v A e a ((18 + psize) mod u16_mod) chunks 0) as W.
    assert (i < length (wiresw v A e a ((18 + psize) mod u16_mod) 0 chunks)) by (apply nth_error_Some; congruence). lia. }
  destruct (nth_error chunks i) as [c|] eqn:C; [|apply nth_error_None in C; lia].
  rewrite (wiresw_nth v A e a _ chunks 0 i c) in Hm by (reflexivity || exact C). injection Hm as <-. exists (accepted v c).
  split; [rewrite <- (H i c C); apply accepted_arrives|]. apply wire_dd.
Qed.
Lemma says_parse size psize : says size psize -> (psize < 65536)%N -> parse_u16 size = Some psize.
Proof. intros (ds & H1 & H2 & H3 & H4) Hp. apply parse_u16_exact. exists ds. split; [exact H1|]. split; [exact H2|]. split; [now left|]. split; [exact H4|exact Hp]. Qed.
Lemma new_ok : lw_ok lw_new.
Proof. unfold lw_ok. cbn. lia. Qed.

Theorem C74_release : forall v A (e a : quad) psize size more stdin fuel, says size psize -> (1 <= psize < 65536)%N -> length stdin < fuel ->
  exists ms, dd_dlt v fuel A Release (quad_bytes e :: quad_bytes a :: size :: more) stdin =
      Ret (concat ms, DdDone (N.of_nat (length ms) mod 2 ^ 32)) /\
    N.of_nat (length ms) = (N.of_nat (length stdin) / psize)%N /\ dd_output v A e a psize stdin ms.
Proof.
  intros v A e a psize size more stdin fuel SZ Hp Hf. unfold dd_dlt. rewrite (says_parse size psize SZ) by lia.
  destruct (cut_chunks psize ltac:(lia) (N.to_nat (N.of_nat (length stdin) / psize)) stdin ltac:(lia)) as (chunks & rest & E & L & F & LR & Nth).
  set (len := ((18 + psize) mod u16_mod)%N).
  assert (CL : checked Release u16_mod (4 + 10 + 4 + psize) = Ret len).
  { rewrite checked_ok by now left. unfold len. destruct (N.ltb_spec (4 + 10 + 4 + psize) u16_mod); [rewrite N.mod_small|]; f_equal; lia. }
  assert (LC : length chunks <= length stdin).
  { rewrite E at 1. rewrite app_length. clear - F Hp. induction F as [|c cs Q F IH]; [cbn; lia|]. cbn [concat length]. rewrite app_length. lia. }
  replace fuel with (length chunks + (fuel - length chunks)) by lia.
  destruct (dd_loop_prefix v A Release e a psize len rest CL chunks 0 lw_new (fuel - length chunks) new_ok F ltac:(reflexivity) ltac:(now left)) as (w' & _ & Ew & D).
  rewrite <- E in D. rewrite D. destruct (fuel - length chunks) as [|f] eqn:Ff; [lia|]. cbn [dd_loop].
  destruct (Nat.ltb_spec (length rest) (N.to_nat psize)); [|lia].
  exists (wiresw v A e a len 0 chunks). rewrite Ew, wiresw_length. split; [reflexivity|]. split; [apply (f_equal N.of_nat) in L; rewrite N2Nat.id in L; exact L|].
  now apply wiresw_output.
Qed.
Print Assumptions C74_release.

(** A debug build crashes with sizes above 65517, and after 42949673 messages, in the middle of the
    next one (20 bytes of it have been written). *)
Lemma debug_stops v A e a psize count buf w : lw_ok w -> (psize <= 65517)%N -> (u32_mod <= count * 100)%N ->
  exists w', dd_message v A Debug (quad_bytes e) (quad_bytes a) psize count buf w = (w', None) /\
    at_exit w' = at_exit w ++ firstn 20 (wire A e a (18 + psize) count []).
Proof.
  intros OK Hp HC. unfold dd_message. rewrite !quad_ok. cbn [obind]. rewrite (checked_len Debug psize Hp). cbn [obind].
  assert (T : checked Debug u32_mod (count * 100) = Panic).
  { unfold checked. destruct (N.ltb_spec (count * 100) u32_mod); [lia|reflexivity]. }
  rewrite T. set (shb := storage_header_as_bytes _). set (hb := std_header_as_bytes _).
  destruct (write_spec v w shb OK) as [E1 OK1]. destruct (write_spec v _ hb OK1) as [E2 OK2].
  eexists. split; [reflexivity|]. rewrite E2, E1.
  rewrite (accepted_fits v hb), (accepted_fits v shb); try (apply small_fits; vm_compute; destruct e; destruct a; cbn; lia).
  rewrite <- !app_assoc. f_equal. unfold shb, hb, wire.
  unfold storage_header_as_bytes, storage_header_new, std_header_as_bytes, std_header_new.
  cbn [pattern secs msecs ecu header_type message_counter std_length].
  rewrite us_bytes by (apply N.mod_lt; discriminate).
  change (htyp_new true false false false true x01) with x31. destruct e. reflexivity.
Qed.
Theorem C74_debug : forall v A (e a : quad) psize size more stdin fuel, says size psize -> (psize < 65536)%N ->
  ((65517 < psize)%N -> (psize <= N.of_nat (length stdin))%N -> 0 < fuel ->
     dd_dlt v fuel A Debug (quad_bytes e :: quad_bytes a :: size :: more) stdin = Ret ([], DdPanic)) /\
  ((1 <= psize <= 65517)%N -> (N.of_nat (length stdin) / psize <= 42949673)%N -> length stdin < fuel ->
     exists ms, dd_dlt v fuel A Debug (quad_bytes e :: quad_bytes a :: size :: more) stdin =
         Ret (concat ms, DdDone (N.of_nat (length ms))) /\
       N.of_nat (length ms) = (N.of_nat (length stdin) / psize)%N /\ dd_output v A e a psize stdin ms) /\
  ((psize <= 65517)%N -> (42949674 * psize <= N.of_nat (length stdin))%N -> (42949674 < N.of_nat fuel)%N ->
     exists ms next, dd_dlt v fuel A Debug (quad_bytes e :: quad_bytes a :: size :: more) stdin =
         Ret (concat ms ++ firstn 20 next, DdPanic) /\
       N.of_nat (length ms) = 42949673%N /\ dd_output v A e a psize stdin ms /\
       dd_wire e a (create_message_type A true (TypeLog LogInfo)) psize (length ms) [] next).
Proof.
  intros v A e a psize size more stdin fuel SZ Hp. unfold dd_dlt. rewrite (says_parse size psize SZ) by lia. split; [|split].
  - intros H1 H2 Hf. destruct fuel as [|fuel]; [lia|]. cbn [dd_loop]. destruct (Nat.ltb_spec (length stdin) (N.to_nat psize)); [lia|].
    unfold dd_message. rewrite !quad_ok. cbn [obind]. unfold checked at 1.
    destruct (N.ltb_spec (4 + 10 + 4 + psize) u16_mod) as [Q|_]; [unfold u16_mod in Q; lia|]. reflexivity.
  - intros H1 H2 Hf.
    destruct (cut_chunks psize ltac:(lia) (N.to_nat (N.of_nat (length stdin) / psize)) stdin ltac:(lia)) as (chunks & rest & E & L & F & LR & Nth).
    pose proof (checked_len Debug psize ltac:(lia)) as CL.
    assert (LC : length chunks <= length stdin).
    { rewrite E at 1. rewrite app_length. clear - F H1. induction F as [|c cs Q F IH]; [cbn; lia|]. cbn [concat length]. rewrite app_length. lia. }
    replace fuel with (length chunks + (fuel - length chunks)) by lia.
    destruct (dd_loop_prefix v A Debug e a psize (18 + psize) rest CL chunks 0 lw_new (fuel - length chunks) new_ok F ltac:(reflexivity)) as (w' & _ & Ew & D).
    { right. unfold u32_mod. lia. }
    rewrite <- E in D. rewrite D. destruct (fuel - length chunks) as [|f] eqn:Ff; [lia|]. cbn [dd_loop].
    destruct (Nat.ltb_spec (length rest) (N.to_nat psize)); [|lia].
    exists (wiresw v A e a (18 + psize) 0 chunks). rewrite Ew, wiresw_length. split; [|split; [apply (f_equal N.of_nat) in L; rewrite N2Nat.id in L; exact L|]].
    + do 2 f_equal. unfold wrap. rewrite N.add_0_l, N.mod_small; [reflexivity|unfold u32_mod; lia].
    + apply wiresw_output; [exact Nth|]. rewrite N.mod_small; [reflexivity|unfold u16_mod; lia].
  - intros H1 H2 Hf. pose proof (checked_len Debug psize ltac:(lia)) as CL.
    assert (CC : exists chunks rest, stdin = concat chunks ++ rest /\ N.of_nat (length chunks) = 42949673%N /\
      Forall (fun c => N.of_nat (length c) = psize) chunks /\ (psize <= N.of_nat (length rest))%N /\
      forall i c, nth_error chunks i = Some c -> c = firstn (N.to_nat psize) (skipn (i * N.to_nat psize) stdin)).
    { destruct (N.eq_dec psize 0) as [->|Np].
      - exists (repeat [] (N.to_nat 42949673)), stdin. split; [|split; [|split; [|split; [lia|]]]].
        + generalize (N.to_nat 42949673). induction n as [|n IH]; [reflexivity|exact IH].
        + rewrite repeat_length. lia.
        + apply Forall_forall. intros c Ic. apply repeat_spec in Ic. subst c. reflexivity.
        + intros i c Ic. apply nth_error_In, repeat_spec in Ic. subst c. reflexivity.
      - destruct (cut_chunks psize ltac:(lia) (N.to_nat (N.of_nat (length stdin) / psize)) stdin ltac:(lia)) as (chunks & rest & E & L & F & LR & Nth).
        assert (Q : (42949674 <= N.of_nat (length stdin) / psize)%N) by (apply N.div_le_lower_bound; lia).
        remember (N.to_nat 42949673) as k eqn:Ek. assert (Hk : k < length chunks) by lia.
        exists (firstn k chunks), (concat (skipn k chunks) ++ rest). split; [|split; [|split; [|split]]].
        + rewrite app_assoc, <- concat_app, firstn_skipn. exact E.
        + rewrite firstn_length. lia.
        + apply Forall_forall. intros c Ic. rewrite Forall_forall in F. apply F. rewrite <- (firstn_skipn k chunks). apply in_app_iff. now left.
        + destruct (skipn k chunks) as [|c cs] eqn:Sk; [apply (f_equal (@length bytes)) in Sk; rewrite skipn_length in Sk; cbn in Sk; lia|].
          cbn [concat]. rewrite !app_length. assert (Ic : In c chunks) by (rewrite <- (firstn_skipn k chunks), Sk; apply in_app_iff; right; now left).
          rewrite Forall_forall in F. specialize (F c Ic). lia.
        + intros i c Ic. apply Nth. rewrite <- (firstn_skipn k chunks). rewrite nth_error_app1; [exact Ic|]. apply nth_error_Some. congruence. }
    destruct CC as (chunks & rest & E & L & F & LR & Nth).
    replace fuel with (length chunks + (fuel - length chunks)) by lia.
    destruct (dd_loop_prefix v A Debug e a psize (18 + psize) rest CL chunks 0 lw_new (fuel - length chunks) new_ok F ltac:(reflexivity)) as (w' & OK' & Ew & D).
    { right. unfold u32_mod. lia. }
    rewrite <- E in D. rewrite D. destruct (fuel - length chunks) as [|f] eqn:Ff; [lia|]. cbn [dd_loop].
    destruct (Nat.ltb_spec (length rest) (N.to_nat psize)); [lia|].
    assert (WC : wrap (0 + N.of_nat (length chunks)) = 42949673%N) by (rewrite N.add_0_l, L; reflexivity). rewrite WC.
    destruct (debug_stops v A e a psize 42949673 (firstn (N.to_nat psize) rest) w' OK' H1) as (w2 & -> & E2); [unfold u32_mod; lia|].
    exists (wiresw v A e a (18 + psize) 0 chunks), (wire A e a (18 + psize) 42949673 []).
    rewrite E2, Ew, wiresw_length. split; [reflexivity|]. split; [exact L|]. split.
    + apply wiresw_output; [exact Nth|]. rewrite N.mod_small; [reflexivity|unfold u16_mod; lia].
    + pose proof (wire_dd A e a psize (length chunks) []) as W. rewrite L in W. change (wrap 42949673) with 42949673%N in W.
      rewrite N.mod_small in W; [exact W|unfold u16_mod; lia].
Qed.
Print Assumptions C74_debug.
Example C74_example : exists ms, dd_dlt TakesSome 20 addrs Release [quad_bytes quad_ECU1; quad_bytes quad_ECU1; ten] (m1 ++ m2) = Ret (concat ms, DdDone 6) /\
  map (@length byte) ms = repeat 44 6 /\ map (skipn 34) ms = map (fun k => firstn 10 (skipn (10 * k) (m1 ++ m2))) (seq 0 6).
Proof.
  exists (map (fun k => firstn 44 (skipn (44 * k) recorded)) (seq 0 6)). split; [vm_compute; reflexivity|]. split; vm_compute; reflexivity.
Qed.
