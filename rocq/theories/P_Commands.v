(** Property theorems C44, C45, C52-C54: ripdlt's commands as a whole. *)
From Coq Require Import String.
From Verif Require Import Base DltModel MatchModel GenModel ToolsModel MainModel Spec Samples BaseFacts DltFacts CodecFacts ParseFacts
  FindFacts IterFacts DltIterFacts LayoutFacts GrepFacts GrepTools PartitionFacts GenFacts GroupFacts MapFacts MergeFacts TreeFacts ToolFacts
  Utf8Facts CommandFacts TotalFacts HelloRegex P_Partition P_Gen P_Tools.
From Coq Require Import Sorted Permutation.

(** A machine with two cores on which every file has the given content. *)
Definition lab (content : bytes) : machine := {|
  fs := fun _ => {| file_content := content; file_open_err := false; file_map_err := false; file_read_err := None |};
  cores := 2; sched := sched_right; find_at := find_hw |}.
Lemma lab_machine content : 0 < cores (lab content) /\ fair_sched (sched (lab content)) /\
  leftmost (h_star_world one_line) (find_at (lab content)).
Proof. split; [cbn; lia|]. split; [exact sched_right_fair|exact find_hw_leftmost]. Qed.

(** C37: periods that split_timestamp has merged do not end before they start, either, and its table is computed for
    every file. *)
Theorem C37_merged : forall (es : list storage_entry) gs, groupby_iter secs_pred es = Ret gs ->
  exists out, (exists n, forall fuel, n <= fuel ->
    run_reduce (ReducerOver Collect (Adapter MergeOverlapping NilAdapter fuel) fuel) ([], (([], None), tt)) gs = Ret out) /\
  forall a z, In (a, z) out -> (secs_of a <= secs_of z)%N /\ secs_delta (a, z) = Ret (secs_of z - secs_of a)%N.
Proof.
  intros es gs G. destruct (C37_seconds es) as (gs' & G' & P). rewrite G in G'. injection G' as <-.
  destruct (C38_merge_coverage_partial gs) as (out & (n & R) & _ & F & _).
  { apply Forall_forall. intros [a z] I. now apply P. }
  exists out. split.
  - exists n. intros fuel H. rewrite R by exact H. apply C40_collect.
  - rewrite Forall_forall in F. intros a z I. pose proof (F _ I) as L. split; [exact L|exact (secs_delta_ret (a, z) L)].
Qed.
Print Assumptions C37_merged.
Theorem C37_split_timestamp : forall (b : bytes) fuel, length b + 5 <= fuel -> exists m, timestamp_splitit fuel b = Ret m.
Proof. intros b fuel. apply tsplit_ret. Qed.
Print Assumptions C37_split_timestamp.

(** C44: ten of the commands process every file ... *)
Theorem C44_any_file_partial : forall (M : machine) dotstar (b : bytes) name,
  0 < cores M -> leftmost (h_star_world dotstar) (find_at M) -> (N.of_nat (length b) < 2 ^ 64 - 1)%N ->
  In name ["count"; "par_count"; "histogram_timestamp"; "par_histogram_timestamp"; "histogram_message_size";
           "histogram_hello_world"; "count_hello_world_raw"; "count_hello_world_grepit";
           "par_count_hello_world_raw"; "par_count_hello_world_grepit"]%string ->
  exists lines, run_command M name b = Ret lines.
Proof. intros M ds b name Hc LM Hb. exact (robust_ret M b Hc ds name LM Hb). Qed.
Print Assumptions C44_any_file_partial.

(** ... eight more every file whose messages hold the fields that they announce ... *)
Theorem C44_complete_partial : forall (M : machine) (b : bytes) name,
  0 < cores M -> all_complete b ->
  In name ["histogram_lifecycles"; "histogram_message_type"; "histogram_payload_size"; "count_hello_world";
           "par_count_hello_world"; "iter"; "par_iter"; "itertools"]%string ->
  exists lines, run_command M name b = Ret lines.
Proof. intros M b name Hc C. exact (complete_ret M b Hc C name). Qed.
Print Assumptions C44_complete_partial.

(** ... and three, if moreover the ECU ids in the storage headers are text. *)
Theorem C44_text_partial : forall (M : machine) (b : bytes) name,
  0 < cores M -> fair_sched (sched M) -> all_complete b -> all_ecu_text b ->
  In name ["split_lifecycles"; "split_timestamp"; "par_split_timestamp"]%string ->
  exists lines, run_command M name b = Ret lines.
Proof. intros M b name Hc FM C T. exact (text_ret M b Hc C T name FM). Qed.
Print Assumptions C44_text_partial.

(** Otherwise they crash: a message that is too short, and an ECU id that is not UTF-8. *)
Definition m_latin : bytes := sample_storage x0e (Quad x4d xfc x31 x00) ++ [x20; x06; x00; x04].
Lemma m_latin_valid : valid_message m_latin.  Proof. vm_compute. repeat split; lia. Qed.
(** Announces a timestamp and an ECU id, and holds one byte. *)
Definition m_short_ts : bytes := sample_storage x0e quad_ECU1 ++ [x34; x06; x00; x05; xaa].
Lemma m_short_ts_valid : valid_message m_short_ts.  Proof. vm_compute. repeat split; lia. Qed.
Definition crash_file (name : string) : list bytes :=
  if existsb (String.eqb name) ["split_timestamp"; "par_split_timestamp"]%string then repeat m_latin 12
  else if existsb (String.eqb name) ["histogram_message_type"; "histogram_payload_size"; "count_hello_world"; "par_count_hello_world"]%string
  then repeat m_short 12 else repeat m_short_ts 12.
Theorem C44_refuted : forall name,
  In name ["histogram_lifecycles"; "histogram_message_type"; "histogram_payload_size"; "count_hello_world";
           "par_count_hello_world"; "iter"; "par_iter"; "itertools"; "split_lifecycles"; "split_timestamp"; "par_split_timestamp"]%string ->
  exists ms, Forall valid_message ms /\ run_command (lab []) name (concat ms) = Panic.
Proof.
  intros name I. exists (crash_file name). split.
  - unfold crash_file.
    destruct (existsb _ _); [|destruct (existsb _ _)]; apply Forall_forall; intros m Im; apply repeat_spec in Im; subst m;
      [exact m_latin_valid|exact m_short_valid|exact m_short_ts_valid].
  - repeat (destruct I as [<-|I]; [vm_compute; reflexivity|]). destruct I.
Qed.
Print Assumptions C44_refuted.

(** Deciding a statement about every message in a file. *)
Lemma messages_check (P : bytes -> Prop) (p : bytes -> bool) b : (forall m, p m = true -> P m) ->
  forallb (fun k => implb (is_prefix the_pattern (skipn k b)) (p (firstn (16 + N.to_nat (u16_at (skipn k b) 18)) (skipn k b))))
    (seq 0 (length b)) = true ->
  forall k m, message_at b k m -> P m.
Proof.
  intros HP H k m [(V1 & V2 & V3) (pre & post & -> & <-)]. rewrite forallb_forall in H.
  specialize (H (length pre)). rewrite in_seq, !app_length in H. specialize (H ltac:(lia)).
  rewrite skipn_app, skipn_all, Nat.sub_diag in H. cbn [app skipn] in H.
  replace (is_prefix the_pattern (m ++ post)) with true in H.
  2:{ symmetry. apply is_prefix_app. exists (skipn 4 m ++ post). rewrite <- V1, app_assoc. now rewrite firstn_skipn. }
  cbn [implb] in H. apply HP.
  assert (U : u16_at (m ++ post) 18 = u16_at m 18).
  { unfold u16_at, byte_at. now rewrite !app_nth1 by lia. }
  rewrite U, V3, Nat2N.id in H. replace (16 + (length m - 16)) with (length m) in H by lia.
  now rewrite firstn_app, firstn_all, Nat.sub_diag, app_nil_r in H.
Qed.
Definition good_file : bytes := concat [m2; m1; m3; m_nested; m1].
Example C44_example : all_complete good_file /\ all_ecu_text good_file /\
  forall name, In name
    ["count"; "par_count"; "histogram_timestamp"; "par_histogram_timestamp"; "histogram_message_size";
     "histogram_hello_world"; "count_hello_world_raw"; "count_hello_world_grepit"; "par_count_hello_world_raw"; "par_count_hello_world_grepit";
     "histogram_lifecycles"; "histogram_message_type"; "histogram_payload_size"; "count_hello_world";
     "par_count_hello_world"; "iter"; "par_iter"; "itertools"; "split_lifecycles"; "split_timestamp"; "par_split_timestamp"]%string ->
  exists lines, run_command (lab []) name good_file = Ret lines.
Proof.
  assert (C : all_complete good_file).
  { intros k m. apply (messages_check complete (fun m => 20 + announced (nth 16 m x00) + (if flag (nth 16 m x00) 0 then 10 else 0) <=? length m)).
    - intros m' L. now apply Nat.leb_le in L.
    - vm_compute. reflexivity. }
  assert (T : all_ecu_text good_file).
  { intros k m. apply (messages_check (fun m => utf8_text (firstn 4 (skipn 12 m))) (fun m => from_utf8_ok (firstn 4 (skipn 12 m)))).
    - intros m'. apply from_utf8_exact.
    - vm_compute. reflexivity. }
  split; [exact C|]. split; [exact T|]. intros name I. destruct (lab_machine []) as (H1 & H2 & H3).
  do 10 (destruct I as [<-|I]; [apply (C44_any_file_partial _ one_line); [exact H1|exact H3|vm_compute; reflexivity|cbn; tauto]|]).
  do 8 (destruct I as [<-|I]; [apply C44_complete_partial; [exact H1|exact C|cbn; tauto]|]).
  apply C44_text_partial; [exact H1|exact H2|exact C|exact T|exact I].
Qed.

(** C45: on one core the parallel histogram is the sequential one, for every file ... *)
Lemma partition_one b : partition_from DLT b 1 = Ret (match b with [] => [] | _ => [b] end).
Proof.
  unfold partition_from. cbn [Nat.eqb]. rewrite Nat.div_1_r. cbn [partition_loop].
  destruct (Nat.ltb_spec (length b) 0); [lia|]. destruct (Nat.ltb_spec (length b) (length b)); [lia|]. cbn [orb].
  assert (N : contained_by DLT (S (length b)) b (length b) (length b + 1) = Ret None).
  { cbn [contained_by]. destruct (Nat.leb_spec (length b) (length b + 1)); [|lia]. now rewrite !Bool.orb_true_r. }
  rewrite N. cbn [obind]. destruct b as [|x b]; [reflexivity|]. destruct (Nat.leb_spec (length (x :: b)) 0); [cbn in *; lia|].
  destruct (Nat.leb_spec (length (x :: b)) (length (x :: b) + length (x :: b) / 4)); [|lia]. reflexivity.
Qed.
Theorem C45_one_core_partial : forall (s : scheduler) (b : bytes), fair_sched s ->
  par_continuous_timestamp_histogram s 1 b = continuous_timestamp_histogram b.
Proof.
  intros s b F. destruct (C42_parallel_histogram s s 1 b F F (le_n 1)) as (sl & hs & h & E & FH & P & _ & A & KS & U).
  rewrite P. rewrite partition_one in E. destruct (continuous_ret b) as [h0 E0]. rewrite E0. f_equal.
  destruct (dltit_total b) as (l & El & _). destruct (continuous_spec b l El) as (h1 & E1 & (S1 & _)).
  assert (h1 = h0) by congruence. subst h1.
  apply (sorted_ext N.compare N_order); [exact A|exact S1|]. intros k.
  assert (U' : under N.eq_dec k h = under N.eq_dec k h0 /\ (In k (map fst h) <-> In k (map fst h0))).
  { destruct b as [|x b].
    - injection E as <-. inversion FH; subst. vm_compute in E0. injection E0 as <-. split; [exact (U k)|].
      rewrite KS. split; [intros (h' & [] & _)|intros []].
    - injection E as <-. inversion FH as [|? h1 ? ? X1 X2]; subst. inversion X2; subst.
      assert (h1 = h0) by congruence. subst h1. split; [rewrite U; cbn; lia|].
      rewrite KS. split; [intros (h' & [<-|[]] & I); exact I|intros I; exists h0; split; [now left|exact I]]. }
  destruct U' as [U1 U2]. rewrite !(under_tally N.compare N_order) in U1 by assumption. unfold tally in U1.
  assert (G : forall h : list (N * nat), sorted N.compare h -> (map_get N.compare k h = None <-> ~ In k (map fst h)))
    by (intros h' Sh; exact (get_none N.compare N_order k h' Sh)).
  destruct (map_get N.compare k h) eqn:G1, (map_get N.compare k h0) eqn:G2; try congruence.
  - apply (G _ S1) in G2. exfalso. apply G2, U2. apply (get_in N.compare N_order) in G1; [|exact A]. now apply (in_map fst) in G1.
  - apply (G _ A) in G1. exfalso. apply G1, U2. apply (get_in N.compare N_order) in G2; [|exact S1]. now apply (in_map fst) in G2.
Qed.
Print Assumptions C45_one_core_partial.

(** ... and if the partitions cover a well-formed file, it counts at least as many periods, and at
    most one more per additional partition (a period that is cut counts twice). *)
Lemma under_cons {K} (dec : forall a b : K, {a = b} + {a <> b}) k k1 v (h : list (K * nat)) :
  under dec k ((k1, v) :: h) = (if dec k1 k then v else 0) + under dec k h.
Proof. unfold under. cbn [filter fst]. destruct (dec k1 k); reflexivity. Qed.
Lemma sum_add {A} (f g : A -> nat) l : list_sum (map (fun x => f x + g x) l) = list_sum (map f l) + list_sum (map g l).
Proof. induction l as [|x l IH]; [reflexivity|]. cbn [map list_sum fold_right] in *. unfold list_sum in IH. lia. Qed.
Lemma sum_single {K} (dec : forall a b : K, {a = b} + {a <> b}) k1 v (ks : list K) : NoDup ks -> In k1 ks ->
  list_sum (map (fun k => if dec k1 k then v else 0) ks) = v.
Proof.
  assert (Z : forall ks, ~ In k1 ks -> list_sum (map (fun k => if dec k1 k then v else 0) ks) = 0).
  { induction ks0 as [|k ks0 IH]; intros NI; [reflexivity|]. cbn [map list_sum fold_right].
    destruct (dec k1 k) as [->|]; [exfalso; apply NI; now left|]. apply IH. intros J. apply NI. now right. }
  induction ks as [|k ks IH]; intros ND I; [destruct I|]. inversion ND; subst. cbn [map list_sum fold_right].
  change (fold_right Nat.add 0) with list_sum. destruct (dec k1 k) as [->|NE]; [rewrite Z by assumption; lia|].
  destruct I as [->|I]; [congruence|]. now apply IH.
Qed.
Lemma counts_under {K} (dec : forall a b : K, {a = b} + {a <> b}) (ks : list K) h : NoDup ks -> incl (map fst h) ks ->
  counts h = list_sum (map (fun k => under dec k h) ks).
Proof.
  intros ND. induction h as [|[k1 v] h IH]; intros I.
  - change (counts (@nil (K * nat))) with 0. clear. induction ks as [|k ks IH]; [reflexivity|exact IH].
  - assert (Q : counts ((k1, v) :: h) = v + counts h) by reflexivity. rewrite Q.
    rewrite (map_ext _ (fun k => (if dec k1 k then v else 0) + under dec k h)) by (intros; apply under_cons).
    rewrite sum_add, (sum_single dec k1 v ks ND) by (apply I; now left).
    f_equal. apply IH. intros x J. apply I. now right.
Qed.
Lemma sum_swap {A B} (f : A -> B -> nat) (l : list A) (l' : list B) :
  list_sum (map (fun a => list_sum (map (f a) l')) l) = list_sum (map (fun b => list_sum (map (fun a => f a b) l)) l').
Proof.
  induction l as [|a l IH]; cbn [map list_sum fold_right]; change (fold_right Nat.add 0) with list_sum.
  - clear. induction l' as [|b l' IH]; [reflexivity|exact IH].
  - rewrite IH. symmetry. apply (sum_add (f a) (fun b => list_sum (map (fun a0 => f a0 b) l))).
Qed.
Lemma counts_sum {K} (dec : forall a b : K, {a = b} + {a <> b}) (h : list (K * nat)) hs : NoDup (map fst h) ->
  (forall k, In k (map fst h) <-> exists h', In h' hs /\ In k (map fst h')) ->
  (forall k, under dec k h = list_sum (map (under dec k) hs)) ->
  counts h = list_sum (map counts hs).
Proof.
  intros ND KS U. rewrite (counts_under dec (map fst h) h ND (incl_refl _)).
  rewrite (map_ext _ (fun k => list_sum (map (fun h' => under dec k h') hs))) by exact U.
  rewrite (sum_swap (fun k h' => under dec k h')). f_equal. apply map_ext_in. intros h' I. symmetry.
  apply (counts_under dec (map fst h) h' ND). intros k Ik. apply KS. now exists h'.
Qed.
Lemma secs_rel_refl e : secs_rel e e = true.
Proof. apply N.leb_refl. Qed.

Theorem C45_counts_partial : forall (s : scheduler) parts last num l,
  fair_sched s -> enclosed parts last -> at_most 65536 parts -> 0 < num ->
  partition_from DLT (layout parts last) num = Ret l -> concat l = layout parts last ->
  exists h h', continuous_timestamp_histogram (layout parts last) = Ret h /\
    par_continuous_timestamp_histogram s num (layout parts last) = Ret h' /\
    counts h <= counts h' <= counts h + (length l - 1).
Proof.
  intros s parts last num l F EN MX Hn E CV.
  destruct (C42_parallel_histogram s s num (layout parts last) F F Hn) as (l' & hs & h' & E' & FH & P & _ & A & KS & U).
  assert (l' = l) by congruence. subst l'.
  destruct (partition_entries parts last num l EN MX E) as (ess & rest & FE & Q & R). specialize (R CV). subst rest. rewrite app_nil_r in Q.
  destruct (layout_entries parts last EN) as (it & Eit & Mit). destruct (continuous_spec _ it Eit) as (h & Eh & H).
  exists h, h'. split; [exact Eh|]. split; [exact P|].
  destruct (hist_of_totals _ _ H) as [C _]. rewrite C. unfold durations. rewrite map_length, Mit, Q.
  rewrite (counts_sum N.eq_dec h' hs (ascending_nodup N.compare N_order _ A) KS U).
  assert (X : map counts hs = map (runs secs_rel) ess).
  { clear - FH FE. revert hs FH. induction FE as [|sl es l ess (it & E1 & E2) FE IH]; intros hs FH; inversion FH as [|? h0 ? hs' X1 X2]; subst; [reflexivity|].
    cbn [map]. f_equal; [|now apply IH]. destruct (continuous_spec sl it E1) as (h1 & E3 & H1). assert (h1 = h0) by congruence. subst h1.
    destruct (hist_of_totals _ _ H1) as [C _]. rewrite C. unfold durations, runs. now rewrite map_length. }
  rewrite X. pose proof (runs_concat secs_rel ess secs_rel_refl) as [R1 R2]. unfold runs in R1 at 1, R2 at 2. split; [exact R1|].
  replace (length l) with (length ess); [exact R2|]. clear - FE. induction FE; cbn; congruence.
Qed.
Print Assumptions C45_counts_partial.

Lemma rep_enclosed : enclosed (rep m1 20) [] /\ at_most 65536 (rep m1 20).
Proof.
  split.
  - apply enclosed_check; [|vm_compute; reflexivity]. apply Forall_forall. intros p I. apply repeat_spec in I. subst. exact m1_valid.
  - apply Forall_forall. intros p I. apply repeat_spec in I. subst. vm_compute. discriminate.
Qed.
(** One period, counted twice: 20 messages of the same second on two cores. *)
Theorem C45_refuted : enclosed (rep m1 20) [] /\ at_most 65536 (rep m1 20) /\
  (exists l, partition_from DLT (layout (rep m1 20) []) 2 = Ret l /\ concat l = layout (rep m1 20) []) /\
  continuous_timestamp_histogram (layout (rep m1 20) []) = Ret [(0%N, 1)] /\
  par_continuous_timestamp_histogram sched_right 2 (layout (rep m1 20) []) = Ret [(0%N, 2)].
Proof.
  destruct rep_enclosed as [H1 H2]. split; [exact H1|]. split; [exact H2|].
  split; [eexists; split; [vm_compute; reflexivity|]; vm_compute; reflexivity|]. split; vm_compute; reflexivity.
Qed.
Print Assumptions C45_refuted.

(** C52: messages per ECU. *)
Theorem C52_ecu_counts_partial : forall (s : scheduler) parts last num fuel,
  fair_sched s -> enclosed parts last -> at_most 65536 parts -> 0 < num -> length (layout parts last) + 5 <= fuel ->
  exists m m' l, timestamp_splitit fuel (layout parts last) = Ret m /\
    par_timestamp_splitit fuel s num (layout parts last) = Ret m' /\
    partition_from DLT (layout parts last) num = Ret l /\
    (forall k, ecu_messages k m = length (filter (fun p => if quad_dec (ecu_of (entry_of (snd p))) k then true else false) parts)) /\
    (forall k, ecu_messages k m' <= ecu_messages k m) /\
    (concat l = layout parts last -> forall k, ecu_messages k m' = ecu_messages k m).
Proof.
  intros s parts last num fuel F EN MX Hn Hf.
  destruct (C42_parallel_split s s num fuel _ F F Hn Hf) as (l & ms & m' & E & FM & P & _ & A & U & _).
  destruct (partition_entries parts last num l EN MX E) as (ess & rest & FE & Q & R).
  destruct (layout_entries parts last EN) as (it & Eit & Mit).
  destruct (tsplit_ret fuel (layout parts last) Hf) as [m Em]. exists m, m', l.
  split; [exact Em|]. split; [exact P|]. split; [exact E|].
  assert (G : forall b it m, dltit_offset b = Ret it -> timestamp_splitit fuel b = Ret m ->
    forall k, ecu_messages k m = length (filter (fun e => if quad_dec (ecu_of e) k then true else false) (map snd it))).
  { intros b it0 m0 E0 Em0 k. destruct (dltit_total b) as (it1 & E1 & E1'). assert (it1 = it0) by congruence. subst it1.
    destruct fuel as [|f]; [lia|]. destruct (C43_split_timestamp b f _ m0 E1' Em0) as (A0 & K0 & X0 & _). unfold ecu_messages.
    set (tab := map (fun kx : quad * (list (N * nat) * nat) => (fst kx, snd (snd kx))) m0).
    assert (FT : map fst tab = map fst m0) by (unfold tab; rewrite map_map; reflexivity).
    destruct (in_dec quad_dec k (map fst m0)) as [I|NI].
    - assert (I' := I). rewrite <- FT in I'. apply in_map_iff in I'. destruct I' as ([k' n] & Ek & I'). cbn in Ek. subst k'.
      assert (Hn' : n = length (filter (fun e => if quad_dec (ecu_of e) k then true else false) (map snd it0))).
      { unfold tab in I'. apply in_map_iff in I'. destruct I' as ([k' x] & [= <- <-] & I'). exact (X0 _ _ I'). }
      rewrite <- Hn'. rewrite (under_tally quad_cmp quad_order) by (unfold sorted; rewrite FT; exact A0). unfold tally.
      apply (get_in quad_cmp quad_order) in I'; [now rewrite I'|]. unfold sorted. rewrite FT. exact A0.
    - rewrite under_absent by now rewrite FT. symmetry.
      destruct (filter (fun e => if quad_dec (ecu_of e) k then true else false) (map snd it0)) as [|e es] eqn:Fe; [reflexivity|].
      exfalso. apply NI, K0. assert (I : In e (e :: es)) by now left. rewrite <- Fe in I. apply filter_In in I. destruct I as [I1 I2].
      destruct (quad_dec (ecu_of e) k) as [<-|]; [now apply in_map|discriminate]. }
  assert (GM : forall k, ecu_messages k m = length (filter (fun e => if quad_dec (ecu_of e) k then true else false) (concat ess ++ rest))).
  { intros k. rewrite (G _ it m Eit Em k), Mit. now rewrite Q. }
  assert (GP : forall k, ecu_messages k m' = length (filter (fun e => if quad_dec (ecu_of e) k then true else false) (concat ess))).
  { intros k. rewrite U. clear - FM FE G. revert ms FM.
    induction FE as [|sl es l ess (it & E1 & <-) FE IH]; intros ms FM; inversion FM as [|? m0 ? ms' X1 X2]; subst; [reflexivity|].
    cbn [map list_sum fold_right concat]. change (fold_right Nat.add 0) with list_sum. rewrite filter_app, app_length.
    rewrite (G sl it m0 E1 X1 k). f_equal. now apply IH. }
  split; [|split].
  - intros k. rewrite GM, <- Q. clear. induction parts as [|p ps IH]; [reflexivity|]. cbn [map filter snd].
    destruct (quad_dec (ecu_of (entry_of (snd p))) k); cbn [length]; now rewrite <- IH.
  - intros k. rewrite GM, GP, filter_app, app_length. lia.
  - intros CV k. rewrite GM, GP, (R CV), app_nil_r. reflexivity.
Qed.
Print Assumptions C52_ecu_counts_partial.
Theorem C52_refuted : exists m m',
  timestamp_splitit 500 (concat (repeat m1 8)) = Ret m /\
  par_timestamp_splitit 500 sched_right 3 (concat (repeat m1 8)) = Ret m' /\
  ecu_messages quad_ECU1 m = 8 /\ ecu_messages quad_ECU1 m' = 6.
Proof. do 2 eexists. split; [vm_compute; reflexivity|]. split; [vm_compute; reflexivity|]. split; vm_compute; reflexivity. Qed.
Print Assumptions C52_refuted.
Example C52_example : exists m l, enclosed (rep m1 20) [] /\ at_most 65536 (rep m1 20) /\
  partition_from DLT (layout (rep m1 20) []) 2 = Ret l /\ concat l = layout (rep m1 20) [] /\
  par_timestamp_splitit 1000 sched_right 2 (layout (rep m1 20) []) = Ret m /\ ecu_messages quad_ECU1 m = 20.
Proof.
  do 2 eexists. destruct rep_enclosed as [H1 H2]. split; [exact H1|]. split; [exact H2|].
  split; [vm_compute; reflexivity|]. split; [vm_compute; reflexivity|]. split; vm_compute; reflexivity.
Qed.
