(** Property theorem C94: the arithmetic of ripdlt never overflows (vocabulary in WordSpec.v and Spec.v). *)
From Coq Require Import String Permutation.
From Verif Require Import Base DltModel MatchModel GenModel ToolsModel MainModel DdModel WordModel ToolsWord Spec Samples WordSpec CommandSpec BaseFacts DltFacts ParseFacts FindFacts
  IterFacts DltIterFacts PartitionFacts GenFacts GroupFacts MapFacts MergeFacts TreeFacts ToolFacts TotalFacts CommandFacts ExactFacts WordFacts ToolsWordFacts P_Tools P_Commands.
From Coq Require Import ZifyBool ZifyNat ZifyN.

Lemma split_weight fuel b t : length b + 5 <= fuel -> timestamp_splitit fuel b = Ret t -> W t <= length b.
Proof.
  intros L H. destruct (dltit_total b) as (l & El & E). pose proof (entries_count b _ E) as Ln. rewrite map_length in Ln.
  destruct (timestamp_splitit_spec fuel b l El ltac:(lia)) as (t' & Et & _ & _ & R). assert (t' = t) by congruence. subst t'.
  destruct fuel as [|f]; [lia|]. destruct (C43_split_timestamp b f _ t E H) as (_ & _ & _ & C). rewrite map_length in C.
  enough (W t <= 2 * counts (map (fun kx => (fst kx, snd (snd kx))) t)) by lia. clear - R. unfold W, counts. rewrite map_map. cbn [snd].
  induction t as [|[k x] t IH]; [cbn; lia|]. unfold list_sum in *. cbn [map fold_right snd]. specialize (IH (fun k x I => R k x (or_intror I))).
  destruct (R k x (or_introl eq_refl)) as [R1 R2]. destruct (hist_of_totals _ _ R2) as [R3 _]. rewrite map_length in R3. unfold wx. rewrite R3, R1.
  pose proof (periods_len (of_ecu k (map snd l))). unfold period, wx in *. lia.
Qed.

Section Commands.
  Variable m : target.
  Variable M : machine.
  Hypothesis Fs : fair_sched (sched M).
  Variable b : bytes.
  Hypothesis Hb : small m b.
  Lemma smaller s : length s <= length b -> small m s.
  Proof. unfold small, word_len in *. lia. Qed.
  Lemma iterate s : exists es, dltit s = Ret es.
  Proof. destruct (dltit_total s) as (l & _ & ->). now eexists. Qed.
  Lemma slices_words : slices_line_word m M b = slices_line M b.
  Proof. unfold slices_line_word, slices_line. now rewrite partition_words_dlt. Qed.
  Lemma sums_ok : forall x y, (N.of_nat (id x + id y) < usize_mod m)%N -> plus m x y = Ret (x + y).
  Proof. intros x y H. now apply plus_ok. Qed.
  Lemma multithreaded_words (f fw : bytes -> outcome nat) : (forall s, length s <= length b -> fw s = f s) -> (forall s r, length s <= length b -> f s = Ret r -> r <= length s) ->
    multithreaded_word m (sched M) (cores M) fw b = multithreaded (sched M) (cores M) f b.
  Proof.
    intros H1 H2. unfold multithreaded_word, multithreaded. rewrite partition_words_dlt by exact Hb. destruct (partition_from DLT b (cores M)) as [l| |] eqn:E; cbn [obind]; try reflexivity.
    destruct (parallel_words m 0 Nat.add (plus m) id eq_refl (fun _ _ => eq_refl) sums_ok f fw (sched M) l b Fs Hb (pieces _ _ _ E) H1 H2) as [-> R].
    destruct (mapM f l) as [rs| |]; cbn [obind]; try reflexivity. now apply R.
  Qed.
  Lemma par_hist_words : par_continuous_timestamp_histogram_word m (sched M) (cores M) b = par_continuous_timestamp_histogram (sched M) (cores M) b.
  Proof.
    unfold par_continuous_timestamp_histogram_word, par_continuous_timestamp_histogram. rewrite partition_words_dlt by exact Hb.
    destruct (partition_from DLT b (cores M)) as [l| |] eqn:E; cbn [obind]; try reflexivity.
    destruct (parallel_words m [] (hist_merge N.compare) (hist_merge_word m N.compare) counts eq_refl (fun x y => hist_merge_counts _ y x) (fun x y => hist_merge_words m _ y x)
      continuous_timestamp_histogram (continuous_timestamp_histogram_word m) (sched M) l b Fs Hb (pieces _ _ _ E)) as [-> R].
    - intros s Ls. destruct (iterate s) as [es Es]. exact (continuous_words m s (smaller s Ls) es Es).
    - intros s r _. apply continuous_weight.
    - destruct (mapM _ l) as [rs| |]; cbn [obind]; try reflexivity. now apply R.
  Qed.
  Lemma par_keys h : par_continuous_timestamp_histogram (sched M) (cores M) b = Ret h -> Forall (fun kv => fst kv < u32_mod)%N h.
  Proof.
    unfold par_continuous_timestamp_histogram. destruct (partition_from DLT b (cores M)) as [l| |] eqn:E; cbn [obind]; try discriminate.
    destruct (mapM _ l) as [rs| |] eqn:Er; cbn [obind]; try discriminate. intros H. injection H as <-. apply (tree_keys (fun k => (k < u32_mod)%N)).
    apply Forall_forall. intros h I. apply (Permutation_in _ (Fs _ rs)) in I. destruct (mapM_in _ _ _ _ Er I) as (s & _ & Es). now apply continuous_keys in Es.
  Qed.
  Lemma par_split_words : par_timestamp_splitit_word m (finalize_fuel b) (sched M) (cores M) b = par_timestamp_splitit (finalize_fuel b) (sched M) (cores M) b.
  Proof.
    unfold par_timestamp_splitit_word, par_timestamp_splitit. rewrite partition_words_dlt by exact Hb.
    destruct (partition_from DLT b (cores M)) as [l| |] eqn:E; cbn [obind]; try reflexivity.
    destruct (parallel_words m [] split_merge (split_merge_word m) W eq_refl (fun x y => split_merge_W y x) (fun x y => split_merge_words m y x)
      (timestamp_splitit (finalize_fuel b)) (timestamp_splitit_word m (finalize_fuel b)) (sched M) l b Fs Hb (pieces _ _ _ E)) as [-> R].
    - intros s Ls. destruct (iterate s) as [es Es]. apply (timestamp_splitit_words m s (smaller s Ls) es Es); [unfold finalize_fuel; lia|]. now apply (few_fuel m b s).
    - intros s r Ls. apply split_weight. unfold finalize_fuel. lia.
    - destruct (mapM _ l) as [rs| |]; cbn [obind]; try reflexivity. now apply R.
  Qed.
  Lemma iters_words l : list_sum (map (@length byte) l) <= length b ->
    mapM (lifecycle_iter_word m) l = mapM lifecycle_iter l /\ forall rs, mapM lifecycle_iter l = Ret rs -> exists r, reduce_word 0 (plus m) (sched M nat rs) = Ret r.
  Proof.
    intros L. destruct (parallel_words m 0 Nat.add (plus m) id eq_refl (fun _ _ => eq_refl) sums_ok lifecycle_iter (lifecycle_iter_word m) (sched M) l b Fs Hb L) as [E R].
    - intros s Ls. destruct (iterate s) as [es Es]. exact (lifecycle_iter_words m s (smaller s Ls) es Es).
    - intros s r Ls H. destruct (iterate s) as [es Es]. pose proof (entries_count s es Es). unfold lifecycle_iter in H. rewrite Es in H. cbn [obind] in H.
      rewrite (groupby_iter_spec ts_pred ts_rel) in H by (intros; apply ts_pred_rel). cbn [obind] in H. destruct (filterM _ _) as [x| |] eqn:F; try discriminate. injection H as <-.
      apply filterM_len in F. pose proof (grouped_len ts_rel (filter with_ts es)). pose proof (filter_length_le with_ts es). unfold id. lia.
    - split; [exact E|]. intros rs Ers. eexists. now apply R.
  Qed.
  Lemma count_weight s r : count s = Ret r -> r <= length s.
  Proof. intros H. destruct (iterate s) as [es Es]. pose proof (entries_count s es Es). unfold count in H. rewrite Es in H. injection H as <-. lia. Qed.
  Lemma hello_weight s r : count_hello_world s = Ret r -> r <= length s.
  Proof.
    intros H. destruct (iterate s) as [es Es]. pose proof (entries_count s es Es). unfold count_hello_world in H. rewrite Es in H. cbn [obind] in H.
    destruct (filterM _ es) as [x| |] eqn:F; try discriminate. injection H as <-. apply filterM_len in F. lia.
  Qed.
  Lemma raw_weight s r : count_hello_world_raw s = Ret r -> r <= length s.
  Proof.
    intros H. destruct (raw_exact s) as (ks & S & P & Q). rewrite Q in H. injection H as <-.
    assert (Nd : NoDup ks) by (clear - S; induction S as [|x l S IH F]; constructor; [|exact IH]; intros I; rewrite Forall_forall in F; apply F in I; lia).
    assert (IN : incl ks (seq 0 (length s))).
    { intros k I. apply P in I. apply in_seq. destruct I as (u & v & -> & <-). rewrite !app_length. cbn. lia. }
    apply NoDup_incl_length in IN; [|exact Nd]. now rewrite seq_length in IN.
  Qed.
  Lemma grepit_weight s r : count_hello_world_grepit (find_at M) s = Ret r -> r <= length s.
  Proof.
    unfold count_hello_world_grepit. destruct (grep_collect (find_at M) s) as [l| |] eqn:G; cbn [obind]; try discriminate. intros H. injection H as <-.
    pose proof (collect_len _ _ _ _ G). lia.
  Qed.
  (** No bucket of the two commands that print durations in seconds ends at or above 2^32 (2^64). *)
  Definition low (name : string) : Prop := forall h,
    (name = "histogram_timestamp"%string /\ continuous_timestamp_histogram b = Ret h) \/
    (name = "par_histogram_timestamp"%string /\ par_continuous_timestamp_histogram (sched M) (cores M) b = Ret h) ->
    Forall (fun kv => fst kv + 1 < usize_mod m)%N h.
  Lemma run_words name : low name -> run_command_word m M name b = run_command M name b.
  Proof.
    intros Hl. destruct (iterate b) as [es E]. unfold run_command_word, run_command. cbv zeta.
    destruct (name =? "histogram_lifecycles")%string.
    { rewrite (lifecycle_histogram_words m b Hb es E). destruct (lifecycle_histogram b) as [h| |] eqn:Q; cbn [obind]; try reflexivity. rewrite buckets_words by (apply lifecycle_keys in Q; eapply Forall_impl; [|exact Q]; cbn beta; intros; words). reflexivity. }
    destruct (name =? "split_lifecycles")%string.
    { rewrite (lifecycle_splitit_words m b Hb es E); [reflexivity|unfold finalize_fuel; lia|now apply (few_fuel m b b)]. }
    destruct (name =? "split_timestamp")%string.
    { rewrite (timestamp_splitit_words m b Hb es E); [reflexivity|unfold finalize_fuel; lia|now apply (few_fuel m b b)]. }
    destruct (name =? "par_split_timestamp")%string.
    { rewrite slices_words, par_split_words. reflexivity. }
    destruct (name =? "histogram_timestamp")%string eqn:N1.
    { rewrite (continuous_words m b Hb es E). destruct (continuous_timestamp_histogram b) as [h| |] eqn:Q; cbn [obind]; try reflexivity. rewrite buckets_words by (apply Hl; left; split; [now apply String.eqb_eq|exact Q]). reflexivity. }
    destruct (name =? "par_histogram_timestamp")%string eqn:N2.
    { rewrite slices_words, par_hist_words. destruct (slices_line M b) as [sl| |]; cbn [obind]; try reflexivity.
      destruct (par_continuous_timestamp_histogram (sched M) (cores M) b) as [h| |] eqn:Q; cbn [obind]; try reflexivity. rewrite buckets_words by (apply Hl; right; split; [now apply String.eqb_eq|exact Q]). reflexivity. }
    destruct (name =? "histogram_message_type")%string.
    { now rewrite (mstp_words m b Hb es E). }
    assert (Hm : (word_len b < usize_mod m)%N) by (unfold small in Hb; words).
    destruct (name =? "histogram_payload_size")%string.
    { rewrite (payload_words m b Hb es E). destruct (histogram_payload b) as [h| |] eqn:Q; cbn [obind]; try reflexivity. apply payload_total in Q. rewrite print_sizes_words by lia. reflexivity. }
    destruct (name =? "histogram_message_size")%string.
    { rewrite (message_words m b Hb es E). destruct (histogram_message b) as [h| |] eqn:Q; cbn [obind]; try reflexivity. apply message_total in Q. rewrite print_sizes_words by lia. reflexivity. }
    assert (C : forall s, length s <= length b -> count_word m s = count s) by (intros s Ls; destruct (iterate s) as [es' Es]; exact (count_words m s (smaller s Ls) es' Es)).
    assert (H : forall s, length s <= length b -> count_hello_world_word m s = count_hello_world s) by (intros s Ls; destruct (iterate s) as [es' Es]; exact (hello_words m s (smaller s Ls) es' Es)).
    destruct (name =? "count")%string. { now rewrite C. }
    destruct (name =? "par_count")%string. { rewrite slices_words, (multithreaded_words count (count_word m) C); [reflexivity|]. intros s r _. apply count_weight. }
    destruct (name =? "histogram_hello_world")%string.
    { rewrite hello_hist_words by exact Hb. destruct (histogram_hello_world (find_at M) b) as [h| |] eqn:Q; cbn [obind]; try reflexivity. apply hello_keys in Q.
      rewrite (offsets_words m h (word_len b) Hb Q). reflexivity. }
    destruct (name =? "count_hello_world")%string. { now rewrite H. }
    destruct (name =? "count_hello_world_raw")%string. { now rewrite raw_words. }
    destruct (name =? "count_hello_world_grepit")%string. { now rewrite grepit_words. }
    destruct (name =? "par_count_hello_world")%string. { rewrite slices_words, (multithreaded_words count_hello_world (count_hello_world_word m) H); [reflexivity|]. intros s r _. apply hello_weight. }
    destruct (name =? "par_count_hello_world_raw")%string.
    { rewrite slices_words, (multithreaded_words count_hello_world_raw (count_hello_world_raw_word m)); [reflexivity| |]; [intros s Ls; now apply raw_words, smaller|intros s r _; apply raw_weight]. }
    destruct (name =? "par_count_hello_world_grepit")%string.
    { rewrite slices_words, (multithreaded_words (count_hello_world_grepit (find_at M)) (count_hello_world_grepit_word m (find_at M))); [reflexivity| |]; [intros s Ls; now apply grepit_words, smaller|intros s r _; apply grepit_weight]. }
    destruct (name =? "par_iter")%string.
    { rewrite slices_words. destruct (slices_line M b) as [sl| |]; cbn [obind]; try reflexivity. rewrite partition_words_dlt by exact Hb.
      destruct (partition_from DLT b (cores M)) as [l| |] eqn:Q; cbn [obind]; try reflexivity. destruct (iters_words l (pieces _ _ _ Q)) as [-> R].
      destruct (mapM lifecycle_iter l) as [rs| |] eqn:Er; cbn [obind]; try reflexivity. destruct (R rs eq_refl) as [r ->]. reflexivity. }
    destruct (name =? "iter")%string. { now rewrite (lifecycle_iter_words m b Hb es E). }
    destruct (name =? "itertools")%string. { now rewrite (lifecycle_itertools_words m b Hb es E). }
    reflexivity.
  Qed.
End Commands.

(** The two commands with durations in seconds: their buckets start below 2^32. *)
Lemma low_64 m M b name : fair_sched (sched M) -> usize_width m = Bits64 \/ ~ In name ["histogram_timestamp"; "par_histogram_timestamp"]%string -> low m M b name.
Proof.
  intros Fs [W|N] h [[-> H]|[-> H]]; try (exfalso; apply N; cbn; tauto).
  - apply continuous_keys in H. eapply Forall_impl; [|exact H]. cbn beta. intros [k v] L. cbn [fst] in *. unfold usize_mod, bits. rewrite W. unfold u32_mod in L. cbn. lia.
  - apply (par_keys M Fs) in H. eapply Forall_impl; [|exact H]. cbn beta. intros [k v] L. cbn [fst] in *. unfold usize_mod, bits. rewrite W. unfold u32_mod in L. cbn. lia.
Qed.

(** C94.  In either build, on every buffer Rust can hold, with every number of cores, every scheduling of
    the reductions and every regular expression engine: each command gives the same lines and panics in
    the same cases as with unbounded numbers -- on a machine with words of 64 bits.  On one with words of
    32 bits the two commands that print durations in seconds are excepted; what they do there is C133. *)
Theorem C94_command : forall m M name b, fair_sched (sched M) -> (word_len b <= slice_max m)%N ->
  usize_width m = Bits64 \/ ~ In name ["histogram_timestamp"; "par_histogram_timestamp"]%string ->
  run_command_word m M name b = run_command M name b.
Proof. intros m M name b Fs Hb C. apply run_words; [exact Fs|exact Hb|now apply low_64]. Qed.
Print Assumptions C94_command.

(** And so does the whole program, for any files of that size. *)
Theorem C94_program : forall m M args, fair_sched (sched M) -> (forall name, word_len (file_content (fs M name)) <= slice_max m)%N ->
  usize_width m = Bits64 \/ (forall method command name rest, args = method :: command :: name :: rest -> ~ In command ["histogram_timestamp"; "par_histogram_timestamp"]%string) ->
  ripdlt_main_word m M args = ripdlt_main M args.
Proof.
  intros m M args Fs Hf C. unfold ripdlt_main_word, ripdlt_main. destruct args as [|method [|command [|name rest]]]; [reflexivity|reflexivity|reflexivity|].
  assert (L : forall d, load M method name = Ret d -> (word_len (as_slice d) <= slice_max m)%N).
  { intros d. unfold load, mmap_file, read_file. specialize (Hf name). destruct (_ =? "mmap")%string; [|destruct (_ =? "read")%string; [|discriminate]].
    - destruct (file_open_err _); [discriminate|]. destruct (_ || _); [discriminate|]. intros E. injection E as <-. exact Hf.
    - destruct (file_open_err _); [discriminate|]. intros E. injection E as <-. cbn [as_slice]. destruct (file_read_err _) as [k|]; [|exact Hf].
      unfold word_len in *. rewrite firstn_length. lia. }
  destruct (load M method name) as [d| |]; cbn [obind]; [|reflexivity|reflexivity]. rewrite C94_command; [reflexivity|exact Fs|now apply L|].
  destruct C as [C|C]; [now left|right; now apply (C method command name rest)].
Qed.
Print Assumptions C94_program.

(** A command in a release build, with words of either width; and that the model of the release build does wrap around. *)
Example C94_example : fair_sched (sched (lab [])) /\ (forall w, word_len (m1 ++ m2 ++ m1) <= slice_max (Build_target w Release))%N /\
  (forall w, run_command_word (Build_target w Release) (lab []) "count" (m1 ++ m2 ++ m1) = Ret [LCount 3]) /\
  u32_minus (Build_target Bits64 Release) 1 2 = Ret 4294967295%N /\ u32_minus (Build_target Bits64 Debug) 1 2 = Panic /\
  print_sizes_word (Build_target Bits64 Release) [((2 ^ 63)%N, 2)] 0 = Ret [LSize (2 ^ 63) 2 0; LTotal 0] /\
  print_sizes_word (Build_target Bits64 Debug) [((2 ^ 63)%N, 2)] 0 = Panic /\
  print_sizes_word (Build_target Bits32 Release) [((2 ^ 31)%N, 2)] 0 = Ret [LSize (2 ^ 31) 2 0; LTotal 0].
Proof. split; [apply lab_machine|]. repeat split; try (intros []); vm_compute; try reflexivity; discriminate. Qed.
