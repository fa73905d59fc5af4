(** Property theorems C59-C64: exactly what every ripdlt command prints, and exactly when it crashes.
    [es] are the entries that iterating over the file yields (see C11-C16 and C65 for what these are);
    tables, runs, stamps and bodies are defined in CommandSpec.v. *)
From Coq Require Import String.
From Verif Require Import Base DltModel MatchModel GenModel ToolsModel MainModel Spec CommandSpec BaseFacts DltFacts CodecFacts ParseFacts
  FindFacts IterFacts DltIterFacts LayoutFacts GrepFacts GrepTools PartitionFacts GenFacts GroupFacts MapFacts MergeFacts TreeFacts ToolFacts
  Utf8Facts CommandFacts TotalFacts ExactFacts HelloRegex P_Tools P_Commands.
From Verif Require Samples.
From Coq Require Import Sorted Permutation.
Import Samples(m1, m2, m3, m_nested, m_short, m1_valid, m2_valid, m3_valid, quad_ECU1, sample_storage).
Local Open Scope string_scope.
Local Open Scope list_scope.

(** * C59: counts *)
Theorem C59_count : forall (M : machine) (b : bytes) es, dltit b = Ret es ->
  run_command M "count" b = Ret [LCount (length es)].
Proof. intros M b es E. change (run_command M "count" b) with (let* r := ToolsModel.count b in Ret [LCount r]). unfold ToolsModel.count. now rewrite E. Qed.
Print Assumptions C59_count.

Theorem C59_count_hello_world : forall (M : machine) (b : bytes) es, dltit b = Ret es ->
  ((forall e, In e es -> whole e) ->
     exists holds, (forall e, holds e = true <-> occurs_in hello (body e)) /\
       run_command M "count_hello_world" b = Ret [LCount (length (filter holds es))]) /\
  ((exists e, In e es /\ ~ whole e) -> run_command M "count_hello_world" b = Panic).
Proof.
  intros M b es E. change (run_command M "count_hello_world" b) with (let* r := count_hello_world b in Ret [LCount r]).
  destruct (count_hello_world_exact b es E) as [H1 H2]. split.
  - intros W. destruct (H1 W) as (holds & P & ->). exists holds. now split.
  - intros W. now rewrite (H2 W).
Qed.
Print Assumptions C59_count_hello_world.

Theorem C59_count_hello_world_raw : forall (M : machine) (b : bytes),
  exists ks, NoDup ks /\ (forall k, In k ks <-> occurs_at hello b k) /\
    run_command M "count_hello_world_raw" b = Ret [LCount (length ks)].
Proof.
  intros M b. destruct (raw_exact b) as (ks & S & P & E). exists ks. split; [|split; [exact P|]].
  - clear - S. induction S as [|x l S IH F]; constructor; [|exact IH]. intros I. rewrite Forall_forall in F. apply F in I. lia.
  - change (run_command M "count_hello_world_raw" b) with (let* r := count_hello_world_raw b in Ret [LCount r]). now rewrite E.
Qed.
Print Assumptions C59_count_hello_world_raw.

Theorem C59_grepit : forall (M : machine) (b : bytes) items, grep_collect (find_at M) b = Ret items ->
  run_command M "count_hello_world_grepit" b = Ret [LCount (length items)] /\
  exists h, number_table (map (fun i => N.of_nat (fst i) / 100000000)%N items) h /\
    run_command M "histogram_hello_world" b =
      Ret (LHeading "Distribution of 'Hello World' matches:" ::
           map (fun kn => LOffset (100 * fst kn) (100 * fst kn + 100) (snd kn)) h).
Proof.
  intros M b items E. split.
  - change (run_command M "count_hello_world_grepit" b) with (let* r := count_hello_world_grepit (find_at M) b in Ret [LCount r]).
    unfold count_hello_world_grepit. now rewrite E.
  - change (run_command M "histogram_hello_world" b) with
      (let* h := histogram_hello_world (find_at M) b in Ret (LHeading "Distribution of 'Hello World' matches:" :: print_offsets h)).
    unfold histogram_hello_world. rewrite E. cbn [obind].
    destruct (histogram_table N.compare N_order N.eq_dec (fun off => Ret (N.of_nat off / idx_bucket_size)%N) (fun off => (N.of_nat off / idx_bucket_size)%N) (map fst items)) as (h & Eh & T); [reflexivity|].
    exists h. rewrite map_map in T. split; [exact T|]. rewrite Eh. cbn [obind]. f_equal. f_equal. apply map_ext. intros [k n]. cbn [fst snd]. unfold idx_bucket_size.
    f_equal.
    + replace (k * 100000000)%N with (100 * k * 1000000)%N by lia. now apply N.div_mul.
    + replace ((k + 1) * 100000000)%N with ((100 * k + 100) * 1000000)%N by lia. now apply N.div_mul.
Qed.
Print Assumptions C59_grepit.

Example C59_example : exists es, dltit (m1 ++ m2 ++ m1) = Ret es /\ length es = 3 /\
  (forall e, In e es -> whole e) /\
  run_command (lab []) "count_hello_world" (m1 ++ m2 ++ m1) = Ret [LCount 2] /\
  run_command (lab []) "count_hello_world_raw" (m1 ++ m2 ++ m1) = Ret [LCount 2] /\
  run_command (lab []) "count_hello_world" (m1 ++ m_short) = Panic /\
  exists items, grep_collect (find_at (lab [])) (m1 ++ m2 ++ m1) = Ret items /\ map fst items = [0; 68].
Proof.
  eexists. split; [vm_compute; reflexivity|]. split; [reflexivity|]. split.
  - intros e I. repeat (destruct I as [<-|I]; [vm_compute; lia|]). destruct I.
  - do 3 (split; [vm_compute; reflexivity|]). eexists. split; vm_compute; reflexivity.
Qed.

(** * C60: sizes *)
Definition total (l : list N) : N := fold_right N.add 0%N l.
Lemma sizes_lines vals h : number_table vals h ->
  print_sizes h = map (fun kn => LSize (fst kn) (snd kn) (fst kn * N.of_nat (snd kn) / 1024)%N) h ++ [LTotal (total vals / 1024)%N].
Proof. intros T. apply table_hist_of in T. destruct (hist_of_totals _ _ T) as [_ E]. unfold print_sizes, total. now rewrite E. Qed.

Theorem C60_message_sizes : forall (M : machine) (b : bytes) es, dltit b = Ret es ->
  exists h, number_table (map (fun e => N.of_nat (size_of e)) es) h /\
    run_command M "histogram_message_size" b =
      Ret (LHeading "Distribution of DLT message length:" ::
           map (fun kn => LSize (fst kn) (snd kn) (fst kn * N.of_nat (snd kn) / 1024)%N) h ++
           [LTotal (total (map (fun e => N.of_nat (size_of e)) es) / 1024)%N]).
Proof.
  intros M b es E. destruct (histogram_message_exact b es E) as (h & Eh & T). exists h. split; [exact T|].
  change (run_command M "histogram_message_size" b) with (let* h := histogram_message b in Ret (LHeading "Distribution of DLT message length:" :: print_sizes h)).
  rewrite Eh. cbn [obind]. now rewrite (sizes_lines _ _ T).
Qed.
Print Assumptions C60_message_sizes.

Theorem C60_payload_sizes : forall (M : machine) (b : bytes) es, dltit b = Ret es ->
  ((forall e, In e es -> ~ stunted e) ->
   exists h, number_table (map (fun e => N.of_nat (length (body e))) es) h /\
     run_command M "histogram_payload_size" b =
       Ret (LHeading "Distribution of payload length:" ::
            map (fun kn => LSize (fst kn) (snd kn) (fst kn * N.of_nat (snd kn) / 1024)%N) h ++
            [LTotal (total (map (fun e => N.of_nat (length (body e))) es) / 1024)%N])) /\
  ((exists e, In e es /\ stunted e) -> run_command M "histogram_payload_size" b = Panic).
Proof.
  intros M b es E.
  change (run_command M "histogram_payload_size" b) with (let* h := histogram_payload b in Ret (LHeading "Distribution of payload length:" :: print_sizes h)).
  destruct (histogram_payload_exact b es E) as [H1 H2]. split.
  - intros NS. destruct (H1 NS) as (h & Eh & T). exists h. split; [exact T|]. rewrite Eh. cbn [obind]. now rewrite (sizes_lines _ _ T).
  - intros S. now rewrite (H2 S).
Qed.
Print Assumptions C60_payload_sizes.

Example C60_example : exists es, dltit (m1 ++ m2 ++ m1) = Ret es /\
  map size_of es = [45; 23; 45] /\ map (fun e => length (body e)) es = [11; 3; 11] /\ (forall e, In e es -> ~ stunted e) /\
  run_command (lab []) "histogram_payload_size" m_short = Panic.
Proof.
  eexists. split; [vm_compute; reflexivity|]. split; [reflexivity|]. split; [reflexivity|]. split; [|vm_compute; reflexivity].
  intros e I. repeat (destruct I as [<-|I]; [intros [H1 H2]; vm_compute in H1, H2; first [discriminate H1|lia]|]). destruct I.
Qed.

(** * C61: message types *)
Theorem C61_message_types : forall (M : machine) (b : bytes) es, dltit b = Ret es ->
  ((forall e, In e es -> extended e = true -> whole e) ->
   exists h, table type_dec type_before (map (fun e => shown_type (info_byte e)) (filter extended es)) h /\
     run_command M "histogram_message_type" b =
       Ret (LHeading "(verbose, message type): # dlt messages" :: map (fun tn => LType (fst tn) (snd tn)) h)) /\
  ((exists e, In e es /\ extended e = true /\ ~ whole e) -> run_command M "histogram_message_type" b = Panic).
Proof.
  intros M b es E.
  change (run_command M "histogram_message_type" b) with
    (let* h := mstp_info_histogram b in Ret (LHeading "(verbose, message type): # dlt messages" :: map (fun kv => LType (fst kv) (snd kv)) h)).
  destruct (mstp_exact b es E) as [H1 H2]. split.
  - intros W. destruct (H1 W) as (h & Eh & T). exists h. split; [exact T|]. now rewrite Eh.
  - intros W. now rewrite (H2 W).
Qed.
Print Assumptions C61_message_types.

Example C61_example : exists es, dltit (m1 ++ m2 ++ m1) = Ret es /\ (forall e, In e es -> extended e = true -> whole e) /\
  map (fun e => shown_type (info_byte e)) (filter extended es) = [(true, Some (TypeLog LogInfo)); (true, Some (TypeLog LogInfo))] /\
  run_command (lab []) "histogram_message_type" m_short = Panic.
Proof.
  eexists. split; [vm_compute; reflexivity|]. split; [|split; vm_compute; reflexivity].
  intros e I _. repeat (destruct I as [<-|I]; [vm_compute; lia|]). destruct I.
Qed.

(** * C62: continuous periods *)
Definition continuous_heading : string := "Durations of periods where DLT storage header timestamps are continuous:".
Definition buckets (h : list (N * nat)) : list line := map (fun kn => LBucket (fst kn) (fst kn + 1) (snd kn)) h.
Definition ecu_lines (m : list (quad * (list (N * nat) * nat))) : list line := map (fun kx => LEcu (quad_bytes (fst kx)) (snd kx)) m.

Theorem C62_histogram_timestamp : forall (M : machine) (b : bytes) es, dltit b = Ret es ->
  exists runs h, maximal_runs continuous es runs /\ number_table (map (span secs_of) runs) h /\
    run_command M "histogram_timestamp" b = Ret (LHeading continuous_heading :: buckets h).
Proof.
  intros M b es E. destruct (continuous_exact b es E) as (runs & h & R & Eh & T). exists runs, h. split; [exact R|]. split; [exact T|].
  change (run_command M "histogram_timestamp" b) with (let* h := continuous_timestamp_histogram b in Ret (LHeading continuous_heading :: print_buckets h)).
  now rewrite Eh.
Qed.
Print Assumptions C62_histogram_timestamp.

Lemma text_dec es : {ecus_text es} + {exists e, In e es /\ ~ utf8_text (quad_bytes (ecu_of e))}.
Proof.
  induction es as [|e es [IH|IH]].
  - left. intros e [].
  - destruct (from_utf8_ok (quad_bytes (ecu_of e))) eqn:U.
    + left. intros x [<-|I]; [now apply from_utf8_exact|now apply IH].
    + right. exists e. split; [now left|]. intros T. apply from_utf8_exact in T. congruence.
  - right. destruct IH as (x & I & H). exists x. split; [now right|exact H].
Qed.
Lemma print_rows es row m : ecu_rows es row m ->
  (ecus_text es -> print_ecus m = Ret (ecu_lines m)) /\ ((exists e, In e es /\ ~ utf8_text (quad_bytes (ecu_of e))) -> print_ecus m = Panic).
Proof.
  intros (_ & K & _). split.
  - intros T. apply print_ecus_text. intros k I. apply K in I. apply in_map_iff in I. destruct I as (e & <- & I). now apply T.
  - intros (e & I & H). apply (print_ecus_panic m (ecu_of e)); [apply K; now apply in_map|exact H].
Qed.

Theorem C62_split_timestamp : forall (M : machine) (b : bytes) es, dltit b = Ret es ->
  (ecus_text es -> exists m, ecu_rows es periods_row m /\
     run_command M "split_timestamp" b = Ret (LHeading continuous_heading :: ecu_lines m)) /\
  ((exists e, In e es /\ ~ utf8_text (quad_bytes (ecu_of e))) -> run_command M "split_timestamp" b = Panic).
Proof.
  intros M b es E. destruct (timestamp_splitit_exact (finalize_fuel b) b es (le_n _) E) as (m & Em & _ & R).
  change (run_command M "split_timestamp" b) with
    (let* m := timestamp_splitit (finalize_fuel b) b in let* ls := print_ecus m in Ret (LHeading continuous_heading :: ls)).
  rewrite Em. cbn [obind]. destruct (print_rows es periods_row m R) as [P1 P2]. split.
  - intros T. exists m. split; [exact R|]. now rewrite (P1 T).
  - intros H. now rewrite (P2 H).
Qed.
Print Assumptions C62_split_timestamp.

Example C62_example : exists es, dltit (m1 ++ m2 ++ m3 ++ m1) = Ret es /\ map secs_of es = [10; 11; 12; 10]%N /\ ecus_text es /\
  run_command (lab []) "histogram_timestamp" (m1 ++ m2 ++ m3 ++ m1) = Ret [LHeading continuous_heading; LBucket 0 1 1; LBucket 2 3 1] /\
  run_command (lab []) "split_timestamp" (m1 ++ m2 ++ m3 ++ m1) = Ret [LHeading continuous_heading; LEcu (quad_bytes quad_ECU1) ([(2%N, 1)], 4)] /\
  run_command (lab []) "split_timestamp" m_latin = Panic.
Proof.
  eexists. split; [vm_compute; reflexivity|]. split; [vm_compute; reflexivity|]. split.
  - intros e I. apply from_utf8_exact. repeat (destruct I as [<-|I]; [vm_compute; reflexivity|]). destruct I.
  - repeat split; vm_compute; reflexivity.
Qed.

(** * C63: lifecycles *)
Definition lifecycle_heading : string := "Distribution of lifecycle durations:".

Theorem C63_iter : forall (M : machine) (b : bytes) es, dltit b = Ret es ->
  (all_stamped es -> exists runs, maximal_runs not_earlier (filter stamped es) runs /\
     run_command M "iter" b = Ret [LLong (length (filter (fun g => half_an_hour <=? span stamp_value g)%N runs))]) /\
  (unstamped es -> run_command M "iter" b = Panic).
Proof.
  intros M b es E. change (run_command M "iter" b) with (let* r := lifecycle_iter b in Ret [LLong r]). split.
  - intros S. destruct (lifecycle_iter_exact b es E S) as (runs & R & ->). exists runs. now split.
  - intros S. now rewrite (lifecycle_iter_panic b es E S).
Qed.
Print Assumptions C63_iter.

(** itertools looks at neighbouring entries only: it counts gaps of at least half an hour. *)
Theorem C63_itertools : forall (M : machine) (b : bytes) es, dltit b = Ret es ->
  ((forall a z, In (a, z) (neighbours (filter stamped es)) -> stamp a <> None) ->
     run_command M "itertools" b =
       Ret [LLong (length (filter (fun p => stamp_value (fst p) + half_an_hour <=? stamp_value (snd p))%N (neighbours (filter stamped es))))]) /\
  ((exists a z, In (a, z) (neighbours (filter stamped es)) /\ stamp a = None) -> run_command M "itertools" b = Panic).
Proof.
  intros M b es E. change (run_command M "itertools" b) with (let* r := lifecycle_itertools b in Ret [LLong r]). split.
  - intros S. now rewrite (lifecycle_itertools_exact b es E S).
  - intros (a & z & I & S). now rewrite (lifecycle_itertools_panic b es a z E I S).
Qed.
Print Assumptions C63_itertools.

Theorem C63_histogram_lifecycles : forall (M : machine) (b : bytes) es, dltit b = Ret es ->
  (all_stamped es -> exists runs h, maximal_runs same_cycle (filter stamped es) runs /\
     number_table (map (fun g => span stamp_value g / 10000)%N runs) h /\
     run_command M "histogram_lifecycles" b = Ret (LHeading lifecycle_heading :: buckets h)) /\
  (unstamped es -> run_command M "histogram_lifecycles" b = Panic).
Proof.
  intros M b es E. change (run_command M "histogram_lifecycles" b) with
    (let* h := lifecycle_histogram b in Ret (LHeading lifecycle_heading :: print_buckets h)). split.
  - intros S. destruct (lifecycle_histogram_exact b es E S) as (runs & h & R & -> & T). exists runs, h. split; [exact R|]. split; [exact T|reflexivity].
  - intros S. now rewrite (lifecycle_histogram_panic b es E S).
Qed.
Print Assumptions C63_histogram_lifecycles.

Theorem C63_split_lifecycles : forall (M : machine) (b : bytes) es, dltit b = Ret es ->
  (all_stamped es -> ecus_text (filter stamped es) -> exists m, ecu_rows (filter stamped es) cycles_row m /\
     run_command M "split_lifecycles" b = Ret (LHeading lifecycle_heading :: ecu_lines m)) /\
  (unstamped es \/ (exists e, In e (filter stamped es) /\ ~ utf8_text (quad_bytes (ecu_of e))) ->
     run_command M "split_lifecycles" b = Panic).
Proof.
  intros M b es E. change (run_command M "split_lifecycles" b) with
    (let* m := lifecycle_splitit (finalize_fuel b) b in let* ls := print_ecus m in Ret (LHeading lifecycle_heading :: ls)).
  assert (F : 5 <= finalize_fuel b) by (unfold finalize_fuel; lia). split.
  - intros S T. destruct (lifecycle_splitit_exact (finalize_fuel b) b es F E S) as (m & -> & R). cbn [obind].
    exists m. split; [exact R|]. destruct (print_rows _ _ m R) as [P1 _]. now rewrite (P1 T).
  - intros H. destruct (unstamped_dec es) as [U|S].
    + now rewrite (lifecycle_splitit_panic (finalize_fuel b) b es F E U).
    + destruct H as [(e & I & H1 & H2)|H]; [exfalso; exact (S e I H1 H2)|].
      destruct (lifecycle_splitit_exact (finalize_fuel b) b es F E S) as (m & -> & R). cbn [obind].
      destruct (print_rows _ _ m R) as [_ P2]. now rewrite (P2 H).
Qed.
Print Assumptions C63_split_lifecycles.

(** Two lifecycles: 256 to 512 (tenths of milliseconds), 256 to 20000256. *)
Definition m_late : bytes := Samples.full_message x0d [x01; x31; x2e; x00] [xff; xfe].
Definition cycles_file : bytes := m1 ++ m2 ++ m3 ++ m1 ++ m_late.
Example C63_example : exists es, dltit cycles_file = Ret es /\ all_stamped es /\
  map stamp_value (filter stamped es) = [256; 512; 256; 20000256]%N /\ ecus_text (filter stamped es) /\
  run_command (lab []) "iter" cycles_file = Ret [LLong 1] /\
  run_command (lab []) "itertools" cycles_file = Ret [LLong 1] /\
  run_command (lab []) "histogram_lifecycles" cycles_file = Ret [LHeading lifecycle_heading; LBucket 0 1 1; LBucket 2000 2001 1] /\
  run_command (lab []) "split_lifecycles" cycles_file =
    Ret [LHeading lifecycle_heading; LEcu (quad_bytes quad_ECU1) ([(0%N, 1); (2000%N, 1)], 4)] /\
  run_command (lab []) "iter" m_short_ts = Panic.
Proof.
  eexists. split; [vm_compute; reflexivity|]. split.
  { intros e I Hs. repeat (destruct I as [<-|I]; [vm_compute in Hs; try discriminate Hs; vm_compute; discriminate|]). destruct I. }
  split; [vm_compute; reflexivity|]. split.
  { intros e I. apply from_utf8_exact. repeat (destruct I as [<-|I]; [vm_compute; reflexivity|]). destruct I. }
  repeat split; vm_compute; reflexivity.
Qed.

(** * C64: parallel commands in terms of the sequential ones on the parts of the file *)
Lemma par_line M b slices f : partition_from DLT b (cores M) = Ret slices ->
  (let* s := slices_line M b in let* r := multithreaded (sched M) (cores M) f b in Ret [s; LCount r]) =
  (let* rs := mapM f slices in Ret [LSlices (cores M) (length slices); LCount (reduce_tree 0 Nat.add (sched M nat rs))]).
Proof. intros E. unfold slices_line, multithreaded. rewrite E. cbn [obind]. now destruct (mapM f slices). Qed.

Theorem C64_parallel_counts : forall (M : machine) (b : bytes) slices seq par,
  fair_sched (sched M) -> partition_from DLT b (cores M) = Ret slices ->
  In (seq, par) [("count", "par_count"); ("count_hello_world", "par_count_hello_world");
                 ("count_hello_world_raw", "par_count_hello_world_raw"); ("count_hello_world_grepit", "par_count_hello_world_grepit")] ->
  (forall ns, Forall2 (fun s n => run_command M seq s = Ret [LCount n]) slices ns ->
     run_command M par b = Ret [LSlices (cores M) (length slices); LCount (list_sum ns)]) /\
  ((forall s, In s slices -> run_command M seq s <> Fuel) -> (exists s, In s slices /\ run_command M seq s = Panic) ->
     run_command M par b = Panic).
Proof.
  intros M b slices seq par FS E I.
  assert (G : exists f, (forall s, run_command M seq s = let* r := f s in Ret [LCount r]) /\
    run_command M par b = (let* rs := mapM f slices in Ret [LSlices (cores M) (length slices); LCount (reduce_tree 0 Nat.add (sched M nat rs))])).
  { repeat (destruct I as [[= <- <-]|I]).
    - exists ToolsModel.count. split; [reflexivity|]. rewrite <- (par_line M b slices ToolsModel.count E). reflexivity.
    - exists count_hello_world. split; [reflexivity|]. rewrite <- (par_line M b slices count_hello_world E). reflexivity.
    - exists count_hello_world_raw. split; [reflexivity|]. rewrite <- (par_line M b slices count_hello_world_raw E). reflexivity.
    - exists (count_hello_world_grepit (find_at M)). split; [reflexivity|]. rewrite <- (par_line M b slices (count_hello_world_grepit (find_at M)) E). reflexivity.
    - destruct I. }
  destruct G as (f & Fs & ->). split.
  - intros ns F. assert (Q : mapM f slices = Ret ns).
    { clear E. induction F as [|s n l ns' H F IH]; [reflexivity|]. cbn [mapM]. rewrite Fs in H. destruct (f s); try discriminate H. injection H as <-.
      cbn [obind]. now rewrite IH. }
    rewrite Q. cbn [obind]. rewrite reduce_add. do 4 f_equal. exact (sum_perm _ _ (FS nat ns)).
  - intros NF (s & I' & P). rewrite mapM_panic; [reflexivity| |].
    + intros x Ix H. apply (NF x Ix). rewrite Fs, H. reflexivity.
    + exists s. split; [exact I'|]. rewrite Fs in P. destruct (f s); [discriminate P|reflexivity|discriminate P].
Qed.
Print Assumptions C64_parallel_counts.

Theorem C64_par_iter : forall (M : machine) (b : bytes) slices, partition_from DLT b (cores M) = Ret slices ->
  (forall ns, Forall2 (fun s n => run_command M "iter" s = Ret [LLong n]) slices ns ->
     run_command M "par_iter" b = Ret (LSlices (cores M) (length slices) :: map LLong ns)) /\
  ((exists s, In s slices /\ run_command M "iter" s = Panic) -> run_command M "par_iter" b = Panic).
Proof.
  intros M b slices E.
  assert (Q : run_command M "par_iter" b = let* rs := mapM lifecycle_iter slices in Ret (LSlices (cores M) (length slices) :: map LLong rs)).
  { change (run_command M "par_iter" b) with
      (let* s := slices_line M b in let* sl := partition_from DLT b (cores M) in let* rs := mapM lifecycle_iter sl in Ret (s :: map LLong rs)).
    unfold slices_line. rewrite E. reflexivity. }
  rewrite Q. split.
  - intros ns F. assert (R : mapM lifecycle_iter slices = Ret ns); [|now rewrite R]. clear - F.
    induction F as [|s n l ns' H F IH]; [reflexivity|]. cbn [mapM].
    change (run_command M "iter" s) with (let* r := lifecycle_iter s in Ret [LLong r]) in H.
    destruct (lifecycle_iter s); try discriminate H. injection H as <-. cbn [obind]. now rewrite IH.
  - intros (s & I & P). rewrite mapM_panic; [reflexivity| |].
    + intros x _ H. destruct (dltit_total x) as (l & _ & Ex). destruct (unstamped_dec (map snd l)) as [U|S].
      * now rewrite (lifecycle_iter_panic x _ Ex U) in H.
      * destruct (lifecycle_iter_exact x _ Ex S) as (runs & _ & R). congruence.
    + exists s. split; [exact I|]. change (run_command M "iter" s) with (let* r := lifecycle_iter s in Ret [LLong r]) in P.
      destruct (lifecycle_iter s); [discriminate P|reflexivity|discriminate P].
Qed.
Print Assumptions C64_par_iter.

(** The parallel histograms show the runs of the parts, which are cut at the borders of the parts. *)
Theorem C64_par_histogram_timestamp : forall (M : machine) (b : bytes) slices,
  fair_sched (sched M) -> partition_from DLT b (cores M) = Ret slices ->
  exists runss h,
    Forall2 (fun s runs => exists es, dltit s = Ret es /\ maximal_runs continuous es runs) slices runss /\
    number_table (map (span secs_of) (concat runss)) h /\
    run_command M "par_histogram_timestamp" b =
      Ret (LHeading continuous_heading :: LSlices (cores M) (length slices) :: buckets h).
Proof.
  intros M b slices FS E.
  assert (G : exists runss hs, Forall2 (fun s runs => exists es, dltit s = Ret es /\ maximal_runs continuous es runs) slices runss /\
    mapM continuous_timestamp_histogram slices = Ret hs /\ Forall2 hist_of (map (map (span secs_of)) runss) hs).
  { clear E. induction slices as [|s slices (runss & hs & F & Em & T)].
    - exists [], []. split; [constructor|]. split; [reflexivity|constructor].
    - destruct (dltit_total s) as (l & _ & Es). destruct (continuous_exact s _ Es) as (runs & h & R & Eh & Th).
      exists (runs :: runss), (h :: hs). split; [constructor; [eauto|exact F]|]. split; [cbn [mapM]; rewrite Eh; cbn [obind]; now rewrite Em|].
      constructor; [now apply table_hist_of|exact T]. }
  destruct G as (runss & hs & F & Em & T). exists runss, (reduce_tree [] (hist_merge N.compare) (sched M _ hs)). split; [exact F|]. split.
  - apply hist_of_table. rewrite concat_map. now apply hist_of_sched.
  - change (run_command M "par_histogram_timestamp" b) with
      (let* s := slices_line M b in let* h := par_continuous_timestamp_histogram (sched M) (cores M) b in
       Ret (LHeading continuous_heading :: s :: print_buckets h)).
    unfold slices_line, par_continuous_timestamp_histogram. rewrite E. cbn [obind]. rewrite Em. reflexivity.
Qed.
Print Assumptions C64_par_histogram_timestamp.

(** A row of par_split_timestamp: the number of entries of the ECU in all parts, and the lengths of
    its periods in each part. *)
Definition parts_row (k : quad) (ess : list (list storage_entry)) (x : list (N * nat) * nat) : Prop :=
  snd x = length (from_ecu k (concat ess)) /\
  exists runss, Forall2 (fun es runs => maximal_runs continuous (from_ecu k es) runs) ess runss /\
    number_table (concat (map (fun runs => map (fun p => snd p - fst p)%N (joined (map (extent secs_of) runs))) runss)) (fst x).
Lemma par_split_map (M : machine) (b : bytes) slices ess :
  fair_sched (sched M) -> partition_from DLT b (cores M) = Ret slices ->
  Forall2 (fun s es => dltit s = Ret es) slices ess ->
  exists m, par_timestamp_splitit (finalize_fuel b) (sched M) (cores M) b = Ret m /\
     StronglySorted (fun a z => bytes_before (quad_bytes a) (quad_bytes z)) (map fst m) /\
     (forall k, In k (map fst m) <-> In k (map ecu_of (concat ess))) /\
     (forall k x, In (k, x) m -> parts_row k ess x).
Proof.
  intros FS E F.
  assert (SL : forall s, In s slices -> length s + 5 <= finalize_fuel b).
  { intros s I. destruct (partition_slices b (cores M) slices s E I) as (pre & post & Q).
    apply (f_equal (@List.length byte)) in Q. rewrite !app_length in Q. unfold finalize_fuel. lia. }
  assert (G : exists ms, mapM (timestamp_splitit (finalize_fuel b)) slices = Ret ms /\ Forall2 (fun es m => okm m /\ ecu_rows es periods_row m) ess ms).
  { clear E. induction F as [|s es slices ess Es F IH].
    - exists []. split; [reflexivity|constructor].
    - destruct IH as (ms & Em & R); [intros; apply SL; now right|].
      destruct (timestamp_splitit_exact (finalize_fuel b) s es (SL s (or_introl eq_refl)) Es) as (m & E1 & OK & R1).
      exists (m :: ms). split; [cbn [mapM]; rewrite E1; cbn [obind]; now rewrite Em|]. constructor; [now split|exact R]. }
  destruct G as (ms & Em & R).
  assert (OKs : Forall okm ms) by (clear - R; induction R as [|? ? ? ? [? _] ? IH]; constructor; assumption).
  assert (OKt : Forall okm (leaves (sched M _ ms))) by (eapply Permutation_Forall; [apply Permutation_sym, FS|exact OKs]).
  set (m := reduce_tree [] split_merge (sched M _ ms)).
  assert (Er : m = reduce_tree [] split_merge (right_tree ms)).
  { apply split_perm; [rewrite right_leaves; apply FS|exact OKt]. }
  assert (OKm : okm m) by exact (split_ok _ OKt).
  assert (GM : forall k, map_get quad_cmp k m = fold_right (oop eop) None (map (map_get quad_cmp k) ms)).
  { intros k. rewrite Er, split_get; rewrite right_leaves; [reflexivity|exact OKs]. }
  assert (K : forall k, In k (map fst m) <-> In k (map ecu_of (concat ess))).
  { intros k. pose proof (split_row k ess ms R) as SR. rewrite <- GM in SR. destruct (map_get quad_cmp k m) as [x|] eqn:Q.
    - apply (get_in quad_cmp quad_order) in Q; [|apply OKm]. apply (in_map fst) in Q. tauto.
    - apply (get_none quad_cmp quad_order) in Q; [tauto|apply OKm]. }
  exists m. split; [unfold par_timestamp_splitit; rewrite E; cbn [obind]; rewrite Em; reflexivity|].
  split; [apply quads_before, OKm|]. split; [exact K|].
  intros k x I. pose proof (split_row k ess ms R) as SR. rewrite <- GM in SR.
  apply (get_in quad_cmp quad_order) in I; [|apply OKm]. rewrite I in SR. destruct SR as (_ & A & rs & B & D).
  split; [exact A|]. exists rs. split; [exact B|now apply hist_of_table].
Qed.
Theorem C64_par_split_timestamp : forall (M : machine) (b : bytes) slices ess,
  fair_sched (sched M) -> partition_from DLT b (cores M) = Ret slices ->
  Forall2 (fun s es => dltit s = Ret es) slices ess ->
  (ecus_text (concat ess) -> exists m,
     StronglySorted (fun a z => bytes_before (quad_bytes a) (quad_bytes z)) (map fst m) /\
     (forall k, In k (map fst m) <-> In k (map ecu_of (concat ess))) /\
     (forall k x, In (k, x) m -> parts_row k ess x) /\
     run_command M "par_split_timestamp" b =
       Ret (LHeading continuous_heading :: LSlices (cores M) (length slices) :: ecu_lines m)) /\
  ((exists e, In e (concat ess) /\ ~ utf8_text (quad_bytes (ecu_of e))) -> run_command M "par_split_timestamp" b = Panic).
Proof.
  intros M b slices ess FS E F. destruct (par_split_map M b slices ess FS E F) as (m & Em & S & K & R).
  assert (C : run_command M "par_split_timestamp" b = let* ls := print_ecus m in Ret (LHeading continuous_heading :: LSlices (cores M) (length slices) :: ls)).
  { change (run_command M "par_split_timestamp" b) with
      (let* s := slices_line M b in let* m := par_timestamp_splitit (finalize_fuel b) (sched M) (cores M) b in
       let* ls := print_ecus m in Ret (LHeading continuous_heading :: s :: ls)).
    rewrite Em. unfold slices_line. rewrite E. reflexivity. }
  rewrite C. split.
  - intros T. exists m. split; [exact S|]. split; [exact K|]. split; [exact R|].
    rewrite print_ecus_text; [reflexivity|]. intros k I. apply K in I. apply in_map_iff in I. destruct I as (e & <- & I). now apply T.
  - intros (e & I & H). rewrite (print_ecus_panic m (ecu_of e)); [reflexivity|apply K; now apply in_map|exact H].
Qed.
Print Assumptions C64_par_split_timestamp.

Example C64_example : let b := concat (repeat (m1 ++ m2 ++ m1) 10) in
  fair_sched (sched (lab [])) /\ exists slices ns,
  partition_from DLT b (cores (lab [])) = Ret slices /\ length slices = 2 /\
  Forall2 (fun s n => run_command (lab []) "count" s = Ret [LCount n]) slices ns /\ ns = [15; 15] /\
  run_command (lab []) "par_count" b = Ret [LSlices 2 2; LCount 30] /\
  run_command (lab []) "par_histogram_timestamp" b = Ret [LHeading continuous_heading; LSlices 2 2; LBucket 0 1 2; LBucket 1 2 10] /\
  run_command (lab []) "par_split_timestamp" b =
    Ret [LHeading continuous_heading; LSlices 2 2; LEcu (quad_bytes quad_ECU1) ([(1%N, 2)], 30)] /\
  run_command (lab []) "par_iter" b = Ret [LSlices 2 2; LLong 0; LLong 0].
Proof.
  cbv zeta. split; [exact (proj1 (proj2 (lab_machine [])))|].
  destruct (partition_from DLT (concat (repeat (m1 ++ m2 ++ m1) 10)) (cores (lab []))) as [sl| |] eqn:E; [|vm_compute in E; discriminate E|vm_compute in E; discriminate E].
  exists sl, [15; 15]. split; [reflexivity|]. vm_compute in E. injection E as <-.
  split; [vm_compute; reflexivity|]. split; [repeat (constructor; [vm_compute; reflexivity|]); constructor|]. split; [reflexivity|].
  repeat split; vm_compute; reflexivity.
Qed.
