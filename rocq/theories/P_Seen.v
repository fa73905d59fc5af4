(** Property C141: the commands see nothing of a file but its messages. *)
From Coq Require Import String.
From Verif Require Import Base DltModel MatchModel GenModel ToolsModel MainModel Spec CommandSpec ReadSpec EditSpec Samples BaseFacts DltFacts DltIterFacts LayoutFacts GroupFacts
  ExactFacts ReadFacts EditFacts EditCommands P_Tools P_Commands P_Exact P_Damage PrintModel PrintSpec P_Print.
From Coq Require Import Sorted.
Local Open Scope string_scope.
Local Open Scope list_scope.

(** The commands that run on one core, except those that search for "Hello World" by regular expression or in the raw bytes. *)
Definition message_commands : list string :=
  ["count"; "count_hello_world"; "histogram_message_size"; "histogram_payload_size"; "histogram_message_type"; "histogram_timestamp"; "split_timestamp";
   "histogram_lifecycles"; "split_lifecycles"; "iter"; "itertools"].

Lemma rows_unique es (row : list storage_entry -> list (N * nat) * nat -> Prop) m m' : (forall es x x', row es x -> row es x' -> x = x') -> ecu_rows es row m -> ecu_rows es row m' -> m = m'.
Proof.
  intros U (S & K & R) (S' & K' & R').
  set (Q := fun a b : quad => bytes_before (quad_bytes a) (quad_bytes b)) in *.
  assert (Ir : forall a, ~ Q a a) by (intros a; apply bytes_before_irr).
  assert (Tr : forall a b c, Q a b -> Q b c -> Q a c) by (intros a b c; apply bytes_before_trans).
  apply same_rows; [exact (strongly_nodup Q _ Ir S)| |].
  - apply (sorted_same Q Ir Tr _ _ S S'). intros k. now rewrite K, K'.
  - intros k x x' I I'. exact (U _ x x' (R k x I) (R' k x' I')).
Qed.
Lemma cycles_row_fun es x x' : cycles_row es x -> cycles_row es x' -> x = x'.
Proof.
  destruct x as [t n], x' as [t' n']. intros (L & gs & G & T) (L' & gs' & G' & T'). cbn [fst snd] in *.
  rewrite (runs_unique not_earlier _ _ _ G' G) in T'. rewrite (number_table_unique _ _ _ T T'). congruence.
Qed.

Lemma commands_by_messages M b b' es cmd : dltit b = Ret es -> dltit b' = Ret es -> In cmd message_commands -> run_command M cmd b = run_command M cmd b'.
Proof.
  intros D D' I.
  assert (HD : In cmd head_commands -> run_command M cmd b = run_command M cmd b') by (intros H; exact (head_commands_same M b' b es es cmd D' D eq_refl H)).
  destruct I as [<-|[<-|[<-|[<-|[<-|[<-|[<-|[<-|[<-|[<-|[<-|[]]]]]]]]]]]].
  1: apply HD; now left.
  1: change (run_command M "count_hello_world") with (fun buf => let* r := count_hello_world buf in Ret [LCount r]); cbv beta; unfold count_hello_world; now rewrite D, D'.
  1: apply HD; right; now left.
  1: apply HD; right; right; now left.
  1: change (run_command M "histogram_message_type") with (fun buf => let* h := mstp_info_histogram buf in Ret (LHeading "(verbose, message type): # dlt messages" :: map (fun kv => LType (fst kv) (snd kv)) h)); cbv beta;
     unfold mstp_info_histogram; now rewrite D, D'.
  1: apply HD; right; right; right; now left.
  1: apply HD; right; right; right; right; now left.
  1: change (run_command M "histogram_lifecycles") with (fun buf => let* h := lifecycle_histogram buf in Ret (LHeading "Distribution of lifecycle durations:" :: print_buckets h)); cbv beta; unfold lifecycle_histogram; now rewrite D, D'.
  2: change (run_command M "iter") with (fun buf => let* r := lifecycle_iter buf in Ret [LLong r]); cbv beta; unfold lifecycle_iter; now rewrite D, D'.
  2: change (run_command M "itertools") with (fun buf => let* r := lifecycle_itertools buf in Ret [LLong r]); cbv beta; unfold lifecycle_itertools; now rewrite D, D'.
  destruct (C63_split_lifecycles M b es D) as [H1 H2]. destruct (C63_split_lifecycles M b' es D') as [H1' H2'].
  destruct (unstamped_dec es) as [U|S]; [now rewrite (H2 (or_introl U)), (H2' (or_introl U))|].
  assert (AS : all_stamped es) by exact S.
  destruct (text_dec (filter stamped es)) as [T|T]; [|now rewrite (H2 (or_intror T)), (H2' (or_intror T))].
  destruct (H1 AS T) as (m & R & ->). destruct (H1' AS T) as (m' & R' & ->).
  now rewrite (rows_unique _ _ m m' cycles_row_fun R R').
Qed.

Lemma seen_valid (ms : list (nat * bytes)) : Forall valid_message (map snd ms) -> Forall (fun p : nat * bytes => valid_message (snd p)) ms.
Proof. rewrite !Forall_forall. intros H x I. apply H. now apply in_map. Qed.

(** Two files from which reading delivers messages of the same bytes, at whatever offsets: each of these commands prints the same, or panics for both. *)
Theorem C141_commands : forall (M : machine) (b b' : bytes) l ms l' ms' (cmd : string),
  dltit_offset b = Ret l -> shows l ms -> dltit_offset b' = Ret l' -> shows l' ms' ->
  Forall valid_message (map snd ms) -> map snd ms' = map snd ms ->
  In cmd message_commands -> run_command M cmd b' = run_command M cmd b.
Proof.
  intros M b b' l ms l' ms' cmd E S E' S' V Q I.
  assert (F : Forall (fun p : nat * bytes => valid_message (snd p)) ms) by now apply seen_valid.
  assert (F' : Forall (fun p : nat * bytes => valid_message (snd p)) ms') by (apply seen_valid; now rewrite Q).
  apply dltit_map in E, E'. rewrite (shows_entries _ _ F S) in E. rewrite (shows_entries _ _ F' S') in E'.
  assert (X : map snd (entries ms') = map snd (entries ms)).
  { unfold entries. rewrite !map_map. cbn [snd]. rewrite <- (map_map snd entry_of ms'), Q. apply map_map. }
  rewrite X in E'. exact (commands_by_messages M b' b _ cmd E' E I).
Qed.
Print Assumptions C141_commands.

Lemma snd_placed parts : forall k, map snd (placed k parts) = map snd parts.
Proof. induction parts as [|[j m] ps IH]; intros k; [reflexivity|]. cbn [placed map snd]. now rewrite IH. Qed.
Lemma snd_with_offsets (ms : list bytes) : forall k, map snd (with_offsets (@List.length byte) k ms) = ms.
Proof. induction ms as [|m ms IH]; intros k; [reflexivity|]. cbn [with_offsets map snd]. now rewrite IH. Qed.

(** Garbage between, before and behind the messages is not seen. *)
Theorem C141_garbage : forall (M : machine) (parts : list (bytes * bytes)) (last : bytes) (cmd : string),
  parts_ok parts -> ~ occurs_in the_pattern last -> In cmd message_commands ->
  run_command M cmd (layout parts last) = run_command M cmd (concat (map snd parts)).
Proof.
  intros M parts last cmd OK N I.
  assert (V : Forall valid_message (map snd parts)) by (apply Forall_map; eapply Forall_impl; [|exact OK]; intros a [_ A]; exact A).
  destruct (layout_read parts last OK N) as (l & E & S & _). destruct (file_read _ V) as (l' & E' & S' & _).
  apply (C141_commands M _ _ l' _ l _ cmd E' S' E S); [rewrite snd_with_offsets; exact V| |exact I].
  now rewrite snd_placed, snd_with_offsets.
Qed.
Print Assumptions C141_garbage.

(** A damaged message: what these commands print is what they print for the log without it; with the message that stands there
    now and without those it reaches into; or for the log up to it. *)
Theorem C141_damage : forall (M : machine) (ms1 ms2 : list bytes) (d : bytes) (cmd : string),
  Forall valid_message ms1 -> Forall valid_message ms2 -> Forall only_at_start ms2 -> only_at_start d -> In cmd message_commands ->
  let k := List.length (concat ms1) in
  let b := concat ms1 ++ d ++ concat ms2 in
  (firstn 4 d <> the_pattern -> run_command M cmd b = run_command M cmd (concat (ms1 ++ ms2))) /\
  (forall m, message_at b k m -> run_command M cmd b =
     run_command M cmd (concat (ms1 ++ m :: map snd (from_offset (k + List.length m) (with_offsets (@List.length byte) (k + List.length d) ms2))))) /\
  (firstn 4 d = the_pattern -> (forall m, ~ message_at b k m) -> run_command M cmd b = run_command M cmd (concat ms1)).
Proof.
  intros M ms1 ms2 d cmd F1 F2 C2 Cd I. cbv zeta. destruct (C140_reading ms1 ms2 d F1 F2 C2 Cd) as (A & B & C).
  assert (K : forall ms, Forall valid_message ms -> forall b l sh, dltit_offset b = Ret l -> shows l sh -> map snd sh = ms -> run_command M cmd b = run_command M cmd (concat ms)).
  { intros ms V b l sh E S Q. destruct (file_read ms V) as (l' & E' & S' & _).
    apply (C141_commands M _ _ l' _ l _ cmd E' S' E S); [rewrite snd_with_offsets; exact V| |exact I]. now rewrite snd_with_offsets. }
  split; [|split].
  - intros N. destruct (A N) as (l & E & S). apply (K (ms1 ++ ms2) ltac:(apply Forall_app; now split) _ l _ E S).
    now rewrite map_app, !snd_with_offsets.
  - intros m Mm. destruct (B m Mm) as (l & E & S). apply (K (ms1 ++ m :: _)) with (2 := E) (3 := S).
    + apply Forall_app. split; [exact F1|]. constructor; [apply Mm|]. apply Forall_forall. intros x X. apply in_map_iff in X.
      destruct X as (p & <- & X). apply filter_In in X. destruct X as [X _]. apply (in_map snd) in X. rewrite snd_with_offsets in X.
      rewrite Forall_forall in F2. now apply F2.
    + rewrite map_app. cbn [map snd]. now rewrite snd_with_offsets.
  - intros P N. destruct (C P N) as (l & E & S). apply (K ms1 F1 _ l _ E S). apply snd_with_offsets.
Qed.
Print Assumptions C141_damage.

(** The whole program: if two worlds differ in the file, but the messages in it are the same, what is printed is the same, character by
    character, and so is how the program ends. *)
Lemma periods_row_fun es x x' : periods_row es x -> periods_row es x' -> x = x'.
Proof.
  destruct x as [t n], x' as [t' n']. intros (L & gs & G & T) (L' & gs' & G' & T'). cbn [fst snd] in *.
  rewrite (runs_unique continuous _ _ _ G' G) in T'. rewrite (number_table_unique _ _ _ T T'). congruence.
Qed.
Lemma split_timestamp_seen b b' es : dltit b = Ret es -> dltit b' = Ret es ->
  timestamp_splitit (finalize_fuel b) b = timestamp_splitit (finalize_fuel b') b'.
Proof.
  intros D D'. destruct (timestamp_splitit_exact (finalize_fuel b) b es (le_n _) D) as (m & -> & _ & R).
  destruct (timestamp_splitit_exact (finalize_fuel b') b' es (le_n _) D') as (m' & -> & _ & R'). f_equal. exact (rows_unique _ _ m m' periods_row_fun R R').
Qed.
Lemma split_lifecycles_seen b b' es : dltit b = Ret es -> dltit b' = Ret es ->
  lifecycle_splitit (finalize_fuel b) b = lifecycle_splitit (finalize_fuel b') b'.
Proof.
  intros D D'. assert (F : forall x : bytes, 5 <= finalize_fuel x) by (intros x; unfold finalize_fuel; lia).
  destruct (unstamped_dec es) as [U|S].
  - now rewrite (lifecycle_splitit_panic _ b es (F b) D U), (lifecycle_splitit_panic _ b' es (F b') D' U).
  - destruct (lifecycle_splitit_exact _ b es (F b) D S) as (m & -> & R). destruct (lifecycle_splitit_exact _ b' es (F b') D' S) as (m' & -> & R').
    f_equal. exact (rows_unique _ _ m m' cycles_row_fun R R').
Qed.
Lemma text_seen C C' b b' es cmd : dltit b = Ret es -> dltit b' = Ret es -> In cmd message_commands -> command_text C cmd b = command_text C' cmd b'.
Proof.
  intros D D' I.
  destruct I as [<-|[<-|[<-|[<-|[<-|[<-|[<-|[<-|[<-|[<-|[<-|[]]]]]]]]]]]]; cbv beta iota delta [command_text String.eqb Ascii.eqb Bool.eqb].
  - unfold count. now rewrite D, D'.
  - unfold count_hello_world. now rewrite D, D'.
  - unfold histogram_message. now rewrite D, D'.
  - unfold histogram_payload. now rewrite D, D'.
  - unfold mstp_info_histogram. now rewrite D, D'.
  - unfold continuous_timestamp_histogram. now rewrite D, D'.
  - now rewrite (split_timestamp_seen b b' es D D').
  - unfold lifecycle_histogram. now rewrite D, D'.
  - now rewrite (split_lifecycles_seen b b' es D D').
  - unfold lifecycle_iter. now rewrite D, D'.
  - unfold lifecycle_itertools. now rewrite D, D'.
Qed.
Theorem C141_text : forall (C C' : console) (prog method cmd name : string) (more : list string) d d' l ms l' ms',
  let args := method :: cmd :: name :: more in
  load C method name = Ret d -> load C' method name = Ret d' ->
  dltit_offset (as_slice d) = Ret l -> shows l ms -> dltit_offset (as_slice d') = Ret l' -> shows l' ms' ->
  Forall valid_message (map snd ms) -> map snd ms' = map snd ms -> In cmd message_commands ->
  ripdlt_run C prog args = ripdlt_run C' prog args.
Proof.
  intros C C' prog method cmd name more d d' l ms l' ms'. cbv zeta. intros L L' E S E' S' V Q I.
  assert (F : Forall (fun p : nat * bytes => valid_message (snd p)) ms) by now apply seen_valid.
  assert (F' : Forall (fun p : nat * bytes => valid_message (snd p)) ms') by (apply seen_valid; now rewrite Q).
  apply dltit_map in E, E'. rewrite (shows_entries _ _ F S) in E. rewrite (shows_entries _ _ F' S') in E'.
  assert (X : map snd (entries ms') = map snd (entries ms)).
  { unfold entries. rewrite !map_map. cbn [snd]. rewrite <- (map_map snd entry_of ms'), Q. apply map_map. }
  rewrite X in E'. unfold ripdlt_run. rewrite L, L'. cbn [compute]. now rewrite (text_seen C C' (as_slice d) (as_slice d') _ cmd E E' I).
Qed.
Print Assumptions C141_text.

(** The three damaged logs of C140_example. *)
Example C141_example :
  run_command (lab []) "count" (m1 ++ m2 ++ m3) = Ret [LCount 3] /\
  run_command (lab []) "count" (m1 ++ m2_marker ++ m3) = Ret [LCount 2] /\
  run_command (lab []) "count" (m1 ++ m2_longer ++ m3) = Ret [LCount 2] /\
  run_command (lab []) "count" (m1 ++ m2_short ++ m3) = Ret [LCount 1] /\
  run_command (lab []) "iter" (m1 ++ m2_short ++ m3) = run_command (lab []) "iter" (concat [m1]).
Proof. vm_compute. repeat split; reflexivity. Qed.
