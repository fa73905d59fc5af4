(** What has been printed when ripdlt crashes: facts for C82 and C83. *)
From Coq Require Import String Permutation.
From Verif Require Import Base BaseFacts DltModel MatchModel GenModel ToolsModel MainModel Spec Samples PartitionFacts ToolFacts CommandFacts Utf8Facts
  CommandSpec ExactFacts PrintModel PrintSpec PrintFacts PrintRead P_Main.
Local Open Scope string_scope. Local Open Scope list_scope.

Lemma panic_inv {A B} (o : outcome A) (f : A -> outcome B) : obind o f = Panic -> o = Panic \/ exists a, o = Ret a /\ f a = Panic.
Proof. destruct o; cbn [obind]; [eauto|now left|discriminate]. Qed.
Lemma fuel_inv {A B} (o : outcome A) (f : A -> outcome B) : obind o f = Fuel -> o = Fuel \/ exists a, o = Ret a /\ f a = Fuel.
Proof. destruct o; cbn [obind]; [eauto|discriminate|now left]. Qed.

(** A run that crashed after these lines. *)
Definition crashed_after (r : run) (ts : list bytes) : Prop := r = {| out := lines_text ts; how := Crashed |}.
Lemma crashed_now {A} (o : outcome A) next : o = Panic -> crashed_after (compute o next) [].
Proof. now intros ->. Qed.
Lemma crashed_line t next ts : crashed_after next ts -> crashed_after (println t next) (t :: ts).
Proof. intros ->. unfold crashed_after, println, lines_text. cbn [out how map concat]. now rewrite <- app_assoc. Qed.
Lemma crashed_all us next ts : crashed_after next ts -> crashed_after (println_all us next) (us ++ ts).
Proof. intros C. induction us as [|u us IH]; [exact C|]. cbn [println_all app]. now apply crashed_line. Qed.

Lemma crashed_all_end us next : crashed_after next [] -> crashed_after (println_all us next) us.
Proof. intros C. rewrite <- (app_nil_r us) at 2. now apply crashed_all. Qed.

Lemma open_plain cmd num k : with_slices cmd = false -> opening cmd num k (map ascii (heading cmd)).
Proof. intros S. exists []. split; [now rewrite app_nil_r|]. now rewrite S. Qed.
Lemma open_slices cmd num k : with_slices cmd = true -> opening cmd num k (map ascii (heading cmd) ++ [slices_text num k]).
Proof. intros S. exists [slices_text num k]. split; [reflexivity|]. rewrite S. exists (slices_text num k). split; [reflexivity|apply slices_appear]. Qed.

Lemma parallel_panic {A} (C : console) (f : bytes -> outcome A) b l next : partition_from DLT b (cores C) = Ret l -> mapM f l = Panic ->
  crashed_after (parallel C f b next) [slices_text (cores C) (length l)].
Proof. intros E M. unfold parallel. rewrite E. cbn [compute]. apply crashed_line. now apply crashed_now. Qed.
Lemma par_panic (C : console) f b l next : partition_from DLT b (cores C) = Ret l ->
  (let* s := slices_line C b in let* r := multithreaded (sched C) (cores C) f b in Ret [s; LCount r]) = Panic ->
  crashed_after (multithreaded_text C f b next) [slices_text (cores C) (length l)].
Proof.
  intros E. unfold slices_line, multithreaded, multithreaded_text. rewrite E. cbn [obind]. intros H. apply parallel_panic; [exact E|].
  destruct (mapM f l); [discriminate H|reflexivity|discriminate H].
Qed.

Definition may_print (cmd : string) : bool := existsb (String.eqb cmd) ["split_lifecycles"; "split_timestamp"; "par_split_timestamp"; "par_iter"].

Ltac heads := unfold heading; cbn [existsb String.eqb Ascii.eqb Bool.eqb orb map app].
Ltac seq_panic cmd H := exists (map ascii (heading cmd)), []; split; [apply open_plain; reflexivity|]; split; [|reflexivity];
  apply panic_inv in H; destruct H as [H|(? & _ & H)]; [|discriminate H]; heads; repeat apply crashed_line; now apply crashed_now.
Ltac par_crash cmd E H := eexists (map ascii (heading cmd) ++ [slices_text _ _]), []; split; [apply open_slices; reflexivity|]; split; [|reflexivity];
  heads; repeat apply crashed_line; now apply (par_panic _ _ _ _ _ E H).

Lemma command_panic (C : console) cmd b l : partition_from DLT b (cores C) = Ret l -> In cmd commands -> run_command C cmd b = Panic ->
  exists begin rest, opening cmd (cores C) (length l) begin /\ crashed_after (command_text C cmd b) (begin ++ rest) /\
    (may_print cmd = false -> rest = []).
Proof.
  intros E I. unfold run_command, command_text. cbv zeta.
  repeat match goal with
  | |- context [if (cmd =? ?s)%string then _ else _] => destruct (String.eqb_spec cmd s) as [->|?]
  end; intros H.
  - seq_panic "histogram_lifecycles" H.
  - exists (map ascii (heading "split_lifecycles")). apply panic_inv in H. destruct H as [H|(m & -> & H)].
    + exists []. split; [apply open_plain; reflexivity|]. split; [|reflexivity]. heads. apply crashed_line. now apply crashed_now.
    + apply panic_inv in H. destruct H as [H|(? & _ & H)]; [|discriminate H]. destruct (ecus_panic m finished H) as (pre & k & v & post & _ & _ & _ & Q).
      exists (map ecu_text pre). split; [apply open_plain; reflexivity|]. split; [|discriminate]. heads. apply crashed_line. exact Q.
  - exists (map ascii (heading "split_timestamp")). apply panic_inv in H. destruct H as [H|(m & -> & H)].
    + exists []. split; [apply open_plain; reflexivity|]. split; [|reflexivity]. heads. apply crashed_line. now apply crashed_now.
    + apply panic_inv in H. destruct H as [H|(? & _ & H)]; [|discriminate H]. destruct (ecus_panic m finished H) as (pre & k & v & post & _ & _ & _ & Q).
      exists (map ecu_text pre). split; [apply open_plain; reflexivity|]. split; [|discriminate]. heads. apply crashed_line. exact Q.
  - exists (map ascii (heading "par_split_timestamp") ++ [slices_text (cores C) (length l)]).
    unfold slices_line, par_timestamp_splitit in H. rewrite E in H. cbn [obind] in H. unfold parallel. rewrite E. cbn [compute].
    destruct (mapM _ l) as [ms| |] eqn:Em; cbn [obind] in H; [| |discriminate H].
    + apply panic_inv in H. destruct H as [H|(? & _ & H)]; [|discriminate H]. destruct (ecus_panic _ finished H) as (pre & k & v & post & _ & _ & _ & Q).
      exists (map ecu_text pre). split; [apply open_slices; reflexivity|]. split; [|discriminate]. heads. do 2 apply crashed_line. exact Q.
    + exists []. split; [apply open_slices; reflexivity|]. split; [|reflexivity]. heads. do 2 apply crashed_line. reflexivity.
  - seq_panic "histogram_timestamp" H.
  - exists (map ascii (heading "par_histogram_timestamp") ++ [slices_text (cores C) (length l)]), []. split; [apply open_slices; reflexivity|]. split; [|reflexivity].
    heads. apply crashed_line. apply parallel_panic; [exact E|]. unfold slices_line, par_continuous_timestamp_histogram in H. rewrite E in H. cbn [obind] in H.
    destruct (mapM _ l); [discriminate H|reflexivity|discriminate H].
  - seq_panic "histogram_message_type" H.
  - seq_panic "histogram_payload_size" H.
  - seq_panic "histogram_message_size" H.
  - seq_panic "count" H.
  - par_crash "par_count" E H.
  - seq_panic "histogram_hello_world" H.
  - seq_panic "count_hello_world" H.
  - seq_panic "count_hello_world_raw" H.
  - seq_panic "count_hello_world_grepit" H.
  - par_crash "par_count_hello_world" E H.
  - par_crash "par_count_hello_world_raw" E H.
  - par_crash "par_count_hello_world_grepit" E H.
  - exists (map ascii (heading "par_iter") ++ [slices_text (cores C) (length l)]), (map long_text (arrival C (map lifecycle_iter l))).
    split; [apply open_slices; reflexivity|]. split; [|discriminate]. rewrite E. cbn [compute]. heads. apply crashed_line.
    apply crashed_all_end. apply crashed_now. unfold slices_line in H. rewrite E in H. cbn [obind] in H.
    destruct (mapM _ l); [discriminate H|reflexivity|discriminate H].
  - seq_panic "iter" H.
  - seq_panic "itertools" H.
  - exfalso. clear H E. cbn in I. intuition congruence.
Qed.

(** * No command runs for ever *)
Lemma mapM_nofuel {A B} (f : A -> outcome B) l : (forall x, In x l -> f x <> Fuel) -> mapM f l <> Fuel.
Proof.
  induction l as [|x l IH]; intros H; cbn [mapM]; [discriminate|]. destruct (f x) eqn:E; cbn [obind]; [|discriminate|exfalso; exact (H x (or_introl eq_refl) E)].
  specialize (IH (fun y I => H y (or_intror I))). destruct (mapM f l); cbn [obind]; [discriminate|discriminate|congruence].
Qed.

Lemma exists_dec {A} (P : A -> Prop) (dec : forall a, {P a} + {~ P a}) l : (exists a, In a l /\ P a) \/ (forall a, In a l -> ~ P a).
Proof.
  induction l as [|a l [(x & I & H)|IH]]; [now right| |].
  - left. exists x. split; [now right|exact H].
  - destruct (dec a) as [H|H]; [left; exists a; split; [now left|exact H]|]. right. intros x [<-|I]; [exact H|now apply IH].
Qed.
Lemma stunted_dec e : {stunted e} + {~ stunted e}.
Proof.
  unfold stunted. destruct (flag (htype e) 0); [|right; now intros [? _]]. destruct (lt_dec (length (tail (dlt e))) (announced (htype e))); [now left|right; now intros [_ ?]].
Qed.
Lemma broken_dec e : {extended e = true /\ ~ whole e} + {~ (extended e = true /\ ~ whole e)}.
Proof. destruct (extended e); [|right; now intros [? _]]. destruct (whole_dec e); [right; tauto|left; tauto]. Qed.
Lemma payload_nofuel b : histogram_payload b <> Fuel.
Proof.
  destruct (dltit_total b) as (l & _ & E). destruct (histogram_payload_exact b _ E) as [H1 H2].
  destruct (exists_dec stunted stunted_dec (map snd l)) as [S|S]; [now rewrite (H2 S)|]. destruct (H1 S) as (h & -> & _). discriminate.
Qed.
Lemma types_nofuel b : mstp_info_histogram b <> Fuel.
Proof.
  destruct (dltit_total b) as (l & _ & E). destruct (mstp_exact b _ E) as [H1 H2].
  destruct (exists_dec _ broken_dec (map snd l)) as [S|S]; [now rewrite (H2 S)|]. destruct H1 as (h & -> & _); [|discriminate].
  intros e I X. destruct (whole_dec e) as [W|W]; [exact W|]. exfalso. now apply (S e I).
Qed.
Lemma not_whole_dec e : {~ whole e} + {~ ~ whole e}.
Proof. destruct (whole_dec e); [right; tauto|now left]. Qed.
Lemma hello_nofuel b : count_hello_world b <> Fuel.
Proof.
  destruct (dltit_total b) as (l & _ & E). destruct (count_hello_world_exact b _ E) as [H1 H2].
  destruct (exists_dec _ not_whole_dec (map snd l)) as [S|S]; [now rewrite (H2 S)|]. destruct H1 as (h & _ & ->); [|discriminate].
  intros e I. destruct (whole_dec e) as [W|W]; [exact W|]. exfalso. exact (S e I W).
Qed.
Lemma lifecycles_nofuel b : lifecycle_histogram b <> Fuel.
Proof.
  destruct (dltit_total b) as (l & _ & E). destruct (unstamped_dec (map snd l)) as [U|S].
  - now rewrite (lifecycle_histogram_panic b _ E U).
  - destruct (lifecycle_histogram_exact b _ E S) as (? & ? & _ & -> & _). discriminate.
Qed.
Lemma iter_nofuel b : lifecycle_iter b <> Fuel.
Proof.
  destruct (dltit_total b) as (l & _ & E). destruct (unstamped_dec (map snd l)) as [U|S].
  - now rewrite (lifecycle_iter_panic b _ E U).
  - destruct (lifecycle_iter_exact b _ E S) as (? & _ & ->). discriminate.
Qed.
Lemma first_unstamped_dec (p : storage_entry * storage_entry) : {stamp (fst p) = None} + {stamp (fst p) <> None}.
Proof. destruct (stamp (fst p)); [right; discriminate|now left]. Qed.
Lemma itertools_nofuel b : lifecycle_itertools b <> Fuel.
Proof.
  destruct (dltit_total b) as (l & _ & E).
  destruct (exists_dec _ first_unstamped_dec (neighbours (filter stamped (map snd l)))) as [([a z] & I & S)|S].
  - now rewrite (lifecycle_itertools_panic b _ a z E I S).
  - rewrite (lifecycle_itertools_exact b _ E); [discriminate|]. intros a z I. exact (S (a, z) I).
Qed.
Lemma split_nofuel b : lifecycle_splitit (finalize_fuel b) b <> Fuel.
Proof.
  assert (F : 5 <= finalize_fuel b) by (unfold finalize_fuel; lia).
  destruct (dltit_total b) as (l & _ & E). destruct (unstamped_dec (map snd l)) as [U|S].
  - now rewrite (lifecycle_splitit_panic _ b _ F E U).
  - destruct (lifecycle_splitit_exact _ b _ F E S) as (? & -> & _). discriminate.
Qed.
Lemma bind_nofuel {A B} (o : outcome A) (f : A -> outcome B) : o <> Fuel -> (forall a, f a <> Fuel) -> obind o f <> Fuel.
Proof. destruct o; cbn [obind]; [intros _ H; apply H|discriminate|congruence]. Qed.
Lemma robust_nofuel M ds b cmd : 0 < cores M -> leftmost (h_star_world ds) (find_at M) -> (N.of_nat (length b) < 2 ^ 64 - 1)%N ->
  run_command M cmd b <> Fuel.
Proof.
  intros Hc LM Hb. destruct (in_dec string_dec cmd commands) as [I|I]; [|rewrite (unknown_command M cmd b I); discriminate].
  pose proof (robust_ret M b Hc ds cmd LM Hb) as R.
  assert (P : forall f, (forall s, f s <> Fuel) ->
    (let* s := slices_line M b in let* r := multithreaded (sched M) (cores M) f b in Ret [s; LCount r]) <> Fuel).
  { intros f Hf. destruct (partition_pieces b (cores M) Hc) as (sl & rest & Es & _). unfold slices_line, multithreaded. rewrite Es. cbn [obind].
    pose proof (mapM_nofuel f sl (fun x _ => Hf x)) as N. destruct (mapM f sl); cbn [obind]; congruence. }
  cbn in I. repeat (destruct I as [<-|I]; [first [destruct R as [ls ->]; [cbn; tauto|discriminate] | clear R; unfold run_command; cbn [String.eqb Ascii.eqb Bool.eqb]; cbv zeta]|]); try destruct I.
  - apply (bind_nofuel (lifecycle_histogram b)); [apply lifecycles_nofuel|discriminate].
  - apply (bind_nofuel (lifecycle_splitit (finalize_fuel b) b)); [apply split_nofuel|]. intros m. apply bind_nofuel; [apply ecus_nofuel|discriminate].
  - apply (bind_nofuel (timestamp_splitit (finalize_fuel b) b)).
    + destruct (tsplit_ret (finalize_fuel b) b ltac:(unfold finalize_fuel; lia)) as [m ->]. discriminate.
    + intros m. apply bind_nofuel; [apply ecus_nofuel|discriminate].
  - destruct (CommandFacts.slices_ret M b Hc) as [ln ->]. cbn [obind].
    destruct (psplit_ret M b Hc (finalize_fuel b) ltac:(unfold finalize_fuel; lia)) as [m ->]. cbn [obind]. apply bind_nofuel; [apply ecus_nofuel|discriminate].
  - apply (bind_nofuel (mstp_info_histogram b)); [apply types_nofuel|discriminate].
  - apply (bind_nofuel (histogram_payload b)); [apply payload_nofuel|discriminate].
  - apply (bind_nofuel (count_hello_world b)); [apply hello_nofuel|discriminate].
  - apply (P count_hello_world). intros; apply hello_nofuel.
  - destruct (CommandFacts.slices_ret M b Hc) as [ln ->]. cbn [obind]. destruct (partition_pieces b (cores M) Hc) as (sl & rest & -> & _). cbn [obind].
    apply bind_nofuel; [apply mapM_nofuel; intros; apply iter_nofuel|discriminate].
  - apply (bind_nofuel (lifecycle_iter b)); [apply iter_nofuel|discriminate].
  - apply (bind_nofuel (lifecycle_itertools b)); [apply itertools_nofuel|discriminate].
Qed.
Lemma unknown_text (C : console) cmd b : ~ In cmd commands -> crashed_after (command_text C cmd b) [].
Proof.
  intros N. unfold command_text. cbv zeta.
  repeat match goal with
  | |- context [if (cmd =? ?s)%string then _ else _] => destruct (String.eqb_spec cmd s) as [->|_]; [exfalso; apply N; cbn; tauto|]
  end. reflexivity.
Qed.
