(** Property theorems C126 and C127: what the parallel pattern counts and par_iter report, compared with the
    sequential commands. *)
From Coq Require Import String.
From Verif Require Import Base DltModel MatchModel GenModel ToolsModel MainModel Spec CommandSpec BaseFacts DltFacts CodecFacts ParseFacts
  FindFacts IterFacts DltIterFacts LayoutFacts GrepFacts GrepTools PartitionFacts GenFacts GroupFacts MapFacts MergeFacts TreeFacts ToolFacts
  Utf8Facts CommandFacts TotalFacts ExactFacts HelloRegex P_Partition P_Tools P_Commands P_Exact P_Balance P_Loss ParCountFacts.
From Verif Require Samples.
From Coq Require Import Sorted Permutation ZifyBool ZifyNat ZifyN.
Import Samples(m1, m1_valid, full_message).
Local Open Scope string_scope.
Local Open Scope list_scope.
Ltac Zify.zify_post_hook ::= idtac.

(** * C126: pattern counts *)
(** par_count_hello_world_raw, for any content: it counts the places where "Hello World" stands inside one of the
    slices.  That is never more than the sequential command counts, and at most one less for every border between
    two slices, apart from what is lost behind the last slice. *)
Theorem C126_raw : forall (M : machine) (b : bytes) slices,
  fair_sched (sched M) -> partition_from DLT b (cores M) = Ret slices ->
  exists lost ks n k, b = concat slices ++ lost /\
    StronglySorted lt ks /\
    (forall i, In i ks <-> occurs_at hello b i /\
       exists l1 s l2, slices = l1 ++ s :: l2 /\ length (concat l1) <= i /\ i + length hello <= length (concat l1) + length s) /\
    run_command M "par_count_hello_world_raw" b = Ret [LSlices (cores M) (length slices); LCount (length ks)] /\
    run_command M "count_hello_world_raw" b = Ret [LCount n] /\ length ks <= n /\
    run_command M "count_hello_world_raw" (concat slices) = Ret [LCount k] /\ length ks <= k <= length ks + (length slices - 1).
Proof.
  intros M b slices F E.
  destruct (Nat.eq_dec (cores M) 0) as [Z|Z]; [rewrite Z in E; discriminate E|].
  destruct (partition_pieces b (cores M) ltac:(lia)) as (l' & lost & E' & _ & Q). assert (l' = slices) by congruence. subst l'.
  exists lost, (piecewise hello 0 slices), (length (find_iter hello b)), (length (find_iter hello (concat slices))).
  split; [exact Q|]. split; [apply piecewise_sorted|]. split; [intros i; rewrite Q; exact (piecewise_occurs slices lost i)|]. split.
  { rewrite piecewise_length. apply (proj1 (C64_parallel_counts M b slices "count_hello_world_raw" "par_count_hello_world_raw" F E ltac:(cbn; tauto))).
    clear. induction slices as [|s l IH]; [constructor|]. constructor; [reflexivity|exact IH]. }
  split; [reflexivity|]. rewrite piecewise_length. split; [rewrite Q; apply hello_fewer|]. split; [reflexivity|].
  split; [|apply hello_borders]. pose proof (hello_fewer slices []) as H. now rewrite app_nil_r in H.
Qed.
Print Assumptions C126_raw.

(** par_count_hello_world_grepit, on a file whose markers are the starts of its messages, where no match crosses the
    border of a message: exactly what the sequential command reports for the file without its lost part. *)
Theorem C126_grep_partial : forall (M : machine) dotstar parts last l,
  let file := layout parts last in
  fair_sched (sched M) -> 0 < cores M -> leftmost (h_star_world dotstar) (find_at M) -> (N.of_nat (length file) < 2 ^ 64 - 1)%N ->
  clean parts last -> at_most 65536 parts -> no_crossing (h_star_world dotstar) file (placed 0 parts) ->
  partition_from DLT file (cores M) = Ret l ->
  exists lost n k, file = concat l ++ lost /\
    (forall max, at_most (N.of_nat max) parts -> 0 < max <= length file / cores M -> length lost < length file / cores M) /\
    run_command M "count_hello_world_grepit" (concat l) = Ret [LCount n] /\
    run_command M "count_hello_world_grepit" lost = Ret [LCount k] /\
    run_command M "count_hello_world_grepit" file = Ret [LCount (n + k)] /\
    run_command M "par_count_hello_world_grepit" file = Ret [LSlices (cores M) (length l); LCount n].
Proof.
  intros M ds parts last l file F Hc LM Hb CL MX NC E. pose proof (clean_enclosed _ _ CL) as EN.
  destruct (partition_pieces file (cores M) Hc) as (l' & lost & E' & _ & Q). assert (l' = l) by congruence. subst l'.
  pose proof (partition_between parts last EN MX (cores M) l E) as B.
  destruct (grep_front (h_star_world ds) (h_star_local ds) (h_star_local' ds) (h_star_sized ds) (find_at M) LM l parts last lost (eq_sym Q) CL NC Hb
    (B l [] (eq_sym (app_nil_r l)))) as (i & j & t & G1 & G2 & G3 & LT).
  destruct (grep_chunks (h_star_world ds) (h_star_local ds) (h_star_local' ds) (h_star_sized ds) (find_at M) LM l parts last lost (eq_sym Q) CL NC Hb B)
    as (ns & k & FN & (j' & G2' & LK) & (t' & G3' & LT')).
  assert (j' = j) by congruence. assert (t' = t) by congruence. subst j' t' k. assert (LI : list_sum ns = length i) by lia.
  exists lost, (length i), (length j). split; [exact Q|]. split; [intros max; now apply (lost_short parts last (cores M) max l lost)|].
  split; [now apply C59_grepit|]. split; [now apply C59_grepit|]. split; [rewrite <- LT; now apply C59_grepit|].
  rewrite <- LI. apply (proj1 (C64_parallel_counts M file l "count_hello_world_grepit" "par_count_hello_world_grepit" F E ltac:(cbn; tauto))).
  clear - FN. induction FN as [|s n l ns (items & G & <-) FN IH]; [constructor|]. constructor; [now apply C59_grepit|exact IH].
Qed.
Print Assumptions C126_grep_partial.

(** A machine with [n] cores. *)
Definition bench (n : nat) : machine := {| fs := fs (lab []); cores := n; sched := sched (lab []); find_at := find_hw |}.
Lemma bench_fair n : fair_sched (sched (bench n)) /\ leftmost (h_star_world one_line) (find_at (bench n)).
Proof. split; [apply (lab_machine [])|apply find_hw_leftmost]. Qed.
(** Without a line feed in its headers. *)
Definition m_flat : bytes := full_message x0b [x00; x00; x01; x00] hello.
Lemma m_flat_valid : valid_message m_flat.
Proof. vm_compute. repeat split; lia. Qed.

Lemma clean_parts_check parts last : Forall (fun p => valid_message (snd p)) parts ->
  forallb (fun k => implb (is_prefix dlt_marker (skipn k (layout parts last)))
                          (existsb (fun p => fst p =? k)%nat (placed 0 parts)))
          (seq 0 (length (layout parts last))) = true ->
  clean parts last.
Proof.
  intros V H. split; [exact V|]. intros k O. apply occ_occurs in O; [|cbn; lia].
  pose proof (occ_len the_pattern _ _ ltac:(cbn; lia) O) as L. cbn [length the_pattern] in L.
  rewrite forallb_forall in H. specialize (H k). rewrite in_seq in H. specialize (H ltac:(lia)).
  change dlt_marker with the_pattern in H. rewrite O in H. cbn [implb] in H.
  apply existsb_exists in H. destruct H as ([k' m] & I & E). cbn in E. apply Nat.eqb_eq in E. subst k'.
  now exists m.
Qed.
Definition line_match (b : bytes) (s e : nat) : bool :=
  (s + 7 <=? e)%nat && forallb (fun c => negb (byte_eqb c x0a)) (firstn (e - s - 7) (skipn (s + 1) b)).
Lemma no_crossing_check parts last :
  forallb (fun s => implb (byte_eqb (nth s (layout parts last) x00) x48)
    (forallb (fun e => implb (line_match (layout parts last) s e && is_prefix world (skipn (e - 6) (layout parts last)))
       (existsb (fun p => (fst p + 4 <=? s)%nat && (e <=? fst p + length (snd p))%nat) (placed 0 parts)))
       (seq 0 (S (length (layout parts last)))))) (seq 0 (length (layout parts last))) = true ->
  no_crossing (h_star_world one_line) (layout parts last) (placed 0 parts).
Proof.
  intros H s e M. pose proof (h_star_sized _ _ _ _ M) as SB. destruct M as (mid & OL & (pre & post & E & LP) & LE).
  rewrite forallb_forall in H. specialize (H s). rewrite in_seq in H. specialize (H ltac:(lia)).
  assert (H1 : nth s (layout parts last) x00 = x48) by (rewrite E, app_nth2, <- LP, Nat.sub_diag by lia; reflexivity).
  rewrite H1, byte_eqb_refl in H. cbn [implb] in H. rewrite forallb_forall in H. specialize (H e). rewrite in_seq in H. specialize (H ltac:(lia)).
  assert (X : line_match (layout parts last) s e && is_prefix world (skipn (e - 6) (layout parts last)) = true).
  { apply andb_true_intro. split.
    - unfold line_match. apply andb_true_intro. split; [apply Nat.leb_le; lia|].
      replace (firstn (e - s - 7) (skipn (s + 1) (layout parts last))) with mid.
      + apply forallb_forall. intros c I. destruct (byte_eqb_spec c x0a) as [->|]; [contradiction|reflexivity].
      + rewrite E.
        replace (skipn (s + 1) (pre ++ ([x48] ++ mid ++ [x20; x57; x6f; x72; x6c; x64]) ++ post)) with ((mid ++ world) ++ post).
        * rewrite <- app_assoc. symmetry. apply firstn_app_exact. lia.
        * replace (pre ++ ([x48] ++ mid ++ [x20; x57; x6f; x72; x6c; x64]) ++ post) with ((pre ++ [x48]) ++ (mid ++ world) ++ post) by (rewrite <- !app_assoc; reflexivity).
          symmetry. apply skipn_app_exact. rewrite app_length. cbn [length]. lia.
    - replace (skipn (e - 6) (layout parts last)) with (world ++ post).
      + apply is_prefix_app. now exists post.
      + rewrite E. replace (pre ++ ([x48] ++ mid ++ [x20; x57; x6f; x72; x6c; x64]) ++ post) with ((pre ++ [x48] ++ mid) ++ world ++ post) by (rewrite <- !app_assoc; reflexivity).
        symmetry. apply skipn_app_exact. rewrite !app_length. cbn [length]. lia. }
  rewrite X in H. cbn [implb] in H. apply existsb_exists in H. destruct H as (p & I & P). apply andb_prop in P. rewrite !Nat.leb_le in P.
  left. exists p. split; [exact I|]. exact P.
Qed.
Lemma rep_clean : clean (rep m1 8) [] /\ at_most 65536 (rep m1 8) /\ no_crossing (h_star_world one_line) (layout (rep m1 8) []) (placed 0 (rep m1 8)).
Proof.
  split; [|split].
  - apply clean_parts_check; [|vm_compute; reflexivity]. apply Forall_forall. intros p I. apply repeat_spec in I. subst. exact m1_valid.
  - apply Forall_forall. intros p I. apply repeat_spec in I. subst. vm_compute. discriminate.
  - apply no_crossing_check. vm_compute. reflexivity.
Qed.
(** C126 fails as an equation: eight messages on three cores are counted as six; and of two messages on two cores
    whose texts make up one match, the sequential grep counts none and the parallel one counts both. *)
Theorem C126_refuted :
  (clean (rep m1 8) [] /\ at_most 65536 (rep m1 8) /\
   no_crossing (h_star_world one_line) (layout (rep m1 8) []) (placed 0 (rep m1 8)) /\
   run_command (bench 3) "count_hello_world_raw" (layout (rep m1 8) []) = Ret [LCount 8] /\
   run_command (bench 3) "par_count_hello_world_raw" (layout (rep m1 8) []) = Ret [LSlices 3 3; LCount 6] /\
   run_command (bench 3) "count_hello_world_grepit" (layout (rep m1 8) []) = Ret [LCount 8] /\
   run_command (bench 3) "par_count_hello_world_grepit" (layout (rep m1 8) []) = Ret [LSlices 3 3; LCount 6]) /\
  (clean (rep m_flat 2) [] /\
   (exists l, partition_from DLT (layout (rep m_flat 2) []) 2 = Ret l /\ concat l = layout (rep m_flat 2) []) /\
   run_command (bench 2) "count_hello_world_grepit" (layout (rep m_flat 2) []) = Ret [LCount 0] /\
   run_command (bench 2) "par_count_hello_world_grepit" (layout (rep m_flat 2) []) = Ret [LSlices 2 2; LCount 2]).
Proof.
  destruct rep_clean as (H1 & H2 & H3). split.
  - split; [exact H1|]. split; [exact H2|]. split; [exact H3|]. split; [vm_compute; reflexivity|]. split; [vm_compute; reflexivity|]. split; vm_compute; reflexivity.
  - split. { apply clean_parts_check; [|vm_compute; reflexivity]. repeat constructor; exact m_flat_valid. }
    split; [eexists; split; [vm_compute; reflexivity|vm_compute; reflexivity]|]. split; vm_compute; reflexivity.
Qed.
Print Assumptions C126_refuted.

(** * C127: par_iter *)
(** On files of messages of at most 65536 bytes (which may contain other messages), with the lost part left out: the
    numbers that par_iter prints, one for each slice, add up to what iter prints, give or take one for every border
    between two slices; and par_iter panics if and only if iter does. *)
Theorem C127_par_iter_partial : forall (M : machine) parts last l,
  let file := layout parts last in
  0 < cores M -> enclosed parts last -> at_most 65536 parts ->
  partition_from DLT file (cores M) = Ret l ->
  exists lost, file = concat l ++ lost /\
    (forall max, at_most (N.of_nat max) parts -> 0 < max <= length file / cores M -> length lost < length file / cores M) /\
    ((exists n ns, run_command M "iter" (concat l) = Ret [LLong n] /\
        run_command M "par_iter" file = Ret (LSlices (cores M) (length l) :: map LLong ns) /\ length ns = length l /\
        n <= list_sum ns + (length l - 1) /\ list_sum ns <= n + (length l - 1)) \/
     (run_command M "iter" (concat l) = Panic /\ run_command M "par_iter" file = Panic)).
Proof.
  intros M parts last l file Hc EN MX E. destruct (partition_kept parts last (cores M) l EN MX E) as (ess & lost & others & L & FE & DK & DL & DF).
  exists lost. split; [exact L|]. split; [intros max; now apply (lost_short parts last (cores M) max l lost)|].
  destruct (C64_par_iter M file l E) as [P1 P2]. destruct (C63_iter M (concat l) _ DK) as [K1 K2].
  assert (DEC : forall es, all_stamped es \/ unstamped es).
  { clear. intros es. destruct (existsb (fun e => stamped e && match stamp e with None => true | Some _ => false end) es) eqn:X.
    - right. apply existsb_exists in X. destruct X as (e & I & X). apply andb_prop in X. destruct X as [X1 X2]. exists e. split; [exact I|]. split; [exact X1|]. now destruct (stamp e).
    - left. intros e I S N. assert (Y : existsb (fun e => stamped e && match stamp e with None => true | Some _ => false end) es = true); [|congruence].
      apply existsb_exists. exists e. split; [exact I|]. now rewrite S, N. }
  destruct (DEC (concat ess)) as [W|W].
  - left. destruct (K1 W) as (R & MR & RI). exists (length (filter is_long R)).
    assert (X : exists Rs, Forall2 (fun es r => maximal_runs not_earlier es r) (map (filter stamped) ess) Rs /\
      Forall2 (fun s n => run_command M "iter" s = Ret [LLong n]) l (map (fun r => length (filter is_long r)) Rs)).
    { clear - FE W. induction FE as [|s es l ess D FE IH]; [exists []; split; constructor|]. cbn [concat] in W.
      destruct IH as (Rs & F1 & F2); [intros e I; apply W, in_or_app; now right|].
      destruct (proj1 (C63_iter M s es D) ltac:(intros e I; apply W, in_or_app; now left)) as (R & MR & RI).
      exists (R :: Rs). cbn [map]. split; constructor; assumption. }
    destruct X as (Rs & F1 & F2). exists (map (fun r => length (filter is_long r)) Rs). split; [exact RI|]. split; [exact (P1 _ F2)|].
    assert (LL : length (map (filter stamped) ess) = length l) by (rewrite map_length; clear - FE; induction FE; cbn; congruence).
    split. { rewrite map_length. rewrite <- LL. clear - F1. induction F1; cbn; congruence. }
    rewrite <- LL. apply long_parts; [exact F1|].
    replace (concat (map (filter stamped) ess)) with (filter stamped (concat ess)); [exact MR|]. clear.
    induction ess as [|es ess IH]; [reflexivity|]. cbn [concat map]. now rewrite filter_app, IH.
  - right. split; [now apply K2|]. apply P2. destruct W as (e & I & S). clear - FE I S. induction FE as [|s es l ess D FE IH]; [destruct I|]. cbn [concat] in I. apply in_app_or in I. destruct I as [I|I].
    + exists s. split; [now left|]. apply (proj2 (C63_iter M s es D)). now exists e.
    + destruct (IH I) as (s' & I' & P). exists s'. split; [now right|exact P].
Qed.
Print Assumptions C127_par_iter_partial.

Definition m_at (t : bytes) : bytes := full_message x0a t hello.
Definition parts_at (ts : list bytes) : list (bytes * bytes) := map (fun t => ([], m_at t)) ts.
(** Nothing, half an hour and an hour, in tenths of milliseconds. *)
Definition t0 : bytes := [x00; x00; x00; x00].
Definition t30 : bytes := [x01; x12; xa8; x80].
Definition t60 : bytes := [x02; x25; x51; x00].
Definition one_run : list bytes := repeat t0 10 ++ repeat t30 10.
Definition two_runs : list bytes := repeat t0 9 ++ [t30; t30] ++ repeat t60 9.
Lemma parts_at_enclosed ts : Forall (fun t => In t [t0; t30; t60]) ts ->
  forallb (fun k => implb (is_prefix dlt_marker (skipn k (layout (parts_at ts) [])))
                          (existsb (fun p => ((fst p <=? k)%nat && (k + 4 <=? fst p + length (snd p))%nat)%bool) (placed 0 (parts_at ts))))
          (seq 0 (length (layout (parts_at ts) []))) = true ->
  enclosed (parts_at ts) [] /\ at_most 65536 (parts_at ts).
Proof.
  intros F H. rewrite Forall_forall in F. split.
  - apply enclosed_check; [|exact H]. apply Forall_forall. intros p I. apply in_map_iff in I. destruct I as (t & <- & I). specialize (F t I). cbn [snd].
    destruct F as [<-|[<-|[<-|[]]]]; vm_compute; repeat split; lia.
  - apply Forall_forall. intros p I. apply in_map_iff in I. destruct I as (t & <- & I). specialize (F t I). cbn [snd].
    destruct F as [<-|[<-|[<-|[]]]]; vm_compute; discriminate.
Qed.
(** C127 fails as an equation in both directions although nothing is lost: a border cuts a long run in two short
    ones, or in two long ones. *)
Theorem C127_refuted :
  (enclosed (parts_at one_run) [] /\ at_most 65536 (parts_at one_run) /\
   (exists l, partition_from DLT (layout (parts_at one_run) []) 2 = Ret l /\ concat l = layout (parts_at one_run) []) /\
   run_command (bench 2) "iter" (layout (parts_at one_run) []) = Ret [LLong 1] /\
   run_command (bench 2) "par_iter" (layout (parts_at one_run) []) = Ret [LSlices 2 2; LLong 0; LLong 0]) /\
  (enclosed (parts_at two_runs) [] /\ at_most 65536 (parts_at two_runs) /\
   (exists l, partition_from DLT (layout (parts_at two_runs) []) 2 = Ret l /\ concat l = layout (parts_at two_runs) []) /\
   run_command (bench 2) "iter" (layout (parts_at two_runs) []) = Ret [LLong 1] /\
   run_command (bench 2) "par_iter" (layout (parts_at two_runs) []) = Ret [LSlices 2 2; LLong 1; LLong 1]).
Proof.
  split.
  - destruct (parts_at_enclosed one_run) as [H1 H2]; [cbv [one_run two_runs repeat app]; repeat (apply Forall_cons; [cbn [In]; tauto|]); apply Forall_nil|vm_compute; reflexivity|].
    split; [exact H1|]. split; [exact H2|]. split; [eexists; split; [vm_compute; reflexivity|vm_compute; reflexivity]|]. split; vm_compute; reflexivity.
  - destruct (parts_at_enclosed two_runs) as [H1 H2]; [cbv [one_run two_runs repeat app]; repeat (apply Forall_cons; [cbn [In]; tauto|]); apply Forall_nil|vm_compute; reflexivity|].
    split; [exact H1|]. split; [exact H2|]. split; [eexists; split; [vm_compute; reflexivity|vm_compute; reflexivity]|]. split; vm_compute; reflexivity.
Qed.
Print Assumptions C127_refuted.
