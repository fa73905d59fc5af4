(** Property theorems C89-C92: cut files, files with overwritten payloads, concatenated files. *)
From Coq Require Import String.
From Verif Require Import Base DltModel MatchModel GenModel ToolsModel MainModel Spec CommandSpec ReadSpec EditSpec
  IterFacts DltIterFacts ReadFacts EditFacts P_Exact EditCommands.
From Verif Require Samples.
From Coq Require Import Sorted.
Import Samples(m1, m2, m3, m_nested, m_corrupt, m1_valid, m2_valid, m_nested_valid).
Local Open Scope string_scope.
Local Open Scope list_scope.

(** * C89: cutting any file anywhere *)
(** Whatever the file holds: the entries of its first [c] bytes are the entries of the file that end
    there.  So entries never change or vanish while a file grows. *)
Theorem C89_cut : forall b : bytes, exists l ms,
  dltit_offset b = Ret l /\ shows l ms /\ (forall k m, In (k, m) ms -> message_at b k m) /\
  forall c, exists l', dltit_offset (firstn c b) = Ret l' /\ shows l' (within c ms).
Proof. exact cut_read. Qed.
Print Assumptions C89_cut.

(** The searching iterator yields them too, and moreover messages nested in the one that is cut. *)
Theorem C92_search_cut_partial : forall (b : bytes) (c : nat), exists l ms l' extra,
  search_all b = Ret l /\ shows l ms /\ greedy b 0 ms /\
  search_all (firstn c b) = Ret l' /\ shows l' (within c ms ++ extra) /\
  forall k m, In (k, m) extra ->
    message_at b k m /\ exists k' m', In (k', m') ms /\ k' < k /\ k + length m <= c /\ c < k' + length m'.
Proof. exact search_cut. Qed.
Print Assumptions C92_search_cut_partial.

Definition m_wrapped : bytes := Samples.plain_message x0d (m2 ++ [x2a]).
Theorem C92_refuted : exists (b : bytes) (c : nat) l l' k e,
  search_all b = Ret l /\ search_all (firstn c b) = Ret l' /\ In (k, e) l' /\ ~ In (k, e) l.
Proof.
  exists m_wrapped, 43, [(0, DltFacts.entry_of m_wrapped)], [(20, DltFacts.entry_of m2)], 20, (DltFacts.entry_of m2).
  split; [vm_compute; reflexivity|]. split; [vm_compute; reflexivity|]. split; [now left|].
  intros [H|[]]. apply (f_equal fst) in H. discriminate.
Qed.
Print Assumptions C92_refuted.

(** A corrupted message after m1; cut in the middle of m1, of m2, of the corrupted one. *)
Example C89_example : let b := [x2a] ++ m1 ++ m2 ++ m_corrupt ++ m3 in exists l l1 l2 l3,
  dltit_offset b = Ret l /\ map fst l = [1; 46] /\
  dltit_offset (firstn 45 b) = Ret l1 /\ l1 = [] /\
  dltit_offset (firstn 68 b) = Ret l2 /\ map fst l2 = [1] /\
  dltit_offset (firstn 77 b) = Ret l3 /\ l3 = l.
Proof. cbv zeta. do 4 eexists. repeat split; vm_compute; reflexivity. Qed.

(** * C90: what is behind the first 20 bytes of a message does not matter for finding messages *)
Theorem C90_overwritten : forall b : bytes, exists l ms,
  dltit_offset b = Ret l /\ shows l ms /\ (forall k m, In (k, m) ms -> message_at b k m) /\
  forall b', overwritten ms b b' -> exists l' ms',
    dltit_offset b' = Ret l' /\ shows l' ms' /\ (forall k m, In (k, m) ms' -> message_at b' k m) /\ Forall2 same_head ms ms'.
Proof. exact overwritten_read. Qed.
Print Assumptions C90_overwritten.

(** Five of the commands do not look at it either: they print the same, or crash for both. *)
Theorem C90_commands : forall (M : machine) (b b' : bytes) l ms (cmd : string),
  dltit_offset b = Ret l -> shows l ms -> (forall k m, In (k, m) ms -> message_at b k m) -> overwritten ms b b' ->
  In cmd ["count"; "histogram_message_size"; "histogram_payload_size"; "histogram_timestamp"; "split_timestamp"] ->
  run_command M cmd b' = run_command M cmd b.
Proof.
  intros M b b' l ms cmd E Sh At O I. destruct (overwritten_read b) as (l0 & ms0 & E0 & S0 & A0 & H).
  assert (l0 = l) by congruence. subst l0.
  assert (V : Forall (fun p => valid_message (snd p)) ms) by (apply Forall_forall; intros [k m] Q; apply (At k m Q)).
  assert (V0 : Forall (fun p => valid_message (snd p)) ms0) by (apply Forall_forall; intros [k m] Q; apply (A0 k m Q)).
  assert (ms0 = ms).
  { clear - Sh S0 At A0. revert ms0 S0 A0 At. induction Sh as [|[i e] [k m] l ms [Q D] Sh IH]; intros ms0 S0 A0 At; inversion S0 as [|x [k0 m0] l2 ms2 [Q0 D0] S2]; subst; [reflexivity|].
    cbn [fst snd] in *. subst k0 k. f_equal.
    - f_equal. apply (message_at_fun b i); [apply A0|apply At]; now left.
    - apply (IH ms2 S2); intros k1 m1 I1; [apply A0|apply At]; now right. }
  subst ms0. destruct (H b' O) as (l' & ms' & E' & S' & A' & R).
  apply (head_commands_same M b b' (map snd l) (map snd l')); [now apply dltit_map|now apply dltit_map| |exact I].
  apply (erase_shows l ms l' ms' V); [|exact Sh|exact S'|exact R]. apply Forall_forall. intros [k m] Q. apply (A' k m Q).
Qed.
Print Assumptions C90_commands.

(** Blanking the payload of m1, and putting a pattern into the one of m2. *)
Example C90_example : let b := m1 ++ [x2a] ++ m2 ++ m3 in
  let b' := firstn 34 m1 ++ repeat x00 11 ++ [x2a] ++ firstn 20 m2 ++ [x44; x4c; x54] ++ m3 in exists l l',
  overwritten [(0, m1); (46, m2); (69, m3)] b b' /\ b' <> b /\
  dltit_offset b = Ret l /\ shows l [(0, m1); (46, m2); (69, m3)] /\ dltit_offset b' = Ret l' /\ map fst l' = map fst l.
Proof.
  cbv zeta. do 2 eexists. split; [|split; [discriminate|split; [vm_compute; reflexivity|split; [|split; vm_compute; reflexivity]]]].
  - split; [reflexivity|]. intros j H.
    pose proof (H 0 m1 (or_introl eq_refl)) as H1. pose proof (H 46 m2 (or_intror (or_introl eq_refl))) as H2. clear H.
    change (length m1) with 45 in H1. change (length m2) with 23 in H2.
    assert (J : j < 34 \/ 45 <= j < 66 \/ 69 <= j) by lia.
    destruct J as [J|[J|J]].
    + do 34 (destruct j as [|j]; [reflexivity|]). lia.
    + do 45 (destruct j as [|j]; [lia|]). do 21 (destruct j as [|j]; [reflexivity|]). lia.
    + do 69 (destruct j as [|j]; [lia|]). reflexivity.
  - repeat constructor; cbn [fst snd]; vm_compute; reflexivity || (intros; discriminate) || idtac.
Qed.

(** * C91: commands on concatenated files *)
(** [layout parts []] is a file of messages with pattern-free garbage in front of them, [b] is any file. *)
Theorem C91_count : forall (M : machine) (parts : list (bytes * bytes)) (b : bytes), parts_ok parts ->
  exists n1 n2, run_command M "count" (layout parts []) = Ret [LCount n1] /\ run_command M "count" b = Ret [LCount n2] /\
    run_command M "count" (layout parts [] ++ b) = Ret [LCount (n1 + n2)].
Proof.
  intros M parts b OK. destruct (ToolFacts.dltit_total (layout parts [])) as (l1 & _ & D1). destruct (ToolFacts.dltit_total b) as (l2 & _ & D2).
  pose proof (concat_entries parts b _ _ OK D1 D2) as D. exists (List.length (map snd l1)), (List.length (map snd l2)).
  rewrite (C59_count M _ _ D1), (C59_count M _ _ D2), (C59_count M _ _ D), app_length. auto.
Qed.
Print Assumptions C91_count.

Theorem C91_count_hello_world : forall (M : machine) (parts : list (bytes * bytes)) (b : bytes) n1 n2, parts_ok parts ->
  run_command M "count_hello_world" (layout parts []) = Ret [LCount n1] -> run_command M "count_hello_world" b = Ret [LCount n2] ->
  run_command M "count_hello_world" (layout parts [] ++ b) = Ret [LCount (n1 + n2)].
Proof.
  intros M parts b n1 n2 OK R1 R2.
  destruct (ToolFacts.dltit_total (layout parts [])) as (l1 & _ & D1). destruct (ToolFacts.dltit_total b) as (l2 & _ & D2).
  pose proof (concat_entries parts b _ _ OK D1 D2) as D.
  assert (WD : forall es, (forall e, In e es -> whole e) \/ exists e, In e es /\ ~ whole e).
  { clear. induction es as [|e es [IH|IH]]; [left; intros e []| |].
    - destruct (le_dec (announced (htype e) + ext_size (htype e)) (List.length (tail (dlt e)))) as [Q|Q].
      + left. intros x [<-|I]; [exact Q|now apply IH].
      + right. exists e. split; [now left|exact Q].
    - right. destruct IH as (x & I & Q). exists x. split; [now right|exact Q]. }
  destruct (C59_count_hello_world M _ _ D1) as [H1 P1]. destruct (C59_count_hello_world M _ _ D2) as [H2 P2].
  destruct (C59_count_hello_world M _ _ D) as [H _].
  destruct (WD (map snd l1)) as [W1|W1]; [|rewrite (P1 W1) in R1; discriminate].
  destruct (WD (map snd l2)) as [W2|W2]; [|rewrite (P2 W2) in R2; discriminate].
  destruct H as (f & Pf & ->). { intros e I. apply in_app_or in I. destruct I as [I|I]; [now apply W1|now apply W2]. }
  destruct (H1 W1) as (f1 & Pf1 & E1). destruct (H2 W2) as (f2 & Pf2 & E2).
  assert (F1 : forall e, f1 e = f e). { intros e. destruct (f e) eqn:Q; [apply Pf1; now apply Pf|]. destruct (f1 e) eqn:Q1; [|reflexivity]. apply Pf1, Pf in Q1. congruence. }
  assert (F2 : forall e, f2 e = f e). { intros e. destruct (f e) eqn:Q; [apply Pf2; now apply Pf|]. destruct (f2 e) eqn:Q1; [|reflexivity]. apply Pf2, Pf in Q1. congruence. }
  rewrite (filter_ext _ _ F1) in E1. rewrite (filter_ext _ _ F2) in E2. rewrite R1 in E1. rewrite R2 in E2.
  rewrite filter_app, app_length. congruence.
Qed.
Print Assumptions C91_count_hello_world.

Definition size_rows (h : list (N * nat)) : list line :=
  map (fun kn => LSize (fst kn) (snd kn) (fst kn * N.of_nat (snd kn) / 1024)%N) h ++ [LTotal (weighed h / 1024)%N].
Theorem C91_sizes : forall (M : machine) (parts : list (bytes * bytes)) (b : bytes), parts_ok parts -> exists h1 h2 h,
  run_command M "histogram_message_size" (layout parts []) = Ret (LHeading "Distribution of DLT message length:" :: size_rows h1) /\
  run_command M "histogram_message_size" b = Ret (LHeading "Distribution of DLT message length:" :: size_rows h2) /\
  run_command M "histogram_message_size" (layout parts [] ++ b) = Ret (LHeading "Distribution of DLT message length:" :: size_rows h) /\
  added N.eq_dec N.lt h1 h2 h /\ weighed h = (weighed h1 + weighed h2)%N.
Proof.
  intros M parts b OK.
  destruct (ToolFacts.dltit_total (layout parts [])) as (l1 & _ & D1). destruct (ToolFacts.dltit_total b) as (l2 & _ & D2).
  pose proof (concat_entries parts b _ _ OK D1 D2) as D.
  destruct (C60_message_sizes M _ _ D1) as (h1 & T1 & ->). destruct (C60_message_sizes M _ _ D2) as (h2 & T2 & ->).
  destruct (C60_message_sizes M _ _ D) as (h & T & ->). exists h1, h2, h. unfold size_rows.
  rewrite (weighed_total _ _ T1), (weighed_total _ _ T2), (weighed_total _ _ T). rewrite map_app in *.
  split; [reflexivity|]. split; [reflexivity|]. split; [reflexivity|]. split; [|apply total_sum].
  apply (added_tables N.eq_dec N.lt (fun a => N.lt_irrefl a) _ _ _ _ _ T1 T2 T).
Qed.
Print Assumptions C91_sizes.

Theorem C91_payload_sizes : forall (M : machine) (parts : list (bytes * bytes)) (b : bytes) r1 r2, parts_ok parts ->
  run_command M "histogram_payload_size" (layout parts []) = Ret r1 -> run_command M "histogram_payload_size" b = Ret r2 ->
  exists h1 h2 h, r1 = LHeading "Distribution of payload length:" :: size_rows h1 /\
  r2 = LHeading "Distribution of payload length:" :: size_rows h2 /\
  run_command M "histogram_payload_size" (layout parts [] ++ b) = Ret (LHeading "Distribution of payload length:" :: size_rows h) /\
  added N.eq_dec N.lt h1 h2 h /\ weighed h = (weighed h1 + weighed h2)%N.
Proof.
  intros M parts b r1 r2 OK R1 R2.
  destruct (ToolFacts.dltit_total (layout parts [])) as (l1 & _ & D1). destruct (ToolFacts.dltit_total b) as (l2 & _ & D2).
  pose proof (concat_entries parts b _ _ OK D1 D2) as D.
  destruct (C60_payload_sizes M _ _ D1) as [H1 P1]. destruct (C60_payload_sizes M _ _ D2) as [H2 P2].
  destruct (C60_payload_sizes M _ _ D) as [H _].
  assert (NS1 : forall e, In e (map snd l1) -> ~ stunted e) by (intros e I Q; rewrite P1 in R1; [discriminate|now exists e]).
  assert (NS2 : forall e, In e (map snd l2) -> ~ stunted e) by (intros e I Q; rewrite P2 in R2; [discriminate|now exists e]).
  destruct (H1 NS1) as (h1 & T1 & E1). destruct (H2 NS2) as (h2 & T2 & E2).
  destruct H as (h & T & ->). { intros e I. apply in_app_or in I. destruct I as [I|I]; [now apply NS1|now apply NS2]. }
  exists h1, h2, h. unfold size_rows. rewrite (weighed_total _ _ T1), (weighed_total _ _ T2), (weighed_total _ _ T). rewrite map_app in *.
  split; [congruence|]. split; [congruence|]. split; [reflexivity|]. split; [|apply total_sum].
  apply (added_tables N.eq_dec N.lt (fun a => N.lt_irrefl a) _ _ _ _ _ T1 T2 T).
Qed.
Print Assumptions C91_payload_sizes.

Definition type_rows (h : list ((bool * option msg_type) * nat)) : list line := map (fun tn => LType (fst tn) (snd tn)) h.
Theorem C91_types : forall (M : machine) (parts : list (bytes * bytes)) (b : bytes) r1 r2, parts_ok parts ->
  run_command M "histogram_message_type" (layout parts []) = Ret r1 -> run_command M "histogram_message_type" b = Ret r2 ->
  exists h1 h2 h, r1 = LHeading "(verbose, message type): # dlt messages" :: type_rows h1 /\
  r2 = LHeading "(verbose, message type): # dlt messages" :: type_rows h2 /\
  run_command M "histogram_message_type" (layout parts [] ++ b) = Ret (LHeading "(verbose, message type): # dlt messages" :: type_rows h) /\
  added type_dec type_before h1 h2 h.
Proof.
  intros M parts b r1 r2 OK R1 R2.
  destruct (ToolFacts.dltit_total (layout parts [])) as (l1 & _ & D1). destruct (ToolFacts.dltit_total b) as (l2 & _ & D2).
  pose proof (concat_entries parts b _ _ OK D1 D2) as D.
  destruct (C61_message_types M _ _ D1) as [H1 P1]. destruct (C61_message_types M _ _ D2) as [H2 P2].
  destruct (C61_message_types M _ _ D) as [H _].
  assert (WD : forall e, whole e \/ ~ whole e) by (intros e; unfold whole; lia).
  assert (W1 : forall e, In e (map snd l1) -> extended e = true -> whole e).
  { intros e I X. destruct (WD e) as [Q|Q]; [exact Q|]. rewrite P1 in R1; [discriminate|now exists e]. }
  assert (W2 : forall e, In e (map snd l2) -> extended e = true -> whole e).
  { intros e I X. destruct (WD e) as [Q|Q]; [exact Q|]. rewrite P2 in R2; [discriminate|now exists e]. }
  destruct (H1 W1) as (h1 & T1 & E1). destruct (H2 W2) as (h2 & T2 & E2).
  destruct H as (h & T & ->). { intros e I. apply in_app_or in I. destruct I as [I|I]; [now apply W1|now apply W2]. }
  exists h1, h2, h. unfold type_rows. rewrite filter_app, map_app in T.
  split; [congruence|]. split; [congruence|]. split; [reflexivity|].
  apply (added_tables type_dec type_before type_before_irr _ _ _ _ _ T1 T2 T).
Qed.
Print Assumptions C91_types.

(** A table for the concatenation of two files. *)
Example C91_example : forall M, exists h1 h2 h,
  run_command M "histogram_message_size" (layout [([x2a], m1); ([], m2)] []) = Ret (LHeading "Distribution of DLT message length:" :: size_rows h1) /\
  run_command M "histogram_message_size" (m2 ++ m3) = Ret (LHeading "Distribution of DLT message length:" :: size_rows h2) /\
  run_command M "histogram_message_size" (layout [([x2a], m1); ([], m2)] [] ++ m2 ++ m3) = Ret (LHeading "Distribution of DLT message length:" :: size_rows h) /\
  h1 = [(23%N, 1); (45%N, 1)] /\ h2 = [(23%N, 1); (36%N, 1)] /\ h = [(23%N, 2); (36%N, 1); (45%N, 1)] /\ parts_ok [([x2a], m1); ([], m2)].
Proof.
  intros M. exists [(23%N, 1); (45%N, 1)], [(23%N, 1); (36%N, 1)], [(23%N, 2); (36%N, 1); (45%N, 1)].
  split; [vm_compute; reflexivity|]. split; [vm_compute; reflexivity|]. split; [vm_compute; reflexivity|].
  do 3 (split; [reflexivity|]). constructor; [|constructor; [|constructor]]; (split; cbn [fst snd]).
  - intros (k & [|c pre] & post & E & _); [discriminate|]. injection E as _ E. symmetry in E. apply app_eq_nil in E. destruct E; discriminate.
  - exact m1_valid.
  - exact not_in_nil.
  - exact m2_valid.
Qed.
