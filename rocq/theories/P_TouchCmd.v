(** Property theorem C134: ripdlt's commands on a memory mapped file of which some bytes cannot be read (TouchCmd.v; vocabulary in TouchCmdSpec.v).
    [W] and [V] answer every single read as they like, [n] is the length of the mapping, [P] says which bytes can be read when and what the
    searches look at; [fin] bounds the [while] loops of the generator.  [Fuel] is a process killed by SIGBUS (C134_readable). *)
From Verif Require Import Base DltModel MatchModel GenModel ToolsModel TraceModel MappedModel MappedCmd TouchModel TouchMore TouchCmd Spec ReadSpec MappedSpec MappedCmdSpec
  TouchSpec TouchCmdSpec BaseFacts DltFacts MappedFacts TouchFacts TouchMoreFacts TouchSame TouchMoreSame TouchCmdFacts TouchCmdInside P_Mapped P_Touch P_TouchMore P_MappedCmd.
From Verif Require Samples.
From Coq Require Import ZifyBool ZifyNat ZifyN.
Import Samples(m1, m2, m3, m1_valid, m2_valid, m3_valid).
Ltac Zify.zify_post_hook ::= idtac.

(** No command does anything but what it does if everything can be read; or it is killed. *)
Theorem C134_commands : forall W V n P fin,
  same_or_killed (c_count W n P) (m_count W n) /\
  same_or_killed (c_count_hello_world W V n P) (m_count_hello_world W V n) /\
  same_or_killed (c_count_hello_world_raw V n P) (m_count_hello_world_raw V n) /\
  same_or_killed (c_count_hello_world_grepit W n P) (m_count_hello_world_grepit W n) /\
  same_or_killed (c_continuous_timestamp_histogram W V n P) (m_continuous_timestamp_histogram W V n) /\
  same_or_killed (c_mstp_info_histogram W V n P) (m_mstp_info_histogram W V n) /\
  same_or_killed (c_lifecycle_splitit W V n P fin) (m_lifecycle_splitit W V n fin) /\
  same_or_killed (c_timestamp_splitit W V n P fin) (m_timestamp_splitit W V n fin) /\
  same_or_killed (c_lifecycle_histogram W V n P) (m_lifecycle_histogram W V n) /\
  same_or_killed (c_histogram_payload W n P) (m_histogram_payload W n) /\
  same_or_killed (c_histogram_message W n P) (m_histogram_message W n) /\
  same_or_killed (c_histogram_hello_world W n P) (m_histogram_hello_world W n) /\
  same_or_killed (c_lifecycle_iter W V n P) (m_lifecycle_iter W V n) /\
  same_or_killed (c_lifecycle_itertools W V n P) (m_lifecycle_itertools W V n).
Proof.
  intros W V n P fin. assert (R : forall A (x y : act A), rel True x y -> same_or_killed x y) by (intros A x y H t; destruct (H t) as [E|[_ E]]; auto).
  pose proof (or_introl (B := forall t p, reads P t p = true) Logic.I) as HK.
  repeat match goal with |- _ /\ _ => split end; apply R.
  - now apply rel_count.
  - now apply rel_count_hello_world.
  - now apply rel_count_hello_world_raw.
  - now apply rel_count_hello_world_grepit.
  - now apply rel_continuous_timestamp_histogram.
  - now apply rel_mstp_info_histogram.
  - now apply rel_lifecycle_splitit.
  - now apply rel_timestamp_splitit.
  - now apply rel_lifecycle_histogram.
  - now apply rel_histogram_payload.
  - now apply rel_histogram_message.
  - now apply rel_histogram_hello_world.
  - now apply rel_lifecycle_iter.
  - now apply rel_lifecycle_itertools.
Qed.
Print Assumptions C134_commands.
(** If every byte of the mapping can be read, it is not killed: the commands read nothing but the mapping. *)
Theorem C134_readable : forall W V n P fin, all_readable n P ->
  just_as (c_count W n P) (m_count W n) /\
  just_as (c_count_hello_world W V n P) (m_count_hello_world W V n) /\
  just_as (c_count_hello_world_raw V n P) (m_count_hello_world_raw V n) /\
  just_as (c_count_hello_world_grepit W n P) (m_count_hello_world_grepit W n) /\
  just_as (c_continuous_timestamp_histogram W V n P) (m_continuous_timestamp_histogram W V n) /\
  just_as (c_mstp_info_histogram W V n P) (m_mstp_info_histogram W V n) /\
  just_as (c_lifecycle_splitit W V n P fin) (m_lifecycle_splitit W V n fin) /\
  just_as (c_timestamp_splitit W V n P fin) (m_timestamp_splitit W V n fin) /\
  just_as (c_lifecycle_histogram W V n P) (m_lifecycle_histogram W V n) /\
  just_as (c_histogram_payload W n P) (m_histogram_payload W n) /\
  just_as (c_histogram_message W n P) (m_histogram_message W n) /\
  just_as (c_histogram_hello_world W n P) (m_histogram_hello_world W n) /\
  just_as (c_lifecycle_iter W V n P) (m_lifecycle_iter W V n) /\
  just_as (c_lifecycle_itertools W V n P) (m_lifecycle_itertools W V n).
Proof.
  intros W V n P fin H. repeat match goal with |- _ /\ _ => split end; intros t.
  - now apply inside_count.
  - now apply inside_count_hello_world.
  - now apply inside_count_hello_world_raw.
  - now apply inside_count_hello_world_grepit.
  - now apply inside_continuous_timestamp_histogram.
  - now apply inside_mstp_info_histogram.
  - now apply inside_lifecycle_splitit.
  - now apply inside_timestamp_splitit.
  - now apply inside_lifecycle_histogram.
  - now apply inside_histogram_payload.
  - now apply inside_histogram_message.
  - now apply inside_histogram_hello_world.
  - now apply inside_lifecycle_iter.
  - now apply inside_lifecycle_itertools.
Qed.
Print Assumptions C134_readable.
(** On a file that does not change otherwise: there is no report but that of the whole file. *)
Theorem C134_report : forall (b : bytes) F P fin,
  (forall a s e, F b a = Some (s, e) -> a <= s /\ s <= e /\ e <= length b) ->
  let W := still b F in let V := still_cells b in let n := length b in
  reports (c_count W n P) (count b) /\
  reports (c_count_hello_world W V n P) (count_hello_world b) /\
  reports (c_count_hello_world_raw V n P) (count_hello_world_raw b) /\
  reports (c_count_hello_world_grepit W n P) (count_hello_world_grepit F b) /\
  reports (c_continuous_timestamp_histogram W V n P) (continuous_timestamp_histogram b) /\
  reports (c_mstp_info_histogram W V n P) (mstp_info_histogram b) /\
  reports (c_lifecycle_splitit W V n P fin) (lifecycle_splitit fin b) /\
  reports (c_timestamp_splitit W V n P fin) (timestamp_splitit fin b) /\
  reports (c_lifecycle_histogram W V n P) (lifecycle_histogram b) /\
  reports (c_histogram_payload W n P) (histogram_payload b) /\
  reports (c_histogram_message W n P) (histogram_message b) /\
  reports (c_histogram_hello_world W n P) (histogram_hello_world F b) /\
  reports (c_lifecycle_iter W V n P) (lifecycle_iter b) /\
  reports (c_lifecycle_itertools W V n P) (lifecycle_itertools b).
Proof.
  intros b F P fin HF W V n. destruct (C134_commands W V n P fin) as (D1 & D2 & D3 & D4 & D5 & D6 & D7 & D8 & D9 & D10 & D11 & D12 & D13 & D14).
  destruct (C124_unchanged b F fin HF) as (U1 & U2 & U3 & U4 & U5 & U6 & U7 & U8 & U9 & U10 & U11 & U12 & U13 & U14).
  assert (R : forall A (x y : act A) o, same_or_killed x y -> runs_like y o -> reports x o).
  { intros A x y o H U t NF. specialize (H t). specialize (U t). split.
    - intros r t' E. rewrite E in H. destruct H as [H|H]; [|discriminate]. rewrite <- H in U. destruct o as [r'| |]; [|discriminate U|congruence].
      destruct U as [t2 [= <- <-]]. reflexivity.
    - intros E. rewrite E in H. destruct H as [H|H]; [|discriminate]. rewrite <- H in U. destruct o as [r'| |]; [destruct U; discriminate|reflexivity|congruence]. }
  repeat match goal with |- _ /\ _ => split end; (eapply R; [eassumption|eassumption]).
Qed.
Print Assumptions C134_report.
(** What cannot be read does not matter. *)
Theorem C134_depends : forall mem mem' F F' n P fin, agree_where_readable mem mem' F F' n P ->
  let W := history mem F in let W' := history mem' F' in let V := history_cells mem in let V' := history_cells mem' in
  same_or_killed (c_count W n P) (c_count W' n P) /\
  same_or_killed (c_count_hello_world W V n P) (c_count_hello_world W' V' n P) /\
  same_or_killed (c_count_hello_world_raw V n P) (c_count_hello_world_raw V' n P) /\
  same_or_killed (c_count_hello_world_grepit W n P) (c_count_hello_world_grepit W' n P) /\
  same_or_killed (c_continuous_timestamp_histogram W V n P) (c_continuous_timestamp_histogram W' V' n P) /\
  same_or_killed (c_mstp_info_histogram W V n P) (c_mstp_info_histogram W' V' n P) /\
  same_or_killed (c_lifecycle_splitit W V n P fin) (c_lifecycle_splitit W' V' n P fin) /\
  same_or_killed (c_timestamp_splitit W V n P fin) (c_timestamp_splitit W' V' n P fin) /\
  same_or_killed (c_lifecycle_histogram W V n P) (c_lifecycle_histogram W' V' n P) /\
  same_or_killed (c_histogram_payload W n P) (c_histogram_payload W' n P) /\
  same_or_killed (c_histogram_message W n P) (c_histogram_message W' n P) /\
  same_or_killed (c_histogram_hello_world W n P) (c_histogram_hello_world W' n P) /\
  same_or_killed (c_lifecycle_iter W V n P) (c_lifecycle_iter W' V' n P) /\
  same_or_killed (c_lifecycle_itertools W V n P) (c_lifecycle_itertools W' V' n P).
Proof.
  intros mem mem' F F' n P fin (LEN & AGREE & REGEX) W W' V V'.
  assert (R : forall A (x y : act A), rel True x y -> same_or_killed x y) by (intros A x y H t; destruct (H t) as [E|[_ E]]; auto).
  repeat match goal with |- _ /\ _ => split end; apply R; unfold W, W', V, V'.
  - first [now apply rel_count2|now apply (rel_count2 mem mem' F F' n)|now apply (rel_count2 mem mem' F F')].
  - first [now apply rel_count_hello_world2|now apply (rel_count_hello_world2 mem mem' F F' n)|now apply (rel_count_hello_world2 mem mem' F F')].
  - first [now apply rel_count_hello_world_raw2|now apply (rel_count_hello_world_raw2 mem mem' F F' n)|now apply (rel_count_hello_world_raw2 mem mem' F F')].
  - first [now apply rel_count_hello_world_grepit2|now apply (rel_count_hello_world_grepit2 mem mem' F F' n)|now apply (rel_count_hello_world_grepit2 mem mem' F F')].
  - first [now apply rel_continuous_timestamp_histogram2|now apply (rel_continuous_timestamp_histogram2 mem mem' F F' n)|now apply (rel_continuous_timestamp_histogram2 mem mem' F F')].
  - first [now apply rel_mstp_info_histogram2|now apply (rel_mstp_info_histogram2 mem mem' F F' n)|now apply (rel_mstp_info_histogram2 mem mem' F F')].
  - first [now apply rel_lifecycle_splitit2|now apply (rel_lifecycle_splitit2 mem mem' F F' n)|now apply (rel_lifecycle_splitit2 mem mem' F F')].
  - first [now apply rel_timestamp_splitit2|now apply (rel_timestamp_splitit2 mem mem' F F' n)|now apply (rel_timestamp_splitit2 mem mem' F F')].
  - first [now apply rel_lifecycle_histogram2|now apply (rel_lifecycle_histogram2 mem mem' F F' n)|now apply (rel_lifecycle_histogram2 mem mem' F F')].
  - first [now apply rel_histogram_payload2|now apply (rel_histogram_payload2 mem mem' F F' n)|now apply (rel_histogram_payload2 mem mem' F F')].
  - first [now apply rel_histogram_message2|now apply (rel_histogram_message2 mem mem' F F' n)|now apply (rel_histogram_message2 mem mem' F F')].
  - first [now apply rel_histogram_hello_world2|now apply (rel_histogram_hello_world2 mem mem' F F' n)|now apply (rel_histogram_hello_world2 mem mem' F F')].
  - first [now apply rel_lifecycle_iter2|now apply (rel_lifecycle_iter2 mem mem' F F' n)|now apply (rel_lifecycle_iter2 mem mem' F F')].
  - first [now apply rel_lifecycle_itertools2|now apply (rel_lifecycle_itertools2 mem mem' F F' n)|now apply (rel_lifecycle_itertools2 mem mem' F F')].
Qed.
Print Assumptions C134_depends.
(** Counting: whatever it returns, of every message counted the marker and the length field could be read. *)
Theorem C134_count_needs : forall W n P t k t', c_count W n P t = Ret (k, t') ->
  exists l : list (nat * nat), length l = k /\ spread n 0 l /\ (forall v, In v l -> forall p, key_byte (fst v) p -> exists u, reads P u p = true).
Proof.
  intros W n P t k t' E. destruct (C121_iterators W n (reads P) (reach P) 0 t) as ((all & t2 & A & D) & _).
  pose proof (count_collect (t_fallback_next W n (reads P) (reach P) (S (S n))) (S n) 0 t) as C.
  pose proof (collect_keys W n (reads P) (reach P) (S (S n)) (S n) 0 t) as KB.
  destruct (t_collect _ (S n) 0 t) as [l [[]| | |]]; cbn [delivers_of fst] in *; try contradiction.
  - destruct (C (S (S n)) ltac:(lia)) as [u C']. unfold c_count, c_messages in E. rewrite C' in E. injection E as <- _. exists l. split; [reflexivity|]. split; [|exact KB].
    subst l. destruct (safe_collect_spread W n (S n) 0 ltac:(lia) t) as (all' & t3 & A' & SP). rewrite A in A'. injection A' as -> _. exact SP.
  - specialize (C (S (S n)) ltac:(lia)). unfold c_count, c_messages in E. rewrite C in E. discriminate E.
Qed.
Print Assumptions C134_count_needs.
(** A log of messages one behind the other, of which certain bytes cannot be read: the messages are counted, if the marker and the length field of each can be
    read; otherwise the process is killed. *)
Theorem C134_count : forall (b : bytes) l F P, dltit_offset b = Ret l -> back_to_back 0 (places l) ->
  length b <= list_sum (map (fun x => storage_len (snd x)) l) + 4 -> (forall t p, reads P t p = reads P 0 p) ->
  ((forall o v p, In (o, v) l -> key_byte o p -> reads P 0 p = true) -> exists t', c_count (still b F) (length b) P 0 = Ret (length l, t')) /\
  (forall o v p, In (o, v) l -> key_byte o p -> reads P 0 p = false -> c_count (still b F) (length b) P 0 = Fuel).
Proof.
  intros b l F P E BB END ST. pose proof (count_collect (t_fallback_next (still b F) (length b) (reads P) (reach P) (S (S (length b)))) (S (length b)) 0 0) as C. split.
  - intros KR. pose proof (C122_unchanged b l F (reads P) (reach P) E BB END) as U. unfold t_dltit in U.
    rewrite U in C by (intros t o v p I K; rewrite ST; eapply KR; eassumption).
    destruct (C (S (S (length b))) ltac:(lia)) as [t' C']. exists t'. unfold places in C'. rewrite map_length in C'. exact C'.
  - intros o v p I K R. destruct (C121_iterators (still b F) (length b) (reads P) (reach P) 0 0) as ((all & t' & A & D) & _).
    assert (AL : all = places l).
    { pose proof (C122_unchanged b l F (fun _ _ => true) (reach P) E BB END ltac:(reflexivity)) as U. unfold t_dltit in U.
      destruct (C121_iterators (still b F) (length b) (fun _ _ => true) (reach P) 0 0) as ((all' & t2 & A' & D') & _).
      rewrite U in D'. cbn [delivers_of] in D'. rewrite A in A'. injection A' as -> ->. now symmetry. }
    pose proof (collect_keys (still b F) (length b) (reads P) (reach P) (S (S (length b))) (S (length b)) 0 0) as KB.
    destruct (t_collect _ (S (length b)) 0 0) as [l' [[]| | |]]; cbn [delivers_of fst] in *; try contradiction.
    + subst l' all. destruct (KB (o, storage_len v)) with (p := p) as [t R']; [apply in_map_iff; now exists (o, v)|exact K|]. rewrite ST in R'. congruence.
    + exact (C (S (S (length b))) ltac:(lia)).
Qed.
Print Assumptions C134_count.

(** On all cores: one thread that is killed kills all; otherwise the report is that of a file that can be read. *)
Lemma parts_like {A B} W n P Ws Ps num (c : world -> cells -> nat -> reading -> act A) (m : world -> cells -> nat -> act A) (combine : list A -> B) :
  (forall W V n P, same_or_killed (c W V n P) (m W V n)) ->
  c_parts W n P Ws Ps num c combine = m_parts W n Ws num m combine \/ c_parts W n P Ws Ps num c combine = Fuel.
Proof.
  intros H. unfold c_parts, m_parts. cbv zeta. pose proof (sim_partition W n (reads P) (reach P) num 0) as SP. unfold alive.
  destruct SP as [E|E]; [rewrite E; now right|]. destruct (m_partition W n num 0) as [[parts u]| |]; rewrite E; [|now left|now left].
  set (one := fun p => match c _ _ _ _ _ with Ret _ => _ | Panic => _ | Fuel => _ end). set (two := fun p => match m _ _ _ _ with Ret _ => _ | Panic => _ | Fuel => _ end).
  change (existsb _ parts) with (existsb (fun p => match one p with Fuel => true | _ => false end) parts). destruct (existsb (fun p => match one p with Fuel => true | _ => false end) parts) eqn:X; [now right|]. left.
  assert (M : mapM one parts = mapM two parts).
  { clear E. induction parts as [|p parts IH]; [reflexivity|]. cbn [existsb] in X. apply Bool.orb_false_iff in X. destruct X as [X1 X2]. cbn [mapM]. rewrite (IH X2).
    replace (one p) with (two p); [reflexivity|]. unfold one, two in *. destruct (H (fst (Ws p)) (snd (Ws p)) (snd p - fst p) (Ps p) 0) as [Q|Q]; rewrite Q in *; [reflexivity|discriminate X1]. }
  now rewrite M.
Qed.
Theorem C134_parallel : forall W n P Ws Ps sched num fin,
  (forall (c : world -> cells -> nat -> reading -> act nat) (m : world -> cells -> nat -> act nat), (forall W V n P, same_or_killed (c W V n P) (m W V n)) ->
    c_multithreaded W n P Ws Ps sched num c = m_multithreaded W n Ws sched num m \/ c_multithreaded W n P Ws Ps sched num c = Fuel) /\
  (c_par_continuous_timestamp_histogram W n P Ws Ps sched num = m_par_continuous_timestamp_histogram W n Ws sched num \/
   c_par_continuous_timestamp_histogram W n P Ws Ps sched num = Fuel) /\
  (c_par_timestamp_splitit W n P Ws Ps fin sched num = m_par_timestamp_splitit W n Ws fin sched num \/
   c_par_timestamp_splitit W n P Ws Ps fin sched num = Fuel).
Proof.
  intros W n P Ws Ps sched num fin. split; [|split].
  - intros c m H. now apply parts_like.
  - apply parts_like. intros W' V' n' P'. apply (C134_commands W' V' n' P' fin).
  - apply parts_like. intros W' V' n' P'. apply (C134_commands W' V' n' P' fin).
Qed.
Print Assumptions C134_parallel.
Lemma parts_readable {A B} W n P Ws Ps num (c : world -> cells -> nat -> reading -> act A) (m : world -> cells -> nat -> act A) (combine : list A -> B) :
  all_readable n P -> (forall p, all_readable (snd p - fst p) (Ps p)) -> (forall W V n P, all_readable n P -> just_as (c W V n P) (m W V n)) -> (forall W V n, m W V n 0 <> Fuel) -> 0 < num ->
  c_parts W n P Ws Ps num c combine = m_parts W n Ws num m combine.
Proof.
  intros R RS H NF Hn. unfold c_parts, m_parts, alive. cbv zeta.
  destruct (C131_inside W n (reads P) (reach P) (rreach P) (looks_at P) R) as (_ & _ & I). destruct (I num 0 Hn) as (parts & u & E).
  destruct (sim_partition W n (reads P) (reach P) num 0) as [K|K]; [congruence|]. rewrite E in K. rewrite E. destruct (m_partition W n num 0) as [[parts' u']| |]; try discriminate K.
  injection K as -> ->. set (one := fun p => match c _ _ _ _ _ with Ret _ => _ | Panic => _ | Fuel => _ end). set (two := fun p => match m _ _ _ _ with Ret _ => _ | Panic => _ | Fuel => _ end).
  assert (S1 : forall p, one p = two p) by (intros p; unfold one, two; now rewrite (H _ _ _ _ (RS p))).
  change (existsb _ parts') with (existsb (fun p => match one p with Fuel => true | _ => false end) parts'). replace (existsb (fun p => match one p with Fuel => true | _ => false end) parts') with false.
  - replace (mapM one parts') with (mapM two parts'); [reflexivity|]. clear E. induction parts' as [|p l IH]; [reflexivity|]. cbn [mapM]. now rewrite S1, IH.
  - symmetry. clear E. induction parts' as [|p l IH]; [reflexivity|]. cbn [existsb]. rewrite IH, S1, Bool.orb_false_r. unfold two.
    specialize (NF (fst (Ws p)) (snd (Ws p)) (snd p - fst p)). destruct (m _ _ _ 0) as [[]| |]; congruence.
Qed.
Theorem C134_parallel_readable : forall W n P Ws Ps sched num fin, all_readable n P -> (forall p, all_readable (snd p - fst p) (Ps p)) -> 0 < num ->
  (forall (c : world -> cells -> nat -> reading -> act nat) (m : world -> cells -> nat -> act nat),
    (forall W V n P, all_readable n P -> just_as (c W V n P) (m W V n)) -> (forall W V n, m W V n 0 <> Fuel) ->
    c_multithreaded W n P Ws Ps sched num c = m_multithreaded W n Ws sched num m) /\
  c_par_continuous_timestamp_histogram W n P Ws Ps sched num = m_par_continuous_timestamp_histogram W n Ws sched num /\
  ((forall W V n, m_timestamp_splitit W V n fin 0 <> Fuel) -> c_par_timestamp_splitit W n P Ws Ps fin sched num = m_par_timestamp_splitit W n Ws fin sched num).
Proof.
  intros W n P Ws Ps sched num fin R RS Hn. split; [|split].
  - intros c m H NF. now apply parts_readable.
  - apply parts_readable; try assumption; intros W' V' n'.
    + intros P' RP. apply (C134_readable W' V' n' P' fin RP).
    + destruct (C123_ends_partial W' V' n' (S (3 * n')) ltac:(lia)) as (_ & _ & _ & _ & E & _). apply (E 0).
  - intros NF. apply parts_readable; try assumption. intros W' V' n' P' RP. apply (C134_readable W' V' n' P' fin RP).
Qed.
Print Assumptions C134_parallel_readable.
(** A log of three messages that was truncated behind the headers of the third: counting and the sizes come out; what needs a timestamp is killed. *)
Example C134_example : let b := m1 ++ m2 ++ m3 in let n := length b in let W := still b (fun _ _ => None) in let V := still_cells b in
  let cut k := {| reads := fun _ p => p <? k; reach := fun _ _ => 0; rreach := fun _ _ => 0; looks_at := fun _ _ _ => true; hreach := fun _ _ => 0 |} in
  let P := cut (length m1 + length m2 + 20) in
  c_count W n P 0 = Ret (3, 6) /\ c_count W n (cut (length m1 + length m2 + 19)) 0 = Fuel /\
  c_histogram_message W n P 0 = Ret ([(23%N, 1); (36%N, 1); (45%N, 1)], 9) /\ c_count_hello_world_raw V n P 0 = Fuel /\ c_lifecycle_iter W V n P 0 = Fuel /\
  c_continuous_timestamp_histogram W V n P 0 = Ret ([(2%N, 1)], 12).
Proof. vm_compute. repeat split; reflexivity. Qed.
Example C134_count_example : exists l, dltit_offset (m1 ++ m2 ++ m3) = Ret l /\ back_to_back 0 (places l) /\ length l = 3 /\
  length (m1 ++ m2 ++ m3) <= list_sum (map (fun x => storage_len (snd x)) l) + 4.
Proof. eexists. split; [vm_compute; reflexivity|]. split; [vm_compute; repeat split|]. split; [reflexivity|]. apply Nat.leb_le. vm_compute. reflexivity. Qed.
