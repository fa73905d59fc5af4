(** Property theorem C136: which bytes of a memory mapped file ripdlt's commands need (vocabulary in TouchHeadSpec.v). *)
From Verif Require Import Base DltModel MatchModel GenModel ToolsModel TraceModel MappedModel MappedCmd TouchModel TouchMore TouchCmd Spec ReadSpec MappedSpec MappedCmdSpec
  TouchSpec TouchCmdSpec TouchHeadSpec BaseFacts SimFacts DltFacts MappedFacts CmdStill CmdCommands TouchFacts TouchCmdFacts TouchCmdInside TouchHeadFacts TouchHeadRun P_MappedCmd P_TouchCmd.
From Verif Require Samples.
From Coq Require Import ZifyBool ZifyNat ZifyN.
Import Samples(m1, m2, m3, m1_valid, m2_valid, m3_valid).
Ltac Zify.zify_post_hook ::= idtac.

(** What is read of a message [v] (start, length) is the field and nothing else: seconds, ECU of the storage header, a bit of the header type,
    the length, timestamp, ECU id and message type. *)
Theorem C136_fields : forall b F V P v, lasting P -> let W := still b F in
  needs P (fun p => fst v + 4 <= p < fst v + 8) (c_secs V P v) (m_secs V v) /\
  needs P (fun p => fst v + 12 <= p < fst v + 16) (c_ecu V P v) (m_ecu V v) /\
  needs P (fun p => p = fst v + 16) (c_with_ts W P v) (m_with_ts W v) /\
  needs P (fun p => p = fst v + 16) (c_with_ext W P v) (m_with_ext W v) /\
  needs P (fun p => fst v + 18 <= p < fst v + 20) (alive (t_len W (reads P) v)) (m_len W v) /\
  needs P (fun p => p = fst v + 16) (alive (t_payload W (reads P) v)) (m_payload W v) /\
  needs P (time_bytes b v) (c_time W V P v) (m_time W V v) /\
  needs P (ecu_bytes b v) (c_ecu_number W V P v) (m_ecu_number W V v) /\
  needs P (info_bytes b v) (c_info_key W V P v) (m_info_key W V v).
Proof.
  intros b F V P v LA W. repeat match goal with |- _ /\ _ => split end.
  - unfold c_secs, m_secs. eapply needs_done. apply (needs_peeks b F P LA). intros p. lia.
  - apply (needs_peeks b F P LA). intros p. lia.
  - exact (needs_flag b F P LA v 16).
  - exact (needs_flag b F P LA v 1).
  - exact (needs_len b F P LA v).
  - exact (needs_payload b F P LA v).
  - exact (needs_time b F V P LA v).
  - exact (needs_ecu_number b F V P LA v).
  - exact (needs_info_key b F V P LA v).
Qed.
Print Assumptions C136_fields.

(** The payload of a message lies behind the headers. *)
Theorem C136_payload : forall b F v t p k t', 20 <= snd v -> m_payload (still b F) v t = Ret (Some (p, k), t') ->
  p = headers_end b (fst v) /\ p + k = fst v + snd v.
Proof. exact payload_behind. Qed.
Print Assumptions C136_payload.

(** On a log of messages one behind the other, of which the headers of each message can be read, all commands but those that look for
    "Hello World" report what is true of the whole file: they read no payload. *)
Theorem C136_headers : forall (b : bytes) l F P fin, dltit_offset b = Ret l -> back_to_back 0 (places l) ->
  length b <= list_sum (map (fun x => storage_len (snd x)) l) + 4 ->
  (forall t o v p, In (o, v) l -> o <= p < headers_end b o -> p < o + storage_len v -> reads P t p = true) ->
  let W := still b F in let V := still_cells b in let n := length b in
  runs_like (c_count W n P) (count b) /\
  runs_like (c_continuous_timestamp_histogram W V n P) (continuous_timestamp_histogram b) /\
  runs_like (c_mstp_info_histogram W V n P) (mstp_info_histogram b) /\
  runs_like (c_lifecycle_splitit W V n P fin) (lifecycle_splitit fin b) /\
  runs_like (c_timestamp_splitit W V n P fin) (timestamp_splitit fin b) /\
  runs_like (c_lifecycle_histogram W V n P) (lifecycle_histogram b) /\
  runs_like (c_histogram_payload W n P) (histogram_payload b) /\
  runs_like (c_histogram_message W n P) (histogram_message b) /\
  runs_like (c_lifecycle_iter W V n P) (lifecycle_iter b) /\
  runs_like (c_lifecycle_itertools W V n P) (lifecycle_itertools b).
Proof.
  intros b l F P fin E BB EN RD W V n. unfold W, V, n.
  assert (R : forall A (x y : act A) o, (forall t, x t = y t) -> alike eq y o -> runs_like x o).
  { intros A x y o H K t. apply alike_runs in K. specialize (K t). destruct o; rewrite ?H; exact K. }
  repeat match goal with |- _ /\ _ => split end; (eapply R; [intros t|]);
    [now apply (heads_count b F P l)|apply run_count
    |now apply (heads_continuous_timestamp_histogram b F P l)|apply run_continuous
    |now apply (heads_mstp_info_histogram b F P l)|apply run_mstp
    |now apply (heads_lifecycle_splitit b F P l)|apply run_lifecycle_splitit
    |now apply (heads_timestamp_splitit b F P l)|apply run_timestamp_splitit
    |now apply (heads_lifecycle_histogram b F P l)|apply run_lifecycle_histogram
    |now apply (heads_histogram_payload b F P l)|apply run_payload
    |now apply (heads_histogram_message b F P l)|apply run_message
    |now apply (heads_lifecycle_iter b F P l)|apply run_iter
    |now apply (heads_lifecycle_itertools b F P l)|apply run_itertools].
Qed.
Print Assumptions C136_headers.

(** A log of three messages of which no byte of a payload can be read; and one more byte that cannot be. *)
Example C136_example : let b := m1 ++ m2 ++ m3 in let n := length b in let W := still b (fun _ _ => None) in let V := still_cells b in
  let o2 := length m1 in let o3 := length m1 + length m2 in
  let heads p := (p <? headers_end b 0) || ((o2 <=? p) && (p <? headers_end b o2)) || ((o3 <=? p) && (p <? headers_end b o3)) in
  let P hole := {| reads := fun _ p => heads p && negb (p =? hole); reach := fun _ _ => 0; rreach := fun _ _ => 0; looks_at := fun _ _ _ => true; hreach := fun _ _ => 0 |} in
  existsb (fun p => negb (heads p)) (seq 0 n) = true /\
  c_count W n (P n) 0 = Ret (3, 6) /\ c_count_hello_world W V n (P n) 0 = Fuel /\
  (exists t, c_continuous_timestamp_histogram W V n (P n) 0 = Ret ([(2%N, 1)], t)) /\ c_continuous_timestamp_histogram W V n (P (o2 + 7)) 0 = Fuel /\
  (exists t, c_continuous_timestamp_histogram W V n (P (o2 + 8)) 0 = Ret ([(2%N, 1)], t)).
Proof. vm_compute. repeat split; try reflexivity; eexists; reflexivity. Qed.
