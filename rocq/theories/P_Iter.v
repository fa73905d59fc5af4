(** Property theorems C11-C23, C51, C57: iterators and searching. *)
From Verif Require Import Base DltModel MatchModel Spec Samples DltIterFacts AppendFacts.
From Coq Require Import Sorted.

(** C11: sequential iteration is total, [next] recurses at most once (fuel 2), and every item
    takes at least 20 bytes. *)
Theorem C11_iteration_total : forall (b : bytes) (off : nat),
  (exists l, collect (fallback_next DLT 2 b) (S (length b)) off = Ret l /\
             20 * length l <= length b - off) /\
  (forall fuel, 2 <= fuel ->
     exists r, fallback_next DLT fuel b off = Ret r /\ fallback_next DLT 2 b off = Ret r).
Proof. exact iteration_total. Qed.
Print Assumptions C11_iteration_total.

(** C12: items are messages of the slice, in order and disjoint; and no marker is passed over
    outside the yielded messages. *)
Theorem C12_iteration_genuine : forall (b : bytes) (l : list (nat * storage_entry)),
  dltit_offset b = Ret l ->
  (forall k e, In (k, e) l ->
     exists m, message_at b k m /\ denotes e m /\ storage_len e = length m) /\
  (forall i j k e k' e', nth_error l i = Some (k, e) -> nth_error l j = Some (k', e') -> i < j ->
     k + storage_len e <= k').
Proof. exact iteration_genuine. Qed.
Print Assumptions C12_iteration_genuine.

Theorem C12_nothing_passed_over : forall (b : bytes) (l : list (nat * storage_entry)),
  dltit_offset b = Ret l -> forall k e q, In (k, e) l ->
  occurs_at the_pattern b q -> q < k ->
  exists k' e', In (k', e') l /\ k' <= q < k' + storage_len e'.
Proof. exact iteration_gaps. Qed.
Print Assumptions C12_nothing_passed_over.

Example C12_example : exists l, dltit_offset ([x01; x02] ++ m1 ++ [x44; x4c] ++ m2) = Ret l /\ map fst l = [2; 49].
Proof. eexists. vm_compute. split; reflexivity. Qed.

(** C13: a concatenation of messages is read back exactly. *)
Theorem C13_file_read : forall ms : list bytes,
  Forall valid_message ms ->
  exists l, dltit_offset (concat ms) = Ret l /\ shows l (with_offsets (@length byte) 0 ms) /\
            dltit (concat ms) = Ret (map snd l).
Proof. exact file_read. Qed.
Print Assumptions C13_file_read.

Example C13_example : Forall valid_message [m1; m_nested; m3; m2] /\ length (concat [m1; m_nested; m3; m2]) = 147.
Proof. repeat constructor; auto using m1_valid, m2_valid, m3_valid, m_nested_valid; apply m1_valid || apply m2_valid || apply m3_valid || apply m_nested_valid. Qed.

(** C14: marker-free garbage is skipped. *)
Theorem C14_garbage_skipped : forall (parts : list (bytes * bytes)) (last : bytes),
  parts_ok parts -> ~ occurs_in the_pattern last ->
  exists l, dltit_offset (layout parts last) = Ret l /\ shows l (placed 0 parts) /\
            dltit (layout parts last) = Ret (map snd l).
Proof. exact layout_read. Qed.
Print Assumptions C14_garbage_skipped.

Example C14_example : parts_ok [(repeat x00 3, m1); ([], m_nested)] /\ ~ occurs_in the_pattern (repeat x00 5) /\
  placed 0 [(repeat x00 3, m1); ([], m_nested)] = [(3, m1); (48, m_nested)].
Proof.
  split; [|split; [apply (zeros_no_marker 5)|reflexivity]].
  constructor; [split; [apply (zeros_no_marker 3)|exact m1_valid]|].
  constructor; [split; [exact not_in_nil|exact m_nested_valid]|constructor].
Qed.

(** C15: cutting the file anywhere loses only the cut message (and garbage). *)
Theorem C15_truncation : forall (parts : list (bytes * bytes)) (last : bytes) (cut : nat),
  parts_ok parts -> ~ occurs_in the_pattern last ->
  exists l, dltit_offset (firstn cut (layout parts last)) = Ret l /\
            shows l (filter (fun p => fst p + length (snd p) <=? cut) (placed 0 parts)).
Proof. exact layout_cut_read. Qed.
Print Assumptions C15_truncation.

(** C16: false; at a marker whose message does not read the iteration ends for good. *)
Theorem C16_corruption_stops_partial : forall (parts : list (bytes * bytes)) (x rest : bytes),
  parts_ok parts -> ~ occurs_in the_pattern x ->
  firstn 4 rest = the_pattern -> storage_try_read rest = Ret None ->
  exists l, dltit_offset (layout parts (x ++ rest)) = Ret l /\ shows l (placed 0 parts).
Proof. exact corrupt_stops. Qed.
Print Assumptions C16_corruption_stops_partial.

Theorem C16_refuted : exists b m, message_at b 20 m /\ dltit_offset b = Ret [].
Proof. exact corrupt_witness. Qed.
Print Assumptions C16_refuted.

Example C16_example : firstn 4 (m_corrupt ++ m1) = the_pattern /\ storage_try_read (m_corrupt ++ m1) = Ret None.
Proof. vm_compute. split; reflexivity. Qed.

(** C17: after [None], only [None]. *)
Theorem C17_sequential_fused : forall (b : bytes) (off off' n : nat),
  fallback_next DLT 2 b off = Ret (off', None) ->
  calls (fallback_next DLT 2 b) n off' = Ret (repeat None n).
Proof. exact fallback_fused. Qed.
Print Assumptions C17_sequential_fused.

Theorem C17_search_fused_partial : forall (b : bytes) (off off' n : nat),
  search_next DLT (S (length b)) b off = Ret (off', None) ->
  calls (search_next DLT (S (length b)) b) n off' = Ret (repeat None n).
Proof. exact search_fused. Qed.
Print Assumptions C17_search_fused_partial.

Theorem C17_read_fused : forall (b : bytes) (off off' n : nat),
  readit_next DLT b off = Ret (off', None) ->
  calls (readit_next DLT b) n off' = Ret (repeat None n).
Proof. exact readit_fused. Qed.
Print Assumptions C17_read_fused.

Example C17_example :
  fallback_next DLT 2 (m1 ++ m_corrupt) 45 = Ret (45, None) /\
  search_next DLT 200 (m1 ++ m_corrupt) 45 = Ret (65, None).
Proof. vm_compute. split; reflexivity. Qed.

(** C18: the search iterator returns the first message at or after its cursor. *)
Theorem C18_search_first : forall (b : bytes) (off : nat),
  (exists k m e, off <= k /\ message_at b k m /\ denotes e m /\
     (forall j m', off <= j < k -> ~ message_at b j m') /\
     search_next DLT (S (length b)) b off = Ret (k + length m, Some (k, e))) \/
  ((forall j m', off <= j -> ~ message_at b j m') /\
     exists off', off <= off' /\ search_next DLT (S (length b)) b off = Ret (off', None)).
Proof. exact search_first. Qed.
Print Assumptions C18_search_first.

Example C18_example : exists e,
  search_next DLT 200 (m_corrupt ++ m1) 0 = Ret (65, Some (20, e)).
Proof. eexists. vm_compute. reflexivity. Qed.

(** C19: sequential iteration is a prefix of searching; equal unless something corrupted. *)
Theorem C19_sequential_prefix_of_search : forall b : bytes, exists l l2,
  dltit_offset b = Ret l /\
  collect (search_next DLT (S (length b)) b) (S (length b)) 0 = Ret (l ++ l2) /\
  (l2 <> [] -> exists k, occurs_at the_pattern b k /\ storage_try_read (skipn k b) = Ret None /\
     (forall k' e, In (k', e) l -> exists m, message_at b k' m /\ denotes e m /\ k' + length m <= k) /\
     (forall k' e, In (k', e) l2 -> k < k')).
Proof. exact sequential_prefix. Qed.
Print Assumptions C19_sequential_prefix_of_search.

(** C20: reverse search yields every message position once, descending. *)
Theorem C20_reverse_all : forall b : bytes,
  (N.of_nat (length b) < 2 ^ 64 - 1)%N ->
  exists l, collect (rev_next DLT (S (length b)) b) (S (length b)) (N.of_nat (length b)) = Ret l /\
    StronglySorted (fun x y => fst y < fst x) l /\
    forall k e, In (k, e) l <-> exists m, message_at b k m /\ denotes e m.
Proof. exact reverse_all. Qed.
Print Assumptions C20_reverse_all.

Example C20_example : exists l,
  collect (rev_next DLT 200 (m1 ++ m_corrupt ++ m_nested)) 200 108%N = Ret l /\ map fst l = [85; 65; 0].
Proof. eexists. vm_compute. split; reflexivity. Qed.

(** C21: false; on a slice of any realistic size, one more call after [None] needs more than
    2^61 nested calls.  (What holds: the first [None] is right, see C20.) *)
Theorem C21_reverse_none_state_partial : forall (b : bytes) (fuel off : nat) (o : N),
  (N.of_nat (length b) < 2 ^ 64 - 1)%N -> off <= length b -> off < fuel ->
  rev_next DLT fuel b (N.of_nat off) = Ret (o, None) -> o = (2 ^ 64 - 1)%N.
Proof. exact reverse_none_state. Qed.
Print Assumptions C21_reverse_none_state_partial.

Theorem C21_refuted : forall b : bytes,
  (N.of_nat (length b) <= 2 ^ 63 - 1)%N -> (forall k m, ~ message_at b k m) ->
  exists o, rev_next DLT (S (length b)) b (N.of_nat (length b)) = Ret (o, None) /\
    forall fuel, (N.of_nat fuel <= 2 ^ 61 - 1)%N -> rev_next DLT fuel b o = Fuel.
Proof. exact reverse_not_fused. Qed.
Print Assumptions C21_refuted.

Example C21_example : forall k m, ~ message_at [] k m.
Proof. intros k m (V & p & q & E & _). symmetry in E. apply app_eq_nil in E. destruct E as [_ E].
  apply app_eq_nil in E. destruct E as [-> _]. destruct V as (V & _). discriminate. Qed.

(** C22: marker search. *)
Theorem C22_search_marker_first : forall b : bytes,
  (forall k, search_marker DLT b = Some k <->
     occurs_at the_pattern b k /\ forall j, j < k -> ~ occurs_at the_pattern b j) /\
  (search_marker DLT b = None <-> ~ occurs_in the_pattern b).
Proof. exact search_marker_first. Qed.
Print Assumptions C22_search_marker_first.

Theorem C22_search_last_marker_last : forall b : bytes,
  (forall k, search_last_marker DLT b = Some k <->
     occurs_at the_pattern b k /\ forall j, k < j -> ~ occurs_at the_pattern b j) /\
  (search_last_marker DLT b = None <-> ~ occurs_in the_pattern b).
Proof. exact search_last_marker_last. Qed.
Print Assumptions C22_search_last_marker_last.

(** C23: the contiguous read iterator yields the maximal run of messages. *)
Theorem C23_read_maximal_run : forall (b : bytes) (fuel off : nat),
  length b - off < fuel ->
  exists l ms rest, collect (readit_next DLT b) fuel off = Ret l /\
    skipn off b = concat ms ++ rest /\ Forall valid_message ms /\
    shows l (with_offsets (@length byte) off ms) /\
    (forall m r, rest = m ++ r -> ~ valid_message m).
Proof. exact readit_all. Qed.
Print Assumptions C23_read_maximal_run.

Example C23_example : exists l,
  collect (readit_next DLT (m1 ++ m2 ++ [x00] ++ m3)) 200 0 = Ret l /\ map fst l = [0; 45].
Proof. eexists. vm_compute. split; reflexivity. Qed.

(** C51: bounded stack of SearchIterator::next is false: the nesting grows with the garbage. *)
Theorem C51_refuted : forall n : nat, exists b,
  length b = 4 * n + 1 /\ search_next DLT n b 0 = Fuel.
Proof. exact search_depth_unbounded. Qed.
Print Assumptions C51_refuted.

(** C57: anything appended to a well-formed file is read as if it stood alone. *)
Theorem C57_append : forall (parts : list (bytes * bytes)) (b : bytes) (l : list (nat * storage_entry)),
  parts_ok parts -> dltit_offset b = Ret l ->
  let d := length (layout parts []) in
  exists l1, dltit_offset (layout parts [] ++ b) = Ret (l1 ++ map (fun x => (d + fst x, snd x)) l) /\
             shows l1 (placed 0 parts).
Proof. exact append_read. Qed.
Print Assumptions C57_append.

Example C57_example : exists l l',
  parts_ok [(repeat x00 3, m1)] /\ dltit_offset (m2 ++ m_corrupt) = Ret l /\ map fst l = [0] /\
  dltit_offset (layout [(repeat x00 3, m1)] [] ++ m2 ++ m_corrupt) = Ret l' /\ map fst l' = [3; 48].
Proof.
  do 2 eexists. split; [constructor; [split; [apply (zeros_no_marker 3)|exact m1_valid]|constructor]|].
  split; [vm_compute; reflexivity|]. split; [vm_compute; reflexivity|]. split; vm_compute; reflexivity.
Qed.
