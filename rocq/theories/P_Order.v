(** Property theorem C109: the order of the messages of a file. *)
From Coq Require Import String.
From Verif Require Import Base DltModel MatchModel GenModel ToolsModel MainModel Spec CommandSpec
  DltFacts DltIterFacts ExactFacts GroupFacts P_Exact EditCommands.
From Verif Require Samples P_Commands.
From Coq Require Import Sorted Permutation.
Import Samples(m1, m2, m3, m1_valid, m2_valid, m3_valid).
Import P_Commands(lab).
Local Open Scope string_scope.
Local Open Scope list_scope.

Lemma table_permuted {K} (dec : forall a b : K, {a = b} + {a <> b}) (before : K -> K -> Prop) vals vals' h h' :
  (forall a, ~ before a a) -> (forall a b c, before a b -> before b c -> before a c) ->
  Permutation vals vals' -> table dec before vals h -> table dec before vals' h' -> h = h'.
Proof.
  intros Ir Tr P [S H] [S' H'].
  assert (SAME : forall k n, In (k, n) h <-> In (k, n) h').
  { intros k n. rewrite H, H'. assert (C : count_occ dec vals k = count_occ dec vals' k) by now apply Permutation_count_occ.
    rewrite C. split; intros [I E]; (split; [|exact E]); [exact (Permutation_in _ P I)|exact (Permutation_in _ (Permutation_sym P) I)]. }
  assert (E : map fst h = map fst h').
  { apply (sorted_same before Ir Tr _ _ S S'). intros k. split; intros Q; apply in_map_iff in Q; destruct Q as ([k0 n] & <- & Q); apply SAME in Q; now apply (in_map fst) in Q. }
  apply same_rows; [now apply (strongly_nodup before)|exact E|].
  intros k n n' I I'. apply H in I. apply SAME, H in I'. destruct I as [_ ->]. now destruct I' as [_ ->].
Qed.
Lemma number_table_permuted vals vals' h h' : Permutation vals vals' -> number_table vals h -> number_table vals' h' -> h = h'.
Proof. apply table_permuted; intros; lia. Qed.
Lemma type_before_irr p : ~ type_before p p.
Proof. destruct p as [[|] [t|]]; unfold type_before; cbn [fst snd]; intros [[A B]|[A B]]; try congruence; try easy; lia. Qed.
Lemma type_before_trans p q r : type_before p q -> type_before q r -> type_before p r.
Proof.
  destruct p as [x [t|]], q as [y [u|]], r as [z [w|]]; unfold type_before; cbn [fst snd];
    intros [[A B]|[A B]] [[C D]|[C D]]; subst; try congruence; try (now auto); try (right; split; [congruence|]; try easy; lia).
Qed.
Lemma total_permuted l l' : Permutation l l' -> total l = total l'.
Proof. unfold total. induction 1; cbn [fold_right]; lia. Qed.
Lemma filter_permuted {A} (f : A -> bool) l l' : Permutation l l' -> Permutation (filter f l) (filter f l').
Proof.
  induction 1 as [|x l l' P IH|x y l|l1 l2 l3 P1 IH1 P2 IH2]; cbn [filter]; [constructor| | |now transitivity (filter f l2)].
  - destruct (f x); [now constructor|exact IH].
  - destruct (f x), (f y); [apply perm_swap|reflexivity..].
Qed.
Lemma none_or_some {A} (P : A -> Prop) (dec : forall x, {P x} + {~ P x}) l : {forall x, In x l -> ~ P x} + {exists x, In x l /\ P x}.
Proof.
  induction l as [|x l [IH|IH]].
  - left. intros x [].
  - destruct (dec x) as [H|H]; [right; exists x; split; [now left|exact H]|]. left. intros y [<-|I]; [exact H|now apply IH].
  - right. destruct IH as (y & I & H). exists y. split; [now right|exact H].
Defined.
Lemma some_permuted {A} (P : A -> Prop) l l' : Permutation l l' -> (exists x, In x l /\ P x) -> exists x, In x l' /\ P x.
Proof. intros E (x & I & H). exists x. split; [exact (Permutation_in _ E I)|exact H]. Qed.
Lemma stunted_dec e : {stunted e} + {~ stunted e}.
Proof.
  unfold stunted. destruct (flag (htype e) 0); [|right; intros [H _]; discriminate].
  destruct (lt_dec (List.length (tail (dlt e))) (announced (htype e))); [left; now split|right; intros [_ H]; contradiction].
Defined.
Lemma whole_dec e : {whole e} + {~ whole e}.
Proof. apply le_dec. Defined.

(** Commands whose results do not depend on the order of the entries at all ... *)
Theorem C109_order : forall (M : machine) (b b' : bytes) es es' (cmd : string),
  dltit b = Ret es -> dltit b' = Ret es' -> Permutation es es' ->
  In cmd ["count"; "count_hello_world"; "histogram_message_size"; "histogram_payload_size"; "histogram_message_type"] ->
  run_command M cmd b' = run_command M cmd b.
Proof.
  intros M b b' es es' cmd D D' P [<-|[<-|[<-|[<-|[<-|[]]]]]].
  - rewrite (C59_count M b es D), (C59_count M b' es' D'). now rewrite (Permutation_length P).
  - destruct (C59_count_hello_world M b es D) as [H1 H2]. destruct (C59_count_hello_world M b' es' D') as [H1' H2'].
    destruct (none_or_some (fun e => ~ whole e) (fun e => match whole_dec e with left w => right (fun n => n w) | right n => left n end) es) as [W|W].
    + assert (W0 : forall e, In e es -> whole e) by (intros e I; destruct (whole_dec e) as [w|n]; [exact w|exfalso; exact (W e I n)]).
      destruct (H1 W0) as (f & F & ->). destruct H1' as (f' & F' & ->); [intros e I; apply W0; exact (Permutation_in _ (Permutation_sym P) I)|].
      do 3 f_equal. rewrite (Permutation_length (filter_permuted f' _ _ (Permutation_sym P))). f_equal. apply filter_ext. intros e.
      specialize (F e). specialize (F' e). destruct (f e), (f' e); intuition congruence.
    + rewrite (H2 W). apply H2'. exact (some_permuted _ _ _ P W).
  - destruct (C60_message_sizes M b es D) as (h & T & ->). destruct (C60_message_sizes M b' es' D') as (h' & T' & ->).
    pose proof (Permutation_map (fun e => N.of_nat (size_of e)) P) as Q.
    rewrite (number_table_permuted _ _ _ _ Q T T'), (total_permuted _ _ Q). reflexivity.
  - destruct (C60_payload_sizes M b es D) as [H1 H2]. destruct (C60_payload_sizes M b' es' D') as [H1' H2'].
    destruct (none_or_some stunted stunted_dec es) as [W|W].
    + destruct (H1 W) as (h & T & ->). destruct H1' as (h' & T' & ->); [intros e I; apply W; exact (Permutation_in _ (Permutation_sym P) I)|].
      pose proof (Permutation_map (fun e => N.of_nat (List.length (body e))) P) as Q.
      rewrite (number_table_permuted _ _ _ _ Q T T'), (total_permuted _ _ Q). reflexivity.
    + rewrite (H2 W). apply H2'. exact (some_permuted _ _ _ P W).
  - destruct (C61_message_types M b es D) as [H1 H2]. destruct (C61_message_types M b' es' D') as [H1' H2'].
    destruct (none_or_some (fun e => extended e = true /\ ~ whole e)
      (fun e => match whole_dec e with left w => right (fun n => proj2 n w)
                | right n => match Bool.bool_dec (extended e) true with left x => left (conj x n) | right x => right (fun q => x (proj1 q)) end end) es) as [W|W].
    + assert (W0 : forall e, In e es -> extended e = true -> whole e).
      { intros e I X. destruct (whole_dec e) as [w|n]; [exact w|exfalso; exact (W e I (conj X n))]. }
      destruct (H1 W0) as (h & T & ->). destruct H1' as (h' & T' & ->); [intros e I; apply W0; exact (Permutation_in _ (Permutation_sym P) I)|].
      pose proof (Permutation_map (fun e => shown_type (info_byte e)) (filter_permuted extended _ _ P)) as Q.
      now rewrite (table_permuted _ _ _ _ _ _ type_before_irr type_before_trans Q T T').
    + rewrite (H2 W). apply H2'. exact (some_permuted _ _ _ P W).
Qed.
Print Assumptions C109_order.

Lemma from_ecu_in es es' : (forall k, from_ecu k es = from_ecu k es') -> forall e, In e es -> In e es'.
Proof.
  intros H e I. assert (J : In e (from_ecu (ecu_of e) es)) by (apply filter_In; split; [exact I|]; now destruct (quad_dec (ecu_of e) (ecu_of e))).
  rewrite H in J. now apply filter_In in J.
Qed.
Lemma rows_same es es' (row : list storage_entry -> list (N * nat) * nat -> Prop) m m' : (forall k, from_ecu k es = from_ecu k es') -> (forall l x x', row l x -> row l x' -> x = x') ->
  ecu_rows es row m -> ecu_rows es' row m' -> m = m'.
Proof.
  intros E U (S & K & R) (S' & K' & R').
  set (Q := fun a b : quad => bytes_before (quad_bytes a) (quad_bytes b)) in *.
  assert (Ir : forall a, ~ Q a a) by (intros a; apply bytes_before_irr).
  assert (Tr : forall a b c, Q a b -> Q b c -> Q a c) by (intros a b c; apply bytes_before_trans).
  assert (EK : map fst m = map fst m').
  { apply (sorted_same Q Ir Tr _ _ S S'). intros k. rewrite K, K', !in_map_iff.
    split; intros (e & Ee & I); exists e; (split; [exact Ee|]); [exact (from_ecu_in es es' E e I)|exact (from_ecu_in es' es (fun k => eq_sym (E k)) e I)]. }
  apply same_rows; [exact (strongly_nodup Q _ Ir S)|exact EK|].
  intros k x x' I I'. apply R in I. apply R' in I'. rewrite E in I. exact (U _ _ _ I I').
Qed.
Lemma periods_row_unique l x x' : periods_row l x -> periods_row l x' -> x = x'.
Proof.
  destruct x as [t n], x' as [t' n']. intros (L & gs & G & T) (L' & gs' & G' & T'). cbn [fst snd] in *.
  rewrite (runs_unique _ _ _ _ G' G) in T'. rewrite (number_table_unique _ _ _ T T'). congruence.
Qed.
Lemma cycles_row_unique l x x' : cycles_row l x -> cycles_row l x' -> x = x'.
Proof.
  destruct x as [t n], x' as [t' n']. intros (L & gs & G & T) (L' & gs' & G' & T'). cbn [fst snd] in *.
  rewrite (runs_unique _ _ _ _ G' G) in T'. rewrite (number_table_unique _ _ _ T T'). congruence.
Qed.

(** ... and those that look at each ECU separately: how the entries of different ECUs are interleaved does not matter. *)
Theorem C109_interleaving : forall (M : machine) (b b' : bytes) es es' (cmd : string),
  dltit b = Ret es -> dltit b' = Ret es' -> (forall ecu, from_ecu ecu es = from_ecu ecu es') ->
  In cmd ["split_timestamp"; "split_lifecycles"] ->
  run_command M cmd b' = run_command M cmd b.
Proof.
  intros M b b' es es' cmd D D' E [<-|[<-|[]]].
  - destruct (C62_split_timestamp M b es D) as [H1 H2]. destruct (C62_split_timestamp M b' es' D') as [H1' H2'].
    destruct (text_dec es) as [T|(e & I & T)].
    + destruct (H1 T) as (m & R & ->). destruct H1' as (m' & R' & ->); [intros e I; apply T; exact (from_ecu_in es' es (fun k => eq_sym (E k)) e I)|].
      now rewrite (rows_same es es' _ m m' E periods_row_unique R R').
    + rewrite H2 by now exists e. apply H2'. exists e. split; [exact (from_ecu_in es es' E e I)|exact T].
  - assert (F : forall k, from_ecu k (filter stamped es) = from_ecu k (filter stamped es')).
    { assert (C : forall k l, from_ecu k (filter stamped l) = filter stamped (from_ecu k l)).
      { intros k l. unfold from_ecu. induction l as [|e l IH]; [reflexivity|]. cbn [filter].
        destruct (stamped e) eqn:S1, (quad_dec (ecu_of e) k) eqn:S2; cbn [filter]; rewrite ?S1, ?S2, IH; reflexivity. }
      intros k. now rewrite !C, E. }
    destruct (C63_split_lifecycles M b es D) as [H1 H2]. destruct (C63_split_lifecycles M b' es' D') as [H1' H2'].
    destruct (unstamped_dec es) as [(e & I & U)|U].
    + rewrite H2 by (left; now exists e). apply H2'. left. exists e. split; [exact (from_ecu_in es es' E e I)|exact U].
    + destruct (text_dec (filter stamped es)) as [T|(e & I & T)].
      * destruct (H1 U T) as (m & R & ->). destruct H1' as (m' & R' & ->).
        -- intros e I. apply U. exact (from_ecu_in es' es (fun k => eq_sym (E k)) e I).
        -- intros e I. apply T. exact (from_ecu_in _ _ (fun k => eq_sym (F k)) e I).
        -- now rewrite (rows_same _ _ _ m m' F cycles_row_unique R R').
      * rewrite H2 by (right; now exists e). apply H2'. right. exists e. split; [exact (from_ecu_in _ _ F e I)|exact T].
Qed.
Print Assumptions C109_interleaving.

Lemma layout_entries parts last : parts_ok parts -> ~ occurs_in the_pattern last -> dltit (layout parts last) = Ret (map entry_of (map snd parts)).
Proof.
  intros OK NL. destruct (layout_read parts last OK NL) as (l & D & SH & ->). f_equal.
  assert (V : Forall (fun p => valid_message (snd p)) parts) by (eapply Forall_impl; [|exact OK]; intros p [_ H]; exact H).
  clear D OK NL. revert l SH. generalize 0. induction parts as [|[j m] parts IH]; intros k l SH; cbn [placed] in SH; inversion SH as [|i p l0 l1 [A B] SH']; subst; [reflexivity|].
  inversion V as [|x y V1 V2]; subst. cbn [map snd fst] in *. f_equal; [|exact (IH V2 _ _ SH')].
  apply denotes_entry_of_iff in B; [exact B|apply V1].
Qed.
(** The message comes from the ECU with this id (bytes 12 to 15). *)
Definition sent_by (id m : bytes) : bool := if list_eq_dec Strings.Byte.byte_eq_dec (firstn 4 (skipn 12 m)) id then true else false.
Lemma from_ecu_sent k ms : Forall valid_message ms -> from_ecu k (map entry_of ms) = map entry_of (filter (sent_by (quad_bytes k)) ms).
Proof.
  intros V. unfold from_ecu. induction V as [|m ms V1 V IH]; [reflexivity|]. cbn [map filter].
  assert (E : (if quad_dec (ecu_of (entry_of m)) k then true else false) = sent_by (quad_bytes k) m).
  { unfold sent_by. destruct (denotes_entry_of m (proj1 (proj2 V1))) as (_ & _ & _ & _ & Q & _). unfold ecu_of. rewrite <- Q.
    destruct (quad_dec (ecu (sheader (entry_of m))) k) as [->|N]; [now destruct (list_eq_dec _ _ _)|].
    destruct (list_eq_dec _ _ _) as [Q'|]; [|reflexivity]. exfalso. apply N. destruct (ecu (sheader (entry_of m))), k. cbn in Q'. congruence. }
  rewrite E. destruct (sent_by (quad_bytes k) m); cbn [map]; now rewrite IH.
Qed.

(** For files: the messages in another order, or in another interleaving of ECUs, with any pattern-free garbage between them. *)
Theorem C109_files : forall (M : machine) parts last parts' last' (cmd : string),
  parts_ok parts -> ~ occurs_in the_pattern last -> parts_ok parts' -> ~ occurs_in the_pattern last' ->
  (Permutation (map snd parts) (map snd parts') ->
   In cmd ["count"; "count_hello_world"; "histogram_message_size"; "histogram_payload_size"; "histogram_message_type"] ->
   run_command M cmd (layout parts' last') = run_command M cmd (layout parts last)) /\
  ((forall id, filter (sent_by id) (map snd parts) = filter (sent_by id) (map snd parts')) ->
   In cmd ["split_timestamp"; "split_lifecycles"] ->
   run_command M cmd (layout parts' last') = run_command M cmd (layout parts last)).
Proof.
  intros M parts last parts' last' cmd OK NL OK' NL'.
  pose proof (layout_entries parts last OK NL) as D. pose proof (layout_entries parts' last' OK' NL') as D'.
  assert (V : forall ps, parts_ok ps -> Forall valid_message (map snd ps)).
  { intros ps H. apply Forall_map. eapply Forall_impl; [|exact H]. intros p [_ Q]. exact Q. }
  split.
  - intros P I. exact (C109_order M _ _ _ _ cmd D D' (Permutation_map entry_of P) I).
  - intros E I. apply (C109_interleaving M _ _ _ _ cmd D D'); [|exact I]. intros k. rewrite !from_ecu_sent by now apply V. now rewrite E.
Qed.
Print Assumptions C109_files.

(** m1, m2 and a message of another ECU; and the other commands do look at the order. *)
Definition m_other : bytes := firstn 12 m1 ++ [x45; x43; x55; x32] ++ skipn 16 m1.
Example C109_example :
  let parts := [([], m1); ([], m_other); ([], m2); ([], m3)] in let parts' := [([x2a], m_other); ([], m1); ([x2a; x2b], m2); ([], m3)] in
  Forall valid_message (map snd parts) /\ Permutation (map snd parts) (map snd parts') /\
  (forall id, filter (sent_by id) (map snd parts) = filter (sent_by id) (map snd parts')) /\
  (exists rows, run_command (lab []) "split_lifecycles" (layout parts []) = Ret rows /\ length rows = 3 /\
     run_command (lab []) "split_lifecycles" (layout parts' [x2c]) = Ret rows).
Proof.
  cbv zeta. split; [repeat constructor; first [apply m1_valid|apply m2_valid|apply m3_valid|vm_compute; reflexivity|vm_compute; lia]|].
  split; [apply perm_swap|]. split.
  - intros id. cbn [map snd filter].
    assert (X : sent_by id m1 = true -> sent_by id m_other = true -> False).
    { unfold sent_by. destruct (list_eq_dec _ _ id) as [A|]; [|discriminate]. destruct (list_eq_dec _ _ id) as [B|]; [|discriminate]. rewrite <- A in B. discriminate B. }
    destruct (sent_by id m1), (sent_by id m_other); try reflexivity. exfalso. now apply X.
  - eexists. split; [vm_compute; reflexivity|]. split; [reflexivity|vm_compute; reflexivity].
Qed.
Example C109_others :
  run_command (lab []) "histogram_timestamp" (m1 ++ m2) <> run_command (lab []) "histogram_timestamp" (m2 ++ m1) /\
  run_command (lab []) "split_timestamp" (m1 ++ m2 ++ m3) <> run_command (lab []) "split_timestamp" (m2 ++ m3 ++ m1).
Proof. split; vm_compute; discriminate. Qed.
