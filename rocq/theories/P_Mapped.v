(** Property theorems C115-C118: a memory mapped file that is overwritten while it is being read
    (MappedModel.v; vocabulary in MappedSpec.v).  [W] answers every single read as it likes, [n] is the length of the
    mapping, [t] the number of reads before. *)
From Verif Require Import Base DltModel MatchModel MappedModel Spec MappedSpec BaseFacts DltFacts CodecFacts ParseFacts FindFacts IterFacts DltIterFacts
  ContainFacts CommandFacts ExactFacts MappedFacts MappedStill.
From Verif Require Samples.
From Coq Require Import ZifyBool ZifyNat ZifyN.
Import Samples(m1, m2, m3, m1_valid, m2_valid, m3_valid).
Ltac Zify.zify_post_hook ::= idtac.

(** * C115: no panic, no endless loop, only places in the mapping *)
Theorem C115_sequential : forall W n t, exists l t', m_dltit W n t = Ret (l, t') /\ spread n 0 l.
Proof. intros W n t. exact (safe_collect_spread W n (S n) 0 ltac:(lia) t). Qed.
Print Assumptions C115_sequential.
(** The searching iterator reads the length twice; places can overlap, but they start further and further on. *)
Theorem C115_search : forall W n off t, exists l t',
  m_collect (m_search_next W n (S n)) (S n) off t = Ret (l, t') /\ advancing n off l.
Proof. intros W n off t. apply (safe_collect_advancing W n (S n) off). lia. Qed.
Print Assumptions C115_search.
Theorem C115_backward : forall W n off t, off <= n -> (N.of_nat n < usize_max)%N -> exists l t',
  m_collect (m_rev_next W n (S n)) (S n) (N.of_nat off) t = Ret (l, t') /\ falling n off l.
Proof. intros W n off t H HU. apply (safe_collect_falling W n (S n) off); lia. Qed.
Print Assumptions C115_backward.
Theorem C115_contiguous : forall W n off t, exists l t',
  m_collect (m_readit_next W n) (S n) off t = Ret (l, t') /\ touching n off l.
Proof. intros W n off t. apply (safe_collect_touching W n (S n) off). lia. Qed.
Print Assumptions C115_contiguous.
Theorem C115_partition : forall W n num t, 0 < num -> exists l t', m_partition W n num t = Ret (l, t') /\ in_line n 0 l.
Proof.
  intros W n num t H. unfold m_partition. destruct (Nat.eqb_spec num 0); [lia|]. apply (safe_partition_loop W n (n / num) (S n) 0 (n / num)). lia.
Qed.
Print Assumptions C115_partition.
(** A mapping that shows one message and then, from the fourth read on, a shorter one at its place. *)
Definition flicker : world := {|
  sees_marker := fun _ a => a =? 0; sees_length := fun t _ => if t <? 2 then 60 else 4; sees_type := fun _ _ => 0%N;
  sees_first := fun _ a => if a =? 0 then Some 0 else if a <=? 20 then Some 20 else None; sees_last := fun _ _ => None; sees_match := fun _ _ => None |}.
Example C115_overlap : exists t', m_collect (m_search_next flicker 80 81) 81 0 0 = Ret ([(0, 76); (20, 20)], t').
Proof. eexists. vm_compute. reflexivity. Qed.

(** * C116: grep *)
(** No panic and only places in the mapping, for every engine; every call returns if matches are not empty. *)
Theorem C116_grep_partial : forall W n off,
  (forall fuel t, m_grep_next W n fuel off t <> Panic) /\
  (forall fuel t off' v t', m_grep_next W n fuel off t = Ret ((off', Some v), t') -> 20 <= snd v /\ fst v + snd v <= n /\ fst v + 16 <= off') /\
  ((forall t a s e, sees_match W t a = Some (s, e) -> s < e) -> forall t, exists r, m_grep_next W n (S n) off t = Ret r).
Proof.
  intros W n off. split; [|split].
  - intros fuel t. unfold m_grep_next, follow. destruct (tame_grep_search W n fuel off t) as [NP _].
    destruct (m_grep_search W n fuel off t) as [[[v|] t']| |]; [|discriminate|congruence|discriminate].
    destruct (safe_len W v t') as (l & t2 & -> & _). discriminate.
  - intros fuel t off' v t' E. unfold m_grep_next, follow in E. destruct (tame_grep_search W n fuel off t) as [_ G].
    destruct (m_grep_search W n fuel off t) as [[[v0|] t0]| |]; try discriminate.
    destruct (safe_len W v0 t0) as (l & t2 & E2 & Hl). rewrite E2 in E. injection E as <- <- <-.
    destruct (G _ _ eq_refl v0 eq_refl) as [G1 G2]. repeat split; try assumption. apply Nat.add_le_mono_l. exact Hl.
  - intros NE t. unfold m_grep_next, follow. destruct (safe_grep_search W n NE (S n) off ltac:(lia) t) as ([v|] & t' & E & _); rewrite E.
    + destruct (safe_len W v t') as (l & t2 & -> & _). eexists. reflexivity.
    + eexists. reflexivity.
Qed.
Print Assumptions C116_grep_partial.
(** It comes to an end if matches are not empty and a length field that is read twice in a row is not smaller the second time. *)
Theorem C116_grep_ends_partial : forall W n off, (forall t a s e, sees_match W t a = Some (s, e) -> s < e) ->
  (forall t a, N.of_nat (sees_length W t a) < 65536)%N -> (forall t a, sees_length W t a <= sees_length W (S t) a) ->
  forall t, exists l t', m_collect (m_grep_next W n (S n)) (S n) off t = Ret (l, t') /\
    length l <= n - off /\ Forall (fun v => 20 <= snd v /\ fst v + snd v <= n) l.
Proof.
  intros W n off NE SM UP t. destruct (grep_ends W n NE SM UP (S n) off ltac:(lia) t) as (l & t' & E & F & L). exists l, t'. split; [exact E|]. split; [exact L|]. exact F.
Qed.
Print Assumptions C116_grep_ends_partial.
(** Whenever the length is read for the third time it is 0: the same message is delivered again and again. *)
Definition nagging : world := {|
  sees_marker := fun _ a => a =? 0; sees_length := fun t _ => if t mod 5 =? 4 then 0 else 40; sees_type := fun _ _ => 0%N;
  sees_first := fun _ _ => Some 0; sees_last := fun _ _ => Some 0;
  sees_match := fun _ a => if a <=? 30 then Some (30, 31) else None |}.
Lemma nagging_next f off i : off <= 16 -> m_grep_next nagging 56 (S f) off (5 * i) = Ret ((16, Some (0, 56)), 5 * S i).
Proof.
  intros H. unfold m_grep_next. cbn [m_grep_search]. destruct (Nat.leb_spec 56 off); [lia|].
  assert (M0 : forall j, j < 5 -> (j + 5 * i) mod 5 = j).
  { intros j Hj. rewrite Nat.mul_comm, Nat.mod_add by lia. now apply Nat.mod_small. }
  unfold follow, m_match, ask. unfold follow. cbn [nagging sees_match]. destruct (Nat.leb_spec off 30); [|lia].
  destruct (Nat.leb_spec off 30); [|lia]. cbn [andb]. change (30 <=? 31) with true. change (31 <=? 56) with true. cbn [andb done].
  unfold m_rev_search. change ((N.of_nat 56 <? N.of_nat 30) || (N.of_nat 30 =? usize_max))%N with false. cbv iota.
  unfold follow, m_slice. change ((N.to_nat (N.of_nat 30) <? 0) || (56 <? N.to_nat (N.of_nat 30))) with false. cbn [done].
  unfold m_rfind, follow, ask. cbn [nagging sees_last]. change (0 + 4 <=? N.to_nat (N.of_nat 30)) with true. cbn [done].
  unfold m_from. change (56 <? 0) with false. cbn [done]. unfold m_read. change (56 - 0 <? 16) with false. change (56 - 0 - 16 <? 4) with false. cbv iota.
  unfold m_length, follow, ask. cbn [nagging sees_length done].
  pose proof (M0 2 ltac:(lia)) as M2. pose proof (M0 3 ltac:(lia)) as M3. pose proof (M0 4 ltac:(lia)) as M4. cbn [Nat.add] in M2, M3, M4.
  rewrite M2. change (2 =? 4) with false. cbv iota. change (N.to_nat (N.of_nat 40 mod 65536)) with 40. change ((40 <? 4) || (56 - 0 - 16 <? 40)) with false. cbn [done].
  change (fst (0, 16 + 40)) with 0. change (0 <? 30) with true. cbv iota. unfold m_len, m_length, follow, ask. cbn [nagging sees_length done fst].
  rewrite M3. change (3 =? 4) with false. cbv iota. change (N.to_nat (N.of_nat 40 mod 65536)) with 40. change (0 + (40 + 16) <? 31) with false. cbn [done].
  rewrite M4. change (4 =? 4) with true. cbv iota. change (N.to_nat (N.of_nat 0 mod 65536)) with 0. replace (5 * S i) with (S (S (S (S (S (5 * i)))))) by lia. reflexivity.
Qed.
Theorem C116_refuted : (forall t a s e, sees_match nagging t a = Some (s, e) -> s < e) /\
  forall fuel, m_collect (m_grep_next nagging 56 57) fuel 0 0 = Fuel.
Proof.
  split.
  - intros t a s e. cbn. destruct (a <=? 30); [|discriminate]. intros [= <- <-]. lia.
  - intros fuel. assert (H : forall i off, off <= 16 -> m_collect (m_grep_next nagging 56 57) fuel off (5 * i) = Fuel); [|exact (H 0 0 ltac:(lia))].
    induction fuel as [|f IH]; intros i off Ho; [reflexivity|]. cbn [m_collect]. unfold follow at 1. rewrite (nagging_next 56 off i Ho). cbv iota.
    unfold follow. now rewrite (IH (S i) 16 ltac:(lia)).
Qed.
Print Assumptions C116_refuted.

(** The capture iterator neither panics nor reports places outside the mapping; if neither matches nor group 1 are
    empty it comes to an end, too ([G] answers the regular expression engine's searches). *)
Theorem C116_capture_partial : forall W n G off,
  (forall fuel t, m_capture_next W n G fuel off t <> Panic) /\
  (forall fuel t off' o gs ge t', m_capture_next W n G fuel off t = Ret ((off', Some (o, (gs, ge))), t') ->
     o + 20 <= n /\ o + 4 <= gs /\ off <= gs <= ge /\ ge <= n) /\
  ((forall t a s e g, G t a = Some ((s, e), g) -> s < e) -> forall t, exists r, m_capture_next W n G (S n) off t = Ret r) /\
  ((forall t a s e g, G t a = Some ((s, e), g) -> s < e) -> (forall t a m gs ge, G t a = Some (m, Some (gs, ge)) -> gs < ge) ->
   forall t, exists l t', m_collect (m_capture_next W n G (S n)) (S n) off t = Ret (l, t') /\ climbing n off l).
Proof.
  intros W n G off. split; [|split; [|split]].
  - intros fuel t. unfold m_capture_next, follow. destruct (tame_capture W n G fuel off t) as [NP _].
    destruct (m_capture W n G fuel off t) as [[[[o g]|] t']| |]; [discriminate|discriminate|congruence|discriminate].
  - intros fuel t off' o gs ge t' E. unfold m_capture_next, follow in E. destruct (tame_capture W n G fuel off t) as [_ K].
    destruct (m_capture W n G fuel off t) as [[[[o0 [g0 g1]]|] t0]| |]; try discriminate. injection E as _ <- <- <- <-. exact (K _ _ eq_refl _ _ _ eq_refl).
  - intros NE t. unfold m_capture_next, follow. destruct (safe_capture W n G NE (S n) off ltac:(lia) t) as ([[o g]|] & t' & -> & _); eexists; reflexivity.
  - intros NE NG. apply (safe_collect_groups W n G NE); [|lia]. intros t a s e gs ge. apply NG.
Qed.
Print Assumptions C116_capture_partial.
(** A message that grows while it is grepped: it is read with 46 bytes and has 56 when the next search starts. *)
Definition growing : world := {|
  sees_marker := fun _ a => a =? 0; sees_length := fun t _ => if t <? 4 then 30 else 40; sees_type := fun _ _ => 0%N;
  sees_first := fun _ _ => Some 0; sees_last := fun _ _ => Some 0;
  sees_match := fun _ a => if a <=? 30 then Some (30, 31) else None |}.
Example C116_ends_example : (forall t a s e, sees_match growing t a = Some (s, e) -> s < e) /\ (forall t a, N.of_nat (sees_length growing t a) < 65536)%N /\
  (forall t a, sees_length growing t a <= sees_length growing (S t) a) /\ exists t', m_collect (m_grep_next growing 56 57) 57 0 0 = Ret ([(0, 46)], t').
Proof.
  split; [intros t a s e; cbn [growing sees_match]; destruct (a <=? 30); [|discriminate]; intros [= <- <-]; lia|].
  split; [intros t a; cbn [growing sees_length]; destruct (t <? 4); reflexivity|].
  split; [|eexists; vm_compute; reflexivity].
  intros t a. cbn [growing sees_length]. destruct (Nat.ltb_spec t 4), (Nat.ltb_spec (S t) 4); lia.
Qed.
(** Here the first group is empty, the second is not, in a message that has become longer meanwhile. *)
Definition groups_seen (t a : nat) : option ((nat * nat) * option (nat * nat)) :=
  if a <=? 30 then Some ((30, 34), Some (31, if t <? 2 then 31 else 33)) else if a <=? 50 then Some ((50, 53), Some (50, 51)) else None.
Example C116_captured : exists t', m_collect (m_capture_next nagging 56 groups_seen 57) 57 0 0 = Ret ([(0, (31, 31)); (0, (50, 51))], t').
Proof. eexists. vm_compute. reflexivity. Qed.

(** * C117: what does not change is read as it is *)
(** If the first [c] bytes do not change, the messages that end in them are delivered first. *)
Theorem C117_steady : forall W (b : bytes) c l, steady W b c -> c <= length b -> dltit_offset b = Ret l ->
  forall t, exists more t', m_dltit W (length b) t = Ret (places (filter (fun x => fst x + storage_len (snd x) <=? c) l) ++ more, t').
Proof.
  intros W b c l ST Hc E t. apply dltit_offset_chain in E.
  destruct (steady_collect W b c ST Hc 0 l E (S (length b)) ltac:(lia) t) as (l' & t' & E' & more & ->). exists more, t'. exact E'.
Qed.
Print Assumptions C117_steady.
Lemma history_steady mem F b c : (forall t, length (mem t) = length b /\ firstn c (mem t) = firstn c b) -> c <= length b -> steady (history mem F) b c.
Proof.
  intros H Hc. assert (OC : forall t a, a + 4 <= c -> occ dlt_marker (mem t) a = occ dlt_marker b a).
  { intros t a Ha. destruct (H t) as [_ E]. rewrite <- (occ_firstn dlt_marker (mem t) a c), <- (occ_firstn dlt_marker b a c) by (change (length dlt_marker) with 4; lia). now rewrite E. }
  assert (OS : forall x a, occ dlt_marker x a = true <-> occurs_at the_pattern x a) by (intros; apply occ_occurs; cbn; lia).
  constructor.
  - intros t a Ha. cbn [history sees_marker]. rewrite occ_marker, OC by exact Ha. apply OS.
  - intros t a Ha. cbn [history sees_length]. destruct (H t) as [_ E]. unfold field_at, u16_at, byte_at.
    assert (N : forall i, i < c -> nth i (mem t) x00 = nth i b x00).
    { intros i Hi. rewrite <- (firstn_skipn c (mem t)), <- (firstn_skipn c b), E. rewrite !app_nth1; [reflexivity| |]; rewrite firstn_length; lia. }
    rewrite !N by lia. reflexivity.
  - intros t a p Hp Hpc O NO. cbn [history sees_first]. apply OS in O.
    replace (find the_pattern (skipn a (mem t))) with (Some (p - a)); [cbn [option_map]; f_equal; lia|]. symmetry. apply find_some; [cbn; lia|].
    rewrite occ_skipn. replace (a + (p - a)) with p by lia. split; [now rewrite OC|]. intros j Hj. rewrite occ_skipn.
    change the_pattern with dlt_marker. rewrite OC by lia. destruct (occ dlt_marker b (a + j)) eqn:Q; [|reflexivity]. exfalso. apply (NO (a + j)); [lia|]. now apply OS.
  - intros t a p E Hpc. cbn [history sees_first] in E. destruct (find the_pattern (skipn a (mem t))) as [q|] eqn:Q; [|discriminate]. injection E as <-.
    apply find_some in Q; [|cbn; lia]. destruct Q as [Q _]. rewrite occ_skipn in Q. change the_pattern with dlt_marker in Q. rewrite OC in Q by exact Hpc. now apply OS.
Qed.
(** In particular for every sequence of contents with the same first [c] bytes. *)
Theorem C117_history : forall (mem : nat -> bytes) F (b : bytes) c l,
  (forall t, length (mem t) = length b /\ firstn c (mem t) = firstn c b) -> c <= length b -> dltit_offset b = Ret l ->
  forall t, exists more t', m_dltit (history mem F) (length b) t = Ret (places (filter (fun x => fst x + storage_len (snd x) <=? c) l) ++ more, t').
Proof. intros mem F b c l H Hc. apply C117_steady; [now apply history_steady|exact Hc]. Qed.
Print Assumptions C117_history.
(** Two messages stay, the third is there or not. *)
Example C117_example : let b := m1 ++ m2 ++ m3 in let mem t := if Nat.even t then b else m1 ++ m2 ++ repeat x00 (length m3) in let c := length (m1 ++ m2) in
  (forall t, length (mem t) = length b /\ firstn c (mem t) = firstn c b) /\ c <= length b /\
  exists l, dltit_offset b = Ret l /\ length l = 3 /\ length (filter (fun x => fst x + storage_len (snd x) <=? c) l) = 2.
Proof.
  split; [|split].
  - intros t. cbv beta zeta. destruct (Nat.even t); vm_compute; split; reflexivity.
  - vm_compute. repeat constructor.
  - eexists. split; [vm_compute; reflexivity|]. split; vm_compute; reflexivity.
Qed.

(** A file that does not change at all: the model is the one of MatchModel.v. *)
Theorem C117_unchanged : forall (b : bytes) F,
  let W := still b F in let n := length b in
  (forall l, dltit_offset b = Ret l -> forall t, exists t', m_dltit W n t = Ret (places l, t')) /\
  (forall off r, readit_next DLT b off = Ret r -> forall t, exists t', m_readit_next W n off t = Ret (moved r, t')) /\
  (forall fuel off r, search_next DLT fuel b off = Ret r -> forall t, exists t', m_search_next W n fuel off t = Ret (moved r, t')) /\
  (forall fuel off r, rev_next DLT fuel b off = Ret r -> forall t, exists t', m_rev_next W n fuel off t = Ret (moved r, t')) /\
  ((forall a s e, F b a = Some (s, e) -> a <= s /\ s <= e /\ e <= n) ->
   forall fuel off r, grep_next DLT F fuel b off = Ret r -> forall t, exists t', m_grep_next W n fuel off t = Ret (moved r, t')) /\
  (forall num l, partition_from DLT b num = Ret l -> forall t, exists ps t', m_partition W n num t = Ret (ps, t') /\
     map (fun p => firstn (snd p - fst p) (skipn (fst p) b)) ps = l).
Proof.
  intros b F W n.
  assert (X : forall S (r : S * option (nat * storage_entry)) x, safe (eq (moved r)) x -> forall t, exists t', x t = Ret (moved r, t')).
  { intros S r x H t. destruct (H t) as (a & t' & E & <-). now exists t'. }
  split; [|split; [|split; [|split; [|split]]]].
  - intros l E t. assert (E' : collect (fun off => fallback_next DLT (S (S n)) b off) (S n) 0 = Ret l).
    { apply (collect_chain_iff DLT parse dlt_lawful b n (S n) 0 l); [unfold n; lia|]. now apply dltit_offset_chain. }
    destruct (still_collect _ _ (fun s r => still_fallback b F (S (S n)) s r) _ _ _ E' t) as (a & t' & E2 & <-). exists t'. exact E2.
  - intros off r E. apply X. now apply still_readit.
  - intros fuel off r E. apply X. now apply still_search_next.
  - intros fuel off r E. apply X. now apply still_rev_next.
  - intros FOK fuel off r E. apply X. now apply still_grep_next.
  - intros num l E t. destruct (still_partition b F num l E t) as (ps & t' & E' & <-). now exists ps, t'.
Qed.
Print Assumptions C117_unchanged.
Theorem C117_captures : forall (b : bytes) F CF,
  (forall a s e g, CF b a = Some ((s, e), g) -> a <= s /\ s <= e /\ e <= length b /\ forall gs ge, g = Some (gs, ge) -> s <= gs /\ gs <= ge /\ ge <= e) ->
  forall fuel off r, capture_next DLT CF fuel b off = Ret r ->
  forall t, exists t', m_capture_next (still b F) (length b) (fun _ a => CF b a) fuel off t = Ret (r, t').
Proof.
  intros b F CF H fuel off r E t. destruct (still_capture_next b F CF H fuel off r E t) as (a & t' & E' & <-). now exists t'.
Qed.
Print Assumptions C117_captures.

(** * C118: accessors *)
Lemma tail_from_ok v k : k <= m_tail v -> m_tail_from v k = done tt.
Proof. intros H. unfold m_tail_from. destruct (Nat.ltb_spec (m_tail v) k); [lia|reflexivity]. Qed.
Lemma place_inside v k len : 20 <= snd v -> k <= m_tail v -> within_place v (m_place v k len).
Proof.
  intros H Hk a x. unfold m_place. destruct (Nat.ltb_spec (m_tail v - k) len); [discriminate|]. intros [= <- <-]. unfold m_tail in *. lia.
Qed.
Lemma safe_flag W v mask : safe (fun _ => True) (m_flag W v mask).
Proof. unfold m_flag. eapply safe_follow; [apply safe_any|]. intros h _. now apply safe_done. Qed.
Lemma none_inside v : within_place v None.
Proof. discriminate. Qed.
Ltac flags := repeat (eapply safe_follow; [apply safe_flag|]; intros ? _).
Theorem C118_accessors : forall W v, 20 <= snd v ->
  (forall t, exists r t', m_timestamp W v t = Ret (r, t') /\ within_place v r) /\
  (24 <= snd v -> forall t, exists r t', m_ecu_id W v t = Ret (r, t') /\ within_place v r) /\
  (32 <= snd v -> forall t, exists r t', m_extended_header W v t = Ret (r, t') /\ within_place v r) /\
  (32 <= snd v -> forall t, exists r t', m_payload W v t = Ret (r, t') /\ within_place v r).
Proof.
  intros W v H. assert (T : m_tail v = snd v - 20) by reflexivity. split; [|split; [|split]].
  - change (safe (within_place v) (m_timestamp W v)). unfold m_timestamp. eapply safe_follow; [apply safe_flag|]. intros w _. destruct w; [|apply safe_done, none_inside].
    eapply safe_follow; [apply safe_flag|]. intros e _. eapply safe_follow; [apply safe_flag|]. intros s _. cbv zeta.
    destruct (Nat.ltb_spec (m_tail v) ((if e then 4 else 0) + (if s then 4 else 0))) as [L|L]; [apply safe_done, none_inside|].
    rewrite tail_from_ok by exact L. eapply safe_follow; [now apply (safe_done (fun _ => True))|]. intros _ _. now apply safe_done, place_inside.
  - intros H2. change (safe (within_place v) (m_ecu_id W v)). unfold m_ecu_id. eapply safe_follow; [apply safe_flag|]. intros w _. destruct w; [|apply safe_done, none_inside].
    destruct (Nat.ltb_spec (m_tail v) 4); [lia|]. apply safe_done, place_inside; lia.
  - intros H2. change (safe (within_place v) (m_extended_header W v)). unfold m_extended_header. eapply safe_follow; [apply safe_flag|]. intros x _. destruct x; [|apply safe_done, none_inside].
    eapply safe_follow; [apply safe_flag|]. intros e _. eapply safe_follow; [apply safe_flag|]. intros s _. eapply safe_follow; [apply safe_flag|]. intros w _. cbv zeta.
    assert (L : (if e then 4 else 0) + (if s then 4 else 0) + (if w then 4 else 0) <= m_tail v) by (rewrite T; destruct e, s, w; lia).
    rewrite tail_from_ok by exact L. eapply safe_follow; [now apply (safe_done (fun _ => True))|]. intros _ _. now apply safe_done, place_inside.
  - intros H2. change (safe (within_place v) (m_payload W v)). unfold m_payload. eapply safe_follow; [apply safe_flag|]. intros e _. eapply safe_follow; [apply safe_flag|]. intros s _.
    eapply safe_follow; [apply safe_flag|]. intros w _. eapply safe_follow; [apply safe_flag|]. intros x _. cbv zeta.
    set (o := (if e then 4 else 0) + (if s then 4 else 0) + (if w then 4 else 0)). assert (L : o <= m_tail v) by (unfold o; rewrite T; destruct e, s, w; lia).
    assert (IN : forall k, k <= m_tail v -> within_place v (Some (fst v + 20 + k, m_tail v - k))) by (intros k Hk a z [= <- <-]; lia).
    destruct x.
    + rewrite tail_from_ok by exact L. eapply safe_follow; [now apply (safe_done (fun _ => True))|]. intros _ _.
      destruct (m_place v o 10); [|apply safe_done, none_inside]. destruct (Nat.ltb_spec (m_tail v) (o + 10)) as [L2|L2]; [apply safe_done, none_inside|].
      now apply safe_done, IN.
    + destruct (Nat.ltb_spec (m_tail v) o) as [L2|L2]; [apply safe_done, none_inside|]. now apply safe_done, IN.
Qed.
Print Assumptions C118_accessors.
(** On a file that does not change they return what the model of dlt_v1.rs returns. *)
Lemma at_skipn b k m i : occurs_at m b k -> i < length m -> nth (k + i) b x00 = nth i m x00.
Proof.
  intros (pre & post & -> & <-) Hi. rewrite app_nth2 by lia. replace (length pre + i - length pre) with i by lia. now rewrite app_nth1.
Qed.
Lemma tail_skipn b k m i : occurs_at m b k -> i <= length m -> firstn (length m - i) (skipn (k + i) b) = skipn i m.
Proof.
  intros (pre & post & -> & <-) Hi. rewrite skipn_app, skipn_all2 by lia. cbn [app]. replace (length pre + i - length pre) with i by lia.
  rewrite skipn_app. replace (i - length m) with 0 by lia. cbn [skipn]. rewrite firstn_app, skipn_length, Nat.sub_diag, app_nil_r.
  rewrite <- skipn_length. apply firstn_all.
Qed.
Lemma u32_skipn b k m i : occurs_at m b k -> i + 4 <= length m -> u32be_at b (k + i) = u32be_at (skipn i m) 0.
Proof.
  intros O H. unfold u32be_at, byte_at. rewrite !nth_skipn_x. rewrite <- !Nat.add_assoc. rewrite !(at_skipn b k m) by (try exact O; lia).
  now rewrite Nat.add_0_r.
Qed.
Lemma ext_prefix_eq x y : 10 <= length x -> 10 <= length y -> firstn 10 x = firstn 10 y -> ext_header_from_prefix x = ext_header_from_prefix y.
Proof.
  intros Hx Hy E. do 10 (destruct x as [|? x]; [cbn in Hx; lia|]). do 10 (destruct y as [|? y]; [cbn in Hy; lia|]). cbn [firstn] in E.
  injection E as -> -> -> -> -> -> -> -> -> ->. reflexivity.
Qed.
Theorem C118_unchanged : forall (b : bytes) F k m, message_at b k m ->
  let W := still b F in let v := (k, length m) in let e := dlt (entry_of m) in
  does_as (fun p => Some (u32be_at b (fst p))) (ecu_id e) (m_ecu_id W v) /\
  does_as (fun p => Some (u32be_at b (fst p))) (timestamp e) (m_timestamp W v) /\
  does_as (fun p => ext_header_from_prefix (skipn (fst p) b)) (extended_header e) (m_extended_header W v) /\
  does_as (fun p => Some (firstn (snd p) (skipn (fst p) b))) (payload e) (m_payload W v).
Proof.
  intros b F k m ((_ & H20 & _) & O) W v e. set (h := nth 16 m x00).
  assert (HT : nth (k + 16) b x00 = h) by (apply at_skipn; [exact O|lia]).
  assert (FL : forall mask t, m_flag W v mask t = Ret ((0 <? N.land (bN h) mask)%N, S t)).
  { intros mask t. unfold m_flag, follow, ask, done. cbn [W still sees_type v fst]. now rewrite HT. }
  assert (TL : length (tail e) = length m - 20) by (cbn [e entry_of dlt tail]; apply skipn_length).
  assert (TM : m_tail v = length m - 20) by reflexivity.
  assert (TE : tail e = skipn 20 m) by reflexivity.
  assert (HH : header_type (header e) = h) by reflexivity.
  assert (LB : k + length m <= length b). { destruct O as (pre & post & -> & <-). rewrite !app_length. lia. }
  assert (U : forall o, o <= length m - 20 -> match m_place v o 4 with Some p => Some (u32be_at b (fst p)) | None => None end = u32_from_prefix (skipn o (tail e))).
  { intros o Ho. unfold m_place. rewrite TM. cbn [v fst]. destruct (Nat.ltb_spec (length m - 20 - o) 4) as [L|L].
    - symmetry. apply u32_prefix_none. rewrite skipn_length, TL. exact L.
    - rewrite u32_prefix_some by (rewrite skipn_length, TL; exact L). cbn [fst]. rewrite TE, skipn_skipn'. rewrite <- Nat.add_assoc, (u32_skipn b k m) by (try exact O; lia).
      reflexivity. }
  assert (X : forall o, o <= length m - 20 -> ext_header_from_prefix (skipn o (tail e)) =
     match m_place v o 10 with Some p => ext_header_from_prefix (skipn (fst p) b) | None => None end).
  { intros o Ho. unfold m_place. rewrite TM. cbn [v fst]. destruct (Nat.ltb_spec (length m - 20 - o) 10) as [L|L].
    - apply ext_header_none. rewrite skipn_length, TL. exact L.
    - cbn [fst]. apply ext_prefix_eq; [rewrite skipn_length, TL; lia|rewrite skipn_length; lia|].
      rewrite TE, skipn_skipn', <- (tail_skipn b k m (20 + o) O ltac:(lia)), firstn_firstn, Nat.add_assoc. f_equal. lia. }
  split; [|split; [|split]].
  - intros t. unfold ecu_id, m_ecu_id. rewrite HH. unfold follow. rewrite FL. change (0 <? N.land (bN h) 4)%N with (is_with_ecu_id h).
    destruct (is_with_ecu_id h); [|now exists None, (S t)]. rewrite TM. unfold slice_to. rewrite TL.
    destruct (Nat.leb_spec 4 (length m - 20)); destruct (Nat.ltb_spec (length m - 20) 4); try lia; [|reflexivity].
    cbn [obind]. eexists _, _. split; [reflexivity|]. rewrite U by lia. cbn [skipn]. rewrite !u32_prefix_some by (rewrite ?firstn_length, TL; lia).
    f_equal. unfold u32be_at, byte_at. destruct (tail e) as [|x0 [|x1 [|x2 [|x3 r]]]]; cbn [length] in TL; try lia. reflexivity.
  - intros t. unfold timestamp, m_timestamp. rewrite HH. unfold follow. rewrite FL. change (0 <? N.land (bN h) 16)%N with (is_with_timestamp h). cbv zeta.
    destruct (is_with_timestamp h); [|now exists None, (S t)]. rewrite !FL. change (0 <? N.land (bN h) 4)%N with (is_with_ecu_id h). change (0 <? N.land (bN h) 8)%N with (is_with_session_id h).
    set (o := (if is_with_ecu_id h then 4 else 0) + (if is_with_session_id h then 4 else 0)).
    assert (EO : (if is_with_session_id h then (if is_with_ecu_id h then 0 + 4 else 0) + 4 else (if is_with_ecu_id h then 0 + 4 else 0)) = o)
      by (unfold o; destruct (is_with_ecu_id h), (is_with_session_id h); reflexivity).
    rewrite EO, TM, TL. destruct (Nat.ltb_spec (length m - 20) o) as [L|L]; [eexists None, _; split; reflexivity|].
    unfold m_tail_from. rewrite TM. destruct (Nat.ltb_spec (length m - 20) o); [lia|]. cbn [done]. unfold slice_from. rewrite TL. destruct (Nat.leb_spec o (length m - 20)); [|lia]. cbn [obind].
    eexists _, _. split; [reflexivity|]. now apply U.
  - intros t. unfold extended_header, m_extended_header. rewrite HH. unfold follow. rewrite FL. change (0 <? N.land (bN h) 1)%N with (is_extended_header h). cbv zeta.
    destruct (is_extended_header h); [|now exists None, (S t)]. cbn [negb]. rewrite !FL. change (0 <? N.land (bN h) 4)%N with (is_with_ecu_id h). change (0 <? N.land (bN h) 8)%N with (is_with_session_id h).
    change (0 <? N.land (bN h) 16)%N with (is_with_timestamp h).
    set (o := (if is_with_ecu_id h then 4 else 0) + (if is_with_session_id h then 4 else 0) + (if is_with_timestamp h then 4 else 0)).
    assert (EO : ext_offset h = o) by (unfold o, ext_offset; destruct (is_with_ecu_id h), (is_with_session_id h), (is_with_timestamp h); reflexivity).
    rewrite EO. unfold slice_from, m_tail_from. rewrite TM, TL. destruct (Nat.leb_spec o (length m - 20)); destruct (Nat.ltb_spec (length m - 20) o); try lia; [|reflexivity]. cbn [obind done].
    eexists _, _. split; [reflexivity|]. symmetry. now apply X.
  - intros t. unfold payload, m_payload. rewrite HH. unfold follow. rewrite !FL. change (0 <? N.land (bN h) 4)%N with (is_with_ecu_id h). change (0 <? N.land (bN h) 8)%N with (is_with_session_id h).
    change (0 <? N.land (bN h) 16)%N with (is_with_timestamp h). change (0 <? N.land (bN h) 1)%N with (is_extended_header h). cbv zeta.
    set (o := (if is_with_ecu_id h then 4 else 0) + (if is_with_session_id h then 4 else 0) + (if is_with_timestamp h then 4 else 0)).
    assert (EO : ext_offset h = o) by (unfold o, ext_offset; destruct (is_with_ecu_id h), (is_with_session_id h), (is_with_timestamp h); reflexivity).
    rewrite EO. unfold slice_from. rewrite TM, TL.
    assert (FIN : forall z, z <= length m - 20 -> firstn (length m - 20 - z) (skipn (k + 20 + z) b) = skipn z (tail e)).
    { intros z Hz. rewrite TE, skipn_skipn', <- (tail_skipn b k m (20 + z) O ltac:(lia)). rewrite Nat.add_assoc. f_equal. lia. }
    destruct (is_extended_header h).
    + unfold m_tail_from. rewrite TM. destruct (Nat.leb_spec o (length m - 20)); destruct (Nat.ltb_spec (length m - 20) o); try lia; [|reflexivity]. cbn [obind done].
      rewrite X by lia. unfold m_place. rewrite TM. destruct (Nat.ltb_spec (length m - 20 - o) 10) as [L|L]; [eexists None, _; split; reflexivity|]. cbn [fst v].
      destruct (ext_header_some (skipn (k + 20 + o) b) ltac:(rewrite skipn_length; lia)) as [x ->].
      change ext_header_size with 10. destruct (Nat.ltb_spec (length m - 20) (o + 10)); [lia|]. destruct (Nat.leb_spec (o + 10) (length m - 20)); [|lia]. cbn [obind].
      eexists _, _. split; [reflexivity|]. cbn [fst snd]. f_equal. apply FIN. lia.
    + destruct (Nat.ltb_spec (length m - 20) o) as [L|L]; [eexists None, _; split; reflexivity|]. destruct (Nat.leb_spec o (length m - 20)); [|lia]. cbn [obind].
      eexists _, _. split; [reflexivity|]. cbn [fst snd]. f_equal. now apply FIN.
Qed.
Print Assumptions C118_unchanged.
(** On a shorter message they can panic although the message as it was read announces no such field. *)
Definition retyped : world := {|
  sees_marker := fun _ _ => true; sees_length := fun _ _ => 4; sees_type := fun t _ => if t =? 0 then 0%N else 29%N;
  sees_first := fun _ _ => None; sees_last := fun _ _ => None; sees_match := fun _ _ => None |}.
Theorem C118_short : m_payload retyped (0, 20) 0 = Panic /\ m_ecu_id retyped (0, 20) 1 = Panic /\ m_extended_header retyped (0, 20) 1 = Panic /\
  exists t', m_ecu_id retyped (0, 20) 0 = Ret (None, t').
Proof. repeat split; try (vm_compute; reflexivity). eexists. vm_compute. reflexivity. Qed.
Print Assumptions C118_short.
