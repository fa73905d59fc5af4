(** Facts for C102, C104: work of the backward iterator and of the grep iterator. *)
From Verif Require Import Base DltModel MatchModel CostModel Spec BaseFacts DltFacts CodecFacts ParseFacts FindFacts IterFacts DltIterFacts LayoutFacts CostFacts CostIter.
From Coq Require Import Sorted.

Lemma rev_search_spends b off : off <= length b -> spends (rev_search_work DLT b (N.of_nat off)) (fun r c => steps c = 0 /\
  scanned c <= match rfind (marker DLT) (firstn off b) with Some k => off - k | None => off end /\
  match r with
  | Some (k, t) => rfind (marker DLT) (firstn off b) = Some k /\ parse (skipn k b) = Some (len_of DLT t, t)
  | None => match rfind (marker DLT) (firstn off b) with
            | Some k => parse (skipn k b) = None
            | None => True
            end \/ (N.of_nat off = usize_max)
  end).
Proof.
  intros H. unfold rev_search_work. destruct (N.ltb_spec (N.of_nat (length b)) (N.of_nat off)) as [K|K]; [lia|].
  destruct (N.eqb_spec (N.of_nat off) usize_max) as [K'|K']; cbn [orb].
  { apply spends_done. cbn [steps scanned no_cost]. split; [reflexivity|]. split; [lia|]. now right. }
  rewrite Nat2N.id. apply spends_free. intros t Et. rewrite slice_to_ok in Et by exact H. injection Et as <-. apply spends_rfind.
  pose proof (rfind_last DLT parse dlt_lawful b off) as RL. change (length (marker DLT)) with 4 in RL.
  rewrite firstn_length, Nat.min_l by exact H.
  destruct (rfind (marker DLT) (firstn off b)) as [k|] eqn:F.
  2:{ apply spends_done. cbn [steps scanned no_cost]. split; [reflexivity|]. split; [lia|]. now left. }
  apply spends_free. intros s' Es. rewrite slice_from_ok in Es by lia. injection Es as <-. apply spends_free. intros r Er.
  change (try_read_valid DLT) with storage_try_read_valid in Er. rewrite try_read_valid_parse in Er. injection Er as <-.
  destruct (parse (skipn k b)) as [[n v]|] eqn:Ep; apply spends_done; cbn [steps scanned no_cost].
  - assert (LN : len_of DLT v = n) by (now apply (parse_len (skipn k b))). rewrite LN. repeat split; try lia; try assumption.
  - split; [reflexivity|]. split; [lia|]. now left.
Qed.

(** One pull of the backward iterator. *)
Lemma rev_spends b : (N.of_nat (length b) < usize_max)%N -> forall fuel off, off <= length b ->
  spends (rev_work DLT fuel b (N.of_nat off)) (fun r c => scanned c <= steps c * off /\ 1 <= steps c /\
    match snd r with
    | Some (k, _) => fst r = N.of_nat k /\ k + 4 <= off /\ 4 * steps c <= off - k
    | None => 4 * steps c <= off + 4
    end).
Proof.
  intros Hb. induction fuel as [|fuel IH]; intros off H; [exact I|]. cbn [rev_work]. apply spends_call, spends_bind.
  eapply spends_weaken; [apply rev_search_spends; exact H|]. intros r c (C1 & C2 & C3).
  pose proof (rfind_last DLT parse dlt_lawful b off) as RL. change (length (marker DLT)) with 4 in RL.
  assert (C2' : scanned c <= off) by (destruct (rfind (marker DLT) (firstn off b)); lia).
  destruct r as [[k t]|].
  - apply spends_done. destruct C3 as [C3 C4]. rewrite C3 in *. cbn [fst snd steps scanned cost_add no_cost]. rewrite C1. repeat split; lia.
  - cbv zeta. change (length (marker DLT)) with 4. destruct (N.leb_spec (N.of_nat 4) (N.of_nat off)) as [K|K].
    + replace (N.of_nat off - N.of_nat 4)%N with (N.of_nat (off - 4)) by lia. destruct (N.eqb_spec (N.of_nat (off - 4)) usize_max) as [Q|Q]; [lia|].
      eapply spends_weaken; [apply IH; lia|]. intros [o' o] d (D1 & D2 & D3). cbn [fst snd steps scanned cost_add] in *. rewrite C1.
      split; [nia|]. split; [lia|]. destruct o as [[k t]|]; [|lia]. repeat split; lia.
    + rewrite N.eqb_refl. apply spends_done. cbn [fst snd steps scanned cost_add no_cost]. rewrite C1. split; [lia|]. split; lia.
Qed.
Lemma backward_spends b f0 : (N.of_nat (length b) < usize_max)%N -> forall fuel off, off <= length b ->
  spends (collect_work (rev_work DLT f0 b) fuel (N.of_nat off)) (fun l c => 4 * steps c <= off + 4 /\ scanned c <= steps c * off).
Proof.
  intros Hb. induction fuel as [|fuel IH]; intros off H; [exact I|]. cbn [collect_work]. apply spends_bind. eapply spends_weaken; [apply (rev_spends b Hb); exact H|].
  intros [off' o] c (H1 & H2 & H3). cbn [fst snd] in *. destruct o as [[k t]|].
  - destruct H3 as (-> & H3 & H4). apply spends_bind. eapply spends_weaken; [apply IH; lia|]. intros l d [D1 D2]. apply spends_done. cbn [steps scanned cost_add no_cost]. split; [lia|nia].
  - apply spends_done. cbn [steps scanned cost_add no_cost]. split; [lia|nia].
Qed.
(** Without any marker. *)
Lemma rev_square b : (N.of_nat (length b) < usize_max)%N -> ~ occurs_in the_pattern b -> forall fuel off, off <= length b ->
  spends (rev_work DLT fuel b (N.of_nat off)) (fun r c => off * off <= 8 * scanned c).
Proof.
  intros Hb N. induction fuel as [|fuel IH]; intros off H; [exact I|]. cbn [rev_work]. apply spends_call, spends_bind.
  unfold rev_search_work. destruct (N.ltb_spec (N.of_nat (length b)) (N.of_nat off)) as [K|K]; [lia|].
  destruct (N.eqb_spec (N.of_nat off) usize_max) as [K'|K']; [lia|]. cbn [orb]. rewrite Nat2N.id.
  apply spends_free. intros t Et. rewrite slice_to_ok in Et by exact H. injection Et as <-. apply spends_rfind.
  pose proof (rfind_last DLT parse dlt_lawful b off) as RL. rewrite firstn_length, Nat.min_l by exact H.
  destruct (rfind (marker DLT) (firstn off b)) as [k|] eqn:F.
  { exfalso. destruct RL as (_ & O & _). rewrite (not_occurs_occ _ _ marker_pos N k) in O. discriminate. }
  apply spends_done. cbv zeta. change (length (marker DLT)) with 4. destruct (N.leb_spec (N.of_nat 4) (N.of_nat off)) as [Q|Q].
  - replace (N.of_nat off - N.of_nat 4)%N with (N.of_nat (off - 4)) by lia. destruct (N.eqb_spec (N.of_nat (off - 4)) usize_max) as [Q'|Q']; [lia|].
    eapply spends_weaken; [apply IH; lia|]. intros r d D. cbn [scanned cost_add no_cost] in *. destruct (le_lt_dec off 4); [assert (off = 4) by lia; subst off; lia|nia].
  - rewrite N.eqb_refl. apply spends_done. cbn [scanned cost_add no_cost]. nia.
Qed.

(** Every marker starts a message, the first one at the start of the slice: one step for each message, and each
    byte is passed over once. *)
Lemma backward_linear b f0 : (N.of_nat (length b) < usize_max)%N ->
  (forall k, occ dlt_marker b k = true -> parse (skipn k b) <> None) -> occ dlt_marker b 0 = true ->
  forall fuel off, (off = length b \/ occ dlt_marker b off = true) ->
  spends (collect_work (rev_work DLT f0 b) fuel (N.of_nat off)) (fun l c => steps c <= length l + 1 /\ scanned c <= off).
Proof.
  intros Hb G Z. assert (L4 : 4 <= length b) by (apply occ_len in Z; [exact Z|cbn; lia]).
  induction fuel as [|fuel IH]; intros off H; [exact I|]. cbn [collect_work]. apply spends_bind. destruct f0 as [|f1]; [exact I|].
  assert (Ho : off <= length b) by (destruct H as [->|H]; [lia|apply occ_len in H; [|cbn; lia]; cbn in H; lia]).
  cbn [rev_work]. apply spends_call, spends_bind. eapply spends_weaken; [apply rev_search_spends; exact Ho|]. intros r c (C1 & C2 & C3).
  pose proof (rfind_last DLT parse dlt_lawful b off) as RL. change (length (marker DLT)) with 4 in RL. change (marker DLT) with dlt_marker in *.
  destruct r as [[k t]|].
  - destruct C3 as [C3 C4]. rewrite C3 in *. destruct RL as (R1 & R2 & _). apply spends_done. cbn [fst snd]. apply spends_bind.
    eapply spends_weaken; [apply (IH k); now right|]. intros l d [D1 D2]. apply spends_done. cbn [steps scanned cost_add no_cost length]. lia.
  - destruct C3 as [C3|C3]; [|lia]. destruct (rfind dlt_marker (firstn off b)) as [k|] eqn:F.
    { exfalso. destruct RL as (_ & R2 & _). now apply (G k). }
    assert (off = 0).
    { destruct (Nat.eq_dec off 0) as [|N0]; [assumption|exfalso]. assert (4 <= off).
      { destruct H as [->|H]; [exact L4|]. pose proof (no_overlap_occ dlt_marker b 0 off dlt_marker_no_overlap Z H ltac:(lia)) as NO. cbn in NO. lia. }
      rewrite (RL 0 ltac:(lia)) in Z. discriminate. }
    subst off. cbv zeta. change (length dlt_marker) with 4. cbn [N.of_nat N.leb N.compare]. rewrite N.eqb_refl. apply spends_done. apply spends_done.
    cbn [steps scanned cost_add no_cost]. lia.
Qed.

(** * Grep *)
Section Grep.
  Variable find_at : bytes -> nat -> option (nat * nat).
  Variable b : bytes.
  Hypothesis Hb : (N.of_nat (length b) < usize_max)%N.
  Hypothesis FA : forall off s e, off <= length b -> find_at b off = Some (s, e) -> off <= s /\ s < e /\ e <= length b.
  (** How far back the last marker can be. *)
  Variable far : nat.
  Hypothesis Hfar : forall s, s <= length b -> match rfind dlt_marker (firstn s b) with Some k => s - k | None => s end <= far.

  Lemma grep_search_spends : forall fuel off, off <= length b ->
    spends (grep_search_work DLT find_at fuel b off) (fun r c => scanned c <= steps c * far /\
      match r with
      | Some (o, v) => o + len_of DLT v <= length b /\ off + steps c <= o + len_of DLT v
      | None => off + steps c <= length b + 1
      end).
  Proof.
    induction fuel as [|fuel IH]; intros off H; [exact I|]. cbn [grep_search_work]. apply spends_call.
    destruct (Nat.leb_spec (length b) off) as [K|K]; [apply spends_done; cbn [steps scanned no_cost]; lia|].
    destruct (find_at b off) as [[s e]|] eqn:F; [|apply spends_done; cbn [steps scanned no_cost]; lia].
    destruct (FA off s e H F) as (F1 & F2 & F3). apply spends_bind. eapply spends_weaken; [apply rev_search_spends; lia|]. intros r c (C1 & C2 & C3).
    pose proof (Hfar s ltac:(lia)) as Hf. pose proof (rfind_last DLT parse dlt_lawful b s) as RL. change (length (marker DLT)) with 4 in RL. change (marker DLT) with dlt_marker in *.
    assert (Cf : scanned c <= far) by lia.
    destruct r as [[o v]|].
    - destruct C3 as [C3 C4]. rewrite C3 in RL. destruct RL as (R1 & R2 & _). apply parse_bounds in C4. rewrite skipn_length in C4.
      destruct ((o <? s) && (o + len_of DLT v <? e)) eqn:T.
      + eapply spends_weaken; [apply IH; exact F3|]. intros r d (D1 & D2). cbn [steps scanned cost_add]. rewrite C1. split; [nia|]. destruct r as [[o' v']|]; lia.
      + apply andb_false_iff in T. apply spends_done. cbn [steps scanned cost_add no_cost]. rewrite C1. split; [lia|]. split; [lia|].
        destruct T as [T|T]; [apply Nat.ltb_ge in T; lia|apply Nat.ltb_ge in T; lia].
    - destruct (Nat.leb_spec (length b) e) as [K'|K'].
      + apply spends_done. cbn [steps scanned cost_add no_cost]. rewrite C1. lia.
      + eapply spends_weaken; [apply IH; exact F3|]. intros r d (D1 & D2). cbn [steps scanned cost_add]. rewrite C1. split; [nia|]. destruct r as [[o' v']|]; lia.
  Qed.
  Lemma grepping_spends f0 : forall fuel off, off <= length b ->
    spends (collect_work (grep_work DLT find_at f0 b) fuel off) (fun l c => scanned c <= steps c * far /\ off + steps c <= length b + 1).
  Proof.
    induction fuel as [|fuel IH]; intros off H; [exact I|]. cbn [collect_work]. apply spends_bind. unfold grep_work. apply spends_bind.
    eapply spends_weaken; [apply grep_search_spends; exact H|]. intros [[o v]|] c (C1 & C2); apply spends_done.
    - apply spends_bind. eapply spends_weaken; [apply IH; lia|]. intros l d (D1 & D2). apply spends_done. cbn [steps scanned cost_add no_cost]. split; [nia|lia].
    - apply spends_done. cbn [steps scanned cost_add no_cost]. lia.
  Qed.
End Grep.

(** A pattern that matches every byte, on a slice without a marker. *)
Definition any_byte (b : bytes) (off : nat) : option (nat * nat) := if off <? length b then Some (off, S off) else None.
Lemma grep_square b : (N.of_nat (length b) < usize_max)%N -> ~ occurs_in the_pattern b -> forall fuel off, off <= length b ->
  spends (grep_search_work DLT any_byte fuel b off) (fun r c => length b * length b <= 2 * scanned c + off * off + length b - off).
Proof.
  intros Hb N. induction fuel as [|fuel IH]; intros off H; [exact I|]. cbn [grep_search_work]. apply spends_call.
  destruct (Nat.leb_spec (length b) off) as [K|K]; [apply spends_done; cbn [steps scanned no_cost]; assert (off = length b) by lia; subst; lia|].
  unfold any_byte at 1. destruct (Nat.ltb_spec off (length b)) as [_|?]; [|lia]. apply spends_bind.
  unfold rev_search_work. destruct (N.ltb_spec (N.of_nat (length b)) (N.of_nat off)) as [K1|K1]; [lia|].
  destruct (N.eqb_spec (N.of_nat off) usize_max) as [K'|K']; [lia|]. cbn [orb]. rewrite Nat2N.id.
  apply spends_free. intros t Et. rewrite slice_to_ok in Et by exact H. injection Et as <-. apply spends_rfind.
  pose proof (rfind_last DLT parse dlt_lawful b off) as RL. rewrite firstn_length, Nat.min_l by exact H.
  destruct (rfind (marker DLT) (firstn off b)) as [k|] eqn:F.
  { exfalso. destruct RL as (_ & O & _). rewrite (not_occurs_occ _ _ marker_pos N k) in O. discriminate. }
  apply spends_done. destruct (Nat.leb_spec (length b) (S off)) as [Q|Q].
  - apply spends_done. cbn [scanned cost_add no_cost]. assert (E : length b = S off) by lia. rewrite E. nia.
  - eapply spends_weaken; [apply IH; lia|]. intros r d D. cbn [scanned cost_add no_cost] in *. nia.
Qed.

(** In a file of messages, the last marker is never far. *)
Lemma message_near ms : Forall valid_message ms -> forall L, Forall (fun m => length m <= L) ms -> forall t, t < length (concat ms) ->
  exists k, occ dlt_marker (concat ms) k = true /\ k <= t < k + L.
Proof.
  induction 1 as [|m ms V _ IH]; intros L Hl t Ht; [cbn in Ht; lia|]. inversion Hl as [|x y Hm Hl']; subst. cbn [concat] in *. rewrite app_length in Ht.
  destruct (le_lt_dec (length m) t) as [K|K].
  - destruct (IH L Hl' (t - length m) ltac:(lia)) as (k & O & B). exists (length m + k). split; [|lia].
    rewrite skipn_app, skipn_all2 by lia. cbn [app]. now replace (length m + k - length m) with k by lia.
  - exists 0. cbn [skipn]. split; [now apply valid_is_prefix|lia].
Qed.
Lemma marker_near ms L : Forall valid_message ms -> Forall (fun m => length m <= L) ms -> forall s, s <= length (concat ms) ->
  match rfind dlt_marker (firstn s (concat ms)) with Some k => s - k | None => s end <= L + 3.
Proof.
  intros V Hl s Hs. pose proof (rfind_last DLT parse dlt_lawful (concat ms) s) as RL. change (length (marker DLT)) with 4 in RL. change (marker DLT) with dlt_marker in RL.
  destruct (le_lt_dec s 3) as [K|K]; [destruct (rfind _ _); lia|]. destruct (message_near ms V L Hl (s - 4) ltac:(lia)) as (k & O & B).
  destruct (rfind dlt_marker (firstn s (concat ms))) as [c|].
  - destruct RL as (R1 & R2 & R3). destruct (le_lt_dec k c); [lia|]. rewrite (R3 k) in O by lia. discriminate.
  - rewrite (RL k) in O by lia. discriminate.
Qed.
