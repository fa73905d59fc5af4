(** Property theorem C139: how much work the contiguous and the capturing iterator do (CostMore.v, which returns what MatchModel.v
    returns along with the number of steps (calls) and of bytes passed over by marker searches). *)
From Verif Require Import Base DltModel MatchModel ToolsModel CostModel CostMore Spec CostSpec BaseFacts DltFacts CodecFacts ParseFacts FindFacts IterFacts DltIterFacts LayoutFacts
  ContainFacts PartitionFacts GrepFacts CostFacts CostIter CostRev Samples.
From Verif Require P_Grep P_Iter.
Ltac Zify.zify_post_hook ::= idtac.

(** One step for each message and one at the end, and no byte is searched. *)
Lemma contiguous_spends b : forall fuel off, spends (collect_work (readit_work DLT b) fuel off) (fun l c => steps c = length l + 1 /\ scanned c = 0).
Proof.
  induction fuel as [|fuel IH]; intros off; [exact I|]. cbn [collect_work]. apply spends_bind. unfold readit_work at 1. apply spends_call.
  destruct (readit_next DLT b off) as [[s' [x|]]| |]; [| |exact I|exact I]; (apply spends_done || (cbn [free obind]; apply spends_done)).
  - apply spends_bind. eapply spends_weaken; [apply IH|]. intros l c [C1 C2]. apply spends_done. cbn [steps scanned cost_add no_cost length]. lia.
  - apply spends_done. cbn [steps scanned cost_add no_cost length]. lia.
Qed.
Theorem C139_contiguous : forall b : bytes, exists l c,
  contiguous_work b = Ret (l, c) /\ collect (readit_next DLT b) (S (length b)) 0 = Ret l /\ steps c = length l + 1 /\ scanned c = 0.
Proof.
  intros b. destruct (P_Iter.C23_read_maximal_run b (S (length b)) 0 ltac:(lia)) as (l & _ & _ & E & _). exists l.
  assert (ER : forall off, erase (readit_work DLT b off) = readit_next DLT b off) by (intros off; unfold readit_work; rewrite bind_call; apply erase_free).
  destruct (spends_erase (contiguous_work b) l _ (eq_trans (collect_erase _ _ ER _ 0) E) (contiguous_spends b _ _)) as (c & C & C1 & C2).
  exists c. now repeat split.
Qed.
Print Assumptions C139_contiguous.

Lemma capture_erase ca b : forall fuel off, erase (capture_work DLT ca fuel b off) = capture DLT ca fuel b off.
Proof.
  induction fuel as [|fuel IH]; intros off; [reflexivity|]. cbn [capture_work capture]. rewrite bind_call. destruct (_ <=? _); [reflexivity|].
  destruct (ca b off) as [[[s e] g]|]; [|reflexivity]. rewrite erase_bind, rev_search_erase.
  destruct (rev_search DLT b (N.of_nat s)) as [[[o v]|]| |]; cbn [obind]; try reflexivity.
  - destruct (_ && _); [apply IH|]. now destruct g.
  - destruct (_ <=? _); [reflexivity|apply IH].
Qed.
Lemma capture_next_erase ca b fuel off : erase (capture_next_work DLT ca fuel b off) = capture_next DLT ca fuel b off.
Proof. unfold capture_next_work, capture_next. rewrite erase_bind, capture_erase. now destruct (capture DLT ca fuel b off) as [[[o v]|]| |]. Qed.

Section Capture.
  Variable ca : bytes -> nat -> option ((nat * nat) * option (nat * nat)).
  Variable b : bytes.
  Hypothesis Hb : (N.of_nat (length b) < usize_max)%N.
  Hypothesis FA : forall off s e g, off <= length b -> ca b off = Some ((s, e), g) -> off <= s /\ s < e /\ e <= length b /\
    forall gs ge, g = Some (gs, ge) -> s <= gs /\ gs < ge /\ ge <= e.
  Variable far : nat.
  Hypothesis Hfar : forall s, s <= length b -> match rfind dlt_marker (firstn s b) with Some k => s - k | None => s end <= far.
  Lemma capture_spends : forall fuel off,
    spends (capture_work DLT ca fuel b off) (fun r c => scanned c <= steps c * far /\
      match r with
      | Some (o, (gs, ge)) => off + steps c <= ge /\ ge <= length b
      | None => steps c <= length b - off + 1
      end).
  Proof.
    induction fuel as [|fuel IH]; intros off; [exact I|]. cbn [capture_work]. apply spends_call.
    destruct (Nat.leb_spec (length b) off) as [K|K]; [apply spends_done; cbn [steps scanned no_cost]; lia|].
    destruct (ca b off) as [[[s e] g]|] eqn:F; [|apply spends_done; cbn [steps scanned no_cost]; lia].
    destruct (FA off s e g ltac:(lia) F) as (F1 & F2 & F3 & F4). apply spends_bind. eapply spends_weaken; [apply rev_search_spends; lia|]. intros r c (C1 & C2 & C3).
    pose proof (Hfar s ltac:(lia)) as Hf. change (marker DLT) with dlt_marker in *. assert (Cf : scanned c <= far) by lia.
    destruct r as [[o v]|].
    - destruct ((o <? s) && (o + len_of DLT v <? e)) eqn:T.
      + eapply spends_weaken; [apply IH|]. intros r d (D1 & D2). cbn [steps scanned cost_add]. rewrite C1. split; [nia|]. destruct r as [[o' [gs ge]]|]; lia.
      + destruct g as [[gs ge]|]; apply spends_done; cbn [steps scanned cost_add no_cost]; rewrite C1; [|lia]. destruct (F4 gs ge eq_refl). lia.
    - destruct (Nat.leb_spec (length b) e) as [K'|K'].
      + apply spends_done. cbn [steps scanned cost_add no_cost]. rewrite C1. lia.
      + eapply spends_weaken; [apply IH|]. intros r d (D1 & D2). cbn [steps scanned cost_add]. rewrite C1. split; [nia|]. destruct r as [[o' [gs ge]]|]; lia.
  Qed.
  Lemma capturing_spends f0 : forall fuel off,
    spends (collect_work (capture_next_work DLT ca f0 b) fuel off) (fun l c => scanned c <= steps c * far /\ steps c <= length b - off + 1).
  Proof.
    induction fuel as [|fuel IH]; intros off; [exact I|]. cbn [collect_work]. apply spends_bind. unfold capture_next_work at 1. apply spends_bind.
    eapply spends_weaken; [apply capture_spends|]. intros [[o [gs ge]]|] c (C1 & C2); apply spends_done.
    - apply spends_bind. eapply spends_weaken; [apply IH|]. intros l d (D1 & D2). apply spends_done. cbn [steps scanned cost_add no_cost snd] in *. split; [nia|lia].
    - apply spends_done. cbn [steps scanned cost_add no_cost]. lia.
  Qed.
End Capture.
Lemma engine_bounds M ca b : leftmost_capture M ca -> never_empty M b ->
  (forall off s e gs ge, ca b off = Some ((s, e), Some (gs, ge)) -> gs < ge) ->
  forall off s e g, off <= length b -> ca b off = Some ((s, e), g) -> off <= s /\ s < e /\ e <= length b /\
    forall gs ge, g = Some (gs, ge) -> s <= gs /\ gs < ge /\ ge <= e.
Proof.
  intros [LM1 LM2] NE NG off s e g H F. specialize (LM1 b off H). cbn beta in LM1. rewrite F in LM1. cbn [option_map fst] in LM1. destruct LM1 as (A & B & C & Q & _).
  pose proof (NE s e Q). split; [exact A|]. split; [assumption|]. split; [exact C|]. intros gs ge ->. destruct (LM2 b off s e gs ge F) as (? & ? & ?). pose proof (NG _ _ _ _ _ F). lia.
Qed.

(** Capturing, for patterns whose matches and groups are not empty: never more steps than bytes, and one; the whole slice for each. *)
Theorem C139_capture : forall M captures_at, leftmost_capture M captures_at -> forall b : bytes, never_empty M b ->
  (forall off s e gs ge, captures_at b off = Some ((s, e), Some (gs, ge)) -> gs < ge) -> (N.of_nat (length b) < 2 ^ 64 - 1)%N ->
  exists l c, capturing_work captures_at b = Ret (l, c) /\ collect (capture_next DLT captures_at (S (length b)) b) (S (length b)) 0 = Ret l /\
    steps c <= length b + 1 /\ scanned c <= steps c * length b.
Proof.
  intros M ca LM b NE NG Hb. destruct (P_Grep.C28_capture_terminates_partial M ca LM b Hb NE NG 0) as (l & E). exists l.
  assert (FR : forall s, s <= length b -> match rfind dlt_marker (firstn s b) with Some k => s - k | None => s end <= length b) by (intros s Hs; destruct (rfind _ _); lia).
  destruct (spends_erase (capturing_work ca b) l _ (eq_trans (collect_erase _ _ (capture_next_erase ca b _) _ 0) E)
    (capturing_spends ca b Hb (engine_bounds M ca b LM NE NG) (length b) FR (S (length b)) (S (length b)) 0)) as (c & C & C1 & C2).
  exists c. repeat split; try assumption. lia.
Qed.
Print Assumptions C139_capture.
(** In a file of messages of at most [L] bytes each step looks at [L + 3] bytes at most. *)
Theorem C139_capture_file : forall M captures_at, leftmost_capture M captures_at -> forall ms L, Forall valid_message ms -> Forall (fun m => length m <= L) ms ->
  never_empty M (concat ms) -> (forall off s e gs ge, captures_at (concat ms) off = Some ((s, e), Some (gs, ge)) -> gs < ge) ->
  (N.of_nat (length (concat ms)) < 2 ^ 64 - 1)%N ->
  exists l c, capturing_work captures_at (concat ms) = Ret (l, c) /\
    collect (capture_next DLT captures_at (S (length (concat ms))) (concat ms)) (S (length (concat ms))) 0 = Ret l /\
    steps c <= length (concat ms) + 1 /\ scanned c <= steps c * (L + 3).
Proof.
  intros M ca LM ms L V HL NE NG Hb. set (b := concat ms) in *. destruct (P_Grep.C28_capture_terminates_partial M ca LM b Hb NE NG 0) as (l & E). exists l.
  destruct (spends_erase (capturing_work ca b) l _ (eq_trans (collect_erase _ _ (capture_next_erase ca b _) _ 0) E)
    (capturing_spends ca b Hb (engine_bounds M ca b LM NE NG) (L + 3) (marker_near ms L V HL) (S (length b)) (S (length b)) 0)) as (c & C & C1 & C2).
  exists c. repeat split; try assumption. lia.
Qed.
Print Assumptions C139_capture_file.
Example C139_capture_example : capturing_work (P_Grep.capture_literal hello) (m1 ++ m2 ++ m1) = Ret ([(0, (34, 45)); (68, (102, 113))], {| steps := 3; scanned := 68 |}).
Proof. vm_compute. reflexivity. Qed.

(** The quadratic bound is attained but for the factor: a pattern that matches every byte, on zeros. *)
Definition any_group (b : bytes) (off : nat) : option ((nat * nat) * option (nat * nat)) := if off <? length b then Some ((off, S off), Some (off, S off)) else None.
Lemma capture_square b : (N.of_nat (length b) < usize_max)%N -> ~ occurs_in the_pattern b -> forall fuel off, off <= length b ->
  spends (capture_work DLT any_group fuel b off) (fun r c => length b * length b <= 2 * scanned c + off * off + length b - off).
Proof.
  intros Hb N. induction fuel as [|fuel IH]; intros off H; [exact I|]. cbn [capture_work]. apply spends_call.
  destruct (Nat.leb_spec (length b) off) as [K|K]; [apply spends_done; cbn [steps scanned no_cost]; assert (off = length b) by lia; subst; lia|].
  unfold any_group at 1. destruct (Nat.ltb_spec off (length b)) as [_|?]; [|lia]. apply spends_bind.
  unfold rev_search_work. destruct (N.ltb_spec (N.of_nat (length b)) (N.of_nat off)) as [K1|K1]; [lia|].
  destruct (N.eqb_spec (N.of_nat off) usize_max) as [K'|K']; [lia|]. cbn [orb]. rewrite Nat2N.id.
  apply spends_free. intros t Et. rewrite slice_to_ok in Et by exact H. injection Et as <-. apply spends_rfind.
  pose proof (rfind_last DLT parse dlt_lawful b off) as RL. rewrite firstn_length, Nat.min_l by exact H.
  destruct (rfind (marker DLT) (firstn off b)) as [k|] eqn:F.
  { exfalso. destruct RL as (_ & O & _). rewrite (not_occurs_occ _ _ marker_pos N k) in O. discriminate. }
  apply spends_done. destruct (Nat.leb_spec (length b) (S off)) as [Q|Q].
  - apply spends_done. cbn [scanned cost_add no_cost]. assert (E : length b = S off) by lia. rewrite E. nia.
  - eapply spends_weaken; [apply IH; lia|]. intros r d D. cbn [scanned cost_add no_cost] in *. nia.
Qed.
Theorem C139_attained : forall k : nat, (N.of_nat k < 2 ^ 60)%N -> exists M captures_at, leftmost_capture M captures_at /\ (forall b, never_empty M b) /\
  exists b l c, capturing_work captures_at b = Ret (l, c) /\ collect (capture_next DLT captures_at (S (length b)) b) (S (length b)) 0 = Ret l /\
    k * length b < scanned c.
Proof.
  intros k Hk. set (M := fun (b : bytes) s e => e = S s /\ s < length b). exists M, any_group.
  assert (LM : leftmost_capture M any_group).
  { split.
    - intros b off H. unfold any_group. destruct (Nat.ltb_spec off (length b)) as [K|K]; cbn [option_map fst].
      + repeat split; try lia; intros; lia.
      + intros s' e' ? [_ ?]. lia.
    - intros b off s e gs ge. unfold any_group. destruct (off <? length b); [|discriminate]. intros [= <- <- <- <-]. lia. }
  assert (NE : forall b, never_empty M b) by (intros b s e [-> _]; lia). split; [exact LM|]. split; [exact NE|].
  set (b := repeat x00 (2 * k + 2)). exists b. assert (Lb : length b = 2 * k + 2) by apply repeat_length.
  assert (Hb : (N.of_nat (length b) < usize_max)%N) by (rewrite Lb; unfold usize_max; change (2 ^ 60)%N with 1152921504606846976%N in Hk; lia).
  assert (NG : forall off s e gs ge, any_group b off = Some ((s, e), Some (gs, ge)) -> gs < ge).
  { intros off s e gs ge. unfold any_group. destruct (off <? length b); [|discriminate]. intros [= <- <- <- <-]. lia. }
  destruct (P_Grep.C28_capture_terminates_partial M any_group LM b Hb (NE b) NG 0) as (l & E). exists l.
  assert (S : spends (capturing_work any_group b) (fun _ c => k * length b < scanned c)).
  { unfold capturing_work. rewrite Lb at 2. cbn [collect_work]. apply spends_bind. unfold capture_next_work at 1. apply spends_bind.
    eapply spends_weaken; [apply (capture_square b Hb (zeros_no_marker _)); lia|]. intros r c C. cbn beta in C. rewrite Lb in C.
    assert (W : forall (A : Type) (x : work A) e, spends x (fun _ d => k * length b < scanned (cost_add (cost_add c e) d))) by (intros A [[? d]| |] e; cbn [spends scanned cost_add]; trivial; rewrite Lb; nia).
    destruct r as [[o v]|]; apply spends_done; apply W. }
  destruct (spends_erase (capturing_work any_group b) l _ (eq_trans (collect_erase _ _ (capture_next_erase any_group b _) _ 0) E) S) as (c & C & C1). exists c. now repeat split.
Qed.
Print Assumptions C139_attained.
