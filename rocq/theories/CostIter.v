(** Facts for C101, C102: work of the iterators. *)
From Verif Require Import Base DltModel MatchModel CostModel Spec BaseFacts DltFacts CodecFacts ParseFacts FindFacts IterFacts DltIterFacts LayoutFacts CostFacts.

Definition spends {A : Type} (x : work A) (P : A -> cost -> Prop) : Prop := match x with Ret (a, c) => P a c | _ => True end.
Lemma spends_bind {A B : Type} (x : work A) (k : A -> work B) (P : B -> cost -> Prop) :
  spends x (fun a c => spends (k a) (fun b d => P b (cost_add c d))) -> spends (wbind x k) P.
Proof. unfold spends, wbind. destruct x as [[a c]| |]; cbn [obind]; trivial. now destruct (k a) as [[b d]| |]. Qed.
Lemma spends_free {A B : Type} (x : outcome A) (k : A -> work B) (P : B -> cost -> Prop) :
  (forall a, x = Ret a -> spends (k a) P) -> spends (wbind (free x) k) P.
Proof. intros H. unfold wbind, free, done. destruct x as [a| |]; cbn [obind]; [|exact I..]. specialize (H a eq_refl). unfold spends in *. destruct (k a) as [[b [d1 d2]]| |]; cbn in *; trivial. Qed.
Lemma spends_call {B : Type} (k : unit -> work B) (P : B -> cost -> Prop) :
  spends (k tt) (fun b d => P b {| steps := S (steps d); scanned := scanned d |}) -> spends (wbind call k) P.
Proof. unfold wbind, call. cbn [obind]. now destruct (k tt) as [[b d]| |]. Qed.
Lemma spends_look {B : Type} n (k : unit -> work B) (P : B -> cost -> Prop) :
  spends (k tt) (fun b d => P b {| steps := steps d; scanned := n + scanned d |}) -> spends (wbind (look n) k) P.
Proof. unfold wbind, look. cbn [obind]. now destruct (k tt) as [[b d]| |]. Qed.
Lemma spends_find {B : Type} m b (k : option nat -> work B) (P : B -> cost -> Prop) :
  spends (k (find m b)) (fun x d => P x {| steps := steps d; scanned := match find m b with Some p => p + length m | None => length b end + scanned d |}) ->
  spends (wbind (find_work m b) k) P.
Proof. unfold wbind, find_work, look, done. cbn [obind wbind cost_add no_cost steps scanned]. destruct (k (find m b)) as [[x d]| |]; cbn [spends obind cost_add no_cost steps scanned]; trivial. unfold cost_add, no_cost. cbn [steps scanned]. now rewrite !Nat.add_0_r. Qed.
Lemma spends_rfind {B : Type} m b (k : option nat -> work B) (P : B -> cost -> Prop) :
  spends (k (rfind m b)) (fun x d => P x {| steps := steps d; scanned := match rfind m b with Some p => length b - p | None => length b end + scanned d |}) ->
  spends (wbind (rfind_work m b) k) P.
Proof. unfold wbind, rfind_work, look, done. cbn [obind wbind cost_add no_cost steps scanned]. destruct (k (rfind m b)) as [[x d]| |]; cbn [spends obind cost_add no_cost steps scanned]; trivial. unfold cost_add, no_cost. cbn [steps scanned]. now rewrite !Nat.add_0_r. Qed.
Lemma spends_done {A : Type} (a : A) (P : A -> cost -> Prop) : P a no_cost -> spends (done a) P.
Proof. exact (fun H => H). Qed.
Lemma spends_weaken {A : Type} (x : work A) (P Q : A -> cost -> Prop) : spends x P -> (forall a c, P a c -> Q a c) -> spends x Q.
Proof. unfold spends. destruct x as [[a c]| |]; auto. Qed.
Lemma spends_both {A : Type} (x : work A) (P Q : A -> cost -> Prop) : spends x P -> spends x Q -> spends x (fun a c => P a c /\ Q a c).
Proof. unfold spends. destruct x as [[a c]| |]; auto. Qed.
(** What the erased computation returns. *)
Lemma spends_erase {A : Type} (x : work A) a (P : A -> cost -> Prop) : erase x = Ret a -> spends x P -> exists c, x = Ret (a, c) /\ P a c.
Proof. intros E H. destruct (erase_ret x a E) as [c ->]. now exists c. Qed.

Notation "b '.len'" := (@length byte b) (at level 1, only parsing).

(** * Sequential reading *)
Lemma parse_bounds b n v : parse b = Some (n, v) -> 20 <= n /\ n <= length b.
Proof. intros H. apply parse_some_iff in H. lia. Qed.
Lemma find_le m b p : 0 < length m -> find m b = Some p -> p + length m <= length b.
Proof. intros Hm F. apply find_some in F; [|exact Hm]. destruct F as [O _]. now apply occ_len in O. Qed.

Lemma fallback_spends b off : off <= length b ->
  spends (fallback_work DLT 2 b off) (fun r c => steps c <= 2 /\ off <= fst r /\ fst r <= length b /\
    scanned c <= (if snd r then fst r - off else length b - off)).
Proof.
  intros H. cbn [fallback_work]. change (length (marker DLT)) with 4. apply spends_call. destruct (Nat.leb_spec (length b) (off + 4)) as [K|K].
  { apply spends_done. cbn. lia. }
  apply spends_free. intros s _. destruct (bytes_eqb s (marker DLT)).
  { apply spends_free. intros t Et. apply spends_free. intros r Er. rewrite slice_from_ok in Et by lia. injection Et as <-.
    change (try_read_valid DLT) with storage_try_read_valid in Er. rewrite try_read_valid_parse in Er. injection Er as <-.
    destruct (parse (skipn off b)) as [[n v]|] eqn:Ep; apply spends_done; cbn; [|lia].
    apply parse_bounds in Ep. rewrite skipn_length in Ep. lia. }
  apply spends_free. intros t Et. rewrite slice_from_ok in Et by lia. injection Et as <-. apply spends_find.
  destruct (find (marker DLT) (skipn off b)) as [p|] eqn:F; [|apply spends_done; cbn; rewrite skipn_length; lia].
  pose proof (find_le _ _ _ marker_pos F) as Fp. rewrite skipn_length in Fp. change (length (marker DLT)) with 4 in *.
  destruct (Nat.eqb_spec p 0) as [->|Np]; [apply spends_done; cbn; lia|].
  apply spends_call. destruct (Nat.leb_spec (length b) (off + p + 4)) as [K'|K'].
  { apply spends_done. cbn. lia. }
  apply spends_free. intros s' Hs. destruct (bytes_eqb s' (marker DLT)) eqn:Es.
  { apply spends_free. intros t Et. apply spends_free. intros r Er. rewrite slice_from_ok in Et by lia. injection Et as <-.
    change (try_read_valid DLT) with storage_try_read_valid in Er. rewrite try_read_valid_parse in Er. injection Er as <-.
    destruct (parse (skipn (off + p) b)) as [[n v]|] eqn:Ep; apply spends_done; cbn; [|lia].
    apply parse_bounds in Ep. rewrite skipn_length in Ep. lia. }
  (* not reached: the marker was found there *)
  exfalso. destruct (slice_marker DLT b (off + p)) as (s0 & S1 & S2); [change (length (marker DLT)) with 4; lia|].
  change (length (marker DLT)) with 4 in S1. rewrite S1 in Hs. injection Hs as <-. rewrite Es in S2. symmetry in S2.
  apply find_some in F; [|apply marker_pos]. destruct F as [O _]. rewrite occ_skipn in O. congruence.
Qed.
Lemma reading_spends b : forall fuel off, off <= length b ->
  spends (collect_work (fun off => fallback_work DLT 2 b off) fuel off) (fun l c => steps c <= 2 * length l + 2 /\ scanned c <= length b - off).
Proof.
  induction fuel as [|fuel IH]; intros off H; [exact I|]. cbn [collect_work]. apply spends_bind. eapply spends_weaken; [apply fallback_spends; exact H|].
  intros [off' o] c (H1 & H2 & H3 & H4). cbn [fst snd] in *. destruct o as [x|].
  - apply spends_bind. eapply spends_weaken; [apply IH; exact H3|]. intros l d [D1 D2]. apply spends_done. cbn. lia.
  - apply spends_done. cbn. lia.
Qed.

(** * Searching *)
Lemma search_search_spends b off : spends (search_search_work DLT b off) (fun r c => steps c = 0 /\ scanned c <= length b - off /\
  match r with Some (k, t) => off <= k /\ 20 <= len_of DLT t /\ k + len_of DLT t <= length b | None => True end).
Proof.
  unfold search_search_work. destruct (Nat.leb_spec (length b) off) as [K|K]; [apply spends_done; cbn; lia|].
  apply spends_free. intros t Et. rewrite slice_from_ok in Et by lia. injection Et as <-. apply spends_find.
  destruct (find (marker DLT) (skipn off b)) as [p|] eqn:F; [|apply spends_done; cbn; rewrite skipn_length; lia].
  pose proof (find_le _ _ _ marker_pos F) as Fp. rewrite skipn_length in Fp. change (length (marker DLT)) with 4 in *.
  apply spends_free. intros s' Es. rewrite slice_from_ok in Es by lia. injection Es as <-. apply spends_free. intros r Er.
  change (try_read_valid DLT) with storage_try_read_valid in Er. rewrite try_read_valid_parse in Er. injection Er as <-.
  destruct (parse (skipn (p + off) b)) as [[n v]|] eqn:Ep; apply spends_done; cbn [steps scanned no_cost]; [|lia].
  assert (LN : len_of DLT v = n) by (now apply (parse_len (skipn (p + off) b))). apply parse_bounds in Ep. rewrite skipn_length in Ep. lia.
Qed.
Lemma search_spends b : forall fuel off, off <= length b ->
  spends (search_work DLT fuel b off) (fun r c => 4 * steps c <= fst r - off /\ off <= fst r /\ scanned c <= steps c * (length b - off) /\
    (if snd r then fst r <= length b else fst r <= length b + 4)).
Proof.
  induction fuel as [|fuel IH]; intros off H; [exact I|]. cbn [search_work]. apply spends_call, spends_bind.
  eapply spends_weaken; [apply search_search_spends|]. intros r c (C1 & C2 & C3). destruct r as [[k t]|].
  - apply spends_done. destruct C3 as (C3 & C4 & C5). cbn [fst snd steps scanned cost_add no_cost]. nia.
  - cbv zeta. change (length (marker DLT)) with 4. destruct (Nat.leb_spec (length b) (off + 4)) as [K|K].
    + apply spends_done. cbn [fst snd steps scanned cost_add no_cost]. nia.
    + eapply spends_weaken; [apply IH; lia|]. intros [off' o] d (D1 & D2 & D3 & D4). cbn [fst snd steps scanned cost_add] in *. split; [lia|]. split; [lia|]. split; [|exact D4].
      rewrite C1. nia.
Qed.
Lemma searching_spends b f0 : forall fuel off, off <= length b ->
  spends (collect_work (search_work DLT f0 b) fuel off) (fun l c => 4 * steps c <= length b - off + 4 /\ scanned c <= steps c * (length b - off)).
Proof.
  induction fuel as [|fuel IH]; intros off H; [exact I|]. cbn [collect_work]. apply spends_bind. eapply spends_weaken; [apply search_spends; exact H|].
  intros [off' o] c (H1 & H2 & H3 & H4). cbn [fst snd] in *. destruct o as [x|].
  - apply spends_bind. eapply spends_weaken; [apply IH; exact H4|]. intros l d [D1 D2]. apply spends_done. cbn [steps scanned cost_add no_cost]. split; [lia|nia].
  - apply spends_done. cbn [steps scanned cost_add no_cost]. split; [lia|nia].
Qed.
(** Without any marker. *)
Lemma search_square b : ~ occurs_in the_pattern b -> forall fuel off, off < length b ->
  spends (search_work DLT fuel b off) (fun r c => (length b - off) * (length b - off) <= 8 * scanned c).
Proof.
  intros N. induction fuel as [|fuel IH]; intros off H; [exact I|]. cbn [search_work]. apply spends_call, spends_bind.
  unfold search_search_work. destruct (Nat.leb_spec (length b) off) as [K|K]; [lia|].
  apply spends_free. intros t Et. rewrite slice_from_ok in Et by lia. injection Et as <-. apply spends_find.
  assert (F : find (marker DLT) (skipn off b) = None).
  { apply find_none; [apply marker_pos|]. intros k. rewrite occ_skipn. apply not_occurs_occ; [apply marker_pos|exact N]. }
  rewrite F. apply spends_done. cbv zeta. change (length (marker DLT)) with 4. rewrite skipn_length. destruct (Nat.leb_spec (length b) (off + 4)) as [K'|K'].
  - apply spends_done. cbn [scanned cost_add no_cost]. assert (length b - off <= 4) by lia. nia.
  - eapply spends_weaken; [apply IH; lia|]. intros r d D. cbn [scanned cost_add no_cost] in *. remember (length b - off) as x. replace (length b - (off + 4)) with (x - 4) in D by lia.
    assert (4 < x) by lia. nia.
Qed.

(** Well-formed files: one call per message, and the searches pass over the gaps only. *)
Lemma search_hit f b off p n v : off < length b -> find (marker DLT) (skipn off b) = Some p -> parse (skipn (p + off) b) = Some (n, v) ->
  search_work DLT (S f) b off = Ret ((p + off + n, Some (p + off, v)), {| steps := 1; scanned := p + 4 |}).
Proof.
  intros H F P. pose proof (find_le _ _ _ marker_pos F) as Fp. rewrite skipn_length in Fp. change (length (marker DLT)) with 4 in Fp.
  cbn [search_work]. unfold search_search_work. destruct (Nat.leb_spec (length b) off) as [K|K]; [lia|].
  rewrite slice_from_ok by lia. cbn [free obind done wbind]. unfold find_work. rewrite F. cbn [look done wbind obind cost_add steps scanned no_cost call].
  rewrite slice_from_ok by lia. cbn [free obind done wbind]. change (try_read_valid DLT) with storage_try_read_valid. rewrite try_read_valid_parse, P.
  cbn [free obind done wbind call cost_add steps scanned no_cost]. change (length (marker DLT)) with 4.
  assert (LN : len_of DLT v = n) by (now apply (parse_len (skipn (p + off) b))). rewrite LN. unfold cost_add, no_cost. cbn [steps scanned]. rewrite !Nat.add_0_r. reflexivity.
Qed.
Lemma layout_search parts : forall pre last fuel f0, parts_ok parts -> ~ occurs_in the_pattern last ->
  spends (collect_work (search_work DLT (S f0) (pre ++ layout parts last)) fuel (length pre))
    (fun l c => steps c <= length parts + length last / 4 + 1 /\
       scanned c <= length (layout parts []) + (length last / 4 + 1) * length last).
Proof.
  induction parts as [|[g m] parts IH]; intros pre last fuel f0 OK NL.
  - cbn [layout]. eapply spends_weaken; [apply searching_spends; rewrite app_length; lia|]. intros l c [C1 C2]. rewrite app_length in *.
    replace (length pre + length last - length pre) with (length last) in * by lia. cbn [layout length].
    assert (steps c <= length last / 4 + 1) by (pose proof (Nat.div_mod (length last) 4 ltac:(lia)); pose proof (Nat.mod_upper_bound (length last) 4 ltac:(lia)); generalize dependent (length last / 4); generalize dependent (length last mod 4); intros; lia).
    split; [lia|]. rewrite Nat.add_0_l. etransitivity; [exact C2|]. now apply Nat.mul_le_mono_r.
  - inversion OK as [|x y [Hg Hm] OK']; subst x y. cbn [fst snd] in *. destruct fuel as [|fuel]; [exact I|]. cbn [collect_work].
    set (b := pre ++ layout ((g, m) :: parts) last). pose proof Hm as (M1 & M2 & M3).
    assert (Eb : b = pre ++ g ++ m ++ layout parts last) by (unfold b; cbn [layout]; now rewrite <- ?app_assoc).
    assert (Lb : length b = length pre + length g + length m + length (layout parts last)) by (rewrite Eb, !app_length; lia).
    assert (F : find (marker DLT) (skipn (length pre) b) = Some (length g)).
    { rewrite Eb, skipn_app, Nat.sub_diag, skipn_all. cbn [app skipn]. apply find_after_junk; [apply marker_pos|apply dlt_marker_no_overlap| |].
      - apply not_occurs_occ; [apply marker_pos|exact Hg].
      - now apply valid_is_prefix. }
    assert (P : parse (skipn (length g + length pre) b) = Some (length m, entry_of m)).
    { rewrite Eb, app_assoc, skipn_app, skipn_all2 by (rewrite app_length; lia). cbn [app]. rewrite app_length.
      replace (length g + length pre - (length pre + length g)) with 0 by lia. cbn [skipn]. now apply parse_valid. }
    rewrite (search_hit f0 b (length pre) (length g) (length m) (entry_of m)) by (try assumption; lia).
    apply spends_bind. cbn [spends].
    assert (Eb' : b = (pre ++ g ++ m) ++ layout parts last) by (rewrite Eb, <- !app_assoc; reflexivity).
    replace (length g + length pre + length m) with (length (pre ++ g ++ m)) by (rewrite !app_length; lia).
    apply spends_bind. eapply spends_weaken; [rewrite Eb'; apply (IH (pre ++ g ++ m) last fuel f0 OK' NL)|].
    intros l c [C1 C2]. apply spends_done. cbn [steps scanned cost_add no_cost length layout]. rewrite !app_length. split; [lia|]. lia.
Qed.
