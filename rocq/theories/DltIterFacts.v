(** The DLT instance of the iterators, in terms of Spec.v. *)
From Verif Require Import Base DltModel MatchModel Spec BaseFacts DltFacts CodecFacts ParseFacts FindFacts IterFacts.
From Coq Require Import Sorted.

Notation dcand := (cand DLT parse).
Notation dchain := (chain DLT parse).

Lemma pattern_marker : the_pattern = marker DLT. Proof. reflexivity. Qed.
Lemma marker_pos : 0 < length (marker DLT). Proof. cbn. lia. Qed.

Lemma dcand_iff b k n e :
  dcand b k n e <-> exists m, message_at b k m /\ length m = n /\ denotes e m.
Proof.
  unfold cand. change (marker DLT) with dlt_marker. split.
  - intros [O P]. apply parse_marker_iff in P; [|exact O].
    destruct P as (m & rest & E & V & Ln & D). exists m. split; [|auto]. split; [exact V|].
    exists (firstn k b), rest. split.
    + rewrite <- E. symmetry. apply firstn_skipn.
    + rewrite firstn_length. apply (f_equal (@length byte)) in E.
      rewrite skipn_length, app_length in E. destruct V as (_ & V & _). lia.
  - intros (m & (V & pre & post & -> & Lp) & Ln & D).
    assert (E : skipn k (pre ++ m ++ post) = m ++ post).
    { rewrite <- Lp. rewrite skipn_app, Nat.sub_diag, skipn_all. reflexivity. }
    rewrite E.
    assert (O : is_prefix dlt_marker (m ++ post) = true).
    { apply is_prefix_firstn. change (length dlt_marker) with 4.
      rewrite firstn_app. destruct V as (V1 & V2 & _).
      replace (4 - length m) with 0 by lia. cbn [firstn]. now rewrite app_nil_r. }
    split; [exact O|]. apply parse_marker_iff; [exact O|]. exists m, post. auto.
Qed.

Lemma message_at_prefix b k m : message_at b k m -> k + length m <= length b /\ occ dlt_marker b k = true.
Proof.
  intros M. assert (C : dcand b k (length m) (entry_of m)).
  { apply dcand_iff. exists m. split; [exact M|]. split; [reflexivity|]. apply denotes_entry_of.
    destruct M as ((_ & V & _) & _). exact V. }
  split; [|apply C]. pose proof (cand_bounds DLT parse dlt_lawful b k _ _ C). lia.
Qed.

Lemma message_at_fun b k m m' : message_at b k m -> message_at b k m' -> m = m'.
Proof.
  intros (V & p & q & -> & L) (V' & p' & q' & E & L').
  assert (p = p').
  { apply (f_equal (firstn k)) in E. now rewrite !firstn_app_exact in E. }
  subst p'. apply app_inv_head in E.
  now destruct (valid_prefix_unique m q m' q' E V V').
Qed.

Lemma dcand_entry b k m : message_at b k m -> dcand b k (length m) (entry_of m).
Proof.
  intros M. apply dcand_iff. exists m. split; [exact M|]. split; [reflexivity|].
  apply denotes_entry_of. destruct M as ((_ & V & _) & _). exact V.
Qed.

Lemma not_occurs_occ m b : 0 < length m -> ~ occurs_in m b -> forall k, occ m b k = false.
Proof.
  intros Hm N k. destruct (occ m b k) eqn:E; [|reflexivity].
  exfalso. apply N. exists k. now apply occ_occurs.
Qed.

(** * Layouts, cut anywhere *)
Definition entries (ms : list (nat * bytes)) : list (nat * storage_entry) :=
  map (fun p => (fst p, entry_of (snd p))) ms.

Lemma entries_shows ms : Forall (fun p => valid_message (snd p)) ms -> shows (entries ms) ms.
Proof.
  induction 1 as [|[k m] ms V F IH]; [constructor|]. constructor; [|exact IH].
  split; [reflexivity|]. apply denotes_entry_of, V.
Qed.

Lemma placed_after parts : forall k c, c < k -> 
  Forall (fun p => valid_message (snd p)) parts ->
  filter (fun p => fst p + length (snd p) <=? c) (placed k parts) = [].
Proof.
  induction parts as [|[j m] ps IH]; intros k c H F; [reflexivity|].
  inversion F as [|x y V F']; subst. cbn [placed filter fst snd].
  destruct (Nat.leb_spec (k + length j + length m) c); [lia|].
  apply IH; [lia|exact F'].
Qed.

Lemma valid_is_prefix m rest : valid_message m -> is_prefix dlt_marker (m ++ rest) = true.
Proof.
  intros (V1 & V2 & _). apply is_prefix_firstn. change (length dlt_marker) with 4.
  rewrite firstn_app. replace (4 - length m) with 0 by lia. cbn [firstn]. now rewrite app_nil_r.
Qed.

Lemma parse_valid m rest : valid_message m -> parse (m ++ rest) = Some (length m, entry_of m).
Proof.
  intros V. apply parse_marker_iff; [now apply valid_is_prefix|].
  exists m, rest. split; [reflexivity|]. split; [exact V|]. split; [reflexivity|].
  apply denotes_entry_of, V.
Qed.
Lemma parse_cut m c : valid_message m -> c < length m -> parse (firstn c m) = None.
Proof.
  intros V H. destruct (parse (firstn c m)) as [[n e]|] eqn:P; [|reflexivity]. exfalso.
  apply parse_some_iff in P. destruct P as (A & B & C & _).
  rewrite firstn_length in B. rewrite u16_at_firstn in C by lia.
  destruct V as (_ & V2 & V3). rewrite V3 in C. lia.
Qed.

Lemma no_marker_app pre x : (forall k, occ dlt_marker x k = false) ->
  no_marker DLT (pre ++ x) (length pre).
Proof.
  intros H j Hj. change (marker DLT) with dlt_marker.
  rewrite skipn_app, skipn_all2 by lia. cbn [app]. apply H.
Qed.

Lemma first_marker_app pre x p : find dlt_marker x = Some p ->
  first_marker DLT (pre ++ x) (length pre) (length pre + p).
Proof.
  intros F. pose proof (find_first DLT parse dlt_lawful (pre ++ x) (length pre)) as G.
  rewrite (skipn_app_exact pre x (length pre) eq_refl) in G.
  change (marker DLT) with dlt_marker in G. now rewrite F in G.
Qed.

Lemma layout_chain_cut parts : forall pre c last, parts_ok parts -> ~ occurs_in the_pattern last ->
  dchain (pre ++ firstn c (layout parts last)) (length pre)
    (entries (filter (fun p => fst p + length (snd p) <=? length pre + c) (placed (length pre) parts))).
Proof.
  induction parts as [|[j m] ps IH]; intros pre c last OK NL.
  - cbn [layout placed filter entries map]. apply chain_end. apply no_marker_app.
    intros k. destruct (occ dlt_marker (firstn c last) k) eqn:E; [|reflexivity].
    apply occ_firstn_inv in E; [|cbn; lia]. destruct E as [_ E].
    rewrite (not_occurs_occ the_pattern last) in E; [discriminate|cbn; lia|exact NL].
  - inversion OK as [|x y [NJ V] OK']; subst. cbn [fst snd] in NJ, V.
    assert (NJ' : forall k, occ dlt_marker j k = false)
      by (apply not_occurs_occ; [cbn; lia|exact NJ]).
    assert (FV : Forall (fun p => valid_message (snd p)) ps)
      by (eapply Forall_impl; [|exact OK']; intros ? []; assumption).
    cbn [layout placed filter fst snd].
    destruct (le_lt_dec (length j + length m) c) as [H|H].
    + destruct (Nat.leb_spec (length pre + length j + length m) (length pre + c)); [|lia].
      cbn [entries map fst snd].
      assert (E : firstn c (j ++ m ++ layout ps last) =
                  j ++ m ++ firstn (c - length j - length m) (layout ps last)).
      { rewrite !firstn_app. rewrite (firstn_all2 j) by lia. f_equal.
        rewrite (firstn_all2 m) by lia. reflexivity. }
      rewrite E.
      assert (F : find dlt_marker (j ++ m ++ firstn (c - length j - length m) (layout ps last)) = Some (length j)).
      { apply find_after_junk; [cbn; lia|apply dlt_marker_no_overlap|exact NJ'|].
        now apply valid_is_prefix. }
      apply (chain_step DLT parse _ _ (length pre + length j) (length m) (entry_of m)).
      * now apply first_marker_app.
      * rewrite <- skipn_skipn'. rewrite (skipn_app_exact pre _ (length pre) eq_refl).
        rewrite (skipn_app_exact j _ (length j) eq_refl). now apply parse_valid.
      * specialize (IH (pre ++ j ++ m) (c - length j - length m) last OK' NL).
        rewrite !app_length in IH. rewrite <- !app_assoc in IH.
        replace (length pre + (length j + length m) + (c - length j - length m)) with (length pre + c) in IH by lia.
        replace (length pre + (length j + length m)) with (length pre + length j + length m) in IH by lia.
        exact IH.
    + destruct (Nat.leb_spec (length pre + length j + length m) (length pre + c)); [lia|].
      rewrite placed_after by (try exact FV; lia). cbn [entries map].
      set (x := firstn c (j ++ m ++ layout ps last)).
      assert (Ex : x = firstn c (j ++ m)).
      { unfold x. rewrite app_assoc, firstn_app.
        replace (c - length (j ++ m)) with 0 by (rewrite app_length; lia).
        cbn [firstn]. apply app_nil_r. }
      destruct (find dlt_marker x) as [p|] eqn:F.
      * assert (p = length j).
        { pose proof (find_after_junk dlt_marker j m ltac:(cbn; lia) dlt_marker_no_overlap NJ') as G.
          rewrite <- (app_nil_r m) in G at 1. specialize (G (valid_is_prefix m [] V)).
          apply find_some in G; [|cbn; lia]. destruct G as [G1 G2].
          apply find_some in F; [|cbn; lia]. destruct F as [F1 F2].
          rewrite Ex in F1. apply occ_firstn_inv in F1; [|cbn; lia]. destruct F1 as [F0 F1].
          destruct (lt_eq_lt_dec p (length j)) as [[K|K]|K]; [|exact K|].
          - rewrite G2 in F1 by exact K. discriminate.
          - specialize (F2 (length j) K). rewrite Ex in F2.
            rewrite occ_firstn in F2 by (cbn [dlt_marker length] in *; lia).
            rewrite G1 in F2. discriminate. }
        subst p. apply (chain_stop DLT parse _ _ (length pre + length j)); [now apply first_marker_app|].
        rewrite <- skipn_skipn'. rewrite (skipn_app_exact pre _ (length pre) eq_refl).
        rewrite Ex. rewrite skipn_firstn_comm. rewrite (skipn_app_exact j _ (length j) eq_refl).
        apply parse_cut; [exact V|]. destruct V as (_ & V & _). lia.
      * apply chain_end. apply no_marker_app. rewrite <- find_none by (cbn; lia). exact F.
Qed.

Lemma filter_all {A} (f : A -> bool) l : Forall (fun x => f x = true) l -> filter f l = l.
Proof. induction 1 as [|x l H F IH]; [reflexivity|]. cbn. now rewrite H, IH. Qed.

Lemma placed_bound parts : forall k last,
  Forall (fun p => fst p + length (snd p) <= k + length (layout parts last)) (placed k parts).
Proof.
  induction parts as [|[j m] ps IH]; intros k last; [constructor|].
  cbn [placed layout]. rewrite !app_length. constructor; [cbn; lia|].
  eapply Forall_impl; [|apply (IH (k + length j + length m) last)].
  cbn. intros a Ha. lia.
Qed.
Lemma placed_valid parts : forall k, parts_ok parts -> Forall (fun p => valid_message (snd p)) (placed k parts).
Proof.
  induction parts as [|[j m] ps IH]; intros k OK; [constructor|].
  inversion OK as [|x y [_ V] OK']; subst. cbn [placed]. constructor; [exact V|]. now apply IH.
Qed.

(** * dltit_offset and dltit *)
Lemma dltit_offset_chain b l : dltit_offset b = Ret l <-> dchain b 0 l.
Proof.
  unfold dltit_offset. apply (collect_chain_iff DLT parse dlt_lawful b 0). lia.
Qed.
Lemma dltit_offset_total b : exists l, dltit_offset b = Ret l /\ dchain b 0 l.
Proof. unfold dltit_offset. apply (collect_chain DLT parse dlt_lawful b 0). lia. Qed.

Lemma collect_no_offset {S A} (next : S -> outcome (S * option (nat * A))) : forall fuel s,
  collect (no_offset next) fuel s =
  match collect next fuel s with Ret l => Ret (map snd l) | Panic => Panic | Fuel => Fuel end.
Proof.
  induction fuel as [|fuel IH]; intros s; [reflexivity|].
  cbn [collect]. unfold no_offset at 1. destruct (next s) as [[s' [[k x]|]]| |]; cbn [obind]; try reflexivity.
  rewrite IH. destruct (collect next fuel s') as [l| |]; reflexivity.
Qed.
Lemma dltit_map b l : dltit_offset b = Ret l -> dltit b = Ret (map snd l).
Proof.
  unfold dltit, dltit_offset. intros H. rewrite collect_no_offset. now rewrite H.
Qed.

(** C14 *)
Lemma layout_read parts last : parts_ok parts -> ~ occurs_in the_pattern last ->
  exists l, dltit_offset (layout parts last) = Ret l /\ shows l (placed 0 parts) /\
            dltit (layout parts last) = Ret (map snd l).
Proof.
  intros OK NL. exists (entries (placed 0 parts)).
  assert (D : dltit_offset (layout parts last) = Ret (entries (placed 0 parts))).
  { apply dltit_offset_chain.
    pose proof (layout_chain_cut parts [] (length (layout parts last)) last OK NL) as C.
    rewrite firstn_all in C. cbn [app length Nat.add] in C.
    rewrite filter_all in C; [exact C|].
    eapply Forall_impl; [|apply (placed_bound parts 0 last)].
    cbn. intros a Ha. now apply Nat.leb_le. }
  split; [exact D|]. split; [apply entries_shows; now apply placed_valid|].
  now apply dltit_map.
Qed.

(** C15 *)
Lemma layout_cut_read parts last c : parts_ok parts -> ~ occurs_in the_pattern last ->
  exists l, dltit_offset (firstn c (layout parts last)) = Ret l /\
            shows l (filter (fun p => fst p + length (snd p) <=? c) (placed 0 parts)).
Proof.
  intros OK NL. eexists. split.
  - apply dltit_offset_chain.
    pose proof (layout_chain_cut parts [] c last OK NL) as C. exact C.
  - apply entries_shows. cbn [length Nat.add]. apply Forall_forall. intros x Hx.
    apply filter_In in Hx. destruct Hx as [Hx _].
    pose proof (placed_valid parts 0 OK) as F. rewrite Forall_forall in F. now apply F.
Qed.

(** C13 *)
Definition bare (ms : list bytes) : list (bytes * bytes) := map (fun m => ([], m)) ms.
Lemma layout_bare ms : layout (bare ms) [] = concat ms.
Proof. induction ms as [|m ms IH]; [reflexivity|]. cbn. now rewrite <- IH. Qed.
Lemma placed_bare ms : forall k, placed k (bare ms) = with_offsets (@length byte) k ms.
Proof.
  induction ms as [|m ms IH]; intros k; [reflexivity|]. cbn [bare map placed with_offsets length].
  rewrite Nat.add_0_r. f_equal. apply IH.
Qed.
Lemma not_in_nil : ~ occurs_in the_pattern [].
Proof. intros [k (p & q & E & _)]. symmetry in E. apply app_eq_nil in E. destruct E as [_ E]. discriminate. Qed.
Lemma bare_ok ms : Forall valid_message ms -> parts_ok (bare ms).
Proof.
  induction 1 as [|m ms V F IH]; [constructor|]. constructor; [|exact IH].
  split; [exact not_in_nil|exact V].
Qed.
Lemma file_read ms : Forall valid_message ms ->
  exists l, dltit_offset (concat ms) = Ret l /\ shows l (with_offsets (@length byte) 0 ms) /\
            dltit (concat ms) = Ret (map snd l).
Proof.
  intros F. rewrite <- layout_bare, <- placed_bare. apply layout_read; [now apply bare_ok|exact not_in_nil].
Qed.

(** C11 *)
Lemma chain_count b off l : dchain b off l -> off <= length b -> 20 * length l + off <= length b.
Proof.
  induction 1 as [| |off k n v l F P C IH]; intros Ho; cbn [length]; try lia.
  destruct F as (F1 & F2 & F3).
  assert (Cd : dcand b k n v) by (split; assumption).
  pose proof (cand_bounds DLT parse dlt_lawful b k n v Cd) as (_ & _ & B).
  apply dcand_iff in Cd. destruct Cd as (m & ((_ & V & _) & _) & <- & _).
  specialize (IH B). lia.
Qed.
Lemma chain_off b off l : dchain b off l -> length b <= off -> l = [].
Proof.
  intros C H. destruct C as [| |off k n v l (F1 & F2 & _) P C]; try reflexivity.
  exfalso. apply occ_len in F2; [|apply marker_pos]. pose proof marker_pos. lia.
Qed.
Lemma iteration_total b off :
  (exists l, collect (fallback_next DLT 2 b) (S (length b)) off = Ret l /\ 20 * length l <= length b - off) /\
  (forall fuel, 2 <= fuel -> exists r, fallback_next DLT fuel b off = Ret r /\ fallback_next DLT 2 b off = Ret r).
Proof.
  split.
  - destruct (collect_chain DLT parse dlt_lawful b 0 (S (length b)) off) as (l & E & C); [lia|].
    exists l. split; [exact E|]. destruct (le_lt_dec off (length b)).
    + pose proof (chain_count b off l C ltac:(lia)). lia.
    + rewrite (chain_off b off l C) by lia. cbn. lia.
  - intros [|[|fuel]] H; try lia. exists (fb DLT parse b off).
    split; apply (fallback_next_fb DLT parse dlt_lawful).
Qed.

(** C12 *)
Lemma ordered_mono l : forall a b, a <= b -> ordered DLT b l -> ordered DLT a l.
Proof. destruct l as [|[k v] l]; intros a b H; cbn; [tauto|]. intros [A B]. split; [lia|exact B]. Qed.
Lemma ordered_pairs l : forall off i j k e k' e', ordered DLT off l ->
  nth_error l i = Some (k, e) -> nth_error l j = Some (k', e') -> i < j -> k + storage_len e <= k'.
Proof.
  induction l as [|[k0 v0] l IH]; intros off i j k e k' e' O Hi Hj Hij; [destruct i; discriminate|].
  cbn [ordered] in O. destruct O as [O1 O2]. change (len_of DLT v0) with (storage_len v0) in O2.
  destruct j as [|j]; [lia|]. cbn in Hj. destruct i as [|i].
  - cbn in Hi. injection Hi as -> ->. clear IH O1.
    revert j Hj Hij O2. generalize (k + storage_len e) as o. clear.
    induction l as [|[k1 v1] l IH]; intros o j Hj Hij O; [destruct j; discriminate|].
    cbn [ordered] in O. destruct O as [O1 O2]. destruct j as [|j].
    + cbn in Hj. injection Hj as -> ->. exact O1.
    + cbn in Hj. apply (IH o j); [exact Hj|lia|]. eapply ordered_mono; [|exact O2].
      pose proof (Nat.le_add_r k1 (len_of DLT v1)). lia.
  - cbn in Hi. apply (IH (k0 + storage_len v0) i j k e k' e'); try assumption. lia.
Qed.

Lemma iteration_genuine b l : dltit_offset b = Ret l ->
  (forall k e, In (k, e) l -> exists m, message_at b k m /\ denotes e m /\ storage_len e = length m) /\
  (forall i j k e k' e', nth_error l i = Some (k, e) -> nth_error l j = Some (k', e') -> i < j ->
     k + storage_len e <= k').
Proof.
  intros H. apply dltit_offset_chain in H.
  destruct (chain_items DLT parse dlt_lawful b 0 l H) as [F O]. split.
  - intros k e I. rewrite Forall_forall in F. destruct (F _ I) as [n C]. cbn [fst snd] in C.
    apply dcand_iff in C. destruct C as (m & M & Ln & D). exists m. split; [exact M|].
    split; [exact D|]. destruct M as [V _]. now apply storage_len_denotes.
  - intros i j k e k' e'. now apply (ordered_pairs l 0).
Qed.

(** C16 *)
Lemma layout_corrupt parts : forall pre x rest, parts_ok parts -> ~ occurs_in the_pattern x ->
  firstn 4 rest = the_pattern -> storage_try_read rest = Ret None ->
  dchain (pre ++ layout parts (x ++ rest)) (length pre) (entries (placed (length pre) parts)).
Proof.
  induction parts as [|[j m] ps IH]; intros pre x rest OK NX PR TR.
  - cbn [layout placed entries map].
    assert (P : is_prefix dlt_marker rest = true) by now apply is_prefix_firstn.
    apply (chain_stop DLT parse _ _ (length pre + length x)).
    + apply first_marker_app. apply find_after_junk; [cbn; lia|apply dlt_marker_no_overlap| |exact P].
      apply not_occurs_occ; [cbn; lia|exact NX].
    + rewrite <- skipn_skipn'. rewrite (skipn_app_exact pre _ (length pre) eq_refl).
      rewrite (skipn_app_exact x _ (length x) eq_refl).
      rewrite try_read_parse, P in TR. congruence.
  - inversion OK as [|z y [NJ V] OK']; subst. cbn [fst snd] in NJ, V.
    cbn [layout placed entries map fst snd].
    apply (chain_step DLT parse _ _ (length pre + length j) (length m) (entry_of m)).
    + apply first_marker_app. apply find_after_junk; [cbn; lia|apply dlt_marker_no_overlap| |now apply valid_is_prefix].
      apply not_occurs_occ; [cbn; lia|exact NJ].
    + rewrite <- skipn_skipn'. rewrite (skipn_app_exact pre _ (length pre) eq_refl).
      rewrite (skipn_app_exact j _ (length j) eq_refl). now apply parse_valid.
    + specialize (IH (pre ++ j ++ m) x rest OK' NX PR TR).
      rewrite !app_length in IH. rewrite <- !app_assoc in IH.
      replace (length pre + (length j + length m)) with (length pre + length j + length m) in IH by lia.
      exact IH.
Qed.
Lemma corrupt_stops parts x rest : parts_ok parts -> ~ occurs_in the_pattern x ->
  firstn 4 rest = the_pattern -> storage_try_read rest = Ret None ->
  exists l, dltit_offset (layout parts (x ++ rest)) = Ret l /\ shows l (placed 0 parts).
Proof.
  intros OK NX PR TR. exists (entries (placed 0 parts)). split.
  - apply dltit_offset_chain. exact (layout_corrupt parts [] x rest OK NX PR TR).
  - apply entries_shows. now apply placed_valid.
Qed.

(** C17 *)
Lemma calls_none {S A} (next : S -> outcome (S * option A)) (I : S -> Prop) :
  (forall s, I s -> exists s', next s = Ret (s', None) /\ I s') ->
  forall n s, I s -> calls next n s = Ret (repeat None n).
Proof.
  intros H. induction n as [|n IH]; intros s Hs; [reflexivity|].
  cbn [calls repeat]. destruct (H s Hs) as (s' & -> & Hs'). now rewrite IH.
Qed.

Lemma fallback_fused b off off' n : fallback_next DLT 2 b off = Ret (off', None) ->
  calls (fallback_next DLT 2 b) n off' = Ret (repeat None n).
Proof.
  rewrite (fallback_next_fb DLT parse dlt_lawful). intros H. injection H as H.
  apply (calls_none _ (fun o => o = off')); [|reflexivity].
  intros o ->. exists off'. split; [|reflexivity].
  rewrite (fallback_next_fb DLT parse dlt_lawful).
  pose proof (fb_step_chain DLT parse dlt_lawful b off) as S. rewrite H in S. now rewrite (proj2 S).
Qed.

Lemma search_fused b off off' n : search_next DLT (S (length b)) b off = Ret (off', None) ->
  calls (search_next DLT (S (length b)) b) n off' = Ret (repeat None n).
Proof.
  intros H.
  destruct (search_next_spec DLT parse dlt_lawful b (S (length b)) off ltac:(lia))
    as [(k & m & t & _ & E)|(N & o & Ho & E)]; [rewrite E in H; discriminate|].
  rewrite E in H. injection H as ->.
  apply (calls_none _ (fun o => no_cand DLT parse b o)).
  - intros s NC. destruct (search_next_spec DLT parse dlt_lawful b (S (length b)) s ltac:(lia))
      as [(k & m & t & (F1 & F2 & _) & E')|(N' & o & Ho' & E')].
    + exfalso. exact (NC k m t F1 F2).
    + exists o. split; [exact E'|]. intros j m t Hj. apply NC. lia.
  - intros j m t Hj. apply N. lia.
Qed.

(** C18 *)
Lemma search_first b off :
  (exists k m e, off <= k /\ message_at b k m /\ denotes e m /\
     (forall j m', off <= j < k -> ~ message_at b j m') /\
     search_next DLT (S (length b)) b off = Ret (k + length m, Some (k, e))) \/
  ((forall j m', off <= j -> ~ message_at b j m') /\
     exists off', off <= off' /\ search_next DLT (S (length b)) b off = Ret (off', None)).
Proof.
  destruct (search_next_spec DLT parse dlt_lawful b (S (length b)) off ltac:(lia))
    as [(k & n & e & (F1 & F2 & F3) & E)|(N & o & Ho & E)].
  - left. apply dcand_iff in F2. destruct F2 as (m & M & <- & D). exists k, m, e.
    split; [exact F1|]. split; [exact M|]. split; [exact D|]. split; [|exact E].
    intros j m' Hj M'. apply (F3 j (length m') (entry_of m') Hj). now apply dcand_entry.
  - right. split; [|exists o; split; assumption].
    intros j m' Hj M'. apply (N j (length m') (entry_of m') Hj). now apply dcand_entry.
Qed.

(** * C19 *)
Definition search_all (b : bytes) : outcome (list (nat * storage_entry)) :=
  collect (search_next DLT (S (length b)) b) (S (length b)) 0.
Lemma search_all_schain b : exists l, search_all b = Ret l /\ schain DLT parse b 0 l.
Proof. apply (collect_schain DLT parse dlt_lawful); lia. Qed.

Lemma sequential_prefix b : exists l l2,
  dltit_offset b = Ret l /\ search_all b = Ret (l ++ l2) /\
  (l2 <> [] -> exists k, occurs_at the_pattern b k /\ storage_try_read (skipn k b) = Ret None /\
     (forall k' e, In (k', e) l -> exists m, message_at b k' m /\ denotes e m /\ k' + length m <= k) /\
     (forall k' e, In (k', e) l2 -> k < k')).
Proof.
  destruct (dltit_offset_total b) as (l & E & C).
  destruct (search_all_schain b) as (l' & E' & C').
  destruct (chain_schain DLT parse b 0 l l' C C') as (l2 & -> & H).
  exists l, l2. split; [exact E|]. split; [exact E'|]. intros NE.
  destruct (H NE) as (k & _ & O & P & B & A). exists k. split; [|split; [|split]].
  - apply occ_occurs; [cbn; lia|exact O].
  - rewrite try_read_parse. change (marker DLT) with dlt_marker in O. now rewrite O, P.
  - intros k' e I. destruct (B _ _ I) as (n & Cn & L). apply dcand_iff in Cn.
    destruct Cn as (m & M & <- & D). exists m. auto.
  - exact A.
Qed.

(** * C20, C21 *)
Lemma reverse_all b : (N.of_nat (length b) < usize_max)%N ->
  exists l, collect (rev_next DLT (S (length b)) b) (S (length b)) (N.of_nat (length b)) = Ret l /\
    StronglySorted (fun x y => fst y < fst x) l /\
    forall k e, In (k, e) l <-> exists m, message_at b k m /\ denotes e m.
Proof.
  intros Hb. destruct (collect_rev DLT parse dlt_lawful b (S (length b)) Hb ltac:(lia)
    (S (length b)) (length b) ltac:(lia) ltac:(lia)) as (l & E & S & F & I).
  exists l. split; [exact E|]. split.
  - clear -S. induction S as [|x l S IH F]; constructor; [exact IH|].
    eapply Forall_impl; [|exact F]. cbn. intros; lia.
  - intros k e. rewrite I. split.
    + intros [_ [n C]]. apply dcand_iff in C. destruct C as (m & M & _ & D). eauto.
    + intros (m & M & D). assert (C : dcand b k (length m) e) by (apply dcand_iff; eauto).
      pose proof (cand_bounds DLT parse dlt_lawful b k _ _ C). split; [lia|eauto].
Qed.

Lemma reverse_exhausted b fuel : (N.of_nat (length b) <= 9223372036854775807)%N ->
  (N.of_nat fuel <= 2305843009213693951)%N -> rev_next DLT fuel b usize_max = Fuel.
Proof.
  intros Hb Hf. apply (rev_next_far DLT parse dlt_lawful); unfold usize_max; cbn [DLT marker dlt_marker length]; lia.
Qed.

(** * C22 *)
Lemma search_marker_first b :
  (forall k, search_marker DLT b = Some k <->
     occurs_at the_pattern b k /\ forall j, j < k -> ~ occurs_at the_pattern b j) /\
  (search_marker DLT b = None <-> ~ occurs_in the_pattern b).
Proof.
  unfold search_marker. change (marker DLT) with the_pattern.
  assert (Hm : 0 < length the_pattern) by (cbn; lia).
  split.
  - intros k. rewrite find_some by exact Hm. rewrite occ_occurs by exact Hm. split; intros [A B]; split; try exact A.
    + intros j Hj O. apply occ_occurs in O; [|exact Hm]. rewrite B in O by exact Hj. discriminate.
    + intros j Hj. destruct (occ the_pattern b j) eqn:E; [|reflexivity].
      apply occ_occurs in E; [|exact Hm]. exfalso. exact (B j Hj E).
  - rewrite find_none by exact Hm. split.
    + intros H [k O]. apply occ_occurs in O; [|exact Hm]. rewrite H in O. discriminate.
    + intros H. now apply not_occurs_occ.
Qed.
Lemma search_last_marker_last b :
  (forall k, search_last_marker DLT b = Some k <->
     occurs_at the_pattern b k /\ forall j, k < j -> ~ occurs_at the_pattern b j) /\
  (search_last_marker DLT b = None <-> ~ occurs_in the_pattern b).
Proof.
  unfold search_last_marker. change (marker DLT) with the_pattern.
  assert (Hm : 0 < length the_pattern) by (cbn; lia).
  split.
  - intros k. rewrite rfind_some by exact Hm. rewrite occ_occurs by exact Hm. split; intros [A B]; split; try exact A.
    + intros j Hj O. apply occ_occurs in O; [|exact Hm]. rewrite B in O by exact Hj. discriminate.
    + intros j Hj. destruct (occ the_pattern b j) eqn:E; [|reflexivity].
      apply occ_occurs in E; [|exact Hm]. exfalso. exact (B j Hj E).
  - rewrite rfind_none by exact Hm. split.
    + intros H [k O]. apply occ_occurs in O; [|exact Hm]. rewrite H in O. discriminate.
    + intros H. now apply not_occurs_occ.
Qed.

(** * C23 *)
Lemma readit_next_spec b off :
  (exists m rest, skipn off b = m ++ rest /\ valid_message m /\
     readit_next DLT b off = Ret (off + length m, Some (off, entry_of m))) \/
  ((forall m rest, skipn off b = m ++ rest -> ~ valid_message m) /\
     readit_next DLT b off = Ret (off, None)).
Proof.
  unfold readit_next. cbn [DLT try_read].
  destruct (Nat.leb_spec (length b) off) as [H|H].
  - right. split; [|reflexivity]. intros m rest E (_ & V & _).
    rewrite skipn_all2 in E by lia. symmetry in E. apply app_eq_nil in E. destruct E as [-> _]. cbn in V. lia.
  - rewrite slice_from_ok by lia. cbn [obind].
    destruct (parse_total (skipn off b)) as ([[[n e]|] R] & _); rewrite R; cbn [obind].
    + left. apply try_read_iff in R. destruct R as (m & rest & E & V & <- & D).
      exists m, rest. split; [exact E|]. split; [exact V|].
      apply denotes_entry_of_iff in D; [|apply V]. now subst e.
    + right. split; [|reflexivity]. intros m rest E V.
      assert (R' : storage_try_read (skipn off b) = Ret (Some (length m, entry_of m))).
      { apply try_read_iff. exists m, rest. split; [exact E|]. split; [exact V|].
        split; [reflexivity|]. apply denotes_entry_of, V. }
      congruence.
Qed.

Lemma readit_all b : forall fuel off, length b - off < fuel ->
  exists l ms rest, collect (readit_next DLT b) fuel off = Ret l /\
    skipn off b = concat ms ++ rest /\ Forall valid_message ms /\
    shows l (with_offsets (@length byte) off ms) /\
    (forall m r, rest = m ++ r -> ~ valid_message m).
Proof.
  induction fuel as [|fuel IH]; intros off H; [lia|].
  cbn [collect]. destruct (readit_next_spec b off) as [(m & r & E & V & ->)|(N & ->)].
  - cbn [obind]. assert (Lm : off + length m <= length b /\ 20 <= length m).
    { destruct V as (_ & V & _). split; [|exact V].
      apply (f_equal (@length byte)) in E. rewrite skipn_length, app_length in E. lia. }
    destruct (IH (off + length m)) as (l & ms & rest & -> & E' & F & S & N); [lia|].
    cbn [obind]. exists ((off, entry_of m) :: l), (m :: ms), rest.
    split; [reflexivity|]. split.
    + cbn [concat]. rewrite <- app_assoc, <- E'. rewrite <- skipn_skipn', E.
      now rewrite (skipn_app_exact m r (length m) eq_refl).
    + split; [now constructor|]. split; [|exact N]. cbn [with_offsets].
      constructor; [|exact S]. split; [reflexivity|]. apply denotes_entry_of, V.
  - cbn [obind]. exists [], [], (skipn off b). split; [reflexivity|]. split; [reflexivity|].
    split; [constructor|]. split; [constructor|]. exact N.
Qed.
Lemma readit_fused b off off' n : readit_next DLT b off = Ret (off', None) ->
  calls (readit_next DLT b) n off' = Ret (repeat None n).
Proof.
  intros H. destruct (readit_next_spec b off) as [(m & r & _ & _ & E)|(N & E)]; rewrite E in H; [discriminate|].
  injection H as <-. apply (calls_none _ (fun o => o = off)); [|reflexivity].
  intros o ->. exists off. auto.
Qed.

(** * Recursion depth of SearchIterator::next *)
Lemma search_deep b : ~ occurs_in the_pattern b -> forall fuel off,
  off + 4 * fuel < length b -> search_next DLT fuel b off = Fuel.
Proof.
  intros N. induction fuel as [|fuel IH]; intros off H; [reflexivity|].
  cbn [search_next]. rewrite (search_search_spec DLT parse dlt_lawful). cbn [obind].
  assert (F : find (marker DLT) (skipn off b) = None).
  { apply find_none; [apply marker_pos|]. intros k. rewrite occ_skipn.
    apply not_occurs_occ; [apply marker_pos|exact N]. }
  rewrite F. change (length (marker DLT)) with 4.
  destruct (Nat.leb_spec (length b) (off + 4)); [lia|]. apply IH. lia.
Qed.
Lemma zeros_no_marker n : ~ occurs_in the_pattern (repeat x00 n).
Proof.
  intros (k & p & q & E & _).
  assert (I : In x44 (repeat x00 n)).
  { rewrite E. apply in_or_app. right. left. reflexivity. }
  apply repeat_spec in I. discriminate.
Qed.
Lemma search_depth_unbounded n : exists b, length b = 4 * n + 1 /\ search_next DLT n b 0 = Fuel.
Proof.
  exists (repeat x00 (4 * n + 1)). rewrite repeat_length. split; [reflexivity|].
  apply search_deep; [apply zeros_no_marker|]. rewrite repeat_length. lia.
Qed.

Lemma reverse_none_state b fuel off o : (N.of_nat (length b) < usize_max)%N ->
  off <= length b -> off < fuel ->
  rev_next DLT fuel b (N.of_nat off) = Ret (o, None) -> o = usize_max.
Proof.
  intros Hb H1 H2 E.
  destruct (rev_next_spec DLT parse dlt_lawful b Hb fuel off H1 H2) as [(k & n & t & _ & E')|(_ & E')];
    rewrite E' in E; [discriminate|congruence].
Qed.
Lemma reverse_not_fused b : (N.of_nat (length b) <= 9223372036854775807)%N ->
  (forall k m, ~ message_at b k m) ->
  exists o, rev_next DLT (S (length b)) b (N.of_nat (length b)) = Ret (o, None) /\
    forall fuel, (N.of_nat fuel <= 2305843009213693951)%N -> rev_next DLT fuel b o = Fuel.
Proof.
  intros Hb N. exists usize_max. split.
  - destruct (rev_next_spec DLT parse dlt_lawful b ltac:(unfold usize_max; lia) (S (length b)) (length b)
      ltac:(lia) ltac:(lia)) as [(k & n & t & (_ & C & _) & E)|(_ & E)]; [|exact E].
    exfalso. apply dcand_iff in C. destruct C as (m & M & _). exact (N k m M).
  - intros fuel Hf. now apply reverse_exhausted.
Qed.

Lemma corrupt_witness : exists b m, message_at b 20 m /\ dltit_offset b = Ret [].
Proof.
  exists ([x44; x4c; x54; x01] ++ repeat x00 12 ++ [x20; x07; x00; x03] ++
          [x44; x4c; x54; x01] ++ repeat x00 12 ++ [x20; x07; x00; x04]),
         ([x44; x4c; x54; x01] ++ repeat x00 12 ++ [x20; x07; x00; x04]).
  split; [|vm_compute; reflexivity]. split.
  - vm_compute. repeat split. lia.
  - exists ([x44; x4c; x54; x01] ++ repeat x00 12 ++ [x20; x07; x00; x03]), []. split; reflexivity.
Qed.

(** Between two items of the sequential iteration there is no marker. *)
Lemma chain_gaps b off l : dchain b off l -> forall i k e, nth_error l i = Some (k, e) ->
  forall q, occ dlt_marker b q = true -> off <= q < k ->
  exists k' e', In (k', e') l /\ k' <= q < k' + storage_len e'.
Proof.
  induction 1 as [off0 N0|off0 k1 F0 P0|off k0 n v l (F1 & F2 & F3) P C IH]; intros i k e Hi q O Hq;
    [destruct i; discriminate|destruct i; discriminate|].
  destruct (cand_bounds DLT parse dlt_lawful b k0 n v (conj F2 P)) as (B1 & B2 & B3).
  change (len_of DLT v) with (storage_len v) in B1.
  destruct i as [|i]; cbn in Hi.
  - injection Hi as <- <-. change (marker DLT) with dlt_marker in F3.
    rewrite F3 in O by exact Hq. discriminate.
  - destruct (le_lt_dec (k0 + n) q) as [K|K].
    + destruct (IH i k e Hi q O) as (k' & e' & I & B); [lia|]. exists k', e'. split; [now right|exact B].
    + exists k0, v. split; [now left|]. change (marker DLT) with dlt_marker in F3.
      destruct (le_lt_dec k0 q); [lia|]. rewrite F3 in O by lia. discriminate.
Qed.
Lemma iteration_gaps b l : dltit_offset b = Ret l -> forall k e q, In (k, e) l ->
  occurs_at the_pattern b q -> q < k ->
  exists k' e', In (k', e') l /\ k' <= q < k' + storage_len e'.
Proof.
  intros H k e q I O Hq. apply dltit_offset_chain in H.
  apply In_nth_error in I. destruct I as [i I].
  apply (chain_gaps b 0 l H i k e I q); [|lia]. apply occ_occurs; [cbn; lia|exact O].
Qed.
