(** Witnesses and counting for the grep properties. *)
From Verif Require Import Base DltModel MatchModel GenModel ToolsModel Spec Samples BaseFacts DltFacts CodecFacts ParseFacts FindFacts IterFacts DltIterFacts LayoutFacts GrepFacts.
From Coq Require Import Sorted.

Lemma sorted_ext {A} (f : A -> nat) l : forall l',
  StronglySorted (fun x y => f x < f y) l -> StronglySorted (fun x y => f x < f y) l' ->
  (forall x, In x l <-> In x l') -> l = l'.
Proof.
  induction l as [|x l IH]; intros l' S S' H.
  - destruct l' as [|y l']; [reflexivity|]. exfalso. apply (proj2 (H y)). now left.
  - destruct l' as [|y l']; [exfalso; apply (proj1 (H x)); now left|].
    inversion S as [|? ? S1 F1]; subst. inversion S' as [|? ? S1' F1']; subst.
    rewrite Forall_forall in F1, F1'.
    assert (x = y).
    { destruct (proj1 (H x) (or_introl eq_refl)) as [E|E]; [now symmetry|].
      destruct (proj2 (H y) (or_introl eq_refl)) as [E'|E']; [exact E'|].
      specialize (F1 _ E'). specialize (F1' _ E). lia. }
    subst y. f_equal. apply IH; try assumption. intros z. split; intros I.
    + destruct (proj1 (H z) (or_intror I)) as [E|E]; [|exact E]. subst z. specialize (F1 _ I). lia.
    + destruct (proj2 (H z) (or_intror I)) as [E|E]; [|exact E]. subst z. specialize (F1' _ I). lia.
Qed.

Lemma sorted_filter {A} (R : A -> A -> Prop) (f : A -> bool) l : StronglySorted R l -> StronglySorted R (filter f l).
Proof.
  induction 1 as [|x l S IH F]; [constructor|]. cbn. destruct (f x); [|exact IH].
  constructor; [exact IH|]. rewrite Forall_forall in *. intros y I. apply filter_In in I. now apply F.
Qed.
Lemma placed_strict parts : Forall (fun p => valid_message (snd p)) parts ->
  StronglySorted (fun x y => fst x < fst y) (placed 0 parts).
Proof.
  intros V.
  assert (F : forall k m, In (k, m) (placed 0 parts) -> 0 < length m).
  { intros k m I. destruct (placed_part _ _ _ _ I) as [j J]. rewrite Forall_forall in V.
    destruct (V _ J) as (_ & L & _). cbn in L. lia. }
  revert F. induction (placed_sorted parts 0) as [|p l S IH H]; intros F; constructor.
  - apply IH. intros k m I. apply (F k m). now right.
  - rewrite Forall_forall in *. intros q I. specialize (H _ I). destruct p as [k m].
    specialize (F k m (or_introl eq_refl)). cbn in *. unfold bytes in *. lia.
Qed.

Lemma clean_ok parts last : clean parts last -> parts_ok parts /\ ~ occurs_in the_pattern last.
Proof.
  intros [V C].
  assert (G : forall pre ps, Forall (fun p => valid_message (snd p)) ps ->
    (forall k, occurs_at the_pattern (layout ps last) k -> exists m, In (pre + k, m) (placed pre ps)) ->
    parts_ok ps /\ ~ occurs_in the_pattern last).
  { clear. intros pre ps. revert pre. induction ps as [|[j m] ps IH]; intros pre V C.
    - split; [constructor|]. intros [k O]. destruct (C k O) as [m []].
    - inversion V as [|x y V1 V2]; subst. cbn [layout placed] in C.
      assert (NJ : ~ occurs_in the_pattern j).
      { intros (k & p & q & -> & Lp). destruct (C k) as [m' [E|I]].
        - exists p, (q ++ m ++ layout ps last). split; [now rewrite <- !app_assoc|exact Lp].
        - injection E as E _. rewrite !app_length in E. cbn in E. lia.
        - apply placed_ge in I. rewrite !app_length in I. cbn in I. lia. }
      destruct (IH (pre + length j + length m) V2) as [I1 I2].
      + intros k (p & q & E & Lp). destruct (C (length j + length m + k)) as [m' [E'|I]].
        * exists (j ++ m ++ p), q. split; [rewrite E; now rewrite <- !app_assoc|rewrite !app_length; lia].
        * injection E' as E' _. destruct V1 as (_ & L & _). cbn in L. lia.
        * exists m'. now replace (pre + length j + length m + k) with (pre + (length j + length m + k)) by lia.
      + split; [constructor; [split; [exact NJ|exact V1]|exact I1]|exact I2]. }
  apply (G 0 parts V). intros k O. apply C. exact O.
Qed.

Section Exact.
  Variable M : matcher.
  Variable fa : bytes -> nat -> option (nat * nat).
  Hypothesis LM : leftmost M fa.
  Variables (parts : list (bytes * bytes)) (last : bytes).
  Notation b := (layout parts last).
  Notation ms := (placed 0 parts).
  Hypothesis Hb : (N.of_nat (length b) < usize_max)%N.
  Hypothesis CL : clean parts last.
  Hypothesis NE : never_empty M b.
  Hypothesis NC : no_crossing M b ms.

  Lemma grep_exact_list (dec : nat * bytes -> bool) :
    (forall p, In p ms -> (dec p = true <-> has M parts last 0 p)) ->
    grep_collect fa b = Ret (entries (filter dec ms)).
  Proof.
    intros D. unfold grep_collect.
    destruct (grep_collect_exact M fa LM parts last Hb CL NE NC (S (length b)) ltac:(lia) (S (length b)) 0 ltac:(lia))
      as (sel & -> & S & I).
    do 2 f_equal. apply (sorted_ext fst); [exact S|apply sorted_filter, placed_strict, CL|].
    intros p. rewrite I, filter_In. split; intros [A B]; (split; [exact A|]); now apply D.
  Qed.
End Exact.

Lemma find_iter_occurs m b : 0 < length m -> (find_iter m b <> [] <-> occurs_in m b).
Proof.
  intros Hm. unfold find_iter. rewrite (find_iter_from_nil m b 0 Hm). split.
  - intros H. destruct (find m b) as [k|] eqn:F; [|congruence].
    apply find_some in F; [|exact Hm]. exists k. apply occ_occurs; [exact Hm|apply F].
  - intros [k O] F. rewrite find_none in F by exact Hm. apply occ_occurs in O; [|exact Hm]. rewrite F in O. discriminate.
Qed.

Lemma filterM_ret {A} (f : A -> outcome bool) (g : A -> bool) l :
  (forall x, In x l -> f x = Ret (g x)) -> filterM f l = Ret (filter g l).
Proof.
  induction l as [|x l IH]; intros H; [reflexivity|]. cbn [filterM filter].
  rewrite H by now left. cbn [obind]. rewrite IH by (intros; apply H; now right). cbn [obind].
  destruct (g x); reflexivity.
Qed.

Lemma counts_agree M fa parts last : leftmost M fa ->
  (N.of_nat (length (layout parts last)) < usize_max)%N ->
  clean parts last -> never_empty M (layout parts last) ->
  no_crossing M (layout parts last) (placed 0 parts) ->
  (forall k m e, In (k, m) (placed 0 parts) -> denotes e m ->
     exists p, payload (dlt e) = Ret (Some p) /\
       ((exists s e', M (layout parts last) s e' /\ inside (k, m) s e') <-> occurs_in hello_world p)) ->
  exists n, count_hello_world (layout parts last) = Ret n /\
            count_hello_world_grepit fa (layout parts last) = Ret n.
Proof.
  intros LM Hb CL NE NC H.
  assert (V : Forall (fun p => valid_message (snd p)) parts) by apply CL.
  pose (g := fun e => match payload (dlt e) with
                      | Ret (Some p) => match find_iter hello_world p with [] => false | _ => true end
                      | _ => false end).
  assert (Hh : 0 < length hello_world) by (cbn; lia).
  assert (P : forall k m, In (k, m) (placed 0 parts) ->
    hello_predicate (entry_of m) = Ret (g (entry_of m)) /\
    (g (entry_of m) = true <-> has M parts last 0 (k, m))).
  { intros k m I. assert (L : 20 <= length m) by apply (placed_message parts last k m V I).
    destruct (H k m (entry_of m) I (denotes_entry_of m L)) as (p & E & B).
    unfold hello_predicate, g. rewrite E. cbn [obind unwrap]. split; [reflexivity|].
    assert (Q : match find_iter hello_world p with [] => false | _ => true end = true <-> occurs_in hello_world p).
    { rewrite <- (find_iter_occurs hello_world p Hh). destruct (find_iter hello_world p); split; congruence. }
    rewrite Q, <- B. split; intros (s & e & A1 & A2); exists s, e.
    - split; [exact A1|]. split; [lia|exact A2].
    - split; [exact A1|apply A2]. }
  destruct (clean_ok parts last CL) as [OK NL].
  destruct (layout_read parts last OK NL) as (l & E1 & E2 & E3).
  assert (El : l = entries (placed 0 parts)).
  { assert (D : dltit_offset (layout parts last) = Ret (entries (placed 0 parts))).
    { apply dltit_offset_chain.
      pose proof (layout_chain_cut parts [] (length (layout parts last)) last OK NL) as C.
      rewrite firstn_all in C. cbn [app length Nat.add] in C.
      rewrite filter_all in C; [exact C|].
      eapply Forall_impl; [|apply (placed_bound parts 0 last)].
      cbn. intros a Ha. now apply Nat.leb_le. }
    congruence. }
  subst l. exists (length (filter (fun p => g (entry_of (snd p))) (placed 0 parts))). split.
  - unfold count_hello_world. rewrite E3. cbn [obind].
    rewrite (filterM_ret _ g).
    + cbn [obind]. f_equal. unfold entries. rewrite map_map. cbn [snd].
      clear. induction (placed 0 parts) as [|p l IH]; [reflexivity|]. cbn [map filter].
      destruct (g (entry_of (snd p))); cbn [length]; now rewrite IH.
    + intros x I. unfold entries in I. rewrite map_map in I. cbn [snd] in I. apply in_map_iff in I.
      destruct I as ([k m] & <- & I). apply (P k m I).
  - unfold count_hello_world_grepit.
    rewrite (grep_exact_list M fa LM parts last Hb CL NE NC (fun p => g (entry_of (snd p)))).
    + cbn [obind]. f_equal. unfold entries. apply map_length.
    + intros [k m] I. apply (P k m I).
Qed.

(** * Witnesses *)
Lemma empty_leftmost : leftmost (fun b s e => s = e /\ s <= length b) (fun _ off => Some (off, off)).
Proof. intros b off H. repeat split; try lia. Qed.
Lemma empty_diverges : forall fuel, grep_next DLT (fun _ off => Some (off, off)) fuel m1 0 = Fuel.
Proof.
  intros fuel. unfold grep_next.
  assert (E : grep_search DLT (fun _ off => Some (off, off)) fuel m1 0 = Fuel); [|now rewrite E].
  induction fuel as [|fuel IH]; [reflexivity|]. exact IH.
Qed.

Definition find_eol (b : bytes) (off : nat) : option (nat * nat) :=
  match find [x0a] (skipn off b) with
  | Some p => Some (off + p, off + p)
  | None => Some (length b, length b)
  end.
Lemma eol_leftmost : leftmost end_of_line find_eol.
Proof.
  intros b off H. unfold find_eol. assert (Hm : 0 < length [x0a]) by (cbn; lia).
  destruct (find [x0a] (skipn off b)) as [p|] eqn:F.
  - apply find_some in F; [|exact Hm]. destruct F as [O F]. rewrite occ_skipn in O.
    pose proof (occ_len _ _ _ Hm O) as L. cbn [length] in L.
    split; [lia|]. split; [lia|]. split; [lia|].
    split; [split; [reflexivity|right; now apply occ_occurs]|].
    intros s' e' Hs [_ [A|A]]; [lia|]. apply occ_occurs in A; [|exact Hm].
    specialize (F (s' - off) ltac:(lia)). rewrite occ_skipn in F.
    replace (off + (s' - off)) with s' in F by lia. congruence.
  - rewrite find_none in F by exact Hm. split; [lia|]. split; [lia|]. split; [lia|].
    split; [split; [reflexivity|now left]|].
    intros s' e' Hs [_ [A|A]]; [lia|]. apply occ_occurs in A; [|exact Hm].
    specialize (F (s' - off)). rewrite occ_skipn in F.
    replace (off + (s' - off)) with s' in F by lia. congruence.
Qed.
Definition m_eol : bytes := plain_message x0b [x01; x02; x03] ++ [x0a].
Lemma eol_repeats : forall n,
  calls (grep_next DLT find_eol 9 m_eol) n 0 = Ret (repeat (Some (0, entry_of m2)) n) /\
  calls (grep_next DLT find_eol 9 m_eol) n 23 = Ret (repeat (Some (0, entry_of m2)) n).
Proof.
  assert (A : grep_next DLT find_eol 9 m_eol 0 = Ret (23, Some (0, entry_of m2))) by (vm_compute; reflexivity).
  assert (B : grep_next DLT find_eol 9 m_eol 23 = Ret (23, Some (0, entry_of m2))) by (vm_compute; reflexivity).
  assert (C : forall n, calls (grep_next DLT find_eol 9 m_eol) n 23 = Ret (repeat (Some (0, entry_of m2)) n)).
  { induction n as [|n IH]; [reflexivity|]. cbn [calls]. rewrite B. rewrite IH. reflexivity. }
  intros n. split; [|apply C]. destruct n as [|n]; [reflexivity|]. cbn [calls]. rewrite A, C. reflexivity.
Qed.

(** A message with payload "Hi World": found by the pattern H.* World only. *)
Definition hi_world : bytes := [x48; x69; x20; x57; x6f; x72; x6c; x64].
Definition m_hi : bytes := plain_message x0b hi_world.
Lemma m_hi_valid : valid_message m_hi. Proof. vm_compute. repeat split; lia. Qed.

Lemma h_star_m_hi ds s e : h_star_world ds m_hi s e -> s = 20 /\ e = 28.
Proof.
  intros (mid & _ & O & ->).
  assert (L0 : length ([x48] ++ mid ++ [x20; x57; x6f; x72; x6c; x64]) = 7 + length mid).
  { rewrite !app_length. cbn. lia. }
  apply occ_occurs in O; [|lia].
  assert (Hp : 0 < length ([x48] ++ mid ++ [x20; x57; x6f; x72; x6c; x64])) by lia.
  pose proof (occ_len _ _ _ Hp O) as L. rewrite L0 in L.
  change (length m_hi) with 28 in L.
  pose proof (occ_nth _ _ _ O 0 Hp) as N0. cbn [app nth] in N0. rewrite Nat.add_0_r in N0.
  assert (Hq : 1 + length mid < length ([x48] ++ mid ++ [x20; x57; x6f; x72; x6c; x64])) by lia.
  pose proof (occ_nth _ _ _ O (1 + length mid) Hq) as N1.
  rewrite app_nth2 in N1 by (cbn; lia). cbn [length] in N1. rewrite app_nth2 in N1 by lia.
  replace (1 + length mid - 1 - length mid) with 0 in N1 by lia. cbn [nth] in N1.
  assert (Hs : s = 20).
  { assert (s < 28) by lia.
    assert (X : forallb (fun i => implb (byte_eqb (nth i m_hi x00) x48) (i =? 20)) (seq 0 28) = true) by (vm_compute; reflexivity).
    rewrite forallb_forall in X. specialize (X s). rewrite in_seq in X. specialize (X ltac:(lia)).
    rewrite N0, byte_eqb_refl in X. cbn in X. now apply Nat.eqb_eq. }
  subst s. split; [reflexivity|].
  assert (X : forallb (fun i => implb (byte_eqb (nth i m_hi x00) x20) (i <=? 22)) (seq 0 28) = true) by (vm_compute; reflexivity).
  rewrite forallb_forall in X. specialize (X (20 + (1 + length mid))). rewrite in_seq in X. specialize (X ltac:(lia)).
  rewrite N1, byte_eqb_refl in X. cbn [implb] in X. apply Nat.leb_le in X.
  assert (Lm : length mid = 0 \/ length mid = 1) by lia. destruct Lm as [Lm|Lm]; [|lia].
  exfalso. rewrite Lm in N1. vm_compute in N1. discriminate.
Qed.
Lemma counts_differ (ds : bytes -> Prop) fa : ds [x69] -> leftmost (h_star_world ds) fa ->
  count_hello_world m_hi = Ret 0 /\ count_hello_world_grepit fa m_hi = Ret 1.
Proof.
  intros D LM. split; [vm_compute; reflexivity|].
  assert (F : fa m_hi 0 = Some (20, 28)).
  { pose proof (LM m_hi 0 ltac:(lia)) as Q. destruct (fa m_hi 0) as [[s e]|].
    - destruct Q as (_ & _ & _ & Q & _). apply h_star_m_hi in Q. destruct Q as [-> ->]. reflexivity.
    - exfalso. apply (Q 20 28); [lia|]. exists [x69]. split; [exact D|]. split; [|reflexivity].
      exists (firstn 20 m_hi), []. split; vm_compute; reflexivity. }
  unfold count_hello_world_grepit, grep_collect.
  assert (G : forall f, grep_next DLT fa (S f) m_hi 0 = Ret (28, Some (0, entry_of m_hi))).
  { intros f. unfold grep_next. cbn [grep_search].
    change (length m_hi <=? 0) with false. cbn match. rewrite F.
    assert (R : rev_search DLT m_hi (N.of_nat 20) = Ret (Some (0, entry_of m_hi))) by (vm_compute; reflexivity).
    rewrite R. cbn [obind]. change (len_of DLT (entry_of m_hi)) with (storage_len (entry_of m_hi)).
    assert (S : storage_len (entry_of m_hi) = 28) by (vm_compute; reflexivity). rewrite S. reflexivity. }
  assert (G2 : forall f, grep_next DLT fa (S f) m_hi 28 = Ret (28, None)) by reflexivity.
  assert (L : length m_hi = 28) by reflexivity. rewrite L.
  generalize 28 at 1 as f. intros f.
  assert (C : forall g, collect (grep_next DLT fa (S f) m_hi) (S (S g)) 0 = Ret [(0, entry_of m_hi)]).
  { intros g. cbn [collect]. rewrite G. cbn [obind]. rewrite G2. reflexivity. }
  rewrite (C 27). reflexivity.
Qed.
