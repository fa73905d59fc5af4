(** Property theorems C110 (copying messages) and C111 (iterators that meet stay together). *)
From Coq Require Import String.
From Verif Require Import Base DltModel MatchModel GenModel ToolsModel MainModel Spec StepSpec BaseFacts DltFacts CodecFacts ParseFacts FindFacts
  IterFacts DltIterFacts GrepFacts GrepTools PullFacts WordFacts LayoutFacts P_Iter P_Grep P_Order.
From Verif Require Samples.
From Coq Require Import Sorted Permutation.
Import Samples(m1, m2, m3, m_nested, m1_valid, m2_valid, m3_valid, m_nested_valid).
Local Open Scope list_scope.

Lemma cand_message b k n e : dcand b k n e -> exists m, message_at b k m /\ denotes e m /\ n = length m.
Proof. intros C. apply dcand_iff in C. destruct C as (m & A & B & D). now exists m. Qed.

Lemma forward_sound b off k e off' : (N.of_nat (length b) < 2 ^ 64 - 1)%N -> forward_call b off k e off' ->
  exists m, message_at b k m /\ denotes e m /\ off' = k + length m.
Proof.
  intros Hb [fuel H|fuel H|H|M fa fuel LM H].
  - assert (E : fallback_next DLT 2 b off = Ret (off', Some (k, e))).
    { destruct fuel as [|[|fuel]]; [discriminate| |].
      - cbn [fallback_next] in *. destruct (_ <=? _); [discriminate|].
        destruct (slice b off (off + length (marker DLT))) as [s| |]; cbn [obind] in *; try discriminate.
        destruct (bytes_eqb s (marker DLT)); [exact H|].
        destruct (slice_from b off) as [t| |]; cbn [obind] in *; try discriminate.
        destruct (search_marker DLT t) as [p|]; [|discriminate]. destruct (p =? 0); discriminate.
      - rewrite (fallback_next_fb DLT parse dlt_lawful) in *. exact H. }
    rewrite (fallback_next_fb DLT parse dlt_lawful) in E. injection E as E.
    pose proof (fb_step_chain DLT parse dlt_lawful b off) as S. rewrite E in S. destruct S as (n & _ & C & ->).
    destruct (cand_message _ _ _ _ C) as (m & A & B & ->). now exists m.
  - pose proof (search_next_mono DLT _ _ _ _ (Nat.max fuel (S (length b))) H ltac:(lia)) as H'.
    destruct (search_next_spec DLT parse dlt_lawful b (Nat.max fuel (S (length b))) off ltac:(lia)) as [(k' & n & t & (_ & C & _) & E)|(_ & o & _ & E)];
      rewrite E in H'; [|discriminate].
    injection H' as <- <- <-. destruct (cand_message _ _ _ _ C) as (m & A & B & ->). now exists m.
  - destruct (readit_next_spec b off) as [(m & rest & E & V & R)|(_ & R)]; rewrite R in H; [|discriminate].
    injection H as <- <- <-. exists m. split; [|split; [apply denotes_entry_of, V|reflexivity]]. split; [exact V|].
    exists (firstn off b), rest. split; [rewrite <- E; symmetry; apply firstn_skipn|].
    rewrite firstn_length. apply (f_equal (@List.length byte)) in E. rewrite skipn_length, app_length in E. destruct V as (_ & V & _). lia.
  - destruct (C24_grep_sound M fa LM b Hb fuel off off' k e H) as (m & _ & _ & A & B & C & _). now exists m.
Qed.
Lemma backward_sound b off k e : (N.of_nat (length b) < 2 ^ 64 - 1)%N -> backward_call b off k e ->
  exists m, message_at b k m /\ denotes e m.
Proof.
  intros Hb (L & fuel & o & H).
  pose proof (rev_next_mono DLT _ _ _ _ (Nat.max fuel (S (length b))) H ltac:(lia)) as H'.
  destruct (rev_next_spec DLT parse dlt_lawful b Hb (Nat.max fuel (S (length b))) off L ltac:(lia)) as [(k' & n & t & LC & E)|(_ & E)];
    rewrite E in H'; [|discriminate].
  injection H' as _ <- <-. unfold last_cand in LC. destruct (cand_message b k' n t ltac:(apply LC)) as (m & A & B & _). now exists m.
Qed.

(** * C110 *)
Theorem C110_selection : forall (b : bytes) (sel : list (nat * storage_entry)), (N.of_nat (length b) < 2 ^ 64 - 1)%N ->
  (forall k e, In (k, e) sel -> exists off off', forward_call b off k e off' \/ backward_call b off k e) ->
  dltit (concat (map (copy b) sel)) = Ret (map snd sel).
Proof.
  intros b sel Hb H.
  assert (X : exists ms, Forall valid_message ms /\ map (copy b) sel = ms /\ map snd sel = map entry_of ms).
  { induction sel as [|[k e] sel IH]; [exists []; repeat split; constructor|].
    destruct IH as (ms & F & E1 & E2); [intros; eapply H; right; eassumption|].
    assert (S : exists m, message_at b k m /\ denotes e m).
    { destruct (H k e (or_introl eq_refl)) as (off & off' & [C|C]); [|exact (backward_sound _ _ _ _ Hb C)].
      destruct (forward_sound _ _ _ _ _ Hb C) as (m & A & B & _). now exists m. }
    destruct S as (m & (V & p & q & EQ & L) & D). exists (m :: ms). split; [constructor; assumption|].
    cbn [map]. rewrite E1, E2. split; f_equal.
    - unfold copy. cbn [fst snd]. rewrite (storage_len_denotes e m V D), EQ, (skipn_app_exact p _ k L). apply firstn_app_exact. reflexivity.
    - cbn [snd]. apply denotes_entry_of_iff; [apply V|exact D]. }
  destruct X as (ms & F & -> & ->).
  rewrite <- layout_bare, (layout_entries (bare ms) [] (bare_ok ms F) not_in_nil).
  unfold bare. rewrite !map_map. reflexivity.
Qed.
Print Assumptions C110_selection.

Lemma same_entries_same_output M b b' cmd es : dltit b = Ret es -> dltit b' = Ret es -> In cmd sequential_commands ->
  run_command M cmd b' = run_command M cmd b.
Proof.
  intros D D' I. unfold sequential_commands in I. cbn [In] in I.
  destruct I as [<-|[<-|[<-|[<-|[<-|[<-|[<-|[<-|[<-|[<-|[<-|[]]]]]]]]]]]].
  1-5: apply (C109_order M b b' es es); [exact D|exact D'|reflexivity|cbn; tauto].
  2,6: apply (C109_interleaving M b b' es es); [exact D|exact D'|reflexivity|cbn; tauto].
  1: change (run_command M "histogram_timestamp") with (fun b => let* h := continuous_timestamp_histogram b in
       Ret (LHeading "Durations of periods where DLT storage header timestamps are continuous:" :: print_buckets h)); cbv beta;
     unfold continuous_timestamp_histogram; now rewrite D, D'.
  1: change (run_command M "iter") with (fun b => let* r := lifecycle_iter b in Ret [LLong r]); cbv beta; unfold lifecycle_iter; now rewrite D, D'.
  1: change (run_command M "itertools") with (fun b => let* r := lifecycle_itertools b in Ret [LLong r]); cbv beta; unfold lifecycle_itertools; now rewrite D, D'.
  change (run_command M "histogram_lifecycles") with (fun b => let* h := lifecycle_histogram b in
       Ret (LHeading "Distribution of lifecycle durations:" :: print_buckets h)); cbv beta; unfold lifecycle_histogram; now rewrite D, D'.
Qed.

(** Everything sequential reading finds, copied without the garbage: the same entries, the same results of
    every command that reads messages one after the other, and copying again changes nothing. *)
Theorem C110_stripped : forall (b : bytes) (l : list (nat * storage_entry)), dltit_offset b = Ret l ->
  let c := concat (map (copy b) l) in
  (exists l', dltit_offset c = Ret l' /\ map snd l' = map snd l /\ concat (map (copy c) l') = c) /\
  forall (M : machine) (cmd : string), In cmd sequential_commands -> run_command M cmd c = run_command M cmd b.
Proof.
  intros b l E c.
  assert (X : exists ms, Forall valid_message ms /\ map (copy b) l = ms /\ map snd l = map entry_of ms).
  { destruct (C12_iteration_genuine b l E) as [H _]. clear E c. induction l as [|[k e] l IH]; [exists []; repeat split; constructor|].
    destruct IH as (ms & F & E1 & E2); [intros; eapply H; right; eassumption|].
    destruct (H k e (or_introl eq_refl)) as (m & (V & p & q & EQ & L) & D & SL). exists (m :: ms). split; [constructor; assumption|].
    cbn [map]. rewrite E1, E2. split; f_equal.
    - unfold copy. cbn [fst snd]. rewrite SL, EQ, (skipn_app_exact p _ k L). apply firstn_app_exact. reflexivity.
    - cbn [snd]. apply denotes_entry_of_iff; [apply V|exact D]. }
  destruct X as (ms & F & E1 & E2). unfold c. rewrite E1. clear c E1.
  destruct (C13_file_read ms F) as (l' & A & S & B).
  assert (Es : map snd l' = map entry_of ms).
  { rewrite <- layout_bare, (layout_entries (bare ms) [] (bare_ok ms F) not_in_nil) in B. injection B as B.
    rewrite <- B. unfold bare. rewrite !map_map. reflexivity. }
  split.
  - exists l'. split; [exact A|]. split; [congruence|]. f_equal.
    assert (G : forall ms pre k l', length pre = k -> Forall valid_message ms -> shows l' (with_offsets (@List.length byte) k ms) -> map (copy (pre ++ concat ms)) l' = ms).
    { clear. induction ms as [|m ms IH]; intros pre k l' L F S; inversion S as [|[k' e] y l0 ? [Q1 Q2] S']; subst; [reflexivity|].
      cbn [map concat fst snd] in *. inversion F; subst. f_equal.
      - unfold copy. cbn [fst snd]. rewrite (skipn_app_exact pre _ _ eq_refl), (storage_len_denotes e m) by assumption.
        now apply firstn_app_exact.
      - rewrite app_assoc. apply (IH (pre ++ m) (length pre + length m)); [now rewrite app_length|assumption|exact S']. }
    apply (G ms [] 0 l' eq_refl F S).
  - intros M cmd I. apply (same_entries_same_output M b (concat ms) cmd (map snd l)); [now apply dltit_map| |exact I].
    rewrite B. now f_equal; rewrite Es, E2.
Qed.
Print Assumptions C110_stripped.

(** Three items of different iterators, one of them a message inside of another's payload, one of them twice. *)
Example C110_example : let b := [x01; x02] ++ m_nested ++ [x44] ++ m1 in exists e1 e2 e3,
  forward_call b 0 2 e1 45 /\ forward_call b 3 22 e2 45 /\ backward_call b (length b) 46 e3 /\
  exists es, dltit (concat (map (copy b) [(46, e3); (22, e2); (2, e1); (46, e3)])) = Ret es /\ es = [e3; e2; e1; e3].
Proof.
  cbv zeta. do 3 eexists. split; [|split; [|split]].
  - apply (by_sequential _ _ _ _ _ 2). vm_compute. reflexivity.
  - apply (by_search _ _ _ _ _ 200). vm_compute. reflexivity.
  - split; [reflexivity|]. exists 200. eexists. vm_compute. reflexivity.
  - eexists. vm_compute. split; reflexivity.
Qed.

(** * C111 *)
(** Two calls of any forward iterators over the same bytes that deliver an entry found at the same offset deliver the
    same entry, and leave the iterators at the same offset. *)
Theorem C111_in_step : forall (b : bytes) (off1 off2 k : nat) (e1 e2 : storage_entry) (off1' off2' : nat),
  (N.of_nat (length b) < 2 ^ 64 - 1)%N -> forward_call b off1 k e1 off1' -> forward_call b off2 k e2 off2' ->
  e1 = e2 /\ off1' = off2'.
Proof.
  intros b off1 off2 k e1 e2 o1 o2 Hb C1 C2.
  destruct (forward_sound _ _ _ _ _ Hb C1) as (m & A & B & ->). destruct (forward_sound _ _ _ _ _ Hb C2) as (m' & A' & B' & ->).
  rewrite <- (message_at_fun _ _ _ _ A A') in *. split; [|reflexivity].
  apply denotes_entry_of_iff in B, B'; try (destruct A as [V _]; apply V). congruence.
Qed.
Print Assumptions C111_in_step.

(** So two runs of the same iterator that meet at one message deliver the same from there on. *)
Lemma collect_fun {S A} (next : S -> outcome (S * option A)) : forall f g s l l', collect next f s = Ret l -> collect next g s = Ret l' -> l = l'.
Proof.
  induction f as [|f IH]; intros [|g] s l l' H H'; try discriminate. cbn [collect] in *.
  destruct (next s) as [[s' [x|]]| |]; cbn [obind] in *; try discriminate; [|congruence].
  destruct (collect next f s') as [r| |] eqn:E; try discriminate. destruct (collect next g s') as [r'| |] eqn:E'; try discriminate.
  cbn [obind] in *. injection H as <-. injection H' as <-. f_equal. exact (IH g s' r r' E E').
Qed.
Lemma collect_split {S A} (next : S -> outcome (S * option A)) : forall f s p x r, collect next f s = Ret (p ++ x :: r) ->
  exists s1 s2 g, next s1 = Ret (s2, Some x) /\ collect next g s2 = Ret r.
Proof.
  induction f as [|f IH]; intros s p x r H; [discriminate|]. cbn [collect] in H.
  destruct (next s) as [[s' [y|]]| |] eqn:N; cbn [obind] in *; try discriminate.
  - destruct (collect next f s') as [l| |] eqn:E; try discriminate. cbn [obind] in H. injection H as H.
    destruct p as [|z p]; cbn [app] in H; injection H as -> H.
    + exists s, s', f. split; [exact N|congruence].
    + subst l. exact (IH s' p x r E).
  - destruct p; discriminate.
Qed.

Theorem C111_meet : forall (b : bytes) (next : nat -> outcome (nat * option (nat * storage_entry))),
  (N.of_nat (length b) < 2 ^ 64 - 1)%N ->
  (exists fuel, next = fallback_next DLT fuel b) \/ (exists fuel, next = search_next DLT fuel b) \/ next = readit_next DLT b \/
  (exists (M : matcher) find_at fuel, leftmost M find_at /\ next = grep_next DLT find_at fuel b) ->
  forall n1 n2 off1 off2 k e1 e2 before1 before2 after1 after2,
  collect next n1 off1 = Ret (before1 ++ (k, e1) :: after1) -> collect next n2 off2 = Ret (before2 ++ (k, e2) :: after2) ->
  e1 = e2 /\ after1 = after2.
Proof.
  intros b next Hb K n1 n2 off1 off2 k e1 e2 p1 p2 r1 r2 C1 C2.
  destruct (collect_split _ _ _ _ _ _ C1) as (s1 & t1 & g1 & N1 & R1). destruct (collect_split _ _ _ _ _ _ C2) as (s2 & t2 & g2 & N2 & R2).
  assert (W : forall s t e, next s = Ret (t, Some (k, e)) -> forward_call b s k e t).
  { intros s t e N. destruct K as [(f & ->)|[(f & ->)|[->|(M & fa & f & LM & ->)]]];
      [exact (by_sequential _ _ _ _ _ f N)|exact (by_search _ _ _ _ _ f N)|exact (by_contiguous _ _ _ _ _ N)|exact (by_grep _ _ _ _ _ M fa f LM N)]. }
  destruct (C111_in_step b s1 s2 k e1 e2 t1 t2 Hb (W _ _ _ N1) (W _ _ _ N2)) as [-> ->]. split; [reflexivity|].
  exact (collect_fun next _ _ _ _ _ R1 R2).
Qed.
Print Assumptions C111_meet.

Lemma placed_sorted parts : forall k, StronglySorted (fun x y : nat * bytes => fst x + length (snd x) <= fst y) (placed k parts).
Proof.
  induction parts as [|[j m] ps IH]; intros k; cbn [placed]; constructor; [apply IH|].
  assert (G : forall ps k, Forall (fun y : nat * bytes => k <= fst y) (placed k ps)).
  { clear. induction ps as [|[j m] ps IH]; intros k; cbn [placed]; constructor; [cbn [fst]; lia|]. eapply Forall_impl; [|apply IH]. cbn beta. lia. }
  eapply Forall_impl; [|apply G]. cbn [fst snd]. intros y. cbn beta. lia.
Qed.

(** Reading a well-formed file from any offset: once a message of the file is delivered, exactly all the later
    messages of the file follow. *)
Theorem C111_file : forall parts last (off n : nat) l k e m, parts_ok parts -> ~ occurs_in the_pattern last ->
  (N.of_nat (length (layout parts last)) < 2 ^ 64 - 1)%N ->
  collect (fallback_next DLT 2 (layout parts last)) n off = Ret l -> In (k, e) l -> In (k, m) (placed 0 parts) ->
  exists before after, l = before ++ after /\ shows after (filter (fun p => k <=? fst p) (placed 0 parts)).
Proof.
  intros parts last off n l k e m OK NL Hb C I P.
  destruct (in_split _ _ I) as (p1 & r1 & ->). destruct (in_split _ _ P) as (q & r & EQ).
  destruct (layout_read parts last OK NL) as (l0 & D & S & _). unfold dltit_offset in D. rewrite EQ in S.
  apply Forall2_app_inv_r in S. destruct S as (a & a' & S1 & S2 & ->). inversion S2 as [|[k' e'] y c d [Q1 Q2] S3]; subst. cbn [fst snd] in *. subst k'.
  destruct (C111_meet _ (fallback_next DLT 2 (layout parts last)) Hb (or_introl (ex_intro _ 2 eq_refl)) _ _ _ _ _ _ _ _ _ _ _ C D) as [-> ->].
  exists p1, ((k, e') :: c). split; [reflexivity|]. rewrite EQ.
  pose proof (placed_sorted parts 0) as SO.
  assert (V : Forall (fun p => valid_message (snd p)) (placed 0 parts)) by now apply placed_valid.
  rewrite EQ in SO, V.
  replace (filter (fun p => k <=? fst p) (q ++ (k, m) :: r)) with ((k, m) :: r); [constructor; [split; [reflexivity|exact Q2]|exact S3]|].
  clear - SO V. induction q as [|[j x] q IH]; cbn [app] in *.
  - cbn [filter fst]. rewrite Nat.leb_refl. f_equal. inversion SO as [|? ? SO' F]; subst. clear - F. cbn [fst snd] in F.
    symmetry. apply filter_all. eapply Forall_impl; [|exact F]. cbn beta. intros y H. apply Nat.leb_le. lia.
  - inversion SO as [|? ? SO' F]; subst. inversion V as [|? ? V1 V']; subst. cbn [filter fst snd] in *.
    rewrite Forall_app in F. destruct F as [_ F]. inversion F as [|? ? F1 _]; subst. cbn [fst snd] in F1.
    destruct V1 as (_ & V1 & _). destruct (Nat.leb_spec k j); [lia|]. exact (IH SO' V').
Qed.
Print Assumptions C111_file.

Lemma all_markers_chain b : forall P off, StronglySorted (fun x y : nat * bytes => fst x + length (snd x) <= fst y) P ->
  (forall k m, In (k, m) P -> message_at b k m) -> (forall j, off <= j -> occ dlt_marker b j = true -> exists m, In (j, m) P) ->
  dchain b off (entries (filter (fun p => off <=? fst p) P)).
Proof.
  induction P as [|[k m] P IH]; intros off SO MA AL.
  - apply chain_end. intros j Hj. destruct (occ dlt_marker b j) eqn:O; [|exact O]. destruct (AL j Hj O) as [m []].
  - inversion SO as [|? ? SO' F]; subst. cbn [filter fst].
    assert (MK : message_at b k m) by (apply MA; now left).
    pose proof (message_at_prefix _ _ _ MK) as [_ OK].
    assert (L : 20 <= length m) by (destruct MK as [(_ & V & _) _]; exact V).
    destruct (Nat.leb_spec off k) as [H|H].
    + cbn [entries map fst snd]. destruct (dcand_entry _ _ _ MK) as [_ PV]. apply (chain_step _ _ b off k (length m)); [|exact PV|].
      * split; [exact H|]. split; [exact OK|]. intros j Hj. destruct (occ dlt_marker b j) eqn:O; [|exact O].
        destruct (AL j ltac:(lia) O) as [m' [E|I]]; [injection E as -> ->; lia|].
        rewrite Forall_forall in F. specialize (F _ I). cbn [fst snd] in F. lia.
      * fold (entries (filter (fun p => off <=? fst p) P)).
        replace (filter (fun p => off <=? fst p) P) with (filter (fun p => k + length m <=? fst p) P).
        -- apply IH; [exact SO'|intros k' m' I; apply MA; now right|].
           intros j Hj O. destruct (AL j ltac:(lia) O) as [m' [E|I]]; [injection E as -> ->; lia|now exists m'].
        -- rewrite Forall_forall in F. cbn [fst snd] in F. apply filter_ext_in. intros [j x] I. specialize (F _ I). cbn [fst] in *.
           destruct (Nat.leb_spec (k + length m) j), (Nat.leb_spec off j); lia || reflexivity.
    + apply IH; [exact SO'|intros k' m' I; apply MA; now right|].
      intros j Hj O. destruct (AL j Hj O) as [m' [E|I]]; [injection E as -> ->; lia|now exists m'].
Qed.

(** If the pattern occurs nowhere but at the starts of the messages, reading from any offset gives exactly the messages
    that start there or later. *)
Theorem C111_clean : forall parts last (off fuel : nat), clean parts last -> length (layout parts last) - off < fuel ->
  exists l, collect (fallback_next DLT 2 (layout parts last)) fuel off = Ret l /\
    shows l (filter (fun p => off <=? fst p) (placed 0 parts)).
Proof.
  intros parts last off fuel CL Hf. destruct (clean_ok parts last CL) as [OK _]. destruct CL as [V CL].
  exists (entries (filter (fun p => off <=? fst p) (placed 0 parts))). split.
  - apply (collect_chain_iff DLT parse dlt_lawful _ 0 fuel off _ Hf). apply all_markers_chain.
    + apply placed_sorted.
    + intros k m I. exact (placed_message parts last k m V I).
    + intros j _ O. apply CL. apply occ_occurs; [cbn; lia|exact O].
  - apply entries_shows. apply Forall_forall. intros x Hx. apply filter_In in Hx. pose proof (placed_valid parts 0 OK) as F. rewrite Forall_forall in F. now apply F.
Qed.
Print Assumptions C111_clean.

(** Starting inside of a message whose payload holds another one, the inner message is delivered first, and then the
    messages of the file behind it. *)
Example C111_example : let parts := [(repeat x00 1, m_nested); ([], m1); (repeat x00 2, m2)] in
  parts_ok parts /\ (exists l, collect (fallback_next DLT 2 (layout parts [])) 200 2 = Ret l /\ map fst l = [21; 44; 91]) /\
  map fst (placed 0 parts) = [1; 44; 91].
Proof.
  cbv zeta. split; [|split].
  - constructor; [split; [apply (zeros_no_marker 1)|exact m_nested_valid]|].
    constructor; [split; [exact not_in_nil|exact m1_valid]|].
    constructor; [split; [apply (zeros_no_marker 2)|exact m2_valid]|constructor].
  - eexists. vm_compute. split; reflexivity.
  - vm_compute. reflexivity.
Qed.
