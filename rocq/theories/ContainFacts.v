(** contained_by: exact specification (C29, C30). *)
From Verif Require Import Base DltModel MatchModel Spec BaseFacts DltFacts CodecFacts ParseFacts FindFacts IterFacts DltIterFacts LayoutFacts.
From Coq Require Import Sorted.

Opaque dlt_max_len.
Notation cb b p0 p1 := (contained_by DLT (S p0) b p0 p1).

Lemma try_read_occ b k : occ dlt_marker b k = true -> try_read DLT (skipn k b) = Ret (parse (skipn k b)).
Proof.
  intros O. change (try_read DLT) with storage_try_read. rewrite try_read_parse.
  now rewrite O.
Qed.

Section Scan.
  Variable b : bytes.
  Variables back p0 p1 : nat.
  Variable rec : nat -> nat -> outcome (option (nat * storage_entry)).
  Variable inner : nat -> option (nat * storage_entry).
  Hypothesis Hrec : forall i, i < p0 -> rec i (i + 4) = Ret (inner i).

  (** The candidate that [scan] looks for. *)
  Definition wanted (i n : nat) (t : storage_entry) : Prop :=
    i < p0 /\ dcand b i n t /\ p1 <= i + n /\ inner i = None.

  Lemma scan_spec : forall cs,
    StronglySorted lt cs -> (forall x, In x cs -> occ dlt_marker b (x + back) = true) ->
    (exists i n t, scan DLT rec b back p0 p1 cs = Ret (Some (i, t)) /\ wanted i n t /\
       In (i - back) cs /\ back <= i /\
       forall x n' t', In x cs -> x + back < i -> ~ wanted (x + back) n' t') \/
    (scan DLT rec b back p0 p1 cs = Ret None /\ forall x n t, In x cs -> ~ wanted (x + back) n t).
  Proof.
    induction cs as [|x cs IH]; intros S O; [right; split; [reflexivity|intros ? ? ? []]|].
    cbn [scan]. inversion S as [|? ? S' F]; subst. rewrite Forall_forall in F.
    specialize (IH S' (fun y H => O y (or_intror H))).
    pose proof (O x (or_introl eq_refl)) as Ox.
    pose proof (occ_len dlt_marker b (x + back) ltac:(cbn; lia) Ox) as Lx. cbn [length dlt_marker] in Lx.
    destruct (Nat.leb_spec p0 (x + back)) as [K|K].
    { right. split; [reflexivity|]. intros y n t [<-|I] (W & _); [lia|]. specialize (F y I). lia. }
    rewrite slice_from_ok by lia. cbn [obind]. rewrite (try_read_occ b _ Ox). cbn [obind].
    assert (NEXT : (forall n t, ~ wanted (x + back) n t) ->
      (exists i n t, scan DLT rec b back p0 p1 cs = Ret (Some (i, t)) /\ wanted i n t /\
         In (i - back) (x :: cs) /\ back <= i /\
         forall y n' t', In y (x :: cs) -> y + back < i -> ~ wanted (y + back) n' t') \/
      (scan DLT rec b back p0 p1 cs = Ret None /\ forall y n t, In y (x :: cs) -> ~ wanted (y + back) n t)).
    { intros NW. destruct IH as [(i & n & t & A & B & C & D & E)|(A & B)].
      - left. exists i, n, t. split; [exact A|]. split; [exact B|]. split; [now right|]. split; [exact D|].
        intros y n' t' [<-|I] L; [apply NW|now apply E].
      - right. split; [exact A|]. intros y n t [<-|I]; [apply NW|now apply B]. }
    destruct (parse (skipn (x + back) b)) as [[n v]|] eqn:P.
    2:{ apply NEXT. intros n t (_ & [_ Q] & _). congruence. }
    assert (C : dcand b (x + back) n v) by (split; assumption).
    destruct (cand_bounds DLT parse dlt_lawful b _ n v C) as (B1 & B2 & B3). rewrite B1.
    destruct (Nat.leb_spec p1 (x + back + n)) as [Q|Q].
    2:{ apply NEXT. intros n' t' (_ & C' & Q' & _).
        destruct (cand_fun DLT parse b _ _ _ _ _ C C') as [<- _]. lia. }
    change (length (marker DLT)) with 4. rewrite Hrec by exact K. cbn [obind].
    destruct (inner (x + back)) as [w|] eqn:In.
    { apply NEXT. intros n' t' (_ & _ & _ & Q'). congruence. }
    left. exists (x + back), n, v. split; [reflexivity|]. split; [repeat split; try assumption; apply C|].
    split; [left; lia|]. split; [lia|].
    intros y n' t' [<-|I] L; [lia|]. specialize (F y I). lia.
  Qed.
End Scan.

(** Fuel beyond the start of the query does not matter, and there is always a result. *)
Lemma contained_by_total b : forall p0 p1, exists r,
  forall fuel, p0 < fuel -> contained_by DLT fuel b p0 p1 = Ret r.
Proof.
  induction p0 as [p0 IH] using lt_wf_ind. intros p1.
  assert (IN : exists inner, forall fuel i, i < p0 -> i < fuel -> contained_by DLT fuel b i (i + 4) = Ret (inner i)).
  { exists (fun i => match contained_by DLT (S i) b i (i + 4) with Ret r => r | _ => None end).
    intros fuel i Hi Hf. destruct (IH i Hi (i + 4)) as [r R]. now rewrite !R by lia. }
  destruct IN as [inner IN].
  destruct ((length b <=? p0) || (length b <=? p1) || (p1 <=? p0) || (p1 =? 0)) eqn:G.
  { exists None. intros [|fuel] Hf; [lia|]. cbn [contained_by]. now rewrite G. }
  assert (Hp : p0 < length b).
  { destruct (Nat.leb_spec (length b) p0); [discriminate|assumption]. }
  pose (back := p0 - max_len DLT).
  assert (SS : forall fuel, p0 <= fuel ->
    exists r, scan DLT (contained_by DLT fuel b) b back p0 p1 (find_iter dlt_marker (skipn back b)) = Ret r /\
      scan DLT (contained_by DLT fuel b) b back p0 p1 (find_iter dlt_marker (skipn back b)) =
      scan DLT (fun i _ => Ret (inner i)) b back p0 p1 (find_iter dlt_marker (skipn back b))).
  { intros fuel Hf.
    assert (Hs : StronglySorted lt (find_iter dlt_marker (skipn back b)))
      by (apply find_iter_sorted; [cbn; lia|apply dlt_marker_no_overlap]).
    assert (Ho : forall x, In x (find_iter dlt_marker (skipn back b)) -> occ dlt_marker b (x + back) = true).
    { intros x I. apply find_iter_in in I; [|cbn; lia|apply dlt_marker_no_overlap].
      rewrite occ_skipn in I. now rewrite Nat.add_comm. }
    assert (H1 : forall i, i < p0 -> contained_by DLT fuel b i (i + 4) = Ret (inner i)) by (intros; apply IN; lia).
    assert (EQ : forall cs, (forall x, In x cs -> occ dlt_marker b (x + back) = true) ->
      scan DLT (contained_by DLT fuel b) b back p0 p1 cs = scan DLT (fun i _ => Ret (inner i)) b back p0 p1 cs).
    { induction cs as [|x cs IHc]; intros O; [reflexivity|]. cbn [scan].
      destruct (Nat.leb_spec p0 (x + back)) as [K|K]; [reflexivity|].
      rewrite IHc by (intros; apply O; now right).
      change (length (marker DLT)) with 4. rewrite H1 by exact K. reflexivity. }
    rewrite (EQ _ Ho).
    destruct (scan_spec b back p0 p1 (fun i _ => Ret (inner i)) inner (fun i _ => eq_refl) _ Hs Ho)
      as [(i & n & t & -> & _)|(-> & _)]; eexists; split; reflexivity. }
  destruct (SS p0 (le_n _)) as (r & R1 & R2). exists r. intros [|fuel] Hf; [lia|].
  cbn [contained_by]. rewrite G. fold back. rewrite slice_from_ok by (unfold back; lia). cbn [obind].
  change (marker DLT) with dlt_marker. destruct (SS fuel ltac:(lia)) as (r' & _ & R2').
  rewrite R2', <- R2. exact R1.
Qed.

Lemma cb_fuel b p0 p1 fuel : p0 < fuel -> contained_by DLT fuel b p0 p1 = cb b p0 p1.
Proof.
  intros H. destruct (contained_by_total b p0 p1) as [r R]. now rewrite !R by lia.
Qed.

(** Outermost message at [i]. *)
Definition outer (b : bytes) (i : nat) : Prop :=
  (exists n t, dcand b i n t) /\ cb b i (i + 4) = Ret None.

Lemma cb_spec b p0 p1 : p0 < p1 -> p1 < length b ->
  (exists i n t, cb b p0 p1 = Ret (Some (i, t)) /\ p0 - dlt_max_len <= i < p0 /\ outer b i /\ dcand b i n t /\
     p1 <= i + n /\
     forall j n' t', p0 - dlt_max_len <= j < i -> outer b j -> dcand b j n' t' -> j + n' < p1) \/
  (cb b p0 p1 = Ret None /\
     forall j n' t', p0 - dlt_max_len <= j < p0 -> outer b j -> dcand b j n' t' -> j + n' < p1).
Proof.
  intros H1 H2. cbn [contained_by].
  destruct (Nat.leb_spec (length b) p0) as [|_]; [lia|].
  destruct (Nat.leb_spec (length b) p1) as [|_]; [lia|].
  destruct (Nat.leb_spec p1 p0) as [|_]; [lia|].
  destruct (Nat.eqb_spec p1 0) as [|_]; [lia|]. cbn [orb].
  change (max_len DLT) with dlt_max_len. change (marker DLT) with dlt_marker.
  set (back := p0 - dlt_max_len). rewrite slice_from_ok by (unfold back; lia). cbn [obind].
  pose (inner := fun i => match cb b i (i + 4) with Ret r => r | _ => None end).
  assert (Hi : forall i, cb b i (i + 4) = Ret (inner i)).
  { intros i. unfold inner. destruct (contained_by_total b i (i + 4)) as [r R]. now rewrite R by lia. }
  assert (Hs : StronglySorted lt (find_iter dlt_marker (skipn back b)))
    by (apply find_iter_sorted; [cbn; lia|apply dlt_marker_no_overlap]).
  assert (Ho : forall x, In x (find_iter dlt_marker (skipn back b)) <-> occ dlt_marker b (x + back) = true).
  { intros x. rewrite find_iter_in; [|cbn; lia|apply dlt_marker_no_overlap].
    now rewrite occ_skipn, Nat.add_comm. }
  assert (W : forall j n t, back <= j < p0 -> outer b j -> dcand b j n t -> p1 <= j + n ->
     wanted b p0 p1 inner j n t /\ In (j - back) (find_iter dlt_marker (skipn back b))).
  { intros j n t Hj [_ O] C L. split.
    - split; [lia|]. split; [exact C|]. split; [exact L|]. rewrite Hi in O. congruence.
    - apply Ho. replace (j - back + back) with j by lia. apply C. }
  destruct (scan_spec b back p0 p1 (contained_by DLT p0 b) inner
      (fun i Hl => eq_trans (cb_fuel b i (i + 4) p0 Hl) (Hi i)) _ Hs (fun x => proj1 (Ho x)))
    as [(i & n & t & E & (W1 & W2 & W3 & W4) & I & B & F)|(E & F)].
  - left. exists i, n, t. split; [exact E|]. split; [lia|].
    split; [split; [now exists n, t|rewrite Hi; congruence]|]. split; [exact W2|]. split; [exact W3|].
    intros j n' t' Hj O C. destruct (le_lt_dec p1 (j + n')) as [L|L]; [|exact L]. exfalso.
    destruct (W j n' t') as [Wj Ij]; [lia|exact O|exact C|exact L|].
    apply (F (j - back) n' t' Ij); [lia|]. now replace (j - back + back) with j by lia.
  - right. split; [exact E|]. intros j n' t' Hj O C.
    destruct (le_lt_dec p1 (j + n')) as [L|L]; [|exact L]. exfalso.
    destruct (W j n' t') as [Wj Ij]; [lia|exact O|exact C|exact L|].
    apply (F (j - back) n' t' Ij). now replace (j - back + back) with j by lia.
Qed.

(** Outermost messages: not containing one another's marker (seen from at most max_len behind). *)
Lemma outer_iff b i : outer b i <->
  (exists n t, dcand b i n t) /\
  forall j n t, i - dlt_max_len <= j < i -> outer b j -> dcand b j n t -> j + n < i + 4.
Proof.
  split.
  - intros [C E]. split; [exact C|]. destruct C as (n & t & C).
    destruct (cand_bounds DLT parse dlt_lawful b i n t C) as (B1 & B2 & B3). change (length (marker DLT)) with 4 in B2.
    destruct (cb_spec b i (i + 4) ltac:(lia) ltac:(lia)) as [(i' & n' & t' & E' & _)|(_ & F)]; [congruence|exact F].
  - intros [C F]. split; [exact C|]. destruct C as (n & t & C).
    destruct (cand_bounds DLT parse dlt_lawful b i n t C) as (B1 & B2 & B3). change (length (marker DLT)) with 4 in B2.
    destruct (cb_spec b i (i + 4) ltac:(lia) ltac:(lia)) as [(i' & n' & t' & E' & H1 & H2 & H3 & H4 & _)|(E & _)]; [|exact E].
    specialize (F i' n' t' H1 H2 H3). lia.
Qed.

(** * On files with enclosed markers: the outermost messages are the file's messages *)
Section Layout.
  Variables (parts : list (bytes * bytes)) (last : bytes).
  Notation b := (layout parts last).
  Notation ms := (placed 0 parts).
  Hypothesis EN : enclosed parts last.
  Hypothesis MX : at_most 65536 parts.

  Lemma max_len_N : N.of_nat dlt_max_len = 65535%N.
  Proof. Transparent dlt_max_len. unfold dlt_max_len. lia. Opaque dlt_max_len. Qed.
  Lemma placed_max k m : In (k, m) ms -> length m <= S dlt_max_len.
  Proof.
    intros I. destruct (placed_part _ _ _ _ I) as [j J]. unfold at_most in MX. rewrite Forall_forall in MX.
    specialize (MX _ J). cbn in MX. pose proof max_len_N. lia.
  Qed.
  Lemma en_message k m : In (k, m) ms -> message_at b k m /\ 20 <= length m /\ dcand b k (length m) (entry_of m).
  Proof.
    intros I. destruct EN as [V _]. pose proof (placed_message parts last k m V I) as Q.
    split; [exact Q|]. split; [apply Q|]. now apply dcand_entry.
  Qed.
  Lemma en_occ k : occ dlt_marker b k = true -> exists k' m, In (k', m) ms /\ k' <= k /\ k + 4 <= k' + length m.
  Proof. intros O. apply EN. apply occ_occurs; [cbn; lia|exact O]. Qed.

  Lemma outer_placed : forall i, outer b i <-> exists m, In (i, m) ms.
  Proof.
    induction i as [i IH] using lt_wf_ind. rewrite outer_iff. split.
    - intros [(n & t & C) F]. destruct (en_occ i (proj1 C)) as (k & m & I & K1 & K2).
      destruct (Nat.eq_dec k i) as [->|NE]; [now exists m|]. exfalso.
      destruct (en_message k m I) as (_ & Lm & Ck).
      pose proof (placed_max k m I) as X.
      assert (O : outer b k) by (apply IH; [lia|now exists m]).
      specialize (F k (length m) (entry_of m)). assert (k + length m < i + 4); [|lia].
      apply F; [lia|exact O|exact Ck].
    - intros [m I]. destruct (en_message i m I) as (_ & Lm & Ci).
      split; [now exists (length m), (entry_of m)|].
      intros j n t Hj O C. apply IH in O; [|lia]. destruct O as [mj Ij].
      destruct (en_message j mj Ij) as (_ & Lmj & Cj).
      destruct (cand_fun DLT parse b j _ _ _ _ C Cj) as [-> _].
      destruct (placed_cases parts 0 j mj i m Ij I) as [E|[E|E]]; [injection E as E _; lia|lia|lia].
  Qed.

  Lemma cb_inside k m p0 p1 : In (k, m) ms -> k < p0 -> p0 < p1 -> p1 <= k + length m -> p1 < length b ->
    cb b p0 p1 = Ret (Some (k, entry_of m)).
  Proof.
    intros I H1 H2 H3 H4. destruct (en_message k m I) as (_ & Lm & Ck).
    pose proof (placed_max k m I) as X.
    destruct (cb_spec b p0 p1 H2 H4) as [(i & n & t & E & A1 & A2 & A3 & A4 & _)|(_ & F)].
    - apply outer_placed in A2. destruct A2 as [mi Ii]. destruct (en_message i mi Ii) as (_ & Lmi & Ci).
      destruct (cand_fun DLT parse b i _ _ _ _ A3 Ci) as [-> ->].
      destruct (placed_cases parts 0 i mi k m Ii I) as [Q|[Q|Q]]; [|lia|lia].
      injection Q as -> ->. exact E.
    - exfalso. assert (k + length m < p1); [|lia].
      apply (F k (length m) (entry_of m)); [lia|apply outer_placed; now exists m|exact Ck].
  Qed.
  Lemma cb_between p0 p1 : between ms p0 -> p0 < p1 -> cb b p0 p1 = Ret None.
  Proof.
    intros B H. destruct (le_lt_dec (length b) p1) as [L|L].
    { cbn [contained_by]. destruct (Nat.leb_spec (length b) p1); [|lia].
      rewrite Bool.orb_true_r. reflexivity. }
    destruct (cb_spec b p0 p1 H L) as [(i & n & t & E & A1 & A2 & A3 & A4 & _)|(E & _)]; [|exact E].
    exfalso. apply outer_placed in A2. destruct A2 as [mi Ii]. destruct (en_message i mi Ii) as (_ & Lmi & Ci).
    destruct (cand_fun DLT parse b i _ _ _ _ A3 Ci) as [-> ->].
    specialize (B i mi Ii). lia.
  Qed.
End Layout.
