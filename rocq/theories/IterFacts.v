(** Facts about the iterators of MatchModel.v for every lawful reader. *)
From Verif Require Import Base DltModel MatchModel Spec BaseFacts DltFacts FindFacts.
From Coq Require Import Sorted.

(** What the traits ask of an implementation. [pv] is [try_read_valid_marker] as a function. *)
Record lawful {T} (R : Readable T) (pv : bytes -> option (nat * T)) : Prop := {
  l_marker : 0 < length (marker R);
  l_overlap : no_overlap (marker R);
  l_tv : forall b, is_prefix (marker R) b = true -> try_read_valid R b = Ret (pv b);
  l_len : forall b n t, is_prefix (marker R) b = true -> pv b = Some (n, t) ->
            len_of R t = n /\ length (marker R) < n /\ n <= length b
}.

Lemma dlt_lawful : lawful DLT parse.
Proof.
  constructor.
  - cbn. lia.
  - apply dlt_marker_no_overlap.
  - intros b _. apply try_read_valid_parse.
  - intros b n t _ H. split; [now apply (parse_len b)|].
    apply parse_some_iff in H. cbn. lia.
Qed.

Section Iter.
  Context {T : Type}.
  Variable R : Readable T.
  Variable pv : bytes -> option (nat * T).
  Hypothesis L : lawful R pv.
  Notation mk := (marker R).
  Notation ml := (length (marker R)).

  (** A candidate: marker at [k] and the message behind it reads. *)
  Definition cand (b : bytes) (k n : nat) (t : T) : Prop :=
    occ mk b k = true /\ pv (skipn k b) = Some (n, t).

  Lemma cand_bounds b k n t : cand b k n t -> len_of R t = n /\ ml < n /\ k + n <= length b.
  Proof.
    intros [A B]. destruct (l_len R pv L _ _ _ A B) as (C & D & E).
    rewrite skipn_length in E. pose proof (l_marker R pv L). lia.
  Qed.
  Lemma cand_fun b k n t n' t' : cand b k n t -> cand b k n' t' -> n = n' /\ t = t'.
  Proof. intros [_ A] [_ B]. split; congruence. Qed.

  (** * ReadFallbackIterator *)
  Definition fb (b : bytes) (off : nat) : nat * option (nat * T) :=
    if length b <=? off + ml then (off, None)
    else match find mk (skipn off b) with
         | None => (off, None)
         | Some p =>
             if length b <=? off + p + ml then (off + p, None)
             else match pv (skipn (off + p) b) with
                  | None => (off + p, None)
                  | Some (n, v) => (off + p + n, Some (off + p, v))
                  end
         end.

  Lemma slice_marker b off : off + ml <= length b ->
    exists s, slice b off (off + ml) = Ret s /\ bytes_eqb s mk = occ mk b off.
  Proof.
    intros H. rewrite slice_ok by lia. eexists. split; [reflexivity|].
    replace (off + ml - off) with ml by lia.
    destruct (bytes_eqb_spec (firstn ml (skipn off b)) mk) as [E|E].
    - symmetry. now apply is_prefix_firstn.
    - destruct (occ mk b off) eqn:P; [|reflexivity].
      exfalso. apply E. now apply is_prefix_firstn in P.
  Qed.

  Lemma fallback_at_marker f b off : occ mk b off = true -> off + ml < length b ->
    fallback_next R (S f) b off =
    Ret (match pv (skipn off b) with
         | Some (n, v) => (off + n, Some (off, v))
         | None => (off, None) end).
  Proof.
    intros O H. cbn [fallback_next].
    destruct (Nat.leb_spec (length b) (off + ml)); [lia|].
    destruct (slice_marker b off) as (s & -> & E); [lia|]. cbn [obind]. rewrite E, O.
    rewrite slice_from_ok by lia. cbn [obind].
    rewrite (l_tv R pv L) by exact O. cbn [obind].
    destruct (pv (skipn off b)) as [[n v]|]; reflexivity.
  Qed.

  Lemma fallback_next_fb f b off : fallback_next R (S (S f)) b off = Ret (fb b off).
  Proof.
    unfold fb. destruct (Nat.leb_spec (length b) (off + ml)) as [H|H].
    - cbn [fallback_next]. destruct (Nat.leb_spec (length b) (off + ml)); [reflexivity|lia].
    - destruct (find mk (skipn off b)) as [p|] eqn:F.
      + assert (F' := F). apply find_some in F'; [|apply (l_marker R pv L)].
        destruct F' as [O M]. rewrite occ_skipn in O.
        destruct p as [|p].
        * replace (off + 0) with off in * by lia.
          destruct (Nat.leb_spec (length b) (off + ml)); [lia|].
          rewrite fallback_at_marker by assumption.
          destruct (pv (skipn off b)) as [[n v]|]; reflexivity.
        * assert (N : occ mk b off = false).
          { specialize (M 0 ltac:(lia)). now rewrite occ_skipn, Nat.add_0_r in M. }
          remember (S f) as f1. cbn [fallback_next].
          destruct (Nat.leb_spec (length b) (off + ml)); [lia|].
          destruct (slice_marker b off) as (s & -> & E); [lia|]. cbn [obind]. rewrite E, N.
          rewrite slice_from_ok by lia. cbn [obind].
          unfold search_marker. rewrite F. cbn [Nat.eqb]. subst f1.
          destruct (Nat.leb_spec (length b) (off + S p + ml)) as [K|K].
          { cbn [fallback_next]. destruct (Nat.leb_spec (length b) (off + S p + ml)); [reflexivity|lia]. }
          { rewrite fallback_at_marker by assumption.
            destruct (pv (skipn (off + S p) b)) as [[n v]|]; reflexivity. }
      + assert (N : occ mk b off = false).
        { rewrite find_none in F by apply (l_marker R pv L). specialize (F 0).
          now rewrite occ_skipn, Nat.add_0_r in F. }
        cbn [fallback_next].
        destruct (Nat.leb_spec (length b) (off + ml)); [lia|].
        destruct (slice_marker b off) as (s & -> & E); [lia|]. cbn [obind]. rewrite E, N.
        rewrite slice_from_ok by lia. cbn [obind].
        unfold search_marker. now rewrite F.
  Qed.

  (** The item of [fb], without the boundary tests. *)
  Lemma fb_item b off :
    snd (fb b off) =
    match find mk (skipn off b) with
    | None => None
    | Some p => match pv (skipn (off + p) b) with
                | None => None
                | Some (n, v) => Some (off + p, v)
                end
    end.
  Proof.
    unfold fb. destruct (find mk (skipn off b)) as [p|] eqn:F.
    - assert (F' := F). apply find_some in F'; [|apply (l_marker R pv L)].
      destruct F' as [O M]. rewrite occ_skipn in O.
      destruct (pv (skipn (off + p) b)) as [[n v]|] eqn:P.
      + pose proof (cand_bounds b (off + p) n v (conj O P)) as (_ & B1 & B2).
        destruct (Nat.leb_spec (length b) (off + ml)); [lia|].
        destruct (Nat.leb_spec (length b) (off + p + ml)); [lia|]. reflexivity.
      + destruct (length b <=? off + ml); [reflexivity|].
        destruct (length b <=? off + p + ml); reflexivity.
    - destruct (length b <=? off + ml); reflexivity.
  Qed.

  (** First marker at or after [off]. *)
  Definition first_marker (b : bytes) (off k : nat) : Prop :=
    off <= k /\ occ mk b k = true /\ forall j, off <= j < k -> occ mk b j = false.
  Definition no_marker (b : bytes) (off : nat) : Prop := forall j, off <= j -> occ mk b j = false.

  Lemma find_first b off :
    match find mk (skipn off b) with
    | Some p => first_marker b off (off + p)
    | None => no_marker b off
    end.
  Proof.
    destruct (find mk (skipn off b)) as [p|] eqn:F.
    - apply find_some in F; [|apply (l_marker R pv L)]. destruct F as [O M].
      rewrite occ_skipn in O. split; [lia|]. split; [exact O|].
      intros j Hj. specialize (M (j - off) ltac:(lia)). rewrite occ_skipn in M.
      now replace (off + (j - off)) with j in M by lia.
    - rewrite find_none in F by apply (l_marker R pv L).
      intros j Hj. specialize (F (j - off)). rewrite occ_skipn in F.
      now replace (off + (j - off)) with j in F by lia.
  Qed.
  Lemma first_marker_fun b off k k' : first_marker b off k -> first_marker b off k' -> k = k'.
  Proof.
    intros (A & B & C) (A' & B' & C'). destruct (lt_eq_lt_dec k k') as [[H|H]|H]; [|exact H|].
    - rewrite (C' k) in B by lia. discriminate.
    - rewrite (C k') in B' by lia. discriminate.
  Qed.

  (** The whole iteration from [off]. *)
  Inductive chain (b : bytes) : nat -> list (nat * T) -> Prop :=
  | chain_end off : no_marker b off -> chain b off []
  | chain_stop off k : first_marker b off k -> pv (skipn k b) = None -> chain b off []
  | chain_step off k n v l :
      first_marker b off k -> pv (skipn k b) = Some (n, v) -> chain b (k + n) l ->
      chain b off ((k, v) :: l).

  Lemma chain_fun b off l l' : chain b off l -> chain b off l' -> l = l'.
  Proof.
    intros C. revert l'. induction C as [off N|off k F P|off k n v l F P C IH]; intros l' C'.
    - inversion C' as [|o k' F' P'|o k' n' v' l1 F' P' C1]; subst; [reflexivity|reflexivity|].
      destruct F' as (A & B & _). rewrite N in B by lia. discriminate.
    - inversion C' as [|o k' F' P'|o k' n' v' l1 F' P' C1]; subst; [reflexivity|reflexivity|].
      pose proof (first_marker_fun b off k k' F F'). subst. congruence.
    - inversion C' as [o N|o k' F' P'|o k' n' v' l1 F' P' C1]; subst.
      + destruct F as (A & B & _). rewrite N in B by lia. discriminate.
      + pose proof (first_marker_fun b off k k' F F'). subst. congruence.
      + pose proof (first_marker_fun b off k k' F F'). subst.
        rewrite P in P'. injection P' as <- <-. f_equal. now apply IH.
  Qed.

  Lemma fb_step_chain b off :
    match fb b off with
    | (off', None) => chain b off [] /\ fb b off' = (off', None)
    | (off', Some (k, v)) =>
        exists n, first_marker b off k /\ cand b k n v /\ off' = k + n
    end.
  Proof.
    pose proof (find_first b off) as FF.
    destruct (fb b off) as [off' o] eqn:E.
    assert (I := fb_item b off). rewrite E in I. cbn [snd] in I. subst o.
    unfold fb in E. destruct (find mk (skipn off b)) as [p|] eqn:F.
    - destruct (pv (skipn (off + p) b)) as [[n v]|] eqn:P.
      + exists n. destruct FF as (F1 & F2 & F3).
        split; [repeat split; assumption|]. split; [split; assumption|].
        destruct (length b <=? off + ml); [discriminate|].
        destruct (length b <=? off + p + ml); [discriminate|]. now injection E as <-.
      + split; [now apply (chain_stop b off (off + p))|].
        destruct (Nat.leb_spec (length b) (off + ml)) as [H|H].
        { injection E as <-. unfold fb. destruct (Nat.leb_spec (length b) (off + ml)); [reflexivity|lia]. }
        assert (off' = off + p).
        { destruct (length b <=? off + p + ml); congruence. }
        subst off'. destruct FF as (F1 & F2 & F3). unfold fb.
        destruct (Nat.leb_spec (length b) (off + p + ml)); [reflexivity|].
        assert (F0 : find mk (skipn (off + p) b) = Some 0).
        { apply find_some; [apply (l_marker R pv L)|]. split; [exact F2|lia]. }
        rewrite F0, Nat.add_0_r. destruct (length b <=? off + p + ml); [reflexivity|].
        now rewrite P.
    - split; [now apply chain_end|].
      assert (off' = off) by (destruct (length b <=? off + ml); congruence).
      subst off'. unfold fb. rewrite F. destruct (length b <=? off + ml); reflexivity.
  Qed.

  Lemma collect_chain b f0 : forall fuel off, length b - off < fuel ->
    exists l, collect (fallback_next R (S (S f0)) b) fuel off = Ret l /\ chain b off l.
  Proof.
    induction fuel as [|fuel IH]; intros off H; [lia|].
    cbn [collect]. rewrite fallback_next_fb. cbn [obind].
    pose proof (fb_step_chain b off) as S.
    destruct (fb b off) as [off' [[k v]|]].
    - destruct S as (n & F & C & ->).
      pose proof (cand_bounds b k n v C) as (_ & B1 & B2).
      destruct F as (F1 & F2 & F3).
      destruct (IH (k + n)) as (l & -> & Cl); [lia|].
      cbn [obind]. exists ((k, v) :: l). split; [reflexivity|].
      destruct C as [C1 C2]. apply (chain_step b off k n v l); try assumption.
      repeat split; assumption.
    - exists []. split; [reflexivity|]. apply S.
  Qed.

  Lemma collect_chain_iff b f0 fuel off l : length b - off < fuel ->
    (collect (fallback_next R (S (S f0)) b) fuel off = Ret l <-> chain b off l).
  Proof.
    intros H. destruct (collect_chain b f0 fuel off H) as (l' & E & C).
    rewrite E. split.
    - intros X. injection X as <-. exact C.
    - intros C'. f_equal. now apply (chain_fun b off).
  Qed.

  (** Items of a chain are candidates, in order and disjoint. *)
  Definition item_at (b : bytes) (i : nat * T) : Prop := exists n, cand b (fst i) n (snd i).
  Fixpoint ordered (off : nat) (l : list (nat * T)) : Prop :=
    match l with
    | [] => True
    | (k, v) :: l' => off <= k /\ ordered (k + len_of R v) l'
    end.
  Lemma chain_items b off l : chain b off l -> Forall (item_at b) l /\ ordered off l.
  Proof.
    induction 1 as [| |off k n v l F P C [IH1 IH2]]; try (split; [constructor|exact I]).
    destruct F as (F1 & F2 & F3).
    assert (Cd : cand b k n v) by (split; assumption).
    split.
    - constructor; [exists n; exact Cd|exact IH1].
    - cbn [ordered]. destruct (cand_bounds b k n v Cd) as (-> & _). split; [exact F1|exact IH2].
  Qed.

  (** * SearchIterator *)
  Definition first_cand (b : bytes) (off k n : nat) (t : T) : Prop :=
    off <= k /\ cand b k n t /\ forall j n' t', off <= j < k -> ~ cand b j n' t'.
  Definition no_cand (b : bytes) (off : nat) : Prop := forall j n t, off <= j -> ~ cand b j n t.

  Lemma search_search_spec b off :
    search_search R b off =
    Ret (match find mk (skipn off b) with
         | None => None
         | Some p => match pv (skipn (off + p) b) with
                     | None => None
                     | Some (_, t) => Some (off + p, t) end end).
  Proof.
    unfold search_search. destruct (Nat.leb_spec (length b) off) as [H|H].
    - rewrite skipn_all2 by lia. cbn [find]. rewrite is_prefix_nil by apply (l_marker R pv L). reflexivity.
    - rewrite slice_from_ok by lia. cbn [obind].
      destruct (find mk (skipn off b)) as [p|] eqn:F; [|reflexivity].
      apply find_some in F; [|apply (l_marker R pv L)]. destruct F as [O _].
      rewrite occ_skipn in O. pose proof (occ_len mk b (off + p) (l_marker R pv L) O).
      replace (p + off) with (off + p) by lia.
      rewrite slice_from_ok by lia. cbn [obind].
      rewrite (l_tv R pv L) by exact O. cbn [obind].
      destruct (pv (skipn (off + p) b)) as [[n v]|]; reflexivity.
  Qed.

  Lemma search_next_spec b : forall fuel off, length b - off < fuel ->
    (exists k n t, first_cand b off k n t /\ search_next R fuel b off = Ret (k + n, Some (k, t))) \/
    (no_cand b off /\ exists off', off <= off' /\ search_next R fuel b off = Ret (off', None)).
  Proof.
    pose proof (l_marker R pv L) as Hm.
    induction fuel as [|fuel IH]; intros off H; [lia|].
    cbn [search_next]. rewrite search_search_spec. cbn [obind].
    pose proof (find_first b off) as FF.
    destruct (find mk (skipn off b)) as [p|] eqn:F.
    - destruct FF as (F1 & F2 & F3).
      assert (NC : forall j n t, off <= j < off + p -> ~ cand b j n t).
      { intros j n t Hj [O _]. rewrite F3 in O by exact Hj. discriminate. }
      destruct (pv (skipn (off + p) b)) as [[n v]|] eqn:P.
      + left. assert (C : cand b (off + p) n v) by (split; assumption).
        exists (off + p), n, v. split; [split; [lia|split; [exact C|exact NC]]|].
        now destruct (cand_bounds _ _ _ _ C) as (-> & _).
      + (* the first marker does not read: no candidate before [off + ml] *)
        assert (NC' : forall j n t, off <= j < off + ml -> ~ cand b j n t).
        { intros j n t Hj [O Q]. destruct (lt_eq_lt_dec j (off + p)) as [[K|K]|K].
          - apply (NC j n t); [lia|split; assumption].
          - subst j. congruence.
          - pose proof (no_overlap_occ mk b (off + p) j (l_overlap R pv L) F2 O K). lia. }
        destruct (Nat.leb_spec (length b) (off + ml)) as [K|K].
        * right. split; [|exists (off + ml); split; [lia|reflexivity]].
          intros j n t Hj C. destruct (le_lt_dec (off + ml) j).
          { destruct (cand_bounds _ _ _ _ C) as (_ & B1 & B2). lia. }
          { apply (NC' j n t); [lia|exact C]. }
        * destruct (IH (off + ml)) as [(k & n & t & (A & C & D) & E)|(N & off' & A & E)]; [lia| |].
          { left. exists k, n, t. split; [|exact E]. split; [lia|]. split; [exact C|].
            intros j n' t' Hj. destruct (le_lt_dec (off + ml) j); [apply D; lia|apply NC'; lia]. }
          { right. split; [|exists off'; split; [lia|exact E]].
            intros j n t Hj. destruct (le_lt_dec (off + ml) j); [apply N; lia|apply NC'; lia]. }
    - assert (NC : no_cand b off).
      { intros j n t Hj [O _]. rewrite FF in O by exact Hj. discriminate. }
      right. split; [exact NC|].
      destruct (Nat.leb_spec (length b) (off + ml)) as [K|K].
      + exists (off + ml). split; [lia|reflexivity].
      + destruct (IH (off + ml)) as [(k & n & t & (A & C & D) & E)|(N & off' & A & E)]; [lia| |].
        * exfalso. apply (NC k n t); [lia|exact C].
        * exists off'. split; [lia|exact E].
  Qed.

  Inductive schain (b : bytes) : nat -> list (nat * T) -> Prop :=
  | schain_end off : no_cand b off -> schain b off []
  | schain_step off k n v l :
      first_cand b off k n v -> schain b (k + n) l -> schain b off ((k, v) :: l).

  Lemma collect_schain b f0 : length b < f0 -> forall fuel off, length b - off < fuel ->
    exists l, collect (search_next R f0 b) fuel off = Ret l /\ schain b off l.
  Proof.
    intros H0. induction fuel as [|fuel IH]; intros off H; [lia|].
    cbn [collect]. destruct (search_next_spec b f0 off) as [(k & n & t & F & ->)|(N & off' & _ & ->)]; [lia| |].
    - cbn [obind]. destruct F as (F1 & F2 & F3).
      pose proof (cand_bounds _ _ _ _ F2) as (_ & B1 & B2).
      destruct (IH (k + n)) as (l & -> & Cl); [lia|]. cbn [obind].
      exists ((k, t) :: l). split; [reflexivity|]. apply (schain_step b off k n t l); [|exact Cl].
      repeat split; try assumption; apply F2.
    - cbn [obind]. exists []. split; [reflexivity|]. now apply schain_end.
  Qed.

  Lemma schain_in b off l : schain b off l -> forall k v, In (k, v) l -> off <= k /\ exists n, cand b k n v.
  Proof.
    intros C. induction C as [off N|off k n v l (F1 & F2 & F3) C IH]; intros k' v' [].
    - injection H as <- <-. eauto.
    - destruct (IH _ _ H) as (A & B). split; [lia|exact B].
  Qed.

  (** Sequential iteration gives a prefix of what searching gives. *)
  Lemma chain_schain b off l l' : chain b off l -> schain b off l' ->
    exists l2, l' = l ++ l2 /\
      (l2 <> [] -> exists k, off <= k /\ occ mk b k = true /\ pv (skipn k b) = None /\
         (forall k' v', In (k', v') l -> exists n', cand b k' n' v' /\ k' + n' <= k) /\
         (forall k' v', In (k', v') l2 -> k < k')).
  Proof.
    intros C. revert l'. induction C as [off N|off k F P|off k n v l F P C IH]; intros l' S.
    - exists l'. split; [reflexivity|]. intros H. exfalso. apply H.
      inversion S as [|o k n v l2 F2 S2]; subst; [reflexivity|].
      destruct F2 as (A & [B _] & _). rewrite N in B by exact A. discriminate.
    - exists l'. split; [reflexivity|]. intros _. exists k. destruct F as (A & B & D).
      split; [exact A|]. split; [exact B|]. split; [exact P|]. split; [intros ? ? []|].
      intros k' v' I. destruct (schain_in _ _ _ S _ _ I) as (G & n' & O & Q).
      destruct (lt_eq_lt_dec k k') as [[K|K]|K]; [exact K| |].
      + subst k'. rewrite P in Q. discriminate.
      + rewrite D in O by lia. discriminate.
    - destruct F as (F1 & F2 & F3).
      assert (Ck : cand b k n v) by (split; assumption).
      inversion S as [o N|o k' n' v' l2 G S2]; subst.
      + exfalso. apply (N k n v); [exact F1|exact Ck].
      + destruct G as (G1 & G2 & G3).
        assert (k' = k).
        { destruct (lt_eq_lt_dec k k') as [[K|K]|K]; [|congruence|].
          - exfalso. apply (G3 k n v); [lia|exact Ck].
          - destruct G2 as [O _]. rewrite F3 in O by lia. discriminate. }
        subst k'. destruct (cand_fun _ _ _ _ _ _ Ck G2) as [<- <-].
        destruct (IH l2 S2) as (l3 & -> & H3). exists l3. split; [reflexivity|].
        intros H. destruct (H3 H) as (q & Q1 & Q2 & Q3 & Q4 & Q5). exists q. split; [lia|].
        split; [exact Q2|]. split; [exact Q3|]. split; [|exact Q5].
        intros k' v' [I|I]; [|exact (Q4 _ _ I)]. injection I as <- <-. exists n. split; [exact Ck|exact Q1].
  Qed.

  (** * RevSearchIterator *)
  Lemma rev_search_spec b off : (N.of_nat (length b) < usize_max)%N -> off <= length b ->
    rev_search R b (N.of_nat off) =
    Ret (match rfind mk (firstn off b) with
         | None => None
         | Some c => match pv (skipn c b) with
                     | None => None
                     | Some (_, t) => Some (c, t) end end).
  Proof.
    intros Hb H. unfold rev_search.
    destruct (N.ltb_spec (N.of_nat (length b)) (N.of_nat off)) as [K|K]; [lia|].
    destruct (N.eqb_spec (N.of_nat off) usize_max) as [K'|K']; [lia|]. cbn [orb].
    rewrite Nat2N.id, slice_to_ok by exact H. cbn [obind].
    destruct (rfind mk (firstn off b)) as [c|] eqn:F; [|reflexivity].
    apply rfind_some in F; [|apply (l_marker R pv L)]. destruct F as [O _].
    apply occ_firstn_inv in O; [|apply (l_marker R pv L)]. destruct O as [O1 O2].
    rewrite slice_from_ok by lia. cbn [obind]. rewrite (l_tv R pv L) by exact O2. cbn [obind].
    destruct (pv (skipn c b)) as [[n t]|]; reflexivity.
  Qed.

  Lemma rfind_last b off :
    match rfind mk (firstn off b) with
    | Some c => c + ml <= off /\ occ mk b c = true /\
                forall j, c < j -> j + ml <= off -> occ mk b j = false
    | None => forall j, j + ml <= off -> occ mk b j = false
    end.
  Proof.
    pose proof (l_marker R pv L) as Hm.
    destruct (rfind mk (firstn off b)) as [c|] eqn:F.
    - apply rfind_some in F; [|exact Hm]. destruct F as [O M].
      apply occ_firstn_inv in O; [|exact Hm]. destruct O as [O1 O2].
      split; [exact O1|]. split; [exact O2|]. intros j Hj Hj'.
      specialize (M j Hj). now rewrite occ_firstn in M.
    - rewrite rfind_none in F by exact Hm. intros j Hj.
      specialize (F j). now rewrite occ_firstn in F.
  Qed.

  (** Last candidate whose marker ends at or before [off]. *)
  Definition last_cand (b : bytes) (off k n : nat) (t : T) : Prop :=
    k + ml <= off /\ cand b k n t /\ forall j n' t', k < j -> j + ml <= off -> ~ cand b j n' t'.
  Definition no_cand_before (b : bytes) (off : nat) : Prop :=
    forall j n t, j + ml <= off -> ~ cand b j n t.

  Lemma rev_next_spec b : (N.of_nat (length b) < usize_max)%N ->
    forall fuel off, off <= length b -> off < fuel ->
    (exists k n t, last_cand b off k n t /\ rev_next R fuel b (N.of_nat off) = Ret (N.of_nat k, Some (k, t))) \/
    (no_cand_before b off /\ rev_next R fuel b (N.of_nat off) = Ret (usize_max, None)).
  Proof.
    intros Hb. pose proof (l_marker R pv L) as Hm.
    induction fuel as [|fuel IH]; intros off H Hf; [lia|].
    cbn [rev_next]. rewrite rev_search_spec by assumption. cbn [obind].
    pose proof (rfind_last b off) as RL.
    assert (STEP : (forall j n t, off - ml < j + ml -> j + ml <= off -> ~ cand b j n t) ->
      let r := (let off' := if (N.of_nat ml <=? N.of_nat off)%N then (N.of_nat off - N.of_nat ml)%N else usize_max in
         if (off' =? usize_max)%N then Ret (off', None) else rev_next R fuel b off') in
      (exists k n t, last_cand b off k n t /\ r = Ret (N.of_nat k, Some (k, t))) \/
      (no_cand_before b off /\ r = Ret (usize_max, None))).
    { intros NC. cbv zeta. destruct (N.leb_spec (N.of_nat ml) (N.of_nat off)) as [K|K].
      - replace (N.of_nat off - N.of_nat ml)%N with (N.of_nat (off - ml)) by lia.
        destruct (N.eqb_spec (N.of_nat (off - ml)) usize_max) as [Q|Q]; [lia|].
        destruct (IH (off - ml)) as [(k & n & t & (A & C & D) & E)|(N & E)]; [lia|lia| |].
        + left. exists k, n, t. split; [|exact E]. split; [lia|]. split; [exact C|].
          intros j n' t' Hj Hj'. destruct (le_lt_dec (j + ml) (off - ml)); [apply D; lia|apply NC; lia].
        + right. split; [|exact E]. intros j n t Hj.
          destruct (le_lt_dec (j + ml) (off - ml)); [apply N; lia|apply NC; lia].
      - right. split; [intros j n t Hj; lia|]. rewrite N.eqb_refl. reflexivity. }
    destruct (rfind mk (firstn off b)) as [c|] eqn:F.
    - destruct RL as (R1 & R2 & R3).
      destruct (pv (skipn c b)) as [[n t]|] eqn:P.
      + left. exists c, n, t. split; [|reflexivity]. split; [exact R1|].
        split; [split; assumption|]. intros j n' t' Hj Hj' [O _].
        rewrite R3 in O by assumption. discriminate.
      + apply STEP. intros j n t Hj Hj' [O Q].
        destruct (lt_eq_lt_dec j c) as [[K|K]|K].
        * pose proof (no_overlap_occ mk b j c (l_overlap R pv L) O R2 K). lia.
        * subst. congruence.
        * rewrite R3 in O by assumption. discriminate.
    - apply STEP. intros j n t Hj Hj' [O _]. rewrite RL in O by assumption. discriminate.
  Qed.

  Lemma collect_rev b f0 : (N.of_nat (length b) < usize_max)%N -> length b < f0 ->
    forall fuel off, off <= length b -> off < fuel ->
    exists l, collect (rev_next R f0 b) fuel (N.of_nat off) = Ret l /\
      StronglySorted (fun x y => fst y + ml <= fst x) l /\
      Forall (fun x => fst x + ml <= off) l /\
      forall k t, In (k, t) l <-> k + ml <= off /\ exists n, cand b k n t.
  Proof.
    intros Hb H0. pose proof (l_marker R pv L) as Hm.
    induction fuel as [|fuel IH]; intros off H Hf; [lia|].
    cbn [collect]. destruct (rev_next_spec b Hb f0 off) as [(k & n & t & (A & C & D) & ->)|(N & ->)]; [lia|lia| |].
    - cbn [obind]. destruct (IH k) as (l & -> & S & F & I); [lia|lia|]. cbn [obind].
      exists ((k, t) :: l). split; [reflexivity|]. split; [|split].
      + constructor; [exact S|]. exact F.
      + constructor; [cbn; lia|]. eapply Forall_impl; [|exact F]. cbn. intros [? ?]; cbn; lia.
      + intros k' t'. cbn [In]. split.
        * intros [E|E].
          { injection E as <- <-. split; [exact A|]. exists n. exact C. }
          { apply I in E. destruct E as [E1 E2]. split; [lia|exact E2]. }
        * intros [E1 [n' E2]]. destruct (lt_eq_lt_dec k' k) as [[K|K]|K].
          { right. apply I. split; [|exists n'; exact E2].
            destruct C as [C _], E2 as [E2 _].
            exact (no_overlap_occ mk b k' k (l_overlap R pv L) E2 C K). }
          { subst k'. destruct (cand_fun _ _ _ _ _ _ C E2) as [_ <-]. now left. }
          { exfalso. apply (D k' n' t'); assumption. }
    - cbn [obind]. exists []. split; [reflexivity|]. split; [constructor|]. split; [constructor|].
      intros k t. split; [intros []|]. intros [E1 [n E2]]. exact (N k n t E1 E2).
  Qed.

  (** After exhaustion: the offset restarts near [usize::MAX] and every step is a recursion. *)
  Lemma rev_next_far b : forall fuel off,
    (N.of_nat (length b) + N.of_nat fuel * N.of_nat ml < off)%N -> (off <= usize_max)%N ->
    rev_next R fuel b off = Fuel.
  Proof.
    pose proof (l_marker R pv L) as Hm.
    induction fuel as [|fuel IH]; intros off H1 H2; [reflexivity|].
    cbn [rev_next]. unfold rev_search.
    destruct (N.ltb_spec (N.of_nat (length b)) off) as [K|K]; [|lia].
    cbn [orb obind].
    destruct (N.leb_spec (N.of_nat ml) off) as [Q|Q]; [|nia].
    destruct (N.eqb_spec (off - N.of_nat ml) usize_max) as [Z|Z]; [lia|].
    apply IH; nia.
  Qed.
End Iter.
