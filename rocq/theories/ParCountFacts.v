(** Facts about the parallel pattern counts (C126) and par_iter (C127). *)
From Coq Require Import String.
From Verif Require Import Base DltModel MatchModel GenModel ToolsModel MainModel Spec CommandSpec BaseFacts DltFacts CodecFacts ParseFacts
  FindFacts IterFacts DltIterFacts LayoutFacts GrepFacts GrepTools PartitionFacts GenFacts GroupFacts MapFacts MergeFacts TreeFacts ToolFacts
  Utf8Facts CommandFacts TotalFacts ExactFacts HelloRegex P_Partition P_Tools P_Commands P_Exact P_Balance P_Loss.
From Coq Require Import Sorted Permutation ZifyBool ZifyNat ZifyN.
Local Open Scope string_scope.
Local Open Scope list_scope.
Ltac Zify.zify_post_hook ::= idtac.

(** * Occurrences in slices *)
Lemma occurs_bound m b k : occurs_at m b k -> k + length m <= length b.
Proof. intros (p & q & -> & <-). rewrite !app_length. lia. Qed.
Lemma occurs_embed a x z m k : occurs_at m x k -> occurs_at m (a ++ x ++ z) (length a + k).
Proof. intros (p & q & -> & <-). exists (a ++ p), (q ++ z). rewrite app_length, <- !app_assoc. now split. Qed.
Lemma occurs_part a x z m k : occurs_at m (a ++ x ++ z) (length a + k) -> k + length m <= length x -> occurs_at m x k.
Proof.
  intros (p & q & E & L) B. exists (firstn k x), (skipn (k + length m) x).
  assert (E1 : p = a ++ firstn k x).
  { apply (f_equal (firstn (length p))) in E. rewrite (firstn_app_exact p) in E by reflexivity. rewrite <- E, L, firstn_app, firstn_all2, firstn_app by lia.
    replace (length a + k - length a) with k by lia. replace (k - length x) with 0 by lia. cbn [firstn]. now rewrite app_nil_r. }
  split; [|rewrite firstn_length; lia]. subst p. rewrite <- app_assoc in E. apply app_inv_head in E.
  assert (E2 : firstn k x ++ skipn k x ++ z = firstn k x ++ m ++ q) by (rewrite <- E, app_assoc, firstn_skipn; reflexivity).
  apply app_inv_head in E2. apply (f_equal (firstn (length m))) in E2 as E3.
  rewrite (firstn_app_exact m) in E3 by reflexivity. rewrite firstn_app, skipn_length in E3. replace (length m - (length x - k)) with 0 in E3 by lia.
  cbn [firstn] in E3. rewrite app_nil_r in E3.
  replace (skipn (k + length m) x) with (skipn (length m) (skipn k x)) by apply skipn_skipn'. rewrite <- E3 at 1. rewrite (firstn_skipn (length m) (skipn k x)). symmetry. apply firstn_skipn.
Qed.

(** All occurrences that lie inside one of the pieces, in order. *)
Fixpoint piecewise (m : bytes) (base : nat) (l : list bytes) : list nat :=
  match l with [] => [] | s :: l' => map (Nat.add base) (find_iter m s) ++ piecewise m (base + length s) l' end.
Lemma piecewise_length m : forall l base, length (piecewise m base l) = list_sum (map (fun s => length (find_iter m s)) l).
Proof.
  induction l as [|s l IH]; intros base; [reflexivity|]. cbn [piecewise map list_sum fold_right]. change (fold_right Nat.add 0) with list_sum.
  now rewrite app_length, map_length, IH.
Qed.
Lemma hello_iter s k : In k (find_iter hello s) <-> occurs_at hello s k.
Proof. rewrite find_iter_in by (try exact hello_no_overlap; cbn; lia). apply occ_occurs. cbn; lia. Qed.
Lemma piecewise_in l : forall base k, In k (piecewise hello base l) <->
  exists l1 s l2 j, l = l1 ++ s :: l2 /\ k = base + length (concat l1) + j /\ occurs_at hello s j.
Proof.
  induction l as [|s l IH]; intros base k; cbn [piecewise].
  - split; [intros []|intros (l1 & s & l2 & j & E & _)]. destruct l1; discriminate E.
  - rewrite in_app_iff, in_map_iff, IH. split.
    + intros [(j & <- & I)|(l1 & s' & l2 & j & -> & -> & O)].
      * exists [], s, l, j. apply hello_iter in I. split; [reflexivity|]. split; [cbn; lia|exact I].
      * exists (s :: l1), s', l2, j. split; [reflexivity|]. split; [cbn [concat]; rewrite app_length; lia|exact O].
    + intros ([|s0 l1] & s' & l2 & j & E & -> & O); cbn [app] in E; injection E as -> ->.
      * left. exists j. split; [cbn; lia|now apply hello_iter].
      * right. exists l1, s', l2, j. split; [reflexivity|]. split; [cbn [concat]; rewrite app_length; lia|exact O].
Qed.
Lemma piecewise_ge l : forall base k, In k (piecewise hello base l) -> base <= k.
Proof. intros base k I. apply piecewise_in in I. destruct I as (l1 & s & l2 & j & _ & -> & _). lia. Qed.
Lemma sorted_join (l1 l2 : list nat) : StronglySorted lt l1 -> StronglySorted lt l2 -> (forall a b, In a l1 -> In b l2 -> a < b) -> StronglySorted lt (l1 ++ l2).
Proof.
  induction l1 as [|x l1 IH]; intros S1 S2 H; [exact S2|]. inversion S1 as [|? ? S F]; subst. cbn [app]. constructor.
  - apply IH; [exact S|exact S2|]. intros a b Ia Ib. apply H; [now right|exact Ib].
  - apply Forall_app. split; [exact F|]. apply Forall_forall. intros b Ib. apply H; [now left|exact Ib].
Qed.
Lemma sorted_plus base l : StronglySorted lt l -> StronglySorted lt (map (Nat.add base) l).
Proof.
  induction 1 as [|x l S IH F]; [constructor|]. cbn [map]. constructor; [exact IH|]. apply Forall_forall. intros y I.
  apply in_map_iff in I. destruct I as (z & <- & I). rewrite Forall_forall in F. specialize (F z I). lia.
Qed.
Lemma sorted_lt_nodup (l : list nat) : StronglySorted lt l -> NoDup l.
Proof.
  induction 1 as [|x l S IH F]; [constructor|]. constructor; [|exact IH]. intros I. rewrite Forall_forall in F. specialize (F x I). lia.
Qed.
Lemma hello_sorted s : StronglySorted lt (find_iter hello s).
Proof. apply find_iter_sorted; [cbn; lia|exact hello_no_overlap]. Qed.
Lemma piecewise_sorted l : forall base, StronglySorted lt (piecewise hello base l).
Proof.
  induction l as [|s l IH]; intros base; [constructor|]. cbn [piecewise]. apply sorted_join; [apply sorted_plus, hello_sorted|apply IH|].
  intros a b Ia Ib. apply in_map_iff in Ia. destruct Ia as (j & <- & Ij). apply hello_iter, occurs_bound in Ij. cbn [hello length] in Ij.
  apply piecewise_ge in Ib. lia.
Qed.
Lemma piecewise_occurs l rest k : In k (piecewise hello 0 l) <->
  occurs_at hello (concat l ++ rest) k /\
  exists l1 s l2, l = l1 ++ s :: l2 /\ length (concat l1) <= k /\ k + 11 <= length (concat l1) + length s.
Proof.
  rewrite piecewise_in. split.
  - intros (l1 & s & l2 & j & -> & -> & O). cbn [Nat.add]. pose proof (occurs_bound _ _ _ O) as B. cbn [hello length] in B. split.
    + rewrite concat_app. cbn [concat]. rewrite <- !app_assoc. now apply occurs_embed.
    + exists l1, s, l2. split; [reflexivity|]. lia.
  - intros (O & l1 & s & l2 & -> & B1 & B2). exists l1, s, l2, (k - length (concat l1)). split; [reflexivity|]. split; [lia|].
    apply (occurs_part (concat l1) s (concat l2 ++ rest)).
    + replace (length (concat l1) + (k - length (concat l1))) with k by lia. rewrite concat_app in O. cbn [concat] in O. now rewrite <- !app_assoc in O.
    + cbn [hello length]. lia.
Qed.

(** A border is crossed by at most one occurrence. *)
Lemma hello_disjoint b i j : occurs_at hello b i -> occurs_at hello b j -> i < j -> i + 11 <= j.
Proof.
  intros O1 O2 L. apply (no_overlap_occ hello b i j hello_no_overlap); [| |exact L]; apply occ_occurs; try assumption; cbn; lia.
Qed.
Lemma filter_three {A} (p q : A -> bool) l : (forall x, p x = true -> q x = false) ->
  length l = length (filter p l) + length (filter q l) + length (filter (fun x => negb (p x) && negb (q x)) l).
Proof.
  intros H. induction l as [|x l IH]; [reflexivity|]. cbn [filter]. specialize (H x). destruct (p x), (q x); cbn [negb andb length]; try (discriminate (H eq_refl)); lia.
Qed.
Lemma hello_border s r : length (find_iter hello (s ++ r)) <= length (find_iter hello s) + length (find_iter hello r) + 1.
Proof.
  set (p k := (k + 11 <=? length s)%nat). set (q k := (length s <=? k)%nat).
  rewrite (filter_three p q (find_iter hello (s ++ r))).
  2: { intros k. unfold p, q. rewrite Nat.leb_le, Nat.leb_gt. lia. }
  pose proof (sorted_lt_nodup _ (hello_sorted (s ++ r))) as ND.
  assert (length (filter p (find_iter hello (s ++ r))) <= length (find_iter hello s)).
  { apply NoDup_incl_length; [now apply NoDup_filter|]. intros k I. apply filter_In in I. destruct I as [I P]. apply hello_iter in I. apply hello_iter.
    unfold p in P. apply Nat.leb_le in P. apply (occurs_part [] s r); [exact I|exact P]. }
  assert (length (filter q (find_iter hello (s ++ r))) <= length (map (Nat.add (length s)) (find_iter hello r))).
  { apply NoDup_incl_length; [now apply NoDup_filter|]. intros k I. apply filter_In in I. destruct I as [I Q]. apply hello_iter in I.
    unfold q in Q. apply Nat.leb_le in Q. apply in_map_iff. exists (k - length s). split; [lia|]. apply hello_iter.
    pose proof (occurs_bound _ _ _ I) as B. rewrite app_length in B.
    apply (occurs_part s r []); [|lia]. rewrite app_nil_r. replace (length s + (k - length s)) with k by lia. exact I. }
  rewrite map_length in *.
  assert (length (filter (fun k => negb (p k) && negb (q k)) (find_iter hello (s ++ r))) <= 1).
  { assert (ND' : NoDup (filter (fun k => negb (p k) && negb (q k)) (find_iter hello (s ++ r)))) by now apply NoDup_filter.
    destruct (filter (fun k => negb (p k) && negb (q k)) (find_iter hello (s ++ r))) as [|x [|y t]] eqn:E; cbn [length]; [lia|lia|exfalso].
    assert (Ix : In x (x :: y :: t)) by now left. assert (Iy : In y (x :: y :: t)) by (right; now left). rewrite <- E in Ix, Iy.
    apply filter_In in Ix, Iy. destruct Ix as [Ox Bx]. destruct Iy as [Oy By]. apply hello_iter in Ox, Oy.
    unfold p, q in Bx, By. apply andb_prop in Bx, By. rewrite !Bool.negb_true_iff, !Nat.leb_gt in Bx, By.
    inversion ND' as [|? ? N _]; subst. assert (x <> y) by (intros ->; apply N; now left).
    destruct (Nat.lt_total x y) as [L|[L|L]]; [|contradiction|].
    - pose proof (hello_disjoint _ _ _ Ox Oy L). lia.
    - pose proof (hello_disjoint _ _ _ Oy Ox L). lia. }
  lia.
Qed.
Lemma hello_borders l : length (find_iter hello (concat l)) <= list_sum (map (fun s => length (find_iter hello s)) l) + (length l - 1).
Proof.
  induction l as [|s l IH]; [cbn; lia|]. cbn [concat map list_sum fold_right length]. change (fold_right Nat.add 0) with list_sum.
  destruct l as [|s' l]; [cbn [concat map list_sum fold_right]; rewrite app_nil_r; lia|].
  pose proof (hello_border s (concat (s' :: l))) as B. cbn [length] in *. lia.
Qed.
Lemma hello_fewer l rest : list_sum (map (fun s => length (find_iter hello s)) l) <= length (find_iter hello (concat l ++ rest)).
Proof.
  rewrite <- (piecewise_length hello l 0). apply NoDup_incl_length; [apply sorted_lt_nodup, piecewise_sorted|].
  intros k I. apply hello_iter. now apply (piecewise_occurs l rest k).
Qed.

(** * grep on the parts of a clean file *)
Lemma valid_len m : valid_message m -> 20 <= length m.
Proof. intros V. now destruct V as (_ & V & _). Qed.
Lemma placed_valid ps : Forall (fun p : bytes * bytes => valid_message (snd p)) ps -> forall b k m, In (k, m) (placed b ps) -> valid_message m.
Proof.
  intros V. induction V as [|[j m'] ps V1 V IH]; intros b k m I; [destruct I|]. cbn [placed] in I. destruct I as [[= <- <-]|I]; [exact V1|exact (IH _ _ _ I)].
Qed.
Lemma clean_enclosed parts last : clean parts last -> enclosed parts last.
Proof.
  intros [V C]. split; [exact V|]. intros k O. destruct (C k O) as (m & I). exists k, m. split; [exact I|]. split; [lia|].
  pose proof (placed_valid parts V _ _ _ I) as VM.
  apply valid_len in VM. lia.
Qed.

Section Local.
  Variable M : matcher.
  (** Whether a range matches depends on the bytes of the range only. *)
  Hypothesis local : forall a x z s e, M x s e -> M (a ++ x ++ z) (length a + s) (length a + e).
  Hypothesis local' : forall a x z s e, M (a ++ x ++ z) (length a + s) (length a + e) -> s <= e <= length x -> M x s e.
  Hypothesis sized : forall b s e, M b s e -> s < e <= length b.
  Variable fa : bytes -> nat -> option (nat * nat).
  Hypothesis LM : leftmost M fa.

  Lemma clean_split parts last c : clean parts last -> no_crossing M (layout parts last) (placed 0 parts) ->
    c <= length (layout parts last) -> between (placed 0 parts) c ->
    exists ps1 l1 ps2 l2,
      firstn c (layout parts last) = layout ps1 l1 /\ skipn c (layout parts last) = layout ps2 l2 /\
      map snd parts = map snd ps1 ++ map snd ps2 /\
      clean ps1 l1 /\ no_crossing M (layout ps1 l1) (placed 0 ps1) /\
      clean ps2 l2 /\ no_crossing M (layout ps2 l2) (placed 0 ps2) /\
      forall x, between (placed 0 parts) (c + x) -> between (placed 0 ps2) x.
  Proof.
    intros [V EN] NC Hc B.
    destruct (layout_split parts last c 0 Hc B) as (ps1 & l1 & ps2 & l2 & A1 & A2 & A3 & A4).
    cbn [Nat.add] in A4. exists ps1, l1, ps2, l2.
    destruct (valid_of_map parts ps1 ps2 V A3) as [V1 V2].
    assert (L1 : length (layout ps1 l1) = c) by (rewrite <- A1, firstn_length; lia).
    assert (W : layout parts last = layout ps1 l1 ++ layout ps2 l2) by (rewrite <- A1, <- A2; symmetry; apply firstn_skipn).
    assert (VP : forall ps, Forall (fun p => valid_message (snd p)) ps -> forall b k m, In (k, m) (placed b ps) -> 20 <= length m).
    { intros ps V' b' k' m' I'. exact (valid_len _ (placed_valid ps V' _ _ _ I')). }
    split; [exact A1|]. split; [exact A2|]. split; [exact A3|].
    split; [split; [exact V1|]|split; [|split; [split; [exact V2|]|split]]].
    - intros k O. pose proof (occurs_bound _ _ _ O) as OB. rewrite L1 in OB. cbn [the_pattern length] in OB.
      destruct (EN k) as (m & I).
      { rewrite W. exact (occurs_embed [] (layout ps1 l1) (layout ps2 l2) _ k O). }
      rewrite A4 in I. apply in_app_iff in I. destruct I as [I|I]; [now exists m|]. apply placed_ge in I. lia.
    - intros s e Ms. pose proof (sized _ _ _ Ms) as SB. rewrite L1 in SB.
      destruct (NC s e) as [([k m] & I & In1)|AP].
      { rewrite W. exact (local [] (layout ps1 l1) (layout ps2 l2) s e Ms). }
      + rewrite A4 in I. apply in_app_iff in I. destruct I as [I|I]; [left; now exists (k, m)|]. apply placed_ge in I. destruct In1 as [X1 X2]. cbn [fst snd] in *. lia.
      + right. intros p I. apply AP. rewrite A4. apply in_app_iff. now left.
    - intros k O. destruct (EN (c + k)) as (m & I).
      { rewrite W. pose proof (occurs_embed (layout ps1 l1) (layout ps2 l2) [] _ k O) as Q. rewrite app_nil_r, L1 in Q. exact Q. }
      rewrite A4 in I. apply in_app_iff in I. destruct I as [I|I].
      + pose proof (placed_end ps1 l1 _ _ I). pose proof (VP _ V1 _ _ _ I). lia.
      + apply placed_shift_in in I. destruct I as (k2 & E & I). assert (k2 = k) by lia. subst. now exists m.
    - intros s e Ms. pose proof (sized _ _ _ Ms) as SB.
      destruct (NC (c + s) (c + e)) as [([k m] & I & In1)|AP].
      { rewrite W. pose proof (local (layout ps1 l1) (layout ps2 l2) [] s e Ms) as Q. rewrite app_nil_r, L1 in Q. exact Q. }
      + rewrite A4 in I. apply in_app_iff in I. destruct I as [I|I].
        * pose proof (placed_end ps1 l1 _ _ I). destruct In1 as [X1 X2]. cbn [fst snd] in *. lia.
        * apply placed_shift_in in I. destruct I as (k2 & -> & I). left. exists (k2, m). split; [exact I|]. destruct In1 as [X1 X2]. split; cbn [fst snd] in *; lia.
      + right. intros [k m] I. assert (I' : In (c + k, m) (placed 0 parts)) by (rewrite A4; apply in_app_iff; right; apply placed_shift_in; now exists k).
        destruct (AP _ I') as [X|X]; [left|right]; cbn [fst snd] in *; lia.
    - intros x Bx k m I. specialize (Bx (c + k) m). destruct Bx as [Y|Y]; [|lia|lia].
      rewrite A4. apply in_app_iff. right. apply placed_shift_in. now exists k.
  Qed.

  Definition hits (m : bytes) : bool := match fa m 4 with Some _ => true | None => false end.
  Lemma hits_spec m : 4 <= length m -> hits m = true <-> exists s e, M m s e /\ 4 <= s.
  Proof.
    intros L. unfold hits. specialize (LM m 4 L). destruct (fa m 4) as [[s e]|]; split; try discriminate; try reflexivity.
    - intros _. exists s, e. destruct LM as (X1 & _ & _ & X2 & _). now split.
    - intros (s & e & Ms & G). exfalso. exact (LM s e G Ms).
  Qed.
  Lemma placed_slice parts last k m : In (k, m) (placed 0 parts) -> exists a z, layout parts last = a ++ m ++ z /\ length a = k.
  Proof.
    intros I. destruct (placed_in parts [] last k m I) as (a & z & H). exists a, z. exact H.
  Qed.
  Lemma grep_count parts last : (N.of_nat (length (layout parts last)) < usize_max)%N -> clean parts last ->
    no_crossing M (layout parts last) (placed 0 parts) ->
    exists items, grep_collect fa (layout parts last) = Ret items /\ length items = length (filter hits (map snd parts)).
  Proof.
    intros Hb CL NC. exists (entries (filter (fun p => hits (snd p)) (placed 0 parts))). split.
    - apply (grep_exact_list M fa LM parts last Hb CL); [intros s e Ms; apply (sized _ _ _ Ms)|exact NC|].
      intros [k m] I. cbn [snd]. destruct (placed_slice parts last k m I) as (a & z & E & La).
      assert (Lm : 20 <= length m).
      { exact (valid_len _ (placed_valid parts (proj1 CL) _ _ _ I)). }
      rewrite hits_spec by lia. split.
      + intros (s & e & Ms & G). pose proof (sized _ _ _ Ms). exists (k + s), (k + e). split; [rewrite E, <- La; now apply local|]. split; [lia|]. split; cbn [fst snd]; lia.
      + intros (s & e & Ms & _ & X1 & X2). cbn [fst snd] in X1, X2. pose proof (sized _ _ _ Ms). exists (s - k), (e - k). split; [|lia].
        apply (local' a m z); [|lia]. rewrite <- E, La. replace (k + (s - k)) with s by lia. replace (k + (e - k)) with e by lia. exact Ms.
    - unfold entries. rewrite map_length. generalize 0. clear. induction parts as [|[j m] ps IH]; intros b; [reflexivity|]. cbn [placed map snd filter].
      destruct (hits m); cbn [length]; now rewrite IH.
  Qed.

  Lemma grep_chunks l : forall parts last rest, concat l ++ rest = layout parts last -> clean parts last ->
    no_crossing M (layout parts last) (placed 0 parts) -> (N.of_nat (length (layout parts last)) < usize_max)%N ->
    (forall l1 l2, l = l1 ++ l2 -> between (placed 0 parts) (length (concat l1))) ->
    exists ns k, Forall2 (fun s n => exists items, grep_collect fa s = Ret items /\ length items = n) l ns /\
      (exists items, grep_collect fa rest = Ret items /\ length items = k) /\
      (exists items, grep_collect fa (layout parts last) = Ret items /\ length items = list_sum ns + k).
  Proof.
    induction l as [|p l IH]; intros parts last rest E CL NC Hb B.
    - cbn [concat app] in E. subst rest. destruct (grep_count parts last Hb CL NC) as (items & G & L).
      exists [], (length items). split; [constructor|]. split; [now exists items|]. exists items. split; [exact G|reflexivity].
    - cbn [concat] in E. rewrite <- app_assoc in E.
      assert (B1 : between (placed 0 parts) (length p)).
      { specialize (B [p] l eq_refl). cbn in B. now rewrite app_nil_r in B. }
      destruct (clean_split parts last (length p) CL NC) as (ps1 & l1 & ps2 & l2 & A1 & A2 & A3 & A4 & A5 & A6 & A7 & A8);
        [rewrite <- E, app_length; lia|exact B1|].
      rewrite <- E in A1, A2. rewrite firstn_app_exact in A1 by reflexivity. rewrite skipn_app_exact in A2 by reflexivity.
      assert (LE : length (layout parts last) = length p + length (layout ps2 l2)) by (rewrite <- E, app_length, A2; reflexivity).
      destruct (IH ps2 l2 rest A2 A6 A7 ltac:(lia)) as (ns & k & F & R & T).
      { intros q1 q2 Q. apply A8. specialize (B (p :: q1) q2). cbn [concat app] in B. rewrite app_length in B. apply B. now rewrite Q. }
      destruct (grep_count ps1 l1 ltac:(rewrite <- A1; lia) A4 A5) as (i1 & G1 & N1).
      destruct (grep_count ps2 l2 ltac:(lia) A6 A7) as (i2 & G2 & N2).
      destruct (grep_count parts last Hb CL NC) as (i & G & N).
      exists (length i1 :: ns), k. split; [constructor; [exists i1; split; [rewrite A1; exact G1|reflexivity]|exact F]|]. split; [exact R|].
      exists i. split; [exact G|]. destruct T as (i2' & G2' & T). assert (i2' = i2) by congruence. subst i2'.
      cbn [list_sum fold_right]. change (fold_right Nat.add 0) with list_sum. rewrite N, A3, filter_app, app_length, <- N1, <- N2, T. lia.
  Qed.
  (** The front of the file on its own. *)
  Lemma grep_front l parts last rest : concat l ++ rest = layout parts last -> clean parts last ->
    no_crossing M (layout parts last) (placed 0 parts) -> (N.of_nat (length (layout parts last)) < usize_max)%N ->
    between (placed 0 parts) (length (concat l)) ->
    exists i j t, grep_collect fa (concat l) = Ret i /\ grep_collect fa rest = Ret j /\ grep_collect fa (layout parts last) = Ret t /\ length t = length i + length j.
  Proof.
    intros E CL NC Hb B.
    destruct (grep_chunks [concat l] parts last rest) as (ns & k & F & (j & R & <-) & (t & T & LT)); try assumption.
    - cbn [concat]. now rewrite app_nil_r.
    - intros [|a [|a' l1]] l2 Q; cbn [app] in Q; [intros k' m' _; cbn; lia| |discriminate Q]. injection Q as <- _. cbn [concat]. now rewrite app_nil_r.
    - inversion F as [|? n ? ns' (i & Gi & <-) F']; subst. inversion F'; subst. exists i, j, t. split; [exact Gi|]. split; [exact R|]. split; [exact T|]. rewrite LT. cbn [list_sum fold_right]. lia.
  Qed.
End Local.

Lemma h_star_local ds a x z s e : h_star_world ds x s e -> h_star_world ds (a ++ x ++ z) (length a + s) (length a + e).
Proof. intros (mid & D & O & ->). exists mid. split; [exact D|]. split; [now apply occurs_embed|lia]. Qed.
Lemma h_star_local' ds a x z s e : h_star_world ds (a ++ x ++ z) (length a + s) (length a + e) -> s <= e <= length x -> h_star_world ds x s e.
Proof.
  intros (mid & D & O & E) B. exists mid. split; [exact D|]. split; [|lia]. apply (occurs_part a x z); [exact O|]. rewrite !app_length. cbn [length]. lia.
Qed.
Lemma h_star_sized ds b s e : h_star_world ds b s e -> s < e <= length b.
Proof. intros (mid & D & O & ->). apply occurs_bound in O. rewrite !app_length in O. cbn [length] in O. lia. Qed.

(** * Runs of two joined lists *)
Section Join.
  Context {A : Type} (rel : A -> A -> bool).
  Lemma broken_mid (G : list (list A)) g R : broken rel (G ++ g :: R) <-> broken rel (G ++ [g]) /\ broken rel (g :: R).
  Proof.
    induction G as [|a G IH]; cbn [app].
    - split; [intros H; split; [exact Logic.I|exact H]|tauto].
    - destruct G as [|b G]; cbn [app] in *.
      + change (broken rel (a :: g :: R)) with ((forall d, rel (last a d) (hd d g) = false) /\ broken rel (g :: R)).
        change (broken rel [a; g]) with ((forall d, rel (last a d) (hd d g) = false) /\ True). tauto.
      + change (broken rel (a :: b :: G ++ g :: R)) with ((forall d, rel (last a d) (hd d b) = false) /\ broken rel (b :: G ++ g :: R)).
        change (broken rel (a :: b :: G ++ [g])) with ((forall d, rel (last a d) (hd d b) = false) /\ broken rel (b :: G ++ [g])). tauto.
  Qed.
  Lemma broken_left (G : list (list A)) g g' : (forall d, hd d g = hd d g') -> broken rel (G ++ [g]) -> broken rel (G ++ [g']).
  Proof.
    intros E. induction G as [|a G IH]; cbn [app]; [intros _; exact Logic.I|]. destruct G as [|b G]; cbn [app] in *.
    - intros [H _]. split; [|exact Logic.I]. intros d. rewrite <- E. apply H.
    - intros [H H']. split; [exact H|now apply IH].
  Qed.
  Lemma broken_right g g' (R : list (list A)) : (forall d, last g d = last g' d) -> broken rel (g :: R) -> broken rel (g' :: R).
  Proof.
    intros E. destruct R as [|r R]; [intros _; exact Logic.I|]. intros [H H']. split; [|exact H']. intros d. rewrite <- E. apply H.
  Qed.
  Lemma linked_join (g h : list A) : linked rel g -> linked rel h -> (forall d, g <> [] -> h <> [] -> rel (last g d) (hd d h) = true) -> linked rel (g ++ h).
  Proof.
    induction g as [|x g IH]; intros L1 L2 H; [exact L2|]. destruct g as [|y g]; cbn [app] in *.
    - destruct h as [|z h]; [exact Logic.I|]. split; [|exact L2]. exact (H x ltac:(discriminate) ltac:(discriminate)).
    - destruct L1 as [R L1]. split; [exact R|]. apply IH; [exact L1|exact L2|]. intros d N1 N2. exact (H d ltac:(discriminate) N2).
  Qed.
  Lemma last_join (g h : list A) d : h <> [] -> last (g ++ h) d = last h d.
  Proof.
    intros N. induction g as [|x g IH]; [reflexivity|]. destruct (g ++ h) as [|y t] eqn:E; [destruct g; [contradiction|discriminate]|].
    cbn [app]. rewrite E. rewrite <- IH. reflexivity.
  Qed.
  Lemma hd_join (g h : list A) d : g <> [] -> hd d (g ++ h) = hd d g.
  Proof. now destruct g. Qed.
  Lemma last_default (g : list A) d d' : g <> [] -> last g d = last g d'.
  Proof. induction g as [|x g IH]; intros N; [contradiction|]. destruct g as [|y g]; [reflexivity|]. apply IH. discriminate. Qed.
  Lemma hd_default (g : list A) d d' : g <> [] -> hd d g = hd d' g.
  Proof. now destruct g. Qed.

  Lemma runs_join xs ys G g h H : maximal_runs rel xs (G ++ [g]) -> maximal_runs rel ys (h :: H) ->
    (exists d, rel (last g d) (hd d h) = false) /\ maximal_runs rel (xs ++ ys) (G ++ g :: h :: H) \/
    (exists d, rel (last g d) (hd d h) = true) /\ maximal_runs rel (xs ++ ys) (G ++ (g ++ h) :: H).
  Proof.
    intros (C1 & N1 & L1 & B1) (C2 & N2 & L2 & B2).
    apply Forall_app in N1, L1. destruct N1 as [NG Ng]. destruct L1 as [LG Lg]. inversion Ng as [|? ? Ng' _]; subst. inversion Lg as [|? ? Lg' _]; subst.
    inversion N2 as [|? ? Nh NH]; subst. inversion L2 as [|? ? Lh LH]; subst.
    destruct g as [|d0 g0] eqn:Eg; [congruence|]. rewrite <- Eg in *. clear Eg.
    destruct (rel (last g d0) (hd d0 h)) eqn:R.
    - right. split; [now exists d0|]. split; [|split; [|split]].
      + rewrite !concat_app. cbn [concat]. rewrite app_nil_r, <- !app_assoc. reflexivity.
      + apply Forall_app. split; [exact NG|]. constructor; [|exact NH]. destruct g; [contradiction|discriminate].
      + apply Forall_app. split; [exact LG|]. constructor; [|exact LH]. apply linked_join; [exact Lg'|exact Lh|].
        intros d Z1 Z2. rewrite (last_default g d d0), (hd_default h d d0) by assumption. exact R.
      + apply broken_mid. split.
        * apply (broken_left G g); [|exact B1]. intros d. symmetry. now apply hd_join.
        * apply (broken_right h); [|exact B2]. intros d. symmetry. now apply last_join.
    - left. split; [now exists d0|]. split; [|split; [|split]].
      + rewrite !concat_app. cbn [concat]. rewrite app_nil_r, <- !app_assoc. reflexivity.
      + apply Forall_app. split; [exact NG|]. constructor; [exact Ng'|]. now constructor.
      + apply Forall_app. split; [exact LG|]. constructor; [exact Lg'|]. now constructor.
      + apply broken_mid. split; [exact B1|]. split; [|exact B2].
        intros d. rewrite (last_default g d d0), (hd_default h d d0) by assumption. exact R.
  Qed.
End Join.

Definition is_long (g : list storage_entry) : bool := (half_an_hour <=? span stamp_value g)%N.
Lemma exists_last_or_nil {A} (l : list A) : l = [] \/ exists G g, l = G ++ [g].
Proof. destruct l as [|x l]; [now left|right]. destruct (exists_last (l := x :: l) ltac:(discriminate)) as (G & g & E). now exists G, g. Qed.
Lemma runs_exist {A} (rel : A -> A -> bool) xs : (forall x, rel x x = true) -> exists R, maximal_runs rel xs R.
Proof. intros RR. destruct (grouped_runs rel xs (fun x _ => RR x)) as (R & M & _). now exists R. Qed.

Lemma linked_first (g : list storage_entry) : forall x, linked not_earlier (x :: g) -> (stamp_value x <= stamp_value (last g x))%N.
Proof.
  induction g as [|y g IH]; intros x L; [cbn; lia|]. destruct L as [R L]. unfold not_earlier in R. apply N.leb_le in R. specialize (IH y L).
  replace (last (y :: g) x) with (last g y); [lia|]. destruct g as [|z g]; [reflexivity|]. change (last (y :: z :: g) x) with (last (z :: g) x). apply last_default. discriminate.
Qed.
Lemma span_join g h d : g <> [] -> h <> [] -> linked not_earlier g -> linked not_earlier h -> not_earlier (last g d) (hd d h) = true ->
  (span stamp_value g <= span stamp_value (g ++ h))%N /\ (span stamp_value h <= span stamp_value (g ++ h))%N.
Proof.
  intros N1 N2 L1 L2 R. destruct g as [|x g]; [contradiction|]. destruct h as [|y h]; [contradiction|]. unfold not_earlier in R. apply N.leb_le in R. cbn [hd] in R.
  cbn [app span].
  assert (E1 : last (x :: g) d = last g x).
  { destruct g as [|z g]; [reflexivity|]. change (last (x :: z :: g) d) with (last (z :: g) d). apply last_default. discriminate. }
  assert (E2 : last (g ++ y :: h) x = last h y).
  { rewrite last_join by discriminate. destruct h as [|z h]; [reflexivity|]. change (last (y :: z :: h) x) with (last (z :: h) x). apply last_default. discriminate. }
  rewrite E1 in R. rewrite E2. pose proof (linked_first _ _ L1). pose proof (linked_first _ _ L2). lia.
Qed.

Lemma long_join xs ys R1 R2 R : maximal_runs not_earlier xs R1 -> maximal_runs not_earlier ys R2 -> maximal_runs not_earlier (xs ++ ys) R ->
  length (filter is_long R) <= length (filter is_long R1) + length (filter is_long R2) + 1 /\
  length (filter is_long R1) + length (filter is_long R2) <= length (filter is_long R) + 1.
Proof.
  intros M1 M2 M. destruct R2 as [|h H].
  { assert (ys = []) by (destruct M2 as (C & _); now rewrite <- C). subst ys. rewrite app_nil_r in M. rewrite (runs_unique not_earlier xs R R1 M M1). cbn [filter length]. lia. }
  destruct (exists_last_or_nil R1) as [->|(G & g & ->)].
  { assert (xs = []) by (destruct M1 as (C & _); now rewrite <- C). subst xs. cbn [app] in M. rewrite (runs_unique not_earlier ys R (h :: H) M M2). cbn [filter length]. lia. }
  destruct (runs_join not_earlier xs ys G g h H M1 M2) as [(_ & J)|((d & T) & J)]; rewrite (runs_unique not_earlier _ R _ M J); rewrite !filter_app, !app_length; cbn [filter].
  - destruct (is_long g), (is_long h); cbn [length]; lia.
  - destruct M1 as (_ & N1 & L1 & _). destruct M2 as (_ & N2 & L2 & _). apply Forall_app in N1, L1. destruct N1 as [_ N1]. destruct L1 as [_ L1].
    inversion N1; inversion L1; inversion N2; inversion L2; subst.
    destruct (span_join g h d) as [S1 S2]; try assumption. unfold is_long.
    destruct (N.leb_spec half_an_hour (span stamp_value g)), (N.leb_spec half_an_hour (span stamp_value h)), (N.leb_spec half_an_hour (span stamp_value (g ++ h))); cbn [length]; lia.
Qed.
Lemma long_parts ess Rs R : Forall2 (fun es r => maximal_runs not_earlier es r) ess Rs -> maximal_runs not_earlier (concat ess) R ->
  length (filter is_long R) <= list_sum (map (fun r => length (filter is_long r)) Rs) + (length ess - 1) /\
  list_sum (map (fun r => length (filter is_long r)) Rs) <= length (filter is_long R) + (length ess - 1).
Proof.
  intros F. revert R. induction F as [|es r ess Rs M F IH]; intros R MR; cbn [concat] in MR.
  - destruct R as [|g R]; [cbn; lia|]. exfalso. destruct MR as (C & N & _). inversion N; subst. destruct g; [congruence|discriminate C].
  - cbn [map list_sum fold_right length]. change (fold_right Nat.add 0) with list_sum. inversion F as [E1 E2|e2 r2 ess' Rs' M' F' E1 E2].
    + subst. cbn [concat] in MR. rewrite app_nil_r in MR. rewrite (runs_unique not_earlier _ R r MR M). cbn [map list_sum fold_right length]. lia.
    + destruct (runs_exist not_earlier (concat ess) ltac:(intros x; apply N.leb_refl)) as (R2 & M2). destruct (IH R2 M2) as [I1 I2].
      destruct (long_join _ _ _ _ _ M M2 MR) as [J1 J2]. subst ess Rs. cbn [length] in *. lia.
Qed.
