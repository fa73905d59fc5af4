(** partition_from (C31-C34). *)
From Verif Require Import Base DltModel MatchModel GenModel ToolsModel Spec BaseFacts DltFacts CodecFacts ParseFacts FindFacts IterFacts DltIterFacts LayoutFacts GrepTools ContainFacts.
From Coq Require Import Sorted Permutation.

Opaque dlt_max_len.

(** The position where the loop cuts when asked to cut at [c]. *)
Definition cut_of (b : bytes) (c : nat) : nat :=
  match cb b c (c + 1) with Ret (Some (k, _)) => k | _ => c end.
Lemma cut_le b c : cut_of b c <= c.
Proof.
  unfold cut_of. destruct (le_lt_dec (length b) (c + 1)) as [L|L].
  { cbn [contained_by]. destruct (Nat.leb_spec (length b) (c + 1)); [|lia].
    rewrite Bool.orb_true_r. cbn. lia. }
  destruct (cb_spec b c (c + 1) ltac:(lia) L) as [(i & n & t & -> & H & _)|(-> & _)]; lia.
Qed.

Lemma partition_step fuel b size c0 c1 :
  partition_loop DLT (S fuel) b size c0 c1 =
  if (length b <? c0) || (length b <? c1) then Ret []
  else if cut_of b c1 <=? c0 then Ret []
  else if length b <=? cut_of b c1 + size / 4 then Ret [skipn c0 b]
  else match partition_loop DLT fuel b size (cut_of b c1) (cut_of b c1 + size) with
       | Ret rest => Ret (firstn (cut_of b c1 - c0) (skipn c0 b) :: rest)
       | Panic => Panic | Fuel => Fuel end.
Proof.
  cbn [partition_loop]. destruct (Nat.ltb_spec (length b) c0) as [L|L]; [reflexivity|].
  destruct (Nat.ltb_spec (length b) c1) as [L'|L']; [reflexivity|]. cbn [orb].
  assert (E : exists r, cb b c1 (c1 + 1) = Ret r).
  { destruct (contained_by_total b c1 (c1 + 1)) as [r R]. exists r. apply R. lia. }
  destruct E as [r E]. rewrite E. cbn [obind].
  assert (C : cut_of b c1 = match r with Some (k, _) => k | None => c1 end).
  { unfold cut_of. rewrite E. now destruct r as [[k t]|]. }
  rewrite <- C. pose proof (cut_le b c1) as CL.
  destruct (Nat.leb_spec (cut_of b c1) c0) as [K|K]; [reflexivity|].
  rewrite slice_from_ok by lia. rewrite slice_ok by lia. cbn [obind]. reflexivity.
Qed.

(** C31 *)
Lemma loop_pieces b size : forall fuel c0 c1, length b - c0 < fuel ->
  exists l rest, partition_loop DLT fuel b size c0 c1 = Ret l /\ Forall (fun p => p <> []) l /\
    skipn c0 b = concat l ++ rest.
Proof.
  induction fuel as [|fuel IH]; intros c0 c1 H; [lia|]. rewrite partition_step.
  pose proof (cut_le b c1) as CL.
  assert (E0 : exists l rest, Ret [] = Ret l /\ Forall (fun p => p <> []) l /\ skipn c0 b = concat l ++ rest).
  { exists [], (skipn c0 b). repeat split. constructor. }
  destruct (Nat.ltb_spec (length b) c0) as [L|L]; [exact E0|].
  destruct (Nat.ltb_spec (length b) c1) as [L'|L']; [exact E0|]. cbn [orb].
  destruct (Nat.leb_spec (cut_of b c1) c0) as [K|K]; [exact E0|].
  destruct (Nat.leb_spec (length b) (cut_of b c1 + size / 4)) as [Q|Q].
  - exists [skipn c0 b], []. split; [reflexivity|]. split; [|cbn; now rewrite !app_nil_r].
    constructor; [|constructor]. intros E. apply (f_equal (@length byte)) in E.
    rewrite skipn_length in E. cbn in E. lia.
  - destruct (IH (cut_of b c1) (cut_of b c1 + size)) as (l & rest & -> & F & E); [lia|].
    eexists. exists rest. split; [reflexivity|]. split.
    + constructor; [|exact F]. intros X. apply (f_equal (@length byte)) in X.
      rewrite firstn_length, skipn_length in X. cbn in X. lia.
    + cbn [concat]. rewrite <- app_assoc, <- E.
      replace (cut_of b c1) with (c0 + (cut_of b c1 - c0)) at 2 by lia.
      rewrite <- skipn_skipn'. symmetry. apply firstn_skipn.
Qed.
Lemma partition_pieces b num : 0 < num ->
  exists l rest, partition_from DLT b num = Ret l /\ Forall (fun p => p <> []) l /\ b = concat l ++ rest.
Proof.
  intros H. unfold partition_from. destruct (Nat.eqb_spec num 0); [lia|].
  exact (loop_pieces b (length b / num) (S (length b)) 0 (length b / num) ltac:(lia)).
Qed.

(** * Splitting a layout at a cut *)
Lemma placed_shift parts : forall c d, placed (c + d) parts = map (fun p => (c + fst p, snd p)) (placed d parts).
Proof.
  induction parts as [|[j m] ps IH]; intros c d; [reflexivity|]. cbn [placed map fst snd].
  f_equal; [f_equal; lia|]. rewrite <- IH. f_equal. lia.
Qed.
Lemma placed_shift_in parts c k m : In (k, m) (placed c parts) <-> exists k', k = c + k' /\ In (k', m) (placed 0 parts).
Proof.
  replace c with (c + 0) at 1 by lia. rewrite placed_shift, in_map_iff. split.
  - intros ([k' m'] & E & I). cbn in E. injection E as <- <-. now exists k'.
  - intros (k' & -> & I). exists (k', m). now split.
Qed.

Lemma layout_split parts : forall last c base, c <= length (layout parts last) ->
  (forall k m, In (k, m) (placed base parts) -> base + c <= k \/ k + length m <= base + c) ->
  exists ps1 l1 ps2 l2,
    firstn c (layout parts last) = layout ps1 l1 /\ skipn c (layout parts last) = layout ps2 l2 /\
    map snd parts = map snd ps1 ++ map snd ps2 /\
    placed base parts = placed base ps1 ++ placed (base + c) ps2.
Proof.
  induction parts as [|[j m] ps IH]; intros last c base Hc B.
  - exists [], (firstn c last), [], (skipn c last). repeat split.
  - cbn [layout placed map snd] in *. rewrite !app_length in Hc.
    destruct (le_lt_dec c (length j)) as [K|K].
    + exists [], (firstn c j), ((skipn c j, m) :: ps), last.
      cbn [layout placed map snd app]. rewrite !firstn_app, !skipn_app.
      replace (c - length j) with 0 by lia. cbn [firstn skipn]. rewrite app_nil_r.
      split; [reflexivity|]. split; [reflexivity|]. split; [reflexivity|].
      rewrite skipn_length. replace (base + c + (length j - c)) with (base + length j) by lia. reflexivity.
    + destruct (B (base + length j) m (or_introl eq_refl)) as [X|X]; [lia|].
      destruct (IH last (c - length j - length m) (base + length j + length m)) as (ps1 & l1 & ps2 & l2 & A1 & A2 & A3 & A4).
      { lia. }
      { intros k m' I. specialize (B k m' (or_intror I)). lia. }
      exists ((j, m) :: ps1), l1, ps2, l2. cbn [layout placed map snd app].
      rewrite !firstn_app, !skipn_app, A1, A2, A3, A4.
      rewrite (firstn_all2 j), (firstn_all2 m), (skipn_all2 j), (skipn_all2 m) by lia.
      split; [reflexivity|]. split; [reflexivity|]. split; [reflexivity|].
      replace (base + length j + length m + (c - length j - length m)) with (base + c) by lia. reflexivity.
Qed.

Lemma valid_of_map parts ps1 ps2 : Forall (fun p : bytes * bytes => valid_message (snd p)) parts ->
  map snd parts = map snd ps1 ++ map snd ps2 ->
  Forall (fun p : bytes * bytes => valid_message (snd p)) ps1 /\ Forall (fun p : bytes * bytes => valid_message (snd p)) ps2.
Proof.
  intros V E.
  assert (X : forall (l : list (bytes * bytes)), Forall (fun p => valid_message (snd p)) l <-> Forall valid_message (map snd l)).
  { intros l. rewrite !Forall_forall. split.
    - intros H x I. apply in_map_iff in I. destruct I as (p & <- & I). now apply H.
    - intros H p I. apply H. now apply in_map. }
  rewrite X in V. rewrite E in V. apply Forall_app in V. now rewrite !X.
Qed.

Lemma enclosed_split parts last c : enclosed parts last -> c <= length (layout parts last) ->
  between (placed 0 parts) c ->
  exists ps1 l1 ps2 l2,
    firstn c (layout parts last) = layout ps1 l1 /\ skipn c (layout parts last) = layout ps2 l2 /\
    map snd parts = map snd ps1 ++ map snd ps2 /\
    enclosed ps1 l1 /\ enclosed ps2 l2 /\
    forall x, between (placed 0 parts) (c + x) -> between (placed 0 ps2) x.
Proof.
  intros [V EN] Hc B.
  destruct (layout_split parts last c 0 Hc B) as (ps1 & l1 & ps2 & l2 & A1 & A2 & A3 & A4).
  cbn [Nat.add] in A4. exists ps1, l1, ps2, l2.
  destruct (valid_of_map parts ps1 ps2 V A3) as [V1 V2].
  assert (L1 : length (layout ps1 l1) = c) by (rewrite <- A1, firstn_length; lia).
  assert (W : layout parts last = layout ps1 l1 ++ layout ps2 l2) by (rewrite <- A1, <- A2; symmetry; apply firstn_skipn).
  split; [exact A1|]. split; [exact A2|]. split; [exact A3|].
  assert (C1 : enclosed ps1 l1).
  { split; [exact V1|]. intros k (p & q & E & Lp).
    destruct (EN k) as (k' & m & I & K1 & K2).
    { exists p, (q ++ layout ps2 l2). split; [rewrite W, E; now rewrite <- !app_assoc|exact Lp]. }
    rewrite A4 in I. apply in_app_iff in I. destruct I as [I|I]; [now exists k', m|].
    apply placed_ge in I. apply (f_equal (@length byte)) in E. rewrite L1, !app_length in E. cbn in E. lia. }
  split; [exact C1|]. split.
  - split; [exact V2|]. intros k (p & q & E & Lp).
    destruct (EN (c + k)) as (k' & m & I & K1 & K2).
    { exists (layout ps1 l1 ++ p), q. split; [rewrite W, E; now rewrite <- !app_assoc|rewrite app_length; lia]. }
    rewrite A4 in I. apply in_app_iff in I. destruct I as [I|I].
    + pose proof (placed_end ps1 l1 k' m I). lia.
    + apply placed_shift_in in I. destruct I as (k2 & -> & I). exists k2, m. split; [exact I|]. lia.
  - intros x Bx k m I. specialize (Bx (c + k) m). destruct Bx as [Y|Y]; [|lia|lia].
    rewrite A4. apply in_app_iff. right. apply placed_shift_in. now exists k.
Qed.

Lemma enclosed_ok parts last : enclosed parts last -> parts_ok parts /\ ~ occurs_in the_pattern last.
Proof.
  intros [V C].
  assert (G : forall pre ps, Forall (fun p => valid_message (snd p)) ps ->
    (forall k, occurs_at the_pattern (layout ps last) k ->
       exists k' m, In (k', m) (placed pre ps) /\ k' <= pre + k /\ pre + k + 4 <= k' + length m) ->
    parts_ok ps /\ ~ occurs_in the_pattern last).
  { clear. intros pre ps. revert pre. induction ps as [|[j m] ps IH]; intros pre V C.
    - split; [constructor|]. intros [k O]. destruct (C k O) as (k' & m & [] & _).
    - inversion V as [|x y V1 V2]; subst. cbn [layout placed] in C.
      assert (NJ : ~ occurs_in the_pattern j).
      { intros (k & p & q & -> & Lp). destruct (C k) as (k' & m' & [E|I] & K1 & K2).
        - exists p, (q ++ m ++ layout ps last). split; [now rewrite <- !app_assoc|exact Lp].
        - injection E as E _. rewrite !app_length in E. cbn in E. lia.
        - apply placed_ge in I. rewrite !app_length in I. cbn in I. lia. }
      destruct (IH (pre + length j + length m) V2) as [I1 I2].
      + intros k (p & q & E & Lp). destruct (C (length j + length m + k)) as (k' & m' & [E'|I] & K1 & K2).
        * exists (j ++ m ++ p), q. split; [rewrite E; now rewrite <- !app_assoc|rewrite !app_length; lia].
        * injection E' as E' <-. lia.
        * exists k', m'. split; [exact I|]. lia.
      + split; [constructor; [split; [exact NJ|exact V1]|exact I1]|exact I2]. }
  apply (G 0 parts V). intros k O. apply C. exact O.
Qed.

(** * The cuts of an enclosed layout *)
Section Layout.
  Variables (parts : list (bytes * bytes)) (last : bytes).
  Notation b := (layout parts last).
  Notation ms := (placed 0 parts).
  Hypothesis EN : enclosed parts last.
  Hypothesis MX : at_most 65536 parts.

  Lemma between_dec c : between ms c \/ exists k m, In (k, m) ms /\ k < c < k + length m.
  Proof.
    unfold between. induction ms as [|[k m] l IH]; [left; intros ? ? []|].
    destruct (le_lt_dec c k) as [A|A].
    - destruct IH as [IH|(k' & m' & I & H)].
      + left. intros k' m' [E|I]; [injection E as <- <-; lia|now apply IH].
      + right. exists k', m'. split; [now right|exact H].
    - destruct (le_lt_dec (k + length m) c) as [B|B].
      + destruct IH as [IH|(k' & m' & I & H)].
        * left. intros k' m' [E|I]; [injection E as <- <-; lia|now apply IH].
        * right. exists k', m'. split; [now right|exact H].
      + right. exists k, m. split; [now left|lia].
  Qed.

  Lemma cut_cases c : c <= length b ->
    (between ms (cut_of b c) /\
       (cut_of b c = c \/ exists m, In (cut_of b c, m) ms /\ cut_of b c < c < cut_of b c + length m)) \/
    (c + 1 = length b /\ cut_of b c = c /\ exists k m, In (k, m) ms /\ k < c /\ k + length m = length b).
  Proof.
    intros H. unfold cut_of. destruct (between_dec c) as [B|(k & m & I & K)].
    - left. rewrite (cb_between parts last EN MX c (c + 1) B) by lia. split; [exact B|now left].
    - pose proof (placed_end parts last k m I) as E. destruct (le_lt_dec (length b) (c + 1)) as [L|L].
      + right. split; [lia|]. split; [|exists k, m; repeat split; try assumption; lia].
        cbn [contained_by]. destruct (Nat.leb_spec (length b) (c + 1)); [|lia].
        now rewrite Bool.orb_true_r.
      + left. rewrite (cb_inside parts last EN MX k m c (c + 1) I) by lia. split.
        * intros k' m' I'. destruct (placed_cases parts 0 k m k' m' I I') as [Q|[Q|Q]]; [|lia|lia].
          injection Q as <- <-. lia.
        * right. exists m. split; [exact I|lia].
  Qed.

  Lemma loop_between size : forall fuel c0, length b - c0 < fuel -> between ms c0 -> c0 <= length b ->
    forall l, partition_loop DLT fuel b size c0 (c0 + size) = Ret l ->
    forall l1 l2, l = l1 ++ l2 -> between ms (c0 + length (concat l1)).
  Proof.
    assert (END : between ms (length b)).
    { intros k m I. right. exact (placed_end parts last k m I). }
    induction fuel as [|fuel IH]; intros c0 H B0 Hc l E l1 l2 Q; [lia|].
    rewrite partition_step in E.
    assert (NIL : l = [] -> between ms (c0 + length (concat l1))).
    { intros ->. symmetry in Q. apply app_eq_nil in Q. destruct Q as [-> _]. cbn. now rewrite Nat.add_0_r. }
    destruct (Nat.ltb_spec (length b) c0) as [L|L]; [apply NIL; cbn in E; congruence|].
    destruct (Nat.ltb_spec (length b) (c0 + size)) as [L'|L']; [apply NIL; cbn in E; congruence|]. cbn [orb] in E.
    set (c := cut_of b (c0 + size)) in *.
    destruct (Nat.leb_spec c c0) as [K|K]; [apply NIL; congruence|].
    destruct (Nat.leb_spec (length b) (c + size / 4)) as [Z|Z].
    - injection E as <-. destruct l1 as [|x l1]; [cbn; now rewrite Nat.add_0_r|].
      cbn [app] in Q. injection Q as <- Q. symmetry in Q. apply app_eq_nil in Q. destruct Q as [-> _].
      cbn [concat]. rewrite app_nil_r, skipn_length. now replace (c0 + (length b - c0)) with (length b) by lia.
    - assert (Bc : between ms c).
      { destruct (cut_cases (c0 + size) L') as [[X _]|(X1 & X2 & k & m & I & X3 & X4)]; [exact X|].
        exfalso. fold c in X2. specialize (B0 k m I).
        assert (20 <= length m) by apply (en_message parts last EN k m I).
        assert (19 <= size) by lia. pose proof (Nat.div_le_mono 4 size 4 ltac:(lia) ltac:(lia)) as D.
        change (4 / 4) with 1 in D. lia. }
      assert (Cc : c <= c0 + size) by apply cut_le.
      destruct (partition_loop DLT fuel b size c (c + size)) as [rest| |] eqn:R; try discriminate.
      injection E as <-. destruct l1 as [|x l1]; [cbn; now rewrite Nat.add_0_r|].
      cbn [app] in Q. injection Q as <- Q. cbn [concat]. rewrite app_length, firstn_length, skipn_length.
      replace (c0 + (Init.Nat.min (c - c0) (length b - c0) + length (concat l1))) with (c + length (concat l1)) by lia.
      apply (IH c ltac:(lia) Bc ltac:(lia) rest R l1 l2 Q).
  Qed.

  Lemma partition_between num l : partition_from DLT b num = Ret l ->
    forall l1 l2, l = l1 ++ l2 -> between ms (length (concat l1)).
  Proof.
    unfold partition_from. destruct (num =? 0); [discriminate|]. intros E l1 l2 Q.
    apply (loop_between (length b / num) (S (length b)) 0 ltac:(lia)) with (l := l) (l2 := l2); try assumption; [|lia].
    intros k m I. left. lia.
  Qed.

  (** C33: enough room per partition. *)
  Lemma loop_exact M num size : 0 < M -> 0 < length b -> at_most (N.of_nat M) parts -> size = length b / num ->
    num * M <= size / 4 + 1 -> forall todo fuel c0 i, length b - c0 < fuel -> i + todo = num -> 0 < todo ->
    between ms c0 -> i * size <= c0 + i * (M - 1) -> c0 <= i * size ->
    exists l, partition_loop DLT fuel b size c0 (c0 + size) = Ret l /\ length l = todo /\ concat l = skipn c0 b.
  Proof.
    intros HM Hne AM Hsize Hroom. induction todo as [|todo IH]; intros fuel c0 i Hf Hi Ht Bc H1 H2; [lia|].
    destruct fuel as [|fuel]; [lia|]. rewrite partition_step.
    assert (Hn : num <> 0) by lia.
    assert (Hlen : num * size <= length b) by (rewrite Hsize; apply Nat.mul_div_le; exact Hn).
    assert (Hlen2 : length b < num * size + num).
    { rewrite Hsize. pose proof (Nat.mul_succ_div_gt (length b) num Hn). lia. }
    assert (D4 : 4 * (size / 4) <= size) by (apply Nat.mul_div_le; lia).
    assert (Hs : M <= size / 4 + 1) by nia.
    assert (Hi1 : c0 + size <= (i + 1) * size) by lia.
    assert (Hi2 : (i + 1) * size <= num * size) by (apply Nat.mul_le_mono_r; lia).
    destruct (Nat.ltb_spec (length b) c0) as [L|L]; [lia|].
    destruct (Nat.ltb_spec (length b) (c0 + size)) as [L'|L']; [lia|]. cbn [orb].
    pose proof (cut_le b (c0 + size)) as CL.
    assert (CC : (between ms (cut_of b (c0 + size)) /\ c0 + size <= cut_of b (c0 + size) + (M - 1)) \/
                 (cut_of b (c0 + size) = c0 + size /\ c0 + size + 1 = length b)).
    { destruct (cut_cases (c0 + size) L') as [[X [Y|(m & I & Y)]]|(X1 & X2 & _)].
      - left. split; [exact X|lia].
      - left. split; [exact X|]. unfold at_most in AM. rewrite Forall_forall in AM.
        destruct (placed_part _ _ _ _ I) as [j J]. specialize (AM _ J). cbn in AM. lia.
      - right. split; [exact X2|exact X1]. }
    set (c := cut_of b (c0 + size)) in *.
    assert (Hsz : size = 0 \/ 1 <= size) by lia.
    destruct (Nat.eq_dec size 0) as [S0|S0].
    { (* then num * M <= 1, so num = 1 and the file is empty *)
      exfalso. rewrite S0 in Hroom. change (0 / 4) with 0 in Hroom.
      assert (num = 1) by nia. lia. }
    assert (Kc : c0 < c).
    { destruct CC as [[_ X]|[X _]]; [|lia].
      assert (M - 1 <= size / 4) by lia. assert (size / 4 < size) by lia. lia. }
    destruct (Nat.leb_spec c c0); [lia|].
    destruct (Nat.leb_spec (length b) (c + size / 4)) as [Z|Z].
    - assert (todo = 0).
      { destruct todo as [|todo]; [reflexivity|]. exfalso.
        assert ((i + 2) * size <= num * size) by (apply Nat.mul_le_mono_r; lia).
        assert (size / 4 < size) by lia. lia. }
      subst todo. exists [skipn c0 b]. split; [reflexivity|]. split; [reflexivity|].
      cbn. apply app_nil_r.
    - destruct todo as [|todo].
      { exfalso. destruct CC as [[_ X]|[X1 X2]].
        - assert (E : i + 1 = num) by lia. assert (i * (M - 1) + (M - 1) = num * (M - 1)) by nia.
          assert (num * (M - 1) + num = num * M) by nia.
          assert (i * size + size = num * size) by nia. lia.
        - destruct (Nat.eq_dec (size / 4) 0) as [S4|S4]; [|lia].
          assert (num = 1) by nia. subst num. assert (M = 1) by lia. assert (i = 0) by lia. subst i. lia. }
      destruct CC as [[Bn X]|[X1 X2]].
      2:{ exfalso. assert ((i + 2) * size <= num * size) by (apply Nat.mul_le_mono_r; lia).
          destruct (Nat.eq_dec size 1) as [S1|S1]; [|lia].
          rewrite S1 in Hroom. change (1 / 4) with 0 in Hroom. nia. }
      destruct (IH fuel c (i + 1) ltac:(lia) ltac:(lia) ltac:(lia) Bn ltac:(lia) ltac:(lia)) as (l & -> & E1 & E2).
      eexists. split; [reflexivity|]. split; [cbn; now rewrite E1|]. cbn [concat]. rewrite E2.
      replace c with (c0 + (c - c0)) at 2 by lia. rewrite <- skipn_skipn'. apply firstn_skipn.
  Qed.

  Lemma partition_covers M num : 0 < num -> 0 < M -> 0 < length b -> at_most (N.of_nat M) parts ->
    num * M <= (length b / num) / 4 + 1 ->
    exists l, partition_from DLT b num = Ret l /\ length l = num /\ concat l = b.
  Proof.
    intros Hn HM Hne AM Hr. unfold partition_from. destruct (Nat.eqb_spec num 0); [lia|].
    apply (loop_exact M num (length b / num) HM Hne AM eq_refl Hr num (S (length b)) 0 0); try lia.
    intros k m I. lia.
  Qed.
End Layout.

(** * Partitions as files of whole messages *)
Lemma chunks_of : forall l parts last rest, layout parts last = concat l ++ rest -> enclosed parts last ->
  (forall l1 l2, l = l1 ++ l2 -> between (placed 0 parts) (length (concat l1))) ->
  exists chunks parts' last',
    l = map (fun c => layout (fst c) (snd c)) chunks /\
    Forall (fun c => enclosed (fst c) (snd c)) chunks /\
    rest = layout parts' last' /\ enclosed parts' last' /\
    map snd parts = concat (map (fun c => map snd (fst c)) chunks) ++ map snd parts'.
Proof.
  induction l as [|p l IH]; intros parts last rest E EN B.
  - exists [], parts, last. cbn in *. repeat split; try apply EN; [constructor|now symmetry].
  - cbn [concat] in E. rewrite <- app_assoc in E.
    assert (B1 : between (placed 0 parts) (length p)).
    { specialize (B [p] l eq_refl). cbn in B. now rewrite app_nil_r in B. }
    destruct (enclosed_split parts last (length p) EN) as (ps1 & l1 & ps2 & l2 & A1 & A2 & A3 & A4 & A5 & A6);
      [rewrite E, app_length; lia|exact B1|].
    rewrite E in A1, A2. rewrite firstn_app_exact in A1 by reflexivity. rewrite skipn_app_exact in A2 by reflexivity.
    destruct (IH ps2 l2 rest (eq_sym A2) A5) as (chunks & parts' & last' & C1 & C2 & C3 & C4 & C5).
    { intros q1 q2 Q. apply A6. specialize (B (p :: q1) q2). cbn [concat app] in B. rewrite app_length in B.
      apply B. now rewrite Q. }
    exists ((ps1, l1) :: chunks), parts', last'. cbn [map fst snd concat].
    split; [now rewrite <- C1, A1|]. split; [now constructor|]. split; [exact C3|]. split; [exact C4|].
    rewrite A3, C5. apply app_assoc.
Qed.

Lemma partition_chunks parts last num l : enclosed parts last -> at_most 65536 parts ->
  partition_from DLT (layout parts last) num = Ret l ->
  exists chunks parts' last',
    l = map (fun c => layout (fst c) (snd c)) chunks /\
    Forall (fun c => enclosed (fst c) (snd c)) chunks /\
    layout parts last = concat l ++ layout parts' last' /\ enclosed parts' last' /\
    map snd parts = concat (map (fun c => map snd (fst c)) chunks) ++ map snd parts'.
Proof.
  intros EN MX E. destruct (Nat.eq_dec num 0) as [->|Hn]; [discriminate|].
  destruct (partition_pieces (layout parts last) num ltac:(lia)) as (l' & rest & E' & _ & Q).
  assert (l' = l) by congruence. subst l'.
  destruct (chunks_of l parts last rest Q EN) as (chunks & parts' & last' & C1 & C2 & C3 & C4 & C5).
  { exact (partition_between parts last EN MX num l E). }
  exists chunks, parts', last'. split; [exact C1|]. split; [exact C2|]. split; [now rewrite <- C3|]. now split.
Qed.

(** Counting. *)
Lemma placed_len parts : forall k, length (placed k parts) = length parts.
Proof. induction parts as [|[j m] ps IH]; intros k; [reflexivity|]. cbn. now rewrite IH. Qed.
Lemma shows_len l ms : shows l ms -> length l = length ms.
Proof. induction 1; cbn; congruence. Qed.
Lemma count_layout parts last : enclosed parts last -> count (layout parts last) = Ret (length parts).
Proof.
  intros EN. destruct (enclosed_ok parts last EN) as [OK NL].
  destruct (layout_read parts last OK NL) as (l & _ & S & D).
  unfold count. rewrite D. cbn [obind]. rewrite map_length, (shows_len _ _ S), placed_len. reflexivity.
Qed.
Lemma mapM_ret {A B} (f : A -> outcome B) (g : A -> B) l :
  (forall x, In x l -> f x = Ret (g x)) -> mapM f l = Ret (map g l).
Proof.
  induction l as [|x l IH]; intros H; [reflexivity|]. cbn [mapM map]. rewrite H by now left. cbn [obind].
  rewrite IH by (intros; apply H; now right). reflexivity.
Qed.
Definition total (l : list nat) : nat := fold_right Nat.add 0 l.
Lemma total_app l l' : total (l ++ l') = total l + total l'.
Proof. induction l as [|x l IH]; [reflexivity|]. cbn. unfold total in *. rewrite IH. lia. Qed.
Lemma sum_perm (l l' : list nat) : Permutation l l' -> list_sum l = list_sum l'.
Proof. unfold list_sum. induction 1; cbn [fold_right] in *; lia. Qed.
Lemma reduce_add t : reduce_tree 0 Nat.add t = total (leaves t).
Proof.
  induction t as [|a|l IHl r IHr]; cbn [reduce_tree leaves]; [reflexivity|cbn; lia|].
  now rewrite total_app, IHl, IHr.
Qed.

Lemma multithreaded_count sched num parts last :
  fair_sched sched -> enclosed parts last -> at_most 65536 parts -> 0 < num ->
  exists n, multithreaded sched num count (layout parts last) = Ret n /\ n <= length parts /\
    forall l, partition_from DLT (layout parts last) num = Ret l -> concat l = layout parts last -> n = length parts.
Proof.
  intros HS EN MX Hn.
  destruct (partition_pieces (layout parts last) num Hn) as (l & rest & E & _ & _).
  destruct (partition_chunks parts last num l EN MX E) as (chunks & parts' & last' & C1 & C2 & C3 & C4 & C5).
  unfold multithreaded. rewrite E. cbn [obind].
  assert (MM : mapM count l = Ret (map (fun c => length (fst c)) chunks)).
  { rewrite C1. clear - C2. induction C2 as [|c cs EN _ IH]; [reflexivity|]. cbn [map mapM].
    rewrite (count_layout _ _ EN). cbn [obind]. now rewrite IH. }
  rewrite MM. cbn [obind].
  eexists. split; [reflexivity|]. rewrite reduce_add.
  assert (SP : forall l, total (leaves (sched nat l)) = total l) by (intros; apply (sum_perm _ _ (HS nat _))). rewrite SP.
  assert (T : length parts = total (map (fun c : list (bytes * bytes) * bytes => length (fst c)) chunks) + length parts').
  { apply (f_equal (@length bytes)) in C5. rewrite map_length, app_length, map_length in C5. rewrite C5. f_equal.
    clear. induction chunks as [|c cs IH]; [reflexivity|]. cbn [map concat]. rewrite app_length, map_length, IH. reflexivity. }
  split; [lia|]. intros l0 E0 Q0. assert (l0 = l) by congruence. subst l0. rewrite Q0 in C3.
  assert (parts' = []); [|subst; cbn in T; lia].
  destruct parts' as [|[j m] ps]; [reflexivity|]. exfalso.
  apply (f_equal (@length byte)) in C3. rewrite app_length in C3. cbn [layout] in C3. rewrite !app_length in C3.
  destruct C4 as [V _]. inversion V as [|x y V1 _]; subst. cbn in V1. destruct V1 as (_ & V1 & _). lia.
Qed.
