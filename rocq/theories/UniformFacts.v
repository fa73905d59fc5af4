(** Facts for C100: partitions of files of equal messages. *)
From Verif Require Import Base DltModel MatchModel Spec PipeSpec BaseFacts DltFacts CodecFacts ParseFacts FindFacts IterFacts DltIterFacts LayoutFacts
  ContainFacts PartitionFacts.
From Coq Require Import ZifyBool ZifyNat ZifyN.

(** In a file of messages without gaps every pattern lies inside a message. *)
Lemma enclosed_bare ms : Forall valid_message ms -> enclosed (bare ms) [].
Proof.
  intros V. split; [apply Forall_map; exact V|]. rewrite layout_bare, placed_bare.
  assert (G : forall pre k, occurs_at the_pattern (concat ms) k ->
    exists k' m, In (k', m) (with_offsets (@length byte) pre ms) /\ k' <= pre + k /\ pre + k + 4 <= k' + length m).
  { induction V as [|m ms Vm V IH]; intros pre k (p & q & E & Lp).
    - apply (f_equal (@length byte)) in E. rewrite !app_length in E. cbn in E. lia.
    - cbn [concat with_offsets] in *. destruct (le_lt_dec (length m) k) as [L|L].
      + destruct (IH (pre + length m) (k - length m)) as (k' & m' & I & H1 & H2).
        * exists (skipn (length m) p), q. split; [|rewrite skipn_length; lia].
          apply (f_equal (skipn (length m))) in E. rewrite skipn_app_exact in E by reflexivity. rewrite E, skipn_app.
          replace (length m - length p) with 0 by lia. reflexivity.
        * exists k', m'. split; [now right|lia].
      + destruct (le_lt_dec (k + 4) (length m)) as [L'|L']; [exists pre, m; split; [now left|lia]|].
        exfalso. destruct ms as [|m' ms].
        * cbn [concat] in E. apply (f_equal (@length byte)) in E. rewrite app_nil_r, !app_length in E. cbn in E. lia.
        * inversion V as [|x y (Vp & Vl & _) _]; subst x y.
          assert (N1 : nth (length m) (m ++ concat (m' :: ms)) x00 = x44).
          { rewrite app_nth2, Nat.sub_diag by lia. cbn [concat]. rewrite app_nth1 by lia.
            destruct m' as [|c m']; [cbn in Vl; lia|]. cbn [firstn the_pattern] in Vp. injection Vp as -> _. reflexivity. }
          rewrite E, app_nth2 in N1 by lia. rewrite app_nth1 in N1 by (cbn [length the_pattern]; lia).
          remember (length m - length p) as j. assert (j = 1 \/ j = 2 \/ j = 3) as [-> | [-> | ->]] by lia; discriminate N1. }
  exact (G 0).
Qed.

Lemma in_skipn {A : Type} (l : list A) k x : In x (skipn k l) -> In x l.
Proof. intros H. rewrite <- (firstn_skipn k l). apply in_or_app. now right. Qed.
Lemma sub1 (a b : nat) : a - b - 1 = a - 1 - b.
Proof. lia. Qed.
Lemma sub2 (a b c : nat) : b < a -> a - 1 + 1 - c = a - c /\ a - 1 - b + 1 - c = a - b - c.
Proof. lia. Qed.
Section Equal.
  Variables (ms : list bytes) (L : nat).
  Hypothesis V : Forall valid_message ms.
  Hypothesis EL : Forall (fun m => length m = L) ms.
  Hypothesis ML : (N.of_nat L <= 65536)%N.
  Hypothesis PL : 20 <= L.
  Notation n := (length ms).

  Lemma concat_length_eq : length (concat ms) = n * L.
  Proof. clear - EL. induction ms as [|m l IH]; [reflexivity|]. inversion EL as [|x y H F]; subst x y. cbn [concat length]. rewrite app_length, IH, H by exact F. lia. Qed.
  Lemma skip_equal k : skipn (k * L) (concat ms) = concat (skipn k ms).
  Proof.
    revert k. clear - EL. revert EL. generalize ms as l0. intros l0 EL0. induction EL0 as [|m l H F IH]; intros k; [now rewrite !skipn_nil|]. destruct k as [|k]; [reflexivity|].
    cbn [concat skipn Nat.mul]. rewrite skipn_app, skipn_all2 by lia. cbn [app]. replace (L + k * L - length m) with (k * L) by lia. apply IH.
  Qed.
  Lemma at_most_equal : at_most 65536 (bare ms).
  Proof. unfold at_most, bare. apply Forall_map. eapply Forall_impl; [|exact EL]. cbn. intros m ->. exact ML. Qed.
  Lemma placed_equal k m : In (k, m) (placed 0 (bare ms)) <-> exists i, nth_error ms i = Some m /\ k = i * L.
  Proof.
    rewrite placed_bare. enough (G : forall pre, In (k, m) (with_offsets (@length byte) pre ms) <-> exists i, nth_error ms i = Some m /\ k = pre + i * L) by apply (G 0).
    clear - EL. revert EL. generalize ms as l0. intros l0 EL0. induction EL0 as [|x l H F IH]; intros pre.
    - split; [intros []|]. intros (i & E & _). destruct i; discriminate.
    - cbn [with_offsets In]. rewrite IH. split.
      + intros [E|(i & E & ->)]; [injection E as <- <-; exists 0; split; [reflexivity|lia]|]. exists (S i). split; [exact E|lia].
      + intros ([|i] & E & ->); [left; cbn in E; injection E as <-; f_equal; lia|]. right. exists i. split; [exact E|lia].
  Qed.
  Lemma floor_unique c i : i * L <= c < i * L + L -> c / L * L = i * L.
  Proof. intros H. f_equal. symmetry. apply (Nat.div_unique c L i (c - i * L)); lia. Qed.
  Lemma cut_equal c : c <= n * L -> c + 1 <> n * L -> cut_of (concat ms) c = c / L * L.
  Proof.
    intros Hc H1. pose proof (cut_cases (bare ms) [] (enclosed_bare ms V) at_most_equal c) as C. rewrite layout_bare, concat_length_eq in C.
    destruct (C Hc) as [[B [E|(m & I & H)]]|(X & _)]; [| |lia].
    - rewrite E in *. destruct (Nat.eq_dec (c mod L) 0) as [Z|Z].
      + rewrite (Nat.div_mod c L) at 1 by lia. lia.
      + exfalso. pose proof (Nat.div_mod c L ltac:(lia)) as D. pose proof (Nat.mod_upper_bound c L ltac:(lia)) as U. set (i := c / L) in *.
        assert (Hi : i < n) by nia. destruct (nth_error ms i) as [m|] eqn:Em; [|apply nth_error_None in Em; lia].
        assert (Lm : length m = L). { rewrite Forall_forall in EL. apply EL. now apply nth_error_In in Em. }
        destruct (B (i * L) m) as [Q|Q]; [apply placed_equal; exists i; now split|nia|rewrite Lm in Q; nia].
    - apply placed_equal in I. destruct I as (i & Ei & Ek). assert (Lm : length m = L). { rewrite Forall_forall in EL. apply EL. now apply nth_error_In in Ei. }
      rewrite Lm in H. rewrite Ek in *. symmetry. apply floor_unique. lia.
  Qed.
  Lemma cut_last c : c + 1 = n * L -> cut_of (concat ms) c = c.
  Proof.
    intros H. unfold cut_of. cbn [contained_by]. rewrite concat_length_eq. destruct (Nat.leb_spec (n * L) (c + 1)); [|lia]. now rewrite Bool.orb_true_r.
  Qed.

  (** The pieces from [R] messages before the end on. *)
  Definition shares_of (s size R : nat) : list nat :=
    let rest := (R - 1) mod s + 1 in
    let full := (R - rest) / s in
    if (rest =? s) && (size mod L =? 0) then repeat s full ++ [rest]
    else if (1 <=? full) && ((rest * L <=? size / 4) || ((rest =? 1) && (size mod L =? L - 1))) then repeat s (full - 1) ++ [s + rest]
    else repeat s full.

  Variables (size : nat).
  Let s := size / L.
  Let r := size mod L.
  Hypothesis Hs : 1 <= s.
  Lemma size_eq : size = s * L + r /\ r < L.
  Proof. unfold s, r. split; [rewrite (Nat.div_mod size L) at 1 by lia; lia|apply Nat.mod_upper_bound; lia]. Qed.

  Lemma shares_small R : 1 <= R -> R <= s -> shares_of s size R = if (R =? s) && (r =? 0) then [R] else [].
  Proof.
    intros H1 H2. unfold shares_of. fold r. rewrite (Nat.mod_small (R - 1) s) by lia. replace (R - 1 + 1) with R by lia.
    rewrite Nat.sub_diag, Nat.div_0_l by lia. cbn [repeat app Nat.leb andb]. now destruct ((R =? s) && (r =? 0)).
  Qed.
  Lemma mod_sub a : s <= a -> a mod s = (a - s) mod s.
  Proof. intros H. replace a with (a - s + 1 * s) at 1 by lia. rewrite Nat.mod_add by lia. reflexivity. Qed.
  Lemma rest_small a : s <= a -> exists rest full, rest = (a - s) mod s + 1 /\ rest = a mod s + 1 /\ a - s + 1 = full * s + rest /\
    (a + 1 - rest) / s = S full /\ (a - s + 1 - rest) / s = full.
  Proof.
    intros H. exists ((a - s) mod s + 1), ((a - s) / s). split; [reflexivity|]. rewrite <- mod_sub by assumption. split; [reflexivity|].
    pose proof (Nat.div_mod (a - s) s ltac:(lia)) as D. rewrite <- mod_sub in D by assumption.
    generalize dependent (a mod s). intros x D. revert D. generalize ((a - s) / s) as q. intros q D.
    split; [lia|]. split.
    - symmetry. apply (Nat.div_unique _ s (S q) 0); lia.
    - symmetry. apply (Nat.div_unique _ s q 0); lia.
  Qed.
  Lemma shares_go R : s < R -> size / 4 < (R - s) * L -> size + 1 <> R * L -> shares_of s size R = s :: shares_of s size (R - s).
  Proof.
    destruct size_eq as [SE RL]. intros SR Y X. unfold shares_of. fold r. cbv zeta.
    destruct (rest_small (R - 1)) as (rest & full & E1 & E2 & E3 & E4 & E5); [lia|].
    rewrite (sub1 R s), <- E1, <- E2. clear E1 E2. destruct (sub2 R s rest SR) as [Q1 Q2]. rewrite Q1 in E4. rewrite Q2 in E5. clear Q1 Q2.
    rewrite E4, E5. clear E4 E5. clearbody s r. revert Y. generalize (size / 4) as quarter. intros quarter Y.
    destruct ((rest =? s) && (r =? 0)); [reflexivity|]. cbn [Nat.leb andb]. replace (S full - 1) with full by lia.
    destruct ((rest * L <=? quarter) || ((rest =? 1) && (r =? L - 1))) eqn:T; [|rewrite Bool.andb_false_r; reflexivity].
    destruct full as [|k]; [|replace (S k - 1) with k by lia; reflexivity].
    exfalso. assert (RR : R - s = rest) by lia. apply Bool.orb_true_iff in T. destruct T as [T|T].
    - apply Nat.leb_le in T. rewrite <- RR in T. lia.
    - apply Bool.andb_true_iff in T. destruct T as [T1 T2]. apply Nat.eqb_eq in T1, T2. apply X. nia.
  Qed.
  Lemma loop_shares : forall R fuel, 1 <= R -> R <= n -> R * L < fuel ->
    partition_loop DLT fuel (concat ms) size ((n - R) * L) ((n - R) * L + size) =
    Ret (map (@concat byte) (cut_at (shares_of s size R) (skipn (n - R) ms))).
  Proof.
    destruct size_eq as [SE RL].
    induction R as [R IH] using (well_founded_induction lt_wf). intros fuel H1 HR Hf.
    destruct fuel as [|fuel]; [lia|]. rewrite partition_step, concat_length_eq.
    set (c0 := (n - R) * L). assert (Hn : n * L = c0 + R * L) by (unfold c0; rewrite <- Nat.mul_add_distr_r; f_equal; lia).
    assert (ALL : map (@concat byte) [skipn (n - R) ms] = [skipn c0 (concat ms)]) by (cbn [map]; f_equal; symmetry; apply skip_equal).
    assert (CUT : cut_at [R] (skipn (n - R) ms) = [skipn (n - R) ms]).
    { cbn [cut_at]. rewrite firstn_all2 by (rewrite skipn_length; lia). reflexivity. }
    destruct (Nat.ltb_spec (n * L) c0) as [Q|_]; [lia|]. cbn [orb].
    destruct (Nat.ltb_spec (n * L) (c0 + size)) as [Q|Q].
    - (* lost *)
      assert (R <= s) by nia. rewrite shares_small by assumption. destruct (Nat.eqb_spec R s) as [E|E]; [|reflexivity].
      destruct (Nat.eqb_spec r 0) as [Z|Z]; [exfalso; subst R; lia|reflexivity].
    - assert (SR : s <= R) by nia.
      destruct (Nat.eq_dec (c0 + size + 1) (n * L)) as [X|X].
      + (* the cut is planned in front of the last byte *)
        rewrite (cut_last _ X). destruct (Nat.leb_spec (c0 + size) c0) as [Y|_]; [nia|].
        assert (1 <= size / 4) by (apply Nat.div_le_lower_bound; nia).
        destruct (Nat.leb_spec (n * L) (c0 + size + size / 4)) as [_|Y]; [|lia].
        assert (ER : R = s + 1) by nia. assert (Er : r = L - 1) by nia.
        rewrite <- ALL, <- CUT. do 3 f_equal. unfold shares_of. fold r. rewrite ER. replace (s + 1 - 1) with s by lia.
        rewrite Nat.mod_same by lia. replace (s + 1 - (0 + 1)) with s by lia. rewrite Nat.div_same by lia. cbn [Nat.add Nat.sub repeat Nat.leb].
        destruct (Nat.eqb_spec r 0) as [Z|Z]; [lia|]. rewrite Bool.andb_false_r. destruct (Nat.eqb_spec r (L - 1)) as [_|Z']; [|lia].
        cbn [Nat.eqb andb]. rewrite Bool.orb_true_r. cbn [andb app]. reflexivity.
      + rewrite (cut_equal _ Q X).
        assert (EC : (c0 + size) / L * L = (n - R + s) * L) by (apply floor_unique; unfold c0; nia).
        rewrite EC. set (c := (n - R + s) * L). assert (Ec : c = c0 + s * L) by (unfold c, c0; lia).
        destruct (Nat.leb_spec c c0) as [Y|_]; [nia|].
        destruct (Nat.leb_spec (n * L) (c + size / 4)) as [Y|Y].
        * (* the last piece *)
          assert (Y' : (R - s) * L <= size / 4) by (rewrite Nat.mul_sub_distr_r; lia).
          rewrite <- ALL, <- CUT. do 3 f_equal. destruct (Nat.eq_dec R s) as [E|E].
          -- rewrite shares_small by lia. assert (r = 0) by nia. destruct (Nat.eqb_spec R s); [|lia]. destruct (Nat.eqb_spec r 0); [reflexivity|lia].
          -- assert (D : 4 * (size / 4) <= size) by (apply Nat.mul_div_le; lia). assert (B : 4 * (R - s) <= s) by nia.
             unfold shares_of. fold r. rewrite (mod_sub (R - 1)) by lia. rewrite (Nat.mod_small (R - 1 - s)) by lia.
             replace (R - 1 - s + 1) with (R - s) by lia. replace (R - (R - s)) with s by lia. rewrite Nat.div_same by lia.
             destruct (Nat.eqb_spec (R - s) s) as [Z|Z]; [lia|]. cbn [andb Nat.leb]. destruct (Nat.leb_spec ((R - s) * L) (size / 4)) as [_|Z']; [|lia].
             cbn [orb Nat.sub repeat app]. f_equal. lia.
        * (* go on *)
          assert (SR' : s < R) by (destruct (Nat.eq_dec R s) as [->|]; [exfalso; rewrite Hn, Ec in Y; lia|lia]).
          assert (Ec' : c = (n - (R - s)) * L) by (unfold c; f_equal; lia). rewrite Ec'.
          assert (Fu : (R - s) * L < fuel) by nia.
          rewrite (IH (R - s) ltac:(lia) fuel ltac:(lia) ltac:(lia) Fu).
          assert (SH : shares_of s size R = s :: shares_of s size (R - s)).
          { apply shares_go; [exact SR'| |].
            - rewrite Nat.mul_sub_distr_r. clear - Y Ec Hn. lia.
            - clear - X Hn. lia. }
          rewrite SH. cbn [cut_at map obind]. f_equal. f_equal.
          -- rewrite <- Ec', Ec. replace (c0 + s * L - c0) with (s * L) by lia. unfold c0. rewrite skip_equal.
             rewrite <- (firstn_skipn s (skipn (n - R) ms)) at 1. rewrite concat_app.
             assert (LF : length (concat (firstn s (skipn (n - R) ms))) = s * L).
             { assert (FE : Forall (fun m => length m = L) (firstn s (skipn (n - R) ms))).
               { apply Forall_forall. intros m I. rewrite Forall_forall in EL. apply EL. apply (in_skipn ms (n - R)). rewrite <- (firstn_skipn s (skipn (n - R) ms)). apply in_or_app. now left. }
               clear - FE Hs SR HR H1. assert (length (firstn s (skipn (n - R) ms)) = s) by (rewrite firstn_length, skipn_length; lia).
               rewrite <- H at 2. clear H. induction FE as [|m l H F IH]; [reflexivity|]. cbn [concat length]. rewrite app_length, IH, H. lia. }
             rewrite firstn_app, LF, Nat.sub_diag. cbn [firstn]. rewrite app_nil_r, <- LF. now rewrite firstn_all.
          -- rewrite skipn_skipn'. replace (n - R + s) with (n - (R - s)) by lia. reflexivity.
  Qed.
End Equal.
