(** dd_dlt and an operating system that gives up (C85, C86). *)
From Verif Require Import Base DltModel MatchModel DdModel DdOs OsSpec BaseFacts FindFacts DdFacts.
From Coq Require Import ZifyBool ZifyNat ZifyN.

Definition begins (p b : bytes) : Prop := exists r, b = p ++ r.
Lemma begins_refl b : begins b b.
Proof. exists []. now rewrite app_nil_r. Qed.
Lemma begins_app p q : begins p (p ++ q).
Proof. now exists q. Qed.
Lemma begins_trans a b c : begins a b -> begins b c -> begins a c.
Proof. intros [r ->] [s ->]. exists (r ++ s). now rewrite app_assoc. Qed.
Lemma begins_firstn p n b : begins (p ++ firstn n b) (p ++ b).
Proof. exists (skipn n b). now rewrite <- app_assoc, firstn_skipn. Qed.

Section Os.
  Variable o : os.
  Hypothesis RO : in_order o.

  Definition dead (w : stdout) : Prop := forall j, calls w <= j -> o j = Fails.
  Definition good (w : stdout) (i : line_writer) : Prop :=
    arrived w = sent i /\ buffered w = pending i /\ lw_ok i.
  Definition limbo (P : nat) (w : stdout) (i : line_writer) : Prop :=
    dead w /\ begins (arrived w) (at_exit i) /\ lw_ok i /\ length (buffered w) <= lw_capacity /\
    length (at_exit i) <= length (arrived w) + P + length (buffered w).
  Definition stopped (w : stdout) (b : bytes) : Prop :=
    begins (arrived w ++ buffered w) b \/ dead w /\ begins (arrived w) b.

  (** Raw writes. *)
  Lemma raw_cases w buf : exists w' r, raw_write o w buf = (w', r) /\ buffered w' = buffered w /\ calls w < calls w' /\
    (arrived w' = arrived w ++ buf /\ r = Some (length buf) \/
     arrived w' = arrived w /\ r = None \/
     exists n, n <= length buf /\ arrived w' = arrived w ++ firstn n buf /\ r = Some n /\ dead w').
  Proof.
    unfold raw_write. destruct (RO (calls w)) as [E|[E|(k & E & F)]]; rewrite E.
    - do 2 eexists. split; [reflexivity|]. cbn. split; [reflexivity|]. split; [lia|]. left. auto.
    - do 2 eexists. split; [reflexivity|]. cbn. rewrite app_nil_r. split; [reflexivity|]. split; [lia|]. right. left. auto.
    - do 2 eexists. split; [reflexivity|]. cbn [buffered arrived calls]. split; [reflexivity|]. split; [lia|]. right. right.
      exists (Nat.min k (length buf)). split; [lia|]. split; [reflexivity|]. split; [reflexivity|].
      intros j L. cbn [calls] in L. apply F. lia.
  Qed.
  Lemma raw_dead w buf : dead w -> exists w', raw_write o w buf = (w', None) /\ buffered w' = buffered w /\ arrived w' = arrived w /\ dead w'.
  Proof.
    intros D. unfold raw_write. rewrite (D (calls w)) by lia. eexists. split; [reflexivity|]. cbn. rewrite app_nil_r.
    split; [reflexivity|]. split; [reflexivity|]. intros j L. apply D. cbn [calls] in L. lia.
  Qed.

  (** Flushing. *)
  Lemma flush_rounds_keeps r : forall w w' ok, flush_rounds r o w = (w', ok) ->
    arrived w' ++ buffered w' = arrived w ++ buffered w /\ (ok = true -> buffered w' = []) /\ begins (arrived w) (arrived w').
  Proof.
    assert (BG : forall w' w (buf : bytes), (exists n, arrived w' = arrived w ++ firstn n buf) -> begins (arrived w) (arrived w')).
    { intros w' w buf [n ->]. apply begins_app. }
    induction r as [|r IH]; intros w w' ok H.
    - cbn [flush_rounds] in H. destruct (buffered w) as [|c b] eqn:B; injection H as <- <-; rewrite ?B; (split; [reflexivity|]; split; [auto; discriminate|apply begins_refl]).
    - cbn [flush_rounds] in H. destruct (buffered w) as [|c b] eqn:B; [injection H as <- <-; rewrite ?B; split; [reflexivity|]; split; [auto|apply begins_refl]|].
      rewrite <- B in *. destruct (raw_cases w (buffered w)) as (w1 & res & E & B1 & _ & C). rewrite E in H.
      destruct res as [[|n]|].
      + injection H as <- <-.
        destruct C as [[_ C]|[[C1 C2]|(n & L & C1 & C2 & _)]].
        * rewrite B in C. discriminate.
        * discriminate.
        * injection C2 as <-. rewrite C1, B1. cbn [firstn]. rewrite app_nil_r. split; [reflexivity|]. split; [discriminate|apply begins_refl].
      + apply IH in H. destruct H as (K & OK & G). rewrite K. cbn [set_buffered arrived buffered] in *.
        destruct C as [[C1 C]|[[C1 C2]|(m & L & C1 & C2 & _)]]; [|discriminate|].
        * injection C as C. rewrite C, skipn_all, app_nil_r. split; [exact C1|]. split; [exact OK|].
          eapply begins_trans; [|exact G]. rewrite C1. apply begins_app.
        * injection C2 as <-. split; [now rewrite C1, <- app_assoc, firstn_skipn|]. split; [exact OK|].
          eapply begins_trans; [|exact G]. rewrite C1. apply begins_app.
      + injection H as <- <-.
        destruct C as [[_ C]|[[C1 _]|(n & _ & _ & C & _)]]; [discriminate| |discriminate].
        rewrite C1, B1. split; [reflexivity|]. split; [discriminate|apply begins_refl].
  Qed.
  Lemma flush_keeps w w' ok : flush_out o w = (w', ok) ->
    arrived w' ++ buffered w' = arrived w ++ buffered w /\ (ok = true -> buffered w' = []) /\ begins (arrived w) (arrived w').
  Proof. apply flush_rounds_keeps. Qed.
  Lemma flush_dead w : dead w -> exists w' ok, flush_out o w = (w', ok) /\ arrived w' = arrived w /\ dead w' /\ buffered w' = buffered w /\
    (ok = true -> buffered w = []).
  Proof.
    intros D. unfold flush_out. destruct (buffered w) as [|c b] eqn:B.
    - cbn [length flush_rounds]. rewrite B. do 2 eexists. split; [reflexivity|]. auto.
    - cbn [length flush_rounds]. rewrite B. destruct (raw_dead w (c :: b) D) as (w' & -> & B' & A' & D').
      exists w', false. split; [reflexivity|]. split; [exact A'|]. split; [exact D'|]. split; [congruence|discriminate].
  Qed.
  Lemma flush_good w i w' ok : good w i -> flush_out o w = (w', ok) ->
    if ok then good w' (flush_buf i) else stopped w' (at_exit i).
  Proof.
    intros (A & B & OK) H. apply flush_keeps in H. destruct H as (K & E & _). rewrite A, B in K. destruct ok.
    - rewrite (E eq_refl), app_nil_r in K. split; [exact K|]. split; [now apply E|]. unfold lw_ok. cbn. lia.
    - left. rewrite K. apply begins_refl.
  Qed.

  Variable P : nat.
  Definition st (w : stdout) (i : line_writer) : Prop := good w i \/ limbo P w i.
  (** The result of a write: the same as the ideal one, or an error. *)
  Definition wrote (r : stdout * option nat) (i : line_writer) : Prop :=
    match r with
    | (w', Some _) => st w' i
    | (w', None) => stopped w' (at_exit i)
    end.

  Lemma buf_write_good w i buf : good w i -> length buf <= P -> wrote (buf_write o w buf) (fst (bw_write i buf)).
  Proof.
    intros G LP. pose proof (bw_spec i buf (proj2 (proj2 G))) as (SX & SOK). destruct G as (A & B & OK).
    unfold buf_write, bw_write in *. rewrite B.
    destruct (length buf <? lw_capacity - length (pending i)).
    { cbn [fst] in *. unfold wrote. left. split; [exact A|]. cbn [set_buffered buffered pending]. split; [reflexivity|exact SOK]. }
    set (sp := lw_capacity - length (pending i)) in *.
    assert (F : exists w1 ok, (if sp <? length buf then flush_out o w else (w, true)) = (w1, ok) /\
                (if ok then good w1 (if sp <? length buf then flush_buf i else i) else stopped w1 (at_exit i))).
    { destruct (sp <? length buf).
      - destruct (flush_out o w) as [w1 ok] eqn:F. exists w1, ok. split; [reflexivity|].
        apply (flush_good w i); [split; auto|exact F].
      - exists w, true. split; [reflexivity|]. split; auto. }
    destruct F as (w1 & ok & -> & F). destruct ok; cbn [negb].
    2:{ unfold wrote. rewrite SX. destruct F as [F|[D F]]; [left|right; split; [exact D|]]; eapply begins_trans; try exact F; apply begins_app. }
    set (i1 := if sp <? length buf then flush_buf i else i) in *. destruct F as (A1 & B1 & OK1).
    destruct (Nat.leb_spec lw_capacity (length buf)) as [LC|LC]; cbn [fst] in *.
    2:{ unfold wrote. left. split; [exact A1|]. split; [cbn [set_buffered buffered pending]; now rewrite B1|exact SOK]. }
    destruct (raw_cases w1 buf) as (w2 & r & -> & B2 & _ & C).
    assert (PE : pending i1 = []).
    { unfold i1. destruct (Nat.ltb_spec sp (length buf)) as [L|L]; [reflexivity|]. apply length_zero_iff_nil. unfold sp, lw_ok in *. pose proof cap_pos. lia. }
    destruct C as [[C ->]|[[C ->]|(n & L & C & -> & D)]].
    - left. split; [cbn [sent]; now rewrite C, A1|]. split; [cbn [pending]; now rewrite B2|exact SOK].
    - unfold wrote. left. rewrite C, B2, A1, B1. unfold at_exit. cbn [sent pending]. rewrite PE, !app_nil_r. apply begins_app.
    - right. unfold limbo. split; [exact D|]. unfold at_exit. cbn [sent pending]. rewrite PE, app_nil_r.
      split; [rewrite C, A1; apply begins_firstn|]. split; [rewrite PE in SOK; exact SOK|]. split; [rewrite B2, B1, PE; apply Nat.le_0_l|].
      rewrite C, A1, !app_length. lia.
  Qed.

  Lemma accepted_le v buf : length (accepted v buf) <= length buf.
  Proof.
    unfold accepted. destruct (rfind [x0a] buf) as [i|]; [|lia]. rewrite app_length, firstn_length. unfold taken.
    destruct v; [rewrite firstn_length, skipn_length; lia|]. destruct (Nat.leb_spec lw_capacity (length (skipn (i + 1) buf))); [cbn; lia|].
    rewrite skipn_length. lia.
  Qed.

  Lemma line_write_good v w i buf : good w i -> length buf <= P -> wrote (line_write v o w buf) (write_ v i buf).
  Proof.
    intros G LP. destruct (write_spec v i buf (proj2 (proj2 G))) as (SX & SOK). pose proof G as (A & B & OK).
    unfold line_write, write_ in *. unfold lw_write in *. destruct (rfind [x0a] buf) as [k|] eqn:R.
    - destruct (flush_out o w) as [w1 ok] eqn:F. pose proof (flush_good w i w1 ok G F) as H. destruct ok; cbn [negb].
      2:{ unfold wrote. rewrite SX. destruct H as [H|[D H]]; [left|right; split; [exact D|]]; eapply begins_trans; try exact H; apply begins_app. }
      destruct H as (A1 & B1 & _). cbn [flush_buf pending sent] in A1, B1.
      assert (LK : k + 1 <= length buf).
      { apply rfind_some in R; [|cbn; lia]. destruct R as [O _]. apply skipn_nl in O. apply (f_equal (@length byte)) in O. rewrite skipn_length in O. cbn [length] in O. lia. }
      set (n := k + 1) in *.
      destruct (raw_cases w1 (firstn n buf)) as (w2 & r & -> & B2 & _ & C).
      rewrite firstn_length, Nat.min_l in C by exact LK.
      assert (LIM : forall w3 m, dead w3 -> m <= n -> arrived w3 = arrived w1 ++ firstn m buf -> length (buffered w3) <= lw_capacity ->
                    limbo P w3 (fst (lw_write v i buf))).
      { intros w3 m D Lm C3 L3. unfold lw_write. rewrite R. fold n. split; [exact D|].
        unfold write_, lw_write in SX, SOK. rewrite SX. split; [|split; [exact SOK|split; [exact L3|]]].
        - rewrite C3, A1. unfold accepted. rewrite R. fold n. unfold at_exit. exists (skipn m (firstn n buf) ++ taken v (skipn n buf)).
          rewrite <- !app_assoc. do 2 f_equal. rewrite app_assoc. f_equal.
          transitivity (firstn m (firstn n buf) ++ skipn m (firstn n buf)); [now rewrite firstn_skipn|]. f_equal. rewrite firstn_firstn. f_equal. lia.
        - rewrite C3, A1, app_length. unfold at_exit. rewrite !app_length. pose proof (accepted_le v buf). lia. }
      unfold lw_write in LIM. rewrite R in LIM. fold n in LIM.
      destruct C as [[C ->]|[[C ->]|(m & L & C & -> & D)]].
      + (* everything *)
        destruct n as [|n'] eqn:En; [lia|]. rewrite <- En in *. rewrite Nat.leb_refl. cbn [andb].
        cbn [flush_buf pending sent length app] in *. rewrite Nat.sub_0_r in *.
        destruct v.
        * unfold write_to_buf. rewrite B2, B1. cbn [length app]. rewrite Nat.sub_0_r. cbn [fst] in *. unfold wrote. left. split; [cbn [set_buffered arrived sent]; now rewrite C, A1|].
          cbn [set_buffered buffered pending]. split; [reflexivity|exact SOK].
        * destruct (Nat.leb_spec lw_capacity (length (skipn n buf))) as [LT|LT].
          -- cbn [fst firstn] in *. left. split; [cbn [sent]; now rewrite C, A1|]. cbn [pending]. rewrite B2, B1. split; [reflexivity|exact SOK].
          -- unfold write_to_buf. rewrite B2, B1. cbn [length app]. rewrite Nat.sub_0_r. cbn [fst] in *. unfold wrote. left. split; [cbn [set_buffered arrived sent]; now rewrite C, A1|].
             cbn [set_buffered buffered pending]. split; [reflexivity|exact SOK].
      + (* error *)
        unfold wrote. rewrite SX. left. rewrite C, B2, A1, B1, app_nil_r. unfold at_exit. apply begins_app.
      + (* a part *)
        rewrite firstn_firstn, Nat.min_l in C by exact L.
        assert (L2 : length (buffered w2) <= lw_capacity) by (rewrite B2, B1; apply Nat.le_0_l).
        destruct m as [|m'] eqn:Em; [unfold wrote; right; apply (LIM w2 0); auto|].
        rewrite <- Em in *.
        destruct ((n <=? m) && _); [unfold wrote; right; apply (LIM w2 m); auto|].
        set (t := if n <=? m then _ else _). destruct (write_to_buf w2 t) as [w3 x] eqn:W. unfold wrote. right.
        unfold write_to_buf in W. pose proof (f_equal fst W) as W3. cbn [fst] in W3. clear W. subst w3.
        apply (LIM _ m); cbn [set_buffered arrived buffered]; auto.
        rewrite B2, B1. cbn [app length]. rewrite firstn_length, Nat.sub_0_r. lia.
    - assert (F : exists w1 ok, (match rev (buffered w) with c :: _ => if byte_eqb c x0a then flush_out o w else (w, true) | [] => (w, true) end) = (w1, ok) /\
                  (if ok then good w1 (flush_if_completed_line i) else stopped w1 (at_exit i))).
      { unfold flush_if_completed_line. rewrite B. destruct (rev (pending i)) as [|c r]; [exists w, true; auto|].
        destruct (byte_eqb c x0a); [|exists w, true; auto]. destruct (flush_out o w) as [w1 ok] eqn:F. exists w1, ok. split; [reflexivity|].
        apply (flush_good w i); auto. }
      destruct F as (w1 & ok & -> & F). destruct ok; cbn [negb].
      2:{ unfold wrote. rewrite SX. destruct F as [H|[D H]]; [left|right; split; [exact D|]]; eapply begins_trans; try exact H; apply begins_app. }
      now apply buf_write_good.
  Qed.

  Lemma line_write_limbo v w i buf : limbo P w i -> wrote (line_write v o w buf) (write_ v i buf).
  Proof.
    intros (D & BG & OK & LC & LX). destruct (write_spec v i buf OK) as (SX & SOK).
    assert (ST : forall w', dead w' -> arrived w' = arrived w -> stopped w' (at_exit (write_ v i buf))).
    { intros w' D' E. right. split; [exact D'|]. rewrite E, SX. eapply begins_trans; [exact BG|apply begins_app]. }
    assert (LB : length (buffered w ++ buf) <= lw_capacity -> limbo P (set_buffered w (buffered w ++ buf)) (write_ v i buf)).
    { intros L. split; [exact D|]. cbn [set_buffered arrived buffered]. split; [rewrite SX; eapply begins_trans; [exact BG|apply begins_app]|].
      split; [exact SOK|]. split; [exact L|]. rewrite SX, !app_length. pose proof (accepted_le v buf). lia. }
    unfold line_write. destruct (flush_dead w D) as (w1 & ok & F & A1 & D1 & B1 & E1).
    destruct (rfind [x0a] buf) as [k|].
    - rewrite F. destruct ok; cbn [negb]; [|now apply ST].
      destruct (raw_dead w1 (firstn (k + 1) buf) D1) as (w2 & -> & B2 & A2 & D2). apply ST; [exact D2|congruence].
    - assert (BW : wrote (buf_write o w buf) (write_ v i buf)).
      { unfold buf_write. rewrite app_length in LB. destruct (Nat.ltb_spec (length buf) (lw_capacity - length (buffered w))) as [L|L].
        - unfold wrote. right. apply LB. lia.
        - destruct (Nat.ltb_spec (lw_capacity - length (buffered w)) (length buf)) as [L1|L1].
          + rewrite F. destruct ok; cbn [negb]; [|now apply ST]. specialize (E1 eq_refl). rewrite E1 in L1. cbn [length] in L1.
            destruct (Nat.leb_spec lw_capacity (length buf)); [|lia].
            destruct (raw_dead w1 buf D1) as (w2 & -> & B2 & A2 & D2). apply ST; [exact D2|congruence].
          + cbn [negb]. destruct (Nat.leb_spec lw_capacity (length buf)) as [L2|L2].
            * destruct (raw_dead w buf D) as (w2 & -> & B2 & A2 & D2). apply ST; [exact D2|congruence].
            * unfold wrote. right. apply LB. lia. }
      destruct (rev (buffered w)) as [|c r]; [exact BW|]. destruct (byte_eqb c x0a); [|exact BW].
      rewrite F. destruct ok; cbn [negb]; [|now apply ST].
      (* flushing succeeded: the buffer was empty *)
      assert (W : w1 = w).
      { unfold flush_out in F. rewrite (E1 eq_refl) in F. cbn [length flush_rounds] in F. rewrite (E1 eq_refl) in F. congruence. }
      now rewrite W.
  Qed.
  Lemma line_write_st v w i buf : st w i -> length buf <= P -> wrote (line_write v o w buf) (write_ v i buf).
  Proof. intros [G|L] H; [now apply line_write_good|now apply line_write_limbo]. Qed.

  Lemma st_ok w i : st w i -> lw_ok i.
  Proof. intros [(_ & _ & H)|(_ & _ & H & _)]; exact H. Qed.
  Lemma write_more v i buf : lw_ok i -> begins (at_exit i) (at_exit (write_ v i buf)) /\ lw_ok (write_ v i buf).
  Proof. intros OK. destruct (write_spec v i buf OK) as [E H]. split; [rewrite E; apply begins_app|exact H]. Qed.
  Lemma stopped_more w b b' : stopped w b -> begins b b' -> stopped w b'.
  Proof. intros [H|[D H]] L; [left|right; split; [exact D|]]; eapply begins_trans; eauto. Qed.

  (** The end of the process. *)
  Lemma exit_stopped w b : stopped w b -> begins (all_arrived o w) b.
  Proof.
    unfold all_arrived. intros [H|[D H]].
    - destruct (flush_out o w) as [w' ok] eqn:F. apply flush_keeps in F. destruct F as (K & _). cbn [fst].
      rewrite <- K in H. eapply begins_trans; [|exact H]. apply begins_app.
    - destruct (flush_dead w D) as (w' & ok & -> & A & _). cbn [fst]. now rewrite A.
  Qed.
  Lemma exit_st w i : st w i -> begins (all_arrived o w) (at_exit i) /\ length (at_exit i) <= length (all_arrived o w) + P + lw_capacity.
  Proof.
    intros [(A & B & OK)|(D & BG & OK & LC & LX)]; unfold all_arrived.
    - destruct (flush_out o w) as [w' ok] eqn:F. apply flush_keeps in F. destruct F as (K & _ & G). cbn [fst]. rewrite A in G. rewrite A, B in K.
      unfold at_exit. split; [rewrite <- K; apply begins_app|]. destruct G as [r ->]. rewrite !app_length. unfold lw_ok in OK. lia.
    - destruct (flush_dead w D) as (w' & ok & -> & A & _). cbn [fst]. rewrite A. split; [exact BG|lia].
  Qed.

  (** One message. *)
  Lemma message_os v A m ecuid appid psize count buf w i w' r : st w i -> length buf <= P -> 16 <= P ->
    os_message v o A m ecuid appid psize count buf w = (w', r) ->
    exists i' r0, dd_message v A m ecuid appid psize count buf i = (i', r0) /\ lw_ok i' /\ begins (at_exit i) (at_exit i') /\
      match r with
      | inl c => r0 = Some c /\ st w' i'
      | inr OsPanic => r0 = None /\ st w' i'
      | inr OsError => stopped w' (at_exit i')
      | inr (OsDone _) => False
      end.
  Proof.
    intros S LB LP H. unfold os_message, dd_message in *. pose proof (st_ok _ _ S) as OK.
    destruct (quad_of_slice ecuid) as [e| |]; cbn [obind] in *;
      [|injection H as <- <-; exists i, None; repeat split; auto; apply begins_refl..].
    destruct (checked m u16_mod (4 + 10 + 4 + psize)) as [len| |]; cbn [obind] in *;
      [|injection H as <- <-; exists i, None; repeat split; auto; apply begins_refl..].
    destruct (quad_of_slice appid) as [a| |]; cbn [obind] in *;
      [|injection H as <- <-; exists i, None; repeat split; auto; apply begins_refl..].
    set (b1 := storage_header_as_bytes _) in *. set (b2 := std_header_as_bytes _) in *.
    set (b4 := ext_header_as_bytes _) in *.
    assert (L1 : length b1 <= P). { destruct e. transitivity 16; [cbn; lia|exact LP]. }
    assert (L2 : length b2 <= P) by (transitivity 16; [cbn; lia|exact LP]).
    assert (L4 : length b4 <= P). { destruct a. transitivity 16; [cbn; lia|exact LP]. }
    clearbody b1 b2 b4.
    destruct (write_more v i b1 OK) as [G1 OK1]. destruct (write_more v _ b2 OK1) as [G2 OK2].
    set (i1 := write_ v i b1) in *. set (i2 := write_ v i1 b2) in *.
    pose proof (line_write_st v w i b1 S L1) as W1. fold i1 in W1.
    destruct (line_write v o w b1) as [w1 r1]. unfold wrote in W1.
    (* the rest of the ideal run *)
    assert (REST : exists i' r0, (match checked m u32_mod (count * 100) with
        | Ret ts => let w0 := write_ v i2 (be32_bytes ts) in let w3 := write_ v w0 b4 in let w4 := write_ v w3 buf in
            match checked m u32_mod (count + 1) with Ret count' => (w4, Some count') | _ => (w4, None) end
        | _ => (i2, None) end) = (i', r0) /\ lw_ok i' /\ begins (at_exit i2) (at_exit i')).
    { destruct (checked m u32_mod (count * 100)) as [ts| |]; [|exists i2, None; repeat split; auto; apply begins_refl..].
      cbv zeta. destruct (write_more v i2 (be32_bytes ts) OK2) as [G3 OK3]. destruct (write_more v _ b4 OK3) as [G4 OK4].
      destruct (write_more v _ buf OK4) as [G5 OK5].
      destruct (checked m u32_mod (count + 1)); do 2 eexists; (split; [reflexivity|]; split; [exact OK5|]);
        (eapply begins_trans; [exact G3|]; eapply begins_trans; [exact G4|exact G5]). }
    cbv zeta in *. destruct REST as (i' & r0 & EI & OK' & G'). rewrite EI.
    exists i', r0. split; [reflexivity|]. split; [exact OK'|].
    assert (GG : begins (at_exit i) (at_exit i')) by (eapply begins_trans; [exact G1|]; eapply begins_trans; [exact G2|exact G']).
    split; [exact GG|].
    destruct r1 as [r1|]; [|injection H as <- <-; eapply stopped_more; [exact W1|]; eapply begins_trans; [exact G2|exact G']].
    pose proof (line_write_st v w1 i1 b2 W1 L2) as W2. fold i2 in W2. destruct (line_write v o w1 b2) as [w2 r2]. unfold wrote in W2.
    destruct r2 as [r2|]; [|injection H as <- <-; eapply stopped_more; [exact W2|exact G']].
    destruct (checked m u32_mod (count * 100)) as [ts| |]; [|injection H as <- <-; injection EI as <- <-; auto..].
    assert (L3 : length (be32_bytes ts) <= P) by (transitivity 16; [cbn; lia|exact LP]).
    destruct (write_more v i2 (be32_bytes ts) OK2) as [G3 OK3]. destruct (write_more v _ b4 OK3) as [G4 OK4].
    destruct (write_more v _ buf OK4) as [G5 OK5].
    set (i3 := write_ v i2 (be32_bytes ts)) in *. set (i4 := write_ v i3 b4) in *. set (i5 := write_ v i4 buf) in *.
    assert (EI5 : at_exit i' = at_exit i5) by (destruct (checked m u32_mod (count + 1)); injection EI as <- <-; reflexivity).
    pose proof (line_write_st v w2 i2 _ W2 L3) as W3. fold i3 in W3. destruct (line_write v o w2 (be32_bytes ts)) as [w3 r3]. unfold wrote in W3.
    destruct r3 as [r3|]; [|injection H as <- <-; rewrite EI5; eapply stopped_more; [exact W3|]; eapply begins_trans; [exact G4|exact G5]].
    pose proof (line_write_st v w3 i3 _ W3 L4) as W4. fold i4 in W4. destruct (line_write v o w3 b4) as [w4 r4]. unfold wrote in W4.
    destruct r4 as [r4|]; [|injection H as <- <-; rewrite EI5; eapply stopped_more; [exact W4|exact G5]].
    pose proof (line_write_st v w4 i4 _ W4 LB) as W5. fold i5 in W5. destruct (line_write v o w4 buf) as [w5 r5]. unfold wrote in W5.
    destruct r5 as [r5|]; [|injection H as <- <-; rewrite EI5; exact W5].
    destruct (checked m u32_mod (count + 1)); injection EI as <- <-; injection H as <- <-; auto.
  Qed.

  Lemma dd_message_more v A m ecuid appid psize count buf i i' r0 : lw_ok i ->
    dd_message v A m ecuid appid psize count buf i = (i', r0) -> lw_ok i' /\ begins (at_exit i) (at_exit i').
  Proof.
    intros OK. unfold dd_message.
    destruct (quad_of_slice ecuid) as [e| |]; cbn [obind]; [|intros [= <- <-]; split; [exact OK|apply begins_refl]..].
    destruct (checked m u16_mod (4 + 10 + 4 + psize)) as [len| |]; cbn [obind]; [|intros [= <- <-]; split; [exact OK|apply begins_refl]..].
    destruct (quad_of_slice appid) as [a| |]; cbn [obind]; [|intros [= <- <-]; split; [exact OK|apply begins_refl]..].
    set (b1 := storage_header_as_bytes _). set (b2 := std_header_as_bytes _). set (b4 := ext_header_as_bytes _).
    destruct (write_more v i b1 OK) as [G1 OK1]. destruct (write_more v _ b2 OK1) as [G2 OK2].
    destruct (checked m u32_mod (count * 100)) as [ts| |].
    2,3: intros [= <- <-]; split; [exact OK2|eapply begins_trans; [exact G1|exact G2]].
    destruct (write_more v _ (be32_bytes ts) OK2) as [G3 OK3]. destruct (write_more v _ b4 OK3) as [G4 OK4].
    destruct (write_more v _ buf OK4) as [G5 OK5].
    destruct (checked m u32_mod (count + 1)); intros [= <- <-]; (split; [exact OK5|]);
      (eapply begins_trans; [exact G1|]; eapply begins_trans; [exact G2|]; eapply begins_trans; [exact G3|]; eapply begins_trans; [exact G4|exact G5]).
  Qed.
  Lemma dd_loop_more v fuel A m ecuid appid psize : forall count stdin i ideal e0, lw_ok i ->
    dd_loop v fuel A m ecuid appid psize count stdin i = Ret (ideal, e0) -> begins (at_exit i) ideal.
  Proof.
    induction fuel as [|f IH]; intros count stdin i ideal e0 OK H; [discriminate|]. cbn [dd_loop] in H.
    destruct (length stdin <? N.to_nat psize); [injection H as <- <-; apply begins_refl|].
    destruct (dd_message v A m ecuid appid psize count (firstn (N.to_nat psize) stdin) i) as [i' r0] eqn:M.
    destruct (dd_message_more _ _ _ _ _ _ _ _ _ _ _ OK M) as [OK' G]. destruct r0 as [c|].
    - eapply begins_trans; [exact G|]. now apply (IH _ _ _ _ _ OK' H).
    - injection H as <- <-. exact G.
  Qed.

  (** The program. *)
  Lemma loop_os v A m ecuid appid psize : N.to_nat psize + 16 <= P -> forall fuel count stdin w i ideal e0, st w i ->
    dd_loop v fuel A m ecuid appid psize count stdin i = Ret (ideal, e0) ->
    exists out e, os_loop v fuel o A m ecuid appid psize count stdin w = Ret (out, e) /\ begins out ideal /\
      (e = OsError \/ same_end e e0 /\ length ideal <= length out + P + lw_capacity).
  Proof.
    intros LP. induction fuel as [|f IH]; intros count stdin w i ideal e0 S H; [discriminate|]. cbn [dd_loop os_loop] in *.
    destruct (length stdin <? N.to_nat psize).
    - injection H as <- <-. do 2 eexists. split; [reflexivity|]. destruct (exit_st w i S) as [G L]. split; [exact G|]. right. split; [reflexivity|exact L].
    - destruct (os_message v o A m ecuid appid psize count (firstn (N.to_nat psize) stdin) w) as [w' r] eqn:M.
      assert (LB : length (firstn (N.to_nat psize) stdin) <= P) by (rewrite firstn_length; lia).
      destruct (message_os _ _ _ _ _ _ _ _ _ _ _ _ S LB ltac:(lia) M) as (i' & r0 & E & OK' & G & R). rewrite E in H.
      destruct r as [c|e].
      + destruct R as [-> S']. now apply (IH _ _ _ _ _ _ S' H).
      + exists (all_arrived o w'), e. split; [reflexivity|]. destruct e as [n| |]; [contradiction| |].
        * assert (GI : begins (at_exit i') ideal).
          { destruct r0 as [c|]; [now apply (dd_loop_more _ _ _ _ _ _ _ _ _ _ _ _ OK' H)|]. injection H as <- <-. apply begins_refl. }
          split; [|now left]. apply exit_stopped. eapply stopped_more; eauto.
        * destruct R as [-> S']. injection H as <- <-. destruct (exit_st w' i' S') as [G' L']. split; [exact G'|]. right. split; [exact I|exact L'].
  Qed.
End Os.

Lemma program_os o v fuel A m args stdin ideal e0 : in_order o ->
  dd_dlt v fuel A m args stdin = Ret (ideal, e0) ->
  exists out e, dd_dlt_os v fuel o A m args stdin = Ret (out, e) /\ begins out ideal /\
    (e = OsError \/ same_end e e0 /\ forall ecuid appid size more psize, args = ecuid :: appid :: size :: more -> parse_u16 size = Some psize ->
       length ideal <= length out + (N.to_nat psize + 16) + lw_capacity).
Proof.
  intros RO. unfold dd_dlt, dd_dlt_os. destruct args as [|ecuid [|appid [|size more]]];
    try (intros [= <- <-]; do 2 eexists; split; [reflexivity|]; split; [apply begins_refl|right; split; [reflexivity|intros; discriminate]]).
  destruct (parse_u16 size) as [psize|] eqn:PS.
  - intros H. destruct (loop_os o RO (N.to_nat psize + 16) v A m ecuid appid psize (le_n _) fuel 0 stdin stdout_new lw_new ideal e0) as (out & e & E & G & R).
    + left. split; [reflexivity|]. split; [reflexivity|]. unfold lw_ok. cbn. lia.
    + exact H.
    + exists out, e. split; [exact E|]. split; [exact G|]. destruct R as [R|[R1 R2]]; [now left|right]. split; [exact R1|].
      intros e' a' s' m' p' [= <- <- <- <-] PS'. rewrite PS in PS'. injection PS' as <-. exact R2.
  - intros [= <- <-]. do 2 eexists. split; [reflexivity|]. split; [apply begins_refl|]. right. split; [exact I|].
    intros e' a' s' m' p' [= <- <- <- <-] PS'. congruence.
Qed.

(** * An operating system that takes everything *)
Section Perfect.
  Variable o : os.
  Hypothesis ALL : forall i, o i = TakesAll.

  Lemma all_in_order : in_order o.
  Proof. intros i. left. apply ALL. Qed.
  Lemma not_dead w : ~ dead o w.
  Proof. intros D. specialize (D (calls w) (le_n _)). rewrite ALL in D. discriminate. Qed.
  Lemma flush_all w : snd (flush_out o w) = true.
  Proof.
    unfold flush_out. destruct (buffered w) as [|c b] eqn:B; cbn [length flush_rounds]; rewrite B; [reflexivity|].
    unfold raw_write. rewrite ALL. cbn [length skipn]. rewrite skipn_all. unfold set_buffered. destruct (length b); reflexivity.
  Qed.
  Lemma line_all v w buf : snd (line_write v o w buf) <> None.
  Proof.
    unfold line_write. destruct (rfind [x0a] buf) as [k|].
    - pose proof (flush_all w) as F. destruct (flush_out o w) as [w1 ok]. cbn [snd] in F. subst ok. cbn [negb].
      unfold raw_write. rewrite ALL. destruct (length (firstn (k + 1) buf)); [discriminate|].
      destruct (_ && _); discriminate.
    - assert (BW : forall w, snd (buf_write o w buf) <> None).
      { clear w. intros w. unfold buf_write. destruct (length buf <? _); [discriminate|].
        pose proof (flush_all w) as F. destruct (flush_out o w) as [w1 ok]. cbn [snd] in F. subst ok.
        unfold raw_write. destruct (_ <? length buf); cbn [negb]; destruct (lw_capacity <=? length buf); try discriminate; rewrite ALL; discriminate. }
      pose proof (flush_all w) as F. destruct (flush_out o w) as [w1 ok]. cbn [snd] in F. subst ok.
      destruct (rev (buffered w)) as [|c r]; [apply BW|]. destruct (byte_eqb c x0a); apply BW.
  Qed.
  Lemma message_all v A m ecuid appid psize count buf w : snd (os_message v o A m ecuid appid psize count buf w) <> inr OsError.
  Proof.
    unfold os_message.
    destruct (quad_of_slice ecuid) as [e| |]; cbn [obind snd]; try discriminate.
    destruct (checked m u16_mod (4 + 10 + 4 + psize)) as [len| |]; cbn [obind snd]; try discriminate.
    destruct (quad_of_slice appid) as [a| |]; cbn [obind snd]; try discriminate.
    set (b1 := storage_header_as_bytes _). set (b2 := std_header_as_bytes _). set (b4 := ext_header_as_bytes _).
    pose proof (line_all v w b1) as N1. destruct (line_write v o w b1) as [w1 [r1|]]; [|now cbn in N1].
    pose proof (line_all v w1 b2) as N2. destruct (line_write v o w1 b2) as [w2 [r2|]]; [|now cbn in N2].
    destruct (checked m u32_mod (count * 100)) as [ts| |]; try discriminate.
    pose proof (line_all v w2 (be32_bytes ts)) as N3. destruct (line_write v o w2 (be32_bytes ts)) as [w3 [r3|]]; [|now cbn in N3].
    pose proof (line_all v w3 b4) as N4. destruct (line_write v o w3 b4) as [w4 [r4|]]; [|now cbn in N4].
    pose proof (line_all v w4 buf) as N5. destruct (line_write v o w4 buf) as [w5 [r5|]]; [|now cbn in N5].
    destruct (checked m u32_mod (count + 1)); discriminate.
  Qed.
  Lemma exit_all P w i : st o P w i -> all_arrived o w = at_exit i.
  Proof.
    intros [(A & B & OK)|(D & _)]; [|now apply not_dead in D]. unfold all_arrived.
    pose proof (flush_all w) as F. destruct (flush_out o w) as [w' ok] eqn:E. cbn [snd fst] in *. subst ok.
    destruct (flush_keeps o all_in_order _ _ _ E) as (K & N & _). rewrite (N eq_refl), app_nil_r, A, B in K. exact K.
  Qed.
  Lemma loop_all v A m ecuid appid psize : forall fuel count stdin w i ideal e0, st o (N.to_nat psize + 16) w i ->
    dd_loop v fuel A m ecuid appid psize count stdin i = Ret (ideal, e0) ->
    exists e, os_loop v fuel o A m ecuid appid psize count stdin w = Ret (ideal, e) /\ same_end e e0.
  Proof.
    induction fuel as [|f IH]; intros count stdin w i ideal e0 S H; [discriminate|]. cbn [dd_loop os_loop] in *.
    destruct (length stdin <? N.to_nat psize).
    - injection H as <- <-. eexists. split; [now rewrite (exit_all _ _ _ S)|reflexivity].
    - destruct (os_message v o A m ecuid appid psize count (firstn (N.to_nat psize) stdin) w) as [w' r] eqn:M.
      assert (LB : length (firstn (N.to_nat psize) stdin) <= N.to_nat psize + 16) by (rewrite firstn_length; lia).
      destruct (message_os o all_in_order _ _ _ _ _ _ _ _ _ _ _ _ _ S LB ltac:(lia) M) as (i' & r0 & E & OK' & G & R). rewrite E in H.
      destruct r as [c|e].
      + destruct R as [-> S']. now apply (IH _ _ _ _ _ _ S' H).
      + pose proof (message_all v A m ecuid appid psize count (firstn (N.to_nat psize) stdin) w) as NE. rewrite M in NE. cbn [snd] in NE.
        destruct e as [n| |]; [contradiction|now contradict NE|]. destruct R as [-> S']. injection H as <- <-.
        eexists. split; [now rewrite (exit_all _ _ _ S')|exact I].
  Qed.
  Lemma program_all v fuel A m args stdin ideal e0 : dd_dlt v fuel A m args stdin = Ret (ideal, e0) ->
    exists e, dd_dlt_os v fuel o A m args stdin = Ret (ideal, e) /\ same_end e e0.
  Proof.
    unfold dd_dlt, dd_dlt_os. destruct args as [|ecuid [|appid [|size more]]];
      try (intros [= <- <-]; eexists; split; reflexivity).
    destruct (parse_u16 size) as [psize|].
    - apply loop_all. left. split; [reflexivity|]. split; [reflexivity|]. unfold lw_ok. cbn. lia.
    - intros [= <- <-]. eexists. split; [reflexivity|exact I].
  Qed.
End Perfect.

(** * A descriptor that is not open *)
Section NotOpen.
  Variable o : os.
  Hypothesis CLOSED : forall i, o i = NotOpen.

  Lemma flush_closed w : exists w', flush_out o w = (w', true) /\ arrived w' = arrived w.
  Proof.
    unfold flush_out. destruct (buffered w) as [|c b] eqn:B; cbn [length flush_rounds]; rewrite B; [eauto|].
    unfold raw_write. rewrite CLOSED. cbn [length skipn]. rewrite skipn_all. unfold set_buffered. cbn [arrived calls buffered].
    destruct (length b); cbn [flush_rounds buffered]; eexists; (split; [reflexivity|]); cbn [arrived]; now rewrite app_nil_r.
  Qed.
  Lemma raw_closed w b : exists w', raw_write o w b = (w', Some (length b)) /\ arrived w' = arrived w.
  Proof. unfold raw_write. rewrite CLOSED. eexists. split; [reflexivity|]. cbn. now rewrite app_nil_r. Qed.
  Lemma line_closed v w buf : exists w' n, line_write v o w buf = (w', Some n) /\ arrived w' = arrived w.
  Proof.
    destruct (flush_closed w) as (w1 & F & A1). unfold line_write. destruct (rfind [x0a] buf) as [k|].
    - rewrite F. cbn [negb]. destruct (raw_closed w1 (firstn (k + 1) buf)) as (w2 & -> & A2).
      destruct (length (firstn (k + 1) buf)); [do 2 eexists; split; [reflexivity|congruence]|].
      destruct (_ && _); [do 2 eexists; split; [reflexivity|congruence]|].
      unfold write_to_buf. do 2 eexists. split; [reflexivity|]. cbn [set_buffered arrived]. congruence.
    - assert (BW : forall w, exists w' n, buf_write o w buf = (w', Some n) /\ arrived w' = arrived w).
      { clear w w1 F A1. intros w. unfold buf_write. destruct (length buf <? _); [do 2 eexists; split; reflexivity|].
        destruct (flush_closed w) as (w1 & F & A1). destruct (_ <? length buf).
        - rewrite F. cbn [negb]. destruct (lw_capacity <=? length buf); [|do 2 eexists; split; [reflexivity|exact A1]].
          destruct (raw_closed w1 buf) as (w2 & -> & A2). do 2 eexists. split; [reflexivity|congruence].
        - cbn [negb]. destruct (lw_capacity <=? length buf); [|do 2 eexists; split; reflexivity].
          destruct (raw_closed w buf) as (w2 & -> & A2). do 2 eexists. split; [reflexivity|congruence]. }
      destruct (rev (buffered w)) as [|c r]; [apply BW|]. destruct (byte_eqb c x0a); [|apply BW].
      rewrite F. cbn [negb]. destruct (BW w1) as (w2 & n & E & A2). do 2 eexists. split; [exact E|congruence].
  Qed.
  Lemma message_closed v A m ecuid appid psize count buf w i : exists w' r,
    os_message v o A m ecuid appid psize count buf w = (w', r) /\ arrived w' = arrived w /\
    match snd (dd_message v A m ecuid appid psize count buf i) with Some c => r = inl c | None => r = inr OsPanic end.
  Proof.
    unfold os_message, dd_message.
    destruct (quad_of_slice ecuid) as [e| |]; cbn [obind snd]; [|do 2 eexists; repeat split..].
    destruct (checked m u16_mod (4 + 10 + 4 + psize)) as [len| |]; cbn [obind snd]; [|do 2 eexists; repeat split..].
    destruct (quad_of_slice appid) as [a| |]; cbn [obind snd]; [|do 2 eexists; repeat split..].
    set (b1 := storage_header_as_bytes _). set (b2 := std_header_as_bytes _). set (b4 := ext_header_as_bytes _).
    destruct (line_closed v w b1) as (w1 & n1 & -> & A1). destruct (line_closed v w1 b2) as (w2 & n2 & -> & A2).
    destruct (checked m u32_mod (count * 100)) as [ts| |]; [|do 2 eexists; split; [reflexivity|]; split; [congruence|reflexivity]..].
    destruct (line_closed v w2 (be32_bytes ts)) as (w3 & n3 & -> & A3). destruct (line_closed v w3 b4) as (w4 & n4 & -> & A4).
    destruct (line_closed v w4 buf) as (w5 & n5 & -> & A5).
    destruct (checked m u32_mod (count + 1)); (do 2 eexists; split; [reflexivity|]; split; [congruence|reflexivity]).
  Qed.
  Lemma loop_closed v A m ecuid appid psize : forall fuel count stdin w i ideal e0, arrived w = [] ->
    dd_loop v fuel A m ecuid appid psize count stdin i = Ret (ideal, e0) ->
    exists e, os_loop v fuel o A m ecuid appid psize count stdin w = Ret ([], e) /\ same_end e e0.
  Proof.
    assert (X : forall w, arrived w = [] -> all_arrived o w = []).
    { intros w H. unfold all_arrived. destruct (flush_closed w) as (w' & -> & A'). cbn [fst]. congruence. }
    induction fuel as [|f IH]; intros count stdin w i ideal e0 S H; [discriminate|]. cbn [dd_loop os_loop] in *.
    destruct (length stdin <? N.to_nat psize).
    - injection H as <- <-. eexists. split; [now rewrite X|reflexivity].
    - destruct (message_closed v A m ecuid appid psize count (firstn (N.to_nat psize) stdin) w i) as (w' & r & -> & A' & R).
      destruct (dd_message v A m ecuid appid psize count (firstn (N.to_nat psize) stdin) i) as [i' [c|]]; cbn [snd] in R; subst r.
      + eapply IH; [congruence|exact H].
      + injection H as <- <-. eexists. split; [rewrite X by congruence; reflexivity|exact I].
  Qed.
  Lemma program_closed v fuel A m args stdin ideal e0 : dd_dlt v fuel A m args stdin = Ret (ideal, e0) ->
    exists e, dd_dlt_os v fuel o A m args stdin = Ret ([], e) /\ same_end e e0.
  Proof.
    unfold dd_dlt, dd_dlt_os. destruct args as [|ecuid [|appid [|size more]]];
      try (intros [= <- <-]; eexists; split; reflexivity).
    destruct (parse_u16 size) as [psize|].
    - apply loop_closed. reflexivity.
    - intros [= <- <-]. eexists. split; [reflexivity|exact I].
  Qed.
End NotOpen.
