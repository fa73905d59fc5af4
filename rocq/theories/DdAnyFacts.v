(** dd_dlt and an operating system that takes an arbitrary part of each write (C105). *)
From Verif Require Import Base DltModel MatchModel Spec DdModel DdOs OsSpec BaseFacts FindFacts DdFacts DdOsFacts.
From Coq Require Import ZifyBool ZifyNat ZifyN.

Lemma concat_none (L : list bytes) : concat (map (fun _ => @nil byte) L) = [].
Proof. induction L as [|a L IH]; [reflexivity|exact IH]. Qed.
Lemma shortened_more L L' x : shortened L x -> shortened (L ++ L') x.
Proof.
  intros (k & F & ->). exists (k ++ map (fun _ => @nil byte) L'). split.
  - apply Forall2_app; [exact F|]. clear F. induction L' as [|a L' IH]; cbn [map]; constructor; [now exists a|exact IH].
  - now rewrite concat_app, concat_none, app_nil_r.
Qed.
Lemma shortened_snoc L x n buf : shortened L x -> shortened (L ++ [buf]) (x ++ firstn n buf).
Proof.
  intros (k & F & ->). exists (k ++ [firstn n buf]). split.
  - apply Forall2_app; [exact F|]. constructor; [|constructor]. exists (skipn n buf). now rewrite firstn_skipn.
  - rewrite concat_app. cbn. now rewrite app_nil_r.
Qed.
Lemma shortened_begin L : forall x y, shortened L x -> begins y x -> shortened L y.
Proof.
  intros x y (k & F & ->). revert y. induction F as [|a b k L [m E] F IH]; intros y [r R].
  - exists []. split; [constructor|]. symmetry in R. apply app_eq_nil in R. cbn in *. tauto.
  - cbn [concat] in R. destruct (Nat.le_gt_cases (length a) (length y)) as [H|H].
    + assert (Y : y = a ++ skipn (length a) y).
      { apply (f_equal (firstn (length a))) in R. rewrite firstn_app, firstn_all, Nat.sub_diag in R. cbn [firstn] in R. rewrite app_nil_r in R.
        rewrite firstn_app in R. replace (length a - length y) with 0 in R by lia. cbn [firstn] in R. rewrite app_nil_r in R.
        rewrite R at 1. now rewrite firstn_skipn. }
      rewrite Y in R. rewrite <- app_assoc in R. apply app_inv_head in R.
      destruct (IH (skipn (length a) y)) as (k' & F' & E'); [now exists r|].
      exists (a :: k'). split; [constructor; [now exists m|exact F']|]. cbn [concat]. now rewrite <- E'.
    + assert (Y : a = y ++ skipn (length y) a).
      { apply (f_equal (firstn (length y))) in R. rewrite (firstn_app (length y) y), firstn_all, Nat.sub_diag in R. cbn [firstn] in R. rewrite app_nil_r in R.
        rewrite firstn_app in R. replace (length y - length a) with 0 in R by lia. cbn [firstn] in R. rewrite app_nil_r in R.
        rewrite <- R at 1. now rewrite firstn_skipn. }
      exists (y :: map (fun _ => @nil byte) L). split.
      * constructor; [exists (skipn (length y) a ++ m); now rewrite app_assoc, <- Y|].
        clear. induction L as [|c L IH]; cbn [map]; constructor; [now exists c|exact IH].
      * change (y = y ++ concat (map (fun _ => @nil byte) L)). rewrite concat_none. symmetry. apply app_nil_r.
Qed.

Section Any.
  Variable o : os.
  Hypothesis OPEN : forall i, o i <> NotOpen.

  Definition held (w : stdout) : bytes := arrived w ++ buffered w.

  Lemma raw_any w buf : exists w' n, buffered w' = buffered w /\ n <= length buf /\ arrived w' = arrived w ++ firstn n buf /\
    (raw_write o w buf = (w', Some n) \/ raw_write o w buf = (w', None) /\ n = 0).
  Proof.
    unfold raw_write. pose proof (OPEN (calls w)) as H. destruct (o (calls w)) as [|k| |].
    - exists {| calls := calls w + 1; arrived := arrived w ++ buf; buffered := buffered w |}, (length buf).
      cbn [arrived buffered]. rewrite firstn_all. auto.
    - eexists _, (Nat.min k (length buf)). split; [|split; [|split; [|left; reflexivity]]]; cbn [arrived buffered]; [reflexivity|lia|reflexivity].
    - eexists _, 0. split; [|split; [|split; [|right; split; reflexivity]]]; cbn [arrived buffered firstn]; [reflexivity|lia|reflexivity].
    - now contradiction H.
  Qed.
  Lemma flush_rounds_any r : forall w w' ok, flush_rounds r o w = (w', ok) ->
    held w' = held w /\ (ok = true -> buffered w' = []) /\ begins (arrived w) (arrived w').
  Proof.
    unfold held. induction r as [|r IH]; intros w w' ok H; cbn [flush_rounds] in H.
    - destruct (buffered w) as [|c b] eqn:B; injection H as <- <-; rewrite ?B; (split; [reflexivity|]; split; [auto; discriminate|apply begins_refl]).
    - destruct (buffered w) as [|c b] eqn:B; [injection H as <- <-; rewrite ?B; split; [reflexivity|]; split; [auto|apply begins_refl]|].
      rewrite <- B in *. destruct (raw_any w (buffered w)) as (w1 & n & B1 & L & A1 & [E|[E N]]); rewrite E in H.
      + destruct n as [|n].
        * injection H as <- <-. rewrite A1, B1. cbn [firstn]. rewrite app_nil_r. split; [reflexivity|]. split; [discriminate|apply begins_refl].
        * apply IH in H. destruct H as (K & OK & G). rewrite K. cbn [set_buffered arrived buffered] in *.
          split; [now rewrite A1, <- app_assoc, firstn_skipn|]. split; [exact OK|]. eapply begins_trans; [|exact G]. rewrite A1. apply begins_app.
      + subst n. injection H as <- <-. rewrite A1, B1. cbn [firstn]. rewrite app_nil_r. split; [reflexivity|]. split; [discriminate|apply begins_refl].
  Qed.
  Lemma flush_any w w' ok : flush_out o w = (w', ok) -> held w' = held w /\ (ok = true -> buffered w' = []).
  Proof. intros H. apply flush_rounds_any in H. tauto. Qed.
  Lemma exit_any w : begins (all_arrived o w) (held w).
  Proof.
    unfold all_arrived. destruct (flush_out o w) as [w' ok] eqn:F. apply flush_any in F. destruct F as [<- _]. cbn [fst]. apply begins_app.
  Qed.

  Lemma firstn_two n m (b : bytes) : firstn n b ++ firstn m (skipn n b) = firstn (n + m) b.
  Proof.
    revert b. induction n as [|n IH]; intros b; [reflexivity|]. destruct b as [|c b]; [now rewrite !firstn_nil|]. cbn. now rewrite IH.
  Qed.

  Lemma buf_any w buf w' r : buf_write o w buf = (w', r) -> exists n, held w' = held w ++ firstn n buf.
  Proof.
    unfold buf_write. destruct (length buf <? lw_capacity - length (buffered w)).
    { intros [= <- <-]. exists (length buf). unfold held. cbn [set_buffered arrived buffered]. now rewrite firstn_all, app_assoc. }
    set (sp := lw_capacity - length (buffered w)).
    destruct (if sp <? length buf then flush_out o w else (w, true)) as [w1 ok] eqn:F.
    assert (H1 : held w1 = held w /\ (ok = true -> sp < length buf -> buffered w1 = []) /\ (length buf <= sp -> w1 = w)).
    { destruct (Nat.ltb_spec sp (length buf)).
      - apply flush_any in F. destruct F as [F1 F2]. split; [exact F1|]. split; [auto|lia].
      - injection F as <- <-. split; [reflexivity|]. split; [lia|auto]. }
    destruct H1 as (H1 & H2 & H3). destruct ok; cbn [negb].
    2:{ intros [= <- <-]. exists 0. cbn [firstn]. now rewrite app_nil_r. }
    destruct (Nat.leb_spec lw_capacity (length buf)) as [LC|LC].
    - assert (B1 : buffered w1 = []).
      { destruct (Nat.lt_ge_cases sp (length buf)) as [L|L]; [auto|]. rewrite (H3 L). apply length_zero_iff_nil. unfold sp in *. pose proof cap_pos. lia. }
      destruct (raw_any w1 buf) as (w2 & n & B2 & L & A2 & E). intros H. assert (w2 = w') by (destruct E as [E|[E _]]; congruence). subst w'.
      exists n. rewrite <- H1. unfold held. rewrite A2, B2, B1, !app_nil_r. reflexivity.
    - intros [= <- <-]. exists (length buf). rewrite <- H1. unfold held. cbn [set_buffered arrived buffered]. now rewrite firstn_all, app_assoc.
  Qed.

  Lemma line_any v w buf w' r : line_write v o w buf = (w', r) -> exists n, held w' = held w ++ firstn n buf.
  Proof.
    assert (ZERO : forall w1, held w1 = held w -> exists n, held w1 = held w ++ firstn n buf).
    { intros w1 ->. exists 0. cbn [firstn]. now rewrite app_nil_r. }
    unfold line_write. destruct (rfind [x0a] buf) as [k|].
    - destruct (flush_out o w) as [w1 ok] eqn:F. apply flush_any in F. destruct F as [F1 F2]. destruct ok; cbn [negb].
      2:{ intros [= <- <-]. now apply ZERO. }
      specialize (F2 eq_refl). set (n := k + 1).
      destruct (raw_any w1 (firstn n buf)) as (w2 & m & B2 & L & A2 & [E|[E N]]); rewrite E.
      2:{ intros [= <- <-]. apply ZERO. rewrite <- F1. unfold held. rewrite A2, B2, N. cbn [firstn]. now rewrite app_nil_r. }
      rewrite firstn_length in L. rewrite firstn_firstn, Nat.min_l in A2 by lia.
      assert (H2 : held w2 = held w ++ firstn m buf).
      { rewrite <- F1. unfold held. rewrite A2, B2, F2, !app_nil_r. reflexivity. }
      destruct m as [|m']; [intros [= <- <-]; now exists 0|]. set (m := S m') in *. clearbody m.
      destruct ((n <=? m) && _); [intros [= <- <-]; now exists m|].
      set (t := if n <=? m then _ else _).
      assert (T : exists j, t = firstn j (skipn m buf)).
      { unfold t. destruct (n <=? m); [exists (length (skipn m buf)); now rewrite firstn_all|].
        destruct (n - m <=? lw_capacity); [exists (n - m); apply skipn_firstn_comm|].
        destruct (rfind [x0a] (firstn lw_capacity (skipn m buf))) as [j|]; [|now eexists].
        exists (Nat.min (j + 1) lw_capacity). now rewrite firstn_firstn. }
      clearbody t. destruct T as [j ->]. unfold write_to_buf. rewrite B2, F2. cbn [length app]. intros [= <- <-].
      rewrite firstn_firstn. exists (m + Nat.min (Nat.min (lw_capacity - 0) (length (firstn j (skipn m buf)))) j).
      rewrite <- firstn_two, app_assoc, <- H2. unfold held. cbn [set_buffered arrived buffered]. rewrite B2, F2, app_nil_r. reflexivity.
    - destruct (match rev (buffered w) with c :: _ => if byte_eqb c x0a then flush_out o w else (w, true) | [] => (w, true) end) as [w1 ok] eqn:F.
      assert (F1 : held w1 = held w).
      { destruct (rev (buffered w)) as [|c l]; [congruence|]. destruct (byte_eqb c x0a); [|congruence]. apply flush_any in F. tauto. }
      destruct ok; cbn [negb]; [|intros [= <- <-]; now apply ZERO]. rewrite <- F1. apply buf_any.
  Qed.

  Lemma line_shortened v w buf w' r L : line_write v o w buf = (w', r) -> shortened L (held w) -> shortened (L ++ [buf]) (held w').
  Proof. intros H S. destruct (line_any v w buf w' r H) as [n ->]. now apply shortened_snoc. Qed.

  (** The parts of a message with a complete payload. *)
  Definition wire_parts (A : ctor_addrs) (e a : quad) (len count : N) (pl : bytes) : list bytes :=
    [the_pattern ++ le32_bytes (count / 100) ++ le32_bytes (count mod 100 * 10000) ++ quad_bytes e;
     [x31; u8 count] ++ be16_bytes len; be32_bytes (count * 100 mod u32_mod);
     [dd_type A; x00] ++ quad_bytes a ++ quad_bytes a; pl].
  Lemma message_any v A m e a psize count buf w len w' r L :
    checked m u16_mod (4 + 10 + 4 + psize) = Ret len ->
    (m = Release \/ (count * 100 < u32_mod)%N) -> (count + 1 < u32_mod)%N ->
    os_message v o A m (quad_bytes e) (quad_bytes a) psize count buf w = (w', r) ->
    shortened L (held w) -> shortened (L ++ wire_parts A e a len count buf) (held w') /\ (r = inl (count + 1)%N \/ r = inr OsError).
  Proof.
    intros CL CT CC. unfold os_message. rewrite !quad_ok. cbn [obind]. rewrite CL. cbn [obind].
    assert (T : checked m u32_mod (count * 100) = Ret (count * 100 mod u32_mod)%N).
    { rewrite checked_ok by exact CT. destruct (N.ltb_spec (count * 100) u32_mod); [|reflexivity]. now rewrite N.mod_small. }
    rewrite T. rewrite checked_ok by (right; exact CC). destruct (N.ltb_spec (count + 1) u32_mod); [|lia].
    set (shb := storage_header_as_bytes _). set (hb := std_header_as_bytes _). set (eb := ext_header_as_bytes _). set (tb := be32_bytes _).
    intros E S.
    assert (WP : wire_parts A e a len count buf = [shb; hb; tb; eb; buf]).
    { unfold wire_parts, shb, hb, tb, eb, storage_header_as_bytes, storage_header_new, std_header_as_bytes, std_header_new, ext_header_as_bytes, ext_header_new.
      cbn [pattern secs msecs ecu header_type message_counter std_length msin noar apid ctid].
      rewrite us_bytes by (apply N.mod_lt; discriminate).
      change (htyp_new true false false false true x01) with x31. fold (dd_type A). cbn [quad_bytes the_pattern app]. now rewrite <- ?app_assoc. }
    rewrite WP. clearbody shb hb eb tb. clear WP.
    change [shb; hb; tb; eb; buf] with ([shb] ++ [hb] ++ [tb] ++ [eb] ++ [buf]). rewrite !app_assoc.
    destruct (line_write v o w shb) as [w1 [r1|]] eqn:E1; pose proof (line_shortened _ _ _ _ _ _ E1 S) as S1.
    2:{ injection E as <- <-. split; [|now right]. do 4 apply shortened_more. exact S1. }
    destruct (line_write v o w1 hb) as [w2 [r2|]] eqn:E2; pose proof (line_shortened _ _ _ _ _ _ E2 S1) as S2.
    2:{ injection E as <- <-. split; [|now right]. do 3 apply shortened_more. exact S2. }
    destruct (line_write v o w2 tb) as [w3 [r3|]] eqn:E3; pose proof (line_shortened _ _ _ _ _ _ E3 S2) as S3.
    2:{ injection E as <- <-. split; [|now right]. do 2 apply shortened_more. exact S3. }
    destruct (line_write v o w3 eb) as [w4 [r4|]] eqn:E4; pose proof (line_shortened _ _ _ _ _ _ E4 S3) as S4.
    2:{ injection E as <- <-. split; [|now right]. apply shortened_more. exact S4. }
    destruct (line_write v o w4 buf) as [w5 [r5|]] eqn:E5; pose proof (line_shortened _ _ _ _ _ _ E5 S4) as S5;
      injection E as <- <-; (split; [exact S5|]); auto.
  Qed.

  Fixpoint all_parts (A : ctor_addrs) (e a : quad) (len count : N) (chunks : list bytes) : list bytes :=
    match chunks with
    | [] => []
    | c :: cs => wire_parts A e a len count c ++ all_parts A e a len (count + 1) cs
    end.
  Lemma loop_any v A m e a psize len rest : checked m u16_mod (4 + 10 + 4 + psize) = Ret len ->
    (N.of_nat (length rest) < psize)%N ->
    forall chunks count w fuel L, shortened L (held w) -> Forall (fun c => N.of_nat (length c) = psize) chunks ->
    (m = Release \/ ((count + N.of_nat (length chunks)) * 100 < u32_mod + 100)%N) -> (count + N.of_nat (length chunks) < u32_mod)%N ->
    length chunks < fuel ->
    exists out en, os_loop v fuel o A m (quad_bytes e) (quad_bytes a) psize count (concat chunks ++ rest) w = Ret (out, en) /\
      (en = OsError \/ en = OsDone (count + N.of_nat (length chunks))) /\ shortened (L ++ all_parts A e a len count chunks) out.
  Proof.
    intros CL LR. induction chunks as [|c cs IH]; intros count w fuel L S F CT CC Hf; destruct fuel as [|fuel]; try lia; cbn [os_loop].
    - cbn [concat app length all_parts]. destruct (Nat.ltb_spec (length rest) (N.to_nat psize)); [|lia].
      do 2 eexists. split; [reflexivity|]. split; [right; f_equal; lia|]. rewrite app_nil_r. eapply shortened_begin; [exact S|apply exit_any].
    - inversion F as [|x y F1 F2]; subst x y. cbn [concat]. rewrite <- app_assoc.
      destruct (Nat.ltb_spec (length (c ++ concat cs ++ rest)) (N.to_nat psize)) as [H|_]; [rewrite app_length in H; lia|].
      replace (N.to_nat psize) with (length c) by lia.
      rewrite firstn_app, firstn_all, Nat.sub_diag, skipn_app, skipn_all, Nat.sub_diag. cbn [firstn skipn app]. rewrite app_nil_r.
      cbn [length] in *.
      destruct (os_message v o A m (quad_bytes e) (quad_bytes a) psize count c w) as [w' r] eqn:M.
      destruct (message_any v A m e a psize count c w len w' r L CL) as [S' R];
        [destruct CT as [CT|CT]; [now left|right; lia]|lia|exact M|exact S|].
      cbn [all_parts]. rewrite app_assoc. destruct R as [->| ->].
      + destruct (IH (count + 1)%N w' fuel _ S' F2) as (out & en & E & R & S2); [destruct CT as [CT|CT]; [now left|right; lia]|lia|lia|].
        exists out, en. split; [exact E|]. split; [|exact S2]. destruct R as [->| ->]; [now left|right; f_equal; lia].
      + do 2 eexists. split; [reflexivity|]. split; [now left|]. apply shortened_more. eapply shortened_begin; [exact S'|apply exit_any].
  Qed.
End Any.

Lemma parts_written A e a len p : forall chunks count v, Forall (fun c => length c = p) chunks -> Forall line_fits chunks ->
  written_parts p (length chunks) (concat (wires v A e a len count chunks)) = all_parts A e a len count chunks.
Proof.
  induction chunks as [|c cs IH]; intros count v F FL; [reflexivity|]. inversion F as [|x y F1 F2]; inversion FL as [|x' y' G1 G2]; subst.
  cbn [length wires concat all_parts written_parts]. rewrite (accepted_fits v c G1).
  set (t := concat (wires v A e a len (count + 1) cs)).
  assert (W : wire A e a len count c ++ t = concat (wire_parts A e a len count c) ++ t).
  { f_equal. unfold wire, wire_parts. cbn [concat]. rewrite <- !app_assoc. cbn [app]. rewrite app_nil_r. reflexivity. }
  rewrite W. f_equal.
  - unfold wire_parts, the_pattern, le32_bytes, be32_bytes, be16_bytes. destruct e, a. cbn [quad_bytes rev app concat firstn skipn].
    rewrite app_nil_r, firstn_app, firstn_all, Nat.sub_diag. cbn [firstn]. now rewrite app_nil_r.
  - rewrite <- (IH (count + 1)%N v F2 G2). f_equal.
    assert (LW : length (concat (wire_parts A e a len count c)) = 34 + length c).
    { unfold wire_parts. destruct e, a. cbn. rewrite app_nil_r. reflexivity. }
    rewrite <- LW, skipn_app, skipn_all, Nat.sub_diag. reflexivity.
Qed.

(** * An operating system that always takes something *)
Section Patient.
  Variable o : os.
  Hypothesis PA : patient o.

  Lemma patient_open i : o i <> NotOpen.
  Proof. destruct (PA i) as [E|(k & E & _)]; rewrite E; discriminate. Qed.
  Lemma raw_patient w buf : exists w' n, raw_write o w buf = (w', Some n) /\ buffered w' = buffered w /\ n <= length buf /\
    arrived w' = arrived w ++ firstn n buf /\ (buf <> [] -> 1 <= n).
  Proof.
    unfold raw_write. destruct (PA (calls w)) as [E|(k & E & K)]; rewrite E.
    - eexists _, (length buf). split; [reflexivity|]. cbn [arrived buffered]. rewrite firstn_all. split; [reflexivity|]. split; [lia|]. split; [reflexivity|].
      destruct buf; [contradiction|cbn; lia].
    - eexists _, (Nat.min k (length buf)). split; [reflexivity|]. cbn [arrived buffered]. split; [reflexivity|]. split; [lia|]. split; [reflexivity|].
      destruct buf; [contradiction|cbn [length]; lia].
  Qed.
  Lemma flush_rounds_patient r : forall w, length (buffered w) <= r -> exists w', flush_rounds r o w = (w', true) /\ held w' = held w /\ buffered w' = [].
  Proof.
    induction r as [|r IH]; intros w L; cbn [flush_rounds].
    - destruct (buffered w) as [|c b] eqn:B; [exists w; auto|cbn in L; lia].
    - destruct (buffered w) as [|c b] eqn:B; [exists w; auto|]. rewrite <- B in *.
      destruct (raw_patient w (buffered w)) as (w1 & n & -> & B1 & LN & A1 & P). destruct n as [|n]; [specialize (P ltac:(congruence)); lia|].
      destruct (IH (set_buffered w1 (skipn (S n) (buffered w)))) as (w' & E & H & N).
      { cbn [set_buffered buffered]. rewrite skipn_length. lia. }
      exists w'. split; [exact E|]. split; [|exact N]. rewrite H. unfold held. cbn [set_buffered arrived buffered].
      now rewrite A1, <- app_assoc, firstn_skipn.
  Qed.
  Lemma flush_patient w : exists w', flush_out o w = (w', true) /\ held w' = held w /\ buffered w' = [].
  Proof. now apply flush_rounds_patient. Qed.
  Lemma exit_patient w : all_arrived o w = held w.
  Proof. unfold all_arrived. destruct (flush_patient w) as (w' & -> & H & N). cbn [fst]. rewrite <- H. unfold held. now rewrite N, app_nil_r. Qed.

  Lemma buf_patient w buf : exists w' n k, buf_write o w buf = (w', Some k) /\ held w' = held w ++ firstn n buf /\ (length buf < 1024 -> length buf <= n).
  Proof.
    destruct (buf_write o w buf) as [w' r] eqn:E. destruct r as [k|].
    2:{ exfalso. revert E. unfold buf_write. destruct (length buf <? _); [discriminate|].
      destruct (flush_patient w) as (w1 & F & _). destruct (_ <? length buf); [rewrite F|]; cbn [negb];
        (destruct (lw_capacity <=? length buf); [|discriminate]).
      - destruct (raw_patient w1 buf) as (? & ? & -> & _). discriminate.
      - destruct (raw_patient w buf) as (? & ? & -> & _). discriminate. }
    destruct (Nat.lt_ge_cases (length buf) 1024) as [L|L].
    2:{ destruct (buf_any o patient_open _ _ _ _ E) as [n H]. exists w', n, k. split; [reflexivity|]. split; [exact H|lia]. }
    exists w', (length buf), k. split; [reflexivity|]. split; [|auto]. rewrite firstn_all. revert E. unfold buf_write.
    destruct (length buf <? _). { intros [= <- <-]. unfold held. cbn [set_buffered arrived buffered]. now rewrite app_assoc. }
    destruct (flush_patient w) as (w1 & F & H & N).
    assert (C : (lw_capacity <=? length buf) = false) by (unfold lw_capacity; lia).
    destruct (_ <? length buf); [rewrite F|]; cbn [negb]; rewrite C; intros [= <- <-].
    - rewrite <- H. unfold held. cbn [set_buffered arrived buffered]. now rewrite app_assoc.
    - unfold held. cbn [set_buffered arrived buffered]. now rewrite app_assoc.
  Qed.

  Lemma no_nl b : rfind [x0a] b = None -> ~ In x0a b.
  Proof. intros R I. destruct (nl_occ b I) as [k O]. apply rfind_none with (k := k) in R; [congruence|cbn; lia]. Qed.
  Lemma last_nl b k : rfind [x0a] b = Some k -> k + 1 <= length b /\ ~ In x0a (skipn (k + 1) b) /\ In x0a b.
  Proof.
    intros R. apply rfind_some in R; [|cbn; lia]. destruct R as [O M]. pose proof (skipn_nl _ _ O) as Q. split; [|split].
    - apply (f_equal (@length byte)) in Q. rewrite skipn_length in Q. cbn [length] in Q. lia.
    - intros I. destruct (nl_occ _ I) as [j J]. specialize (M (k + 1 + j) ltac:(lia)). rewrite skipn_skipn' in J. congruence.
    - rewrite <- (firstn_skipn k b), Q. apply in_or_app. right. now left.
  Qed.

  Lemma line_patient v w buf : line_fits buf -> exists w' k kept, line_write v o w buf = (w', Some k) /\ held w' = held w ++ kept /\ mostly_kept kept buf.
  Proof.
    intros FT. destruct (line_write v o w buf) as [w' r] eqn:E. destruct r as [k|].
    2:{ exfalso. revert E. unfold line_write. destruct (flush_patient w) as (w1 & F & _). rewrite F. destruct (rfind [x0a] buf) as [i|].
      - cbn [negb]. destruct (raw_patient w1 (firstn (i + 1) buf)) as (w2 & n & -> & _). destruct n as [|n]; [discriminate|].
        destruct (_ && _); [discriminate|]. set (t := if i + 1 <=? S n then _ else _). destruct (write_to_buf w2 t); discriminate.
      - destruct (rev (buffered w)) as [|c l]; [|destruct (byte_eqb c x0a)]; cbn [negb].
        + destruct (buf_patient w buf) as (? & ? & ? & -> & _). discriminate.
        + destruct (buf_patient w1 buf) as (? & ? & ? & -> & _). discriminate.
        + destruct (buf_patient w buf) as (? & ? & ? & -> & _). discriminate. }
    exists w', k. destruct (rfind [x0a] buf) as [i|] eqn:R.
    2:{ pose proof (no_nl _ R) as NL. revert E. unfold line_write. rewrite R. intros E.
      assert (X : exists w1, held w1 = held w /\ buf_write o w1 buf = (w', Some k)).
      { destruct (flush_patient w) as (w1 & F & H & _). rewrite F in E. destruct (rev (buffered w)) as [|c l]; [exists w; auto|].
        destruct (byte_eqb c x0a); [exists w1|exists w]; auto. }
      destruct X as (w1 & H & B). destruct (buf_patient w1 buf) as (w2 & n & k2 & B2 & H2 & C). rewrite B in B2. injection B2 as <- <-.
      exists (firstn n buf). split; [reflexivity|]. split; [now rewrite <- H|]. exists (skipn n buf). split; [now rewrite firstn_skipn|]. split; [|split; [|intros Z; contradiction]].
      - intros _ I. apply NL. rewrite <- (firstn_skipn n buf). apply in_or_app. now right.
      - intros L _. apply skipn_all2. auto. }
    destruct (last_nl _ _ R) as (LI & NL & INL).
    assert (NLI : nth_error buf i = Some x0a).
    { apply rfind_some in R; [|cbn; lia]. destruct R as [O _]. apply skipn_nl in O. rewrite <- (firstn_skipn i buf), O.
      rewrite nth_error_app2; rewrite firstn_length; [|lia]. replace (i - _) with 0 by lia. reflexivity. }
    assert (X : exists n, held w' = held w ++ firstn n buf /\
      (length buf <= n \/ n = i + 1 \/ 1024 < length buf /\ n <= length buf /\
        (exists m, n = m + 1024 /\ ~ In x0a (firstn 1024 (skipn m buf)) \/ n = m + 1 /\ nth_error buf m = Some x0a))).
    2:{ destruct X as (n & H & G). exists (firstn n buf). split; [reflexivity|]. split; [exact H|]. exists (skipn n buf). split; [now rewrite firstn_skipn|].
      assert (LAST : forall m, nth_error buf m = Some x0a -> firstn (m + 1) buf = firstn m buf ++ [x0a]).
      { intros m Q. rewrite <- firstn_two. f_equal. apply nth_error_split in Q. destruct Q as (l1 & l2 & -> & <-).
        rewrite skipn_app, skipn_all, Nat.sub_diag. reflexivity. }
      split; [|split; [intros _ Z; contradiction|intros _]].
      - intros L. destruct G as [G|[->|[G _]]]; [rewrite skipn_all2 by exact G; intros []|exact NL|lia].
      - destruct G as [G|[->|(_ & G & m & [[-> Q]|[-> Q]])]].
        + left. now apply skipn_all2.
        + right. left. exists (firstn i buf). now apply LAST.
        + right. right. exists (firstn m buf), (firstn 1024 (skipn m buf)). split; [symmetry; apply firstn_two|]. split; [|exact Q].
          rewrite firstn_length, skipn_length. lia.
        + right. left. exists (firstn m buf). now apply LAST. }
    revert E. unfold line_write. rewrite R. destruct (flush_patient w) as (w1 & -> & H1 & N1). cbn [negb]. set (n := i + 1) in *.
    destruct (raw_patient w1 (firstn n buf)) as (w2 & m & -> & B2 & LM & A2 & P). rewrite firstn_length in LM.
    rewrite firstn_firstn, Nat.min_l in A2 by lia.
    assert (H2 : held w2 = held w ++ firstn m buf) by (rewrite <- H1; unfold held; rewrite A2, B2, N1, !app_nil_r; reflexivity).
    assert (M1 : 1 <= m). { apply P. intros Z. apply (f_equal (@length byte)) in Z. rewrite firstn_length in Z. cbn in Z. lia. }
    destruct m as [|m']; [lia|]. set (m := S m') in *. clearbody m.
    assert (LC : lw_capacity = 1024) by (unfold lw_capacity; lia).
    assert (TAIL : forall t j w3 x, write_to_buf w2 t = (w3, x) -> t = firstn j (skipn m buf) -> m + j <= length buf -> j <= 1024 ->
                   held w3 = held w ++ firstn (m + j) buf).
    { intros t j w3 x W T LJ LJ2. unfold write_to_buf in W. apply (f_equal fst) in W. cbn [fst] in W. subst w3.
      rewrite <- firstn_two, app_assoc, <- H2. unfold held. cbn [set_buffered arrived buffered]. rewrite app_assoc. f_equal.
      assert (LT : length t = j) by (rewrite T, firstn_length, skipn_length; lia).
      rewrite B2, N1, LC, LT. cbn [length]. replace (Nat.min (1024 - 0) j) with (length t) by lia. rewrite firstn_all. exact T. }
    assert (LTAIL : length (skipn n buf) < 1024).
    { apply (FT (firstn i buf)); [|exact NL]. apply rfind_some in R; [|cbn; lia]. destruct R as [O _]. apply skipn_nl in O.
      cbn [app]. unfold n. rewrite <- O. symmetry. apply firstn_skipn. }
    destruct (Nat.leb_spec n m) as [C|C]; cbn [andb].
    - assert (m = n) by lia. subst m.
      replace (match v with TakesSome => false | TakesNone => lw_capacity <=? length (skipn n buf) end) with false
        by (destruct v; [reflexivity|symmetry; apply Nat.leb_gt; rewrite LC; exact LTAIL]).
      destruct (write_to_buf w2 (skipn n buf)) as [w3 x] eqn:W. intros [= <- <-].
      pose proof (TAIL _ (length (skipn n buf)) _ _ W) as H. rewrite firstn_all in H. specialize (H eq_refl). rewrite skipn_length in *.
      exists (n + (length buf - n)). split; [apply H; lia|left; lia].
    - destruct (Nat.leb_spec (n - m) lw_capacity) as [C2|C2]; rewrite LC in C2.
      + destruct (write_to_buf w2 (skipn m (firstn n buf))) as [w3 x] eqn:W. intros [= <- <-].
        exists (m + (n - m)). split; [|right; left; lia]. apply (TAIL _ _ _ _ W); [apply skipn_firstn_comm|lia|exact C2].
      + rewrite LC. destruct (rfind [x0a] (firstn 1024 (skipn m buf))) as [j|] eqn:RJ.
        * destruct (last_nl _ _ RJ) as (LJ & _ & _). pose proof LJ as LJ2. rewrite firstn_length, skipn_length in LJ2.
          assert (NJ : nth_error buf (m + j) = Some x0a).
          { apply rfind_some in RJ; [|cbn; lia]. destruct RJ as [O _]. apply skipn_nl in O.
            rewrite <- (firstn_skipn m buf), nth_error_app2; rewrite firstn_length; [|lia]. replace (m + j - Nat.min m (length buf)) with j by lia.
            rewrite <- (firstn_skipn 1024 (skipn m buf)), nth_error_app1 by lia.
            rewrite <- (firstn_skipn j (firstn 1024 (skipn m buf))), O, nth_error_app2; rewrite firstn_length; [|lia].
            replace (j - _) with 0 by lia. reflexivity. }
          destruct (write_to_buf w2 (firstn (j + 1) (firstn 1024 (skipn m buf)))) as [w3 x] eqn:W. intros [= <- <-].
          exists (m + (j + 1)). split.
          -- apply (TAIL _ _ _ _ W); [rewrite firstn_firstn; f_equal; lia|lia|lia].
          -- right. right. split; [lia|]. split; [lia|]. exists (m + j). right. split; [lia|exact NJ].
        * destruct (write_to_buf w2 (firstn 1024 (skipn m buf))) as [w3 x] eqn:W. intros [= <- <-].
          exists (m + 1024). split; [apply (TAIL _ _ _ _ W); [reflexivity|lia|lia]|].
          right. right. split; [lia|]. split; [lia|]. exists m. left. split; [reflexivity|]. now apply no_nl.
  Qed.

  Lemma message_patient v A m e a psize count buf w len : line_fits buf ->
    checked m u16_mod (4 + 10 + 4 + psize) = Ret len ->
    (m = Release \/ (count * 100 < u32_mod)%N) -> (count + 1 < u32_mod)%N ->
    exists w' kept, os_message v o A m (quad_bytes e) (quad_bytes a) psize count buf w = (w', inl (count + 1)%N) /\
      held w' = held w ++ concat kept /\ Forall2 mostly_kept kept (wire_parts A e a len count buf).
  Proof.
    intros FT CL CT CC. unfold os_message. rewrite !quad_ok. cbn [obind]. rewrite CL. cbn [obind].
    assert (T : checked m u32_mod (count * 100) = Ret (count * 100 mod u32_mod)%N).
    { rewrite checked_ok by exact CT. destruct (N.ltb_spec (count * 100) u32_mod); [|reflexivity]. now rewrite N.mod_small. }
    rewrite T. rewrite checked_ok by (right; exact CC). destruct (N.ltb_spec (count + 1) u32_mod); [|lia].
    set (shb := storage_header_as_bytes _). set (hb := std_header_as_bytes _). set (eb := ext_header_as_bytes _). set (tb := be32_bytes _).
    assert (WP : wire_parts A e a len count buf = [shb; hb; tb; eb; buf]).
    { unfold wire_parts, shb, hb, tb, eb, storage_header_as_bytes, storage_header_new, std_header_as_bytes, std_header_new, ext_header_as_bytes, ext_header_new.
      cbn [pattern secs msecs ecu header_type message_counter std_length msin noar apid ctid].
      rewrite us_bytes by (apply N.mod_lt; discriminate).
      change (htyp_new true false false false true x01) with x31. fold (dd_type A). cbn [quad_bytes the_pattern app]. now rewrite <- ?app_assoc. }
    assert (F1 : line_fits shb) by (apply small_fits; vm_compute; destruct e; cbn; lia).
    assert (F2 : line_fits hb) by (apply small_fits; vm_compute; lia).
    assert (F3 : line_fits tb) by (apply small_fits; vm_compute; lia).
    assert (F4 : line_fits eb) by (apply small_fits; vm_compute; destruct a; cbn; lia).
    rewrite WP. clearbody shb hb eb tb. clear WP.
    destruct (line_patient v w shb F1) as (w1 & n1 & k1 & -> & H1 & K1). destruct (line_patient v w1 hb F2) as (w2 & n2 & k2 & -> & H2 & K2).
    destruct (line_patient v w2 tb F3) as (w3 & n3 & k3 & -> & H3 & K3). destruct (line_patient v w3 eb F4) as (w4 & n4 & k4 & -> & H4 & K4).
    destruct (line_patient v w4 buf FT) as (w5 & n5 & k5 & -> & H5 & K5).
    exists w5, [k1; k2; k3; k4; k5]. split; [reflexivity|]. split; [|now repeat constructor].
    rewrite H5, H4, H3, H2, H1. cbn [concat]. rewrite app_nil_r, <- !app_assoc. reflexivity.
  Qed.

  Lemma loop_patient v A m e a psize len rest : checked m u16_mod (4 + 10 + 4 + psize) = Ret len ->
    (N.of_nat (length rest) < psize)%N ->
    forall chunks count w fuel, Forall (fun c => N.of_nat (length c) = psize) chunks -> Forall line_fits chunks ->
    (m = Release \/ ((count + N.of_nat (length chunks)) * 100 < u32_mod + 100)%N) -> (count + N.of_nat (length chunks) < u32_mod)%N ->
    length chunks < fuel ->
    exists kept, os_loop v fuel o A m (quad_bytes e) (quad_bytes a) psize count (concat chunks ++ rest) w =
        Ret (held w ++ concat kept, OsDone (count + N.of_nat (length chunks))) /\
      Forall2 mostly_kept kept (all_parts A e a len count chunks).
  Proof.
    intros CL LR. induction chunks as [|c cs IH]; intros count w fuel F FL CT CC Hf; destruct fuel as [|fuel]; try lia; cbn [os_loop].
    - cbn [concat app length all_parts]. destruct (Nat.ltb_spec (length rest) (N.to_nat psize)); [|lia].
      exists []. split; [|constructor]. cbn [concat]. rewrite app_nil_r, exit_patient. do 3 f_equal. lia.
    - inversion F as [|x y F1 F2]; subst x y. inversion FL as [|x y G1 G2]; subst x y. cbn [concat]. rewrite <- app_assoc.
      destruct (Nat.ltb_spec (length (c ++ concat cs ++ rest)) (N.to_nat psize)) as [H|_]; [rewrite app_length in H; lia|].
      replace (N.to_nat psize) with (length c) by lia.
      rewrite firstn_app, firstn_all, Nat.sub_diag, skipn_app, skipn_all, Nat.sub_diag. cbn [firstn skipn app]. rewrite app_nil_r.
      cbn [length] in *.
      destruct (message_patient v A m e a psize count c w len G1 CL) as (w' & k1 & -> & H & K1);
        [destruct CT as [CT|CT]; [now left|right; lia]|lia|].
      destruct (IH (count + 1)%N w' fuel F2 G2) as (k2 & E & K2); [destruct CT as [CT|CT]; [now left|right; lia]|lia|lia|].
      exists (k1 ++ k2). split; [|cbn [all_parts]; now apply Forall2_app].
      rewrite E, H, concat_app, <- app_assoc. do 3 f_equal. lia.
  Qed.
End Patient.
