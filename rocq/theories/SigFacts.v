(** Facts about SigModel.v: a run with signals and a run without take the same course. *)
From Coq Require Import String.
From Verif Require Import Base DltModel MatchModel DdModel DdOs ToolsModel MainModel PrintModel RipOs SigModel SigSpec BaseFacts.

Lemma answers_app h : forall k1 k2 c, answers h c (k1 + k2) = answers h c k1 ++ answers h (c + k1) k2.
Proof.
  induction k1 as [|k1 IH]; intros k2 c; cbn [Nat.add answers app]; [now rewrite Nat.add_0_r|]. rewrite IH. replace (c + 1 + k1) with (c + S k1) by lia.
  destruct (h c); reflexivity.
Qed.
(** [o] answers [l] from call [c] on. *)
Definition keeps_to (o : os) (c : nat) (l : list answer) : Prop := forall i a, nth_error l i = Some a -> o (c + i) = a.
Lemma keeps_to_app o c l1 l2 : keeps_to o c (l1 ++ l2) <-> keeps_to o c l1 /\ keeps_to o (c + length l1) l2.
Proof.
  split.
  - intros H. split; intros i a E.
    + apply H. rewrite nth_error_app1; [exact E|]. apply nth_error_Some. congruence.
    + rewrite <- Nat.add_assoc. apply H. rewrite nth_error_app2 by lia. now replace (length l1 + i - length l1) with i by lia.
  - intros [H1 H2] i a E. destruct (Nat.lt_ge_cases i (length l1)) as [L|L].
    + rewrite nth_error_app1 in E by exact L. now apply H1.
    + rewrite nth_error_app2 in E by exact L. replace (c + i) with (c + length l1 + (i - length l1)) by lia. now apply H2.
Qed.
Definition same (w ws : stdout) : Prop := arrived w = arrived ws /\ buffered w = buffered ws.
Lemma same_set w ws b : same w ws -> same (set_buffered w b) (set_buffered ws b).
Proof. intros [H1 H2]. now split. Qed.

(** From [ws] the run with signals gets to [ws'] with result [r] if the loops are given time enough, and so does the
    run without if it is given the answers [l]. *)
Definition goes {R} (ws : stdout) (X : nat -> outcome (stdout * R)) (Y : os -> stdout -> stdout * R) (l : list answer) (ws' : stdout) (r : R) : Prop :=
  (exists f0, forall f, f0 <= f -> X f = Ret (ws', r)) /\
  forall o w, same w ws -> keeps_to o (calls w) l -> exists w', Y o w = (w', r) /\ same w' ws' /\ calls w' = calls w + length l.
Lemma goes_ret {R} ws (X : nat -> outcome (stdout * R)) Y ws' r : (forall f, X f = Ret (ws', r)) ->
  (forall o w, same w ws -> exists w', Y o w = (w', r) /\ same w' ws' /\ calls w' = calls w) -> goes ws X Y [] ws' r.
Proof. intros HX HY. split; [exists 0; auto|]. intros o w SA _. cbn [length]. rewrite Nat.add_0_r. now apply HY. Qed.
Lemma goes_bind {R Q} ws (X : nat -> outcome (stdout * R)) Y l1 ws1 r1 (K : nat -> stdout -> R -> outcome (stdout * Q)) K' l2 ws2 r2 :
  goes ws X Y l1 ws1 r1 -> goes ws1 (fun f => K f ws1 r1) (fun o w => K' o w r1) l2 ws2 r2 ->
  goes ws (fun f => let* (w, r) := X f in K f w r) (fun o w => let '(w, r) := Y o w in K' o w r) (l1 ++ l2) ws2 r2.
Proof.
  intros [[f1 H1] G1] [[f2 H2] G2]. split.
  - exists (Nat.max f1 f2). intros f Hf. rewrite H1 by lia. cbn [obind]. apply H2. lia.
  - intros o w SA F. apply keeps_to_app in F. destruct F as [F1 F2]. destruct (G1 o w SA F1) as (w1 & E1 & S1 & C1). rewrite E1.
    rewrite <- C1 in F2. destruct (G2 o w1 S1 F2) as (w2 & E2 & S2 & C2). exists w2. split; [exact E2|]. split; [exact S2|]. rewrite C2, C1, app_length. lia.
Qed.
Lemma goes_ext {R} ws (X X' : nat -> outcome (stdout * R)) (Y Y' : os -> stdout -> stdout * R) l ws' r :
  (forall f, X f = X' f) -> (forall o w, same w ws -> Y o w = Y' o w) -> goes ws X Y l ws' r -> goes ws X' Y' l ws' r.
Proof.
  intros HX HY [[f0 H] G]. split.
  - exists f0. intros f Hf. rewrite <- HX. now apply H.
  - intros o w SA F. rewrite <- HY by exact SA. now apply G.
Qed.

(** Only answers of [h], in their order. *)
Definition quiet (h : past) (ws : stdout) (l : list answer) (ws' : stdout) : Prop :=
  calls ws <= calls ws' /\ l = answers h (calls ws) (calls ws' - calls ws).
Lemma quiet_refl h ws ws' : calls ws' = calls ws -> quiet h ws [] ws'.
Proof. intros E. split; [lia|]. now rewrite E, Nat.sub_diag. Qed.
Lemma quiet_app h ws l1 ws1 l2 ws2 : quiet h ws l1 ws1 -> quiet h ws1 l2 ws2 -> quiet h ws (l1 ++ l2) ws2.
Proof.
  intros [H1 ->] [H2 ->]. split; [lia|]. replace (calls ws2 - calls ws) with ((calls ws1 - calls ws) + (calls ws2 - calls ws1)) by lia.
  rewrite answers_app. now replace (calls ws + (calls ws1 - calls ws)) with (calls ws1) by lia.
Qed.
(** ... or one call was interrupted and not repeated. *)
Definition disturbed (h : past) (ws : stdout) (l : list answer) (ws' : stdout) : Prop :=
  exists c l0, l = l0 ++ [Fails] /\ calls ws <= c /\ h c = Interrupted /\ calls ws' = S c /\ l0 = answers h (calls ws) (c - calls ws).
Lemma disturbed_app h ws l1 ws1 l2 ws2 : quiet h ws l1 ws1 -> disturbed h ws1 l2 ws2 -> disturbed h ws (l1 ++ l2) ws2.
Proof.
  intros [H1 ->] (c & l0 & -> & Hc & I & E & ->). exists c, (answers h (calls ws) (c - calls ws)). split; [|split; [lia|auto]].
  replace (c - calls ws) with ((calls ws1 - calls ws) + (c - calls ws1)) by lia. rewrite answers_app.
  replace (calls ws + (calls ws1 - calls ws)) with (calls ws1) by lia. now rewrite app_assoc.
Qed.

Section Past.
  Variable h : past.
  Hypothesis FAIR : fair h.

  Lemma next_answer c : exists k a, h (c + k) = Answered a /\ forall i, i < k -> h (c + i) = Interrupted.
  Proof.
    destruct (FAIR c) as (j & a & L & E). revert c L. enough (X : forall d c, j = c + d -> exists k a, h (c + k) = Answered a /\ forall i, i < k -> h (c + i) = Interrupted).
    { intros c L. apply (X (j - c)). lia. }
    induction d as [|d IH]; intros c ->.
    - rewrite Nat.add_0_r in E. exists 0, a. rewrite Nat.add_0_r. split; [exact E|]. intros i Hi. lia.
    - destruct (h c) as [|a0] eqn:Q.
      + destruct (IH (S c) ltac:(lia)) as (k & a1 & E1 & I). exists (S k), a1. split; [now replace (c + S k) with (S c + k) by lia|].
        intros [|i] Hi; [now rewrite Nat.add_0_r|]. replace (c + S i) with (S c + i) by lia. apply I. lia.
      + exists 0, a0. rewrite Nat.add_0_r. split; [exact Q|]. intros i Hi. lia.
  Qed.
  Lemma answers_next c k a : h (c + k) = Answered a -> (forall i, i < k -> h (c + i) = Interrupted) -> answers h c (k + 1) = [a].
  Proof.
    revert c. induction k as [|k IH]; intros c E I; cbn [Nat.add answers].
    - rewrite Nat.add_0_r in E. now rewrite E.
    - pose proof (I 0 ltac:(lia)) as I0. rewrite Nat.add_0_r in I0. rewrite I0. apply IH.
      + now replace (c + 1 + k) with (c + S k) by lia.
      + intros i Hi. replace (c + 1 + i) with (c + S i) by lia. apply I. lia.
  Qed.
  (** [k] calls later. *)
  Definition bump (w : stdout) (k : nat) : stdout := {| calls := calls w + k; arrived := arrived w; buffered := buffered w |}.
  Lemma bump_S w k : bump (bump w 1) k = bump w (S k).
  Proof. unfold bump. cbn [calls arrived buffered]. f_equal. lia. Qed.
  Lemma flush_skip : forall k f w, buffered w <> [] -> (forall i, i < k -> h (calls w + i) = Interrupted) -> sig_flush (k + f) h w = sig_flush f h (bump w k).
  Proof.
    induction k as [|k IH]; intros f w B I.
    - unfold bump. rewrite Nat.add_0_r. now destruct w.
    - cbn [Nat.add sig_flush]. destruct (buffered w) as [|c b] eqn:Q; [congruence|]. unfold sig_raw_write.
      pose proof (I 0 ltac:(lia)) as I0. rewrite Nat.add_0_r in I0. rewrite I0. change {| calls := calls w + 1; arrived := arrived w; buffered := buffered w |} with (bump w 1).
      rewrite IH, bump_S; [reflexivity|cbn; congruence|]. intros i Hi. cbn [bump calls]. replace (calls w + 1 + i) with (calls w + S i) by lia. apply I. lia.
  Qed.
  Lemma raw_skip buf : buf <> [] -> forall k f w, (forall i, i < k -> h (calls w + i) = Interrupted) -> sig_raw_all (k + f) h w buf = sig_raw_all f h (bump w k) buf.
  Proof.
    intros NE. induction k as [|k IH]; intros f w I.
    - unfold bump. rewrite Nat.add_0_r. now destruct w.
    - cbn [Nat.add sig_raw_all]. destruct buf as [|c b]; [congruence|]. unfold sig_raw_write.
      pose proof (I 0 ltac:(lia)) as I0. rewrite Nat.add_0_r in I0. rewrite I0. change {| calls := calls w + 1; arrived := arrived w; buffered := buffered w |} with (bump w 1).
      rewrite IH, bump_S; [reflexivity|]. intros i Hi. cbn [bump calls]. replace (calls w + 1 + i) with (calls w + S i) by lia. apply I. lia.
  Qed.
  (** One call in both runs. *)
  Lemma raw_same o w ws a buf : same w ws -> o (calls w) = a ->
    let '(w', r) := raw_write o w buf in let '(ws', rs) := raw_write (fun _ => a) ws buf in
    r = rs /\ same w' ws' /\ calls w' = calls w + 1 /\ calls ws' = calls ws + 1 /\ buffered ws' = buffered ws /\ match r with Some n => n <= length buf | None => True end.
  Proof.
    intros [A B] E. unfold raw_write. rewrite E. destruct a; cbn [calls arrived buffered]; (split; [reflexivity|]; split; [split; cbn [arrived buffered]; congruence|]); repeat split; auto; lia.
  Qed.

  Lemma flush_rounds_goes : forall m ws, length (buffered ws) <= m -> exists ws' ok l, quiet h ws l ws' /\
    (exists f0, forall f, f0 <= f -> sig_flush f h ws = Ret (ws', ok)) /\
    forall rounds o w, length (buffered ws) <= rounds -> same w ws -> keeps_to o (calls w) l ->
      exists w', flush_rounds rounds o w = (w', ok) /\ same w' ws' /\ calls w' = calls w + length l.
  Proof.
    induction m as [|m IH]; intros ws Hm.
    - assert (B : buffered ws = []) by (destruct (buffered ws); [reflexivity|cbn in Hm; lia]).
      exists ws, true, []. split; [now apply quiet_refl|]. split.
      + exists 0. intros f _. destruct f; cbn [sig_flush]; now rewrite B.
      + intros rounds o w _ [SA SB] _. exists w. rewrite B in SB. split; [destruct rounds; cbn [flush_rounds]; now rewrite SB|]. split; [split; congruence|cbn; lia].
    - destruct (buffered ws) as [|c b] eqn:B.
      + exists ws, true, []. split; [now apply quiet_refl|]. split.
        * exists 0. intros f _. destruct f; cbn [sig_flush]; now rewrite B.
        * intros rounds o w _ [SA SB] _. exists w. rewrite B in SB. split; [destruct rounds; cbn [flush_rounds]; now rewrite SB|]. split; [split; congruence|cbn; lia].
      + destruct (next_answer (calls ws)) as (k & a & E & I). pose proof (answers_next _ _ _ E I) as AN.
        assert (ST : forall f, sig_flush (k + S f) h ws = match raw_write (fun _ => a) (bump ws k) (c :: b) with
            | (w', Some (S n)) => sig_flush f h (set_buffered w' (skipn (S n) (c :: b))) | (w', _) => Ret (w', false) end).
        { intros f. rewrite flush_skip by (first [exact I | rewrite B; discriminate]). cbn [sig_flush bump buffered]. rewrite B. unfold sig_raw_write. cbn [bump calls]. rewrite E.
          change {| calls := calls ws + k; arrived := arrived ws; buffered := buffered ws |} with (bump ws k). destruct (raw_write (fun _ => a) (bump ws k) (c :: b)) as [w' [[|n]|]]; reflexivity. }
        assert (RS : forall o w, same w ws -> o (calls w) = a -> let '(w', r) := raw_write o w (c :: b) in let '(ws', rs) := raw_write (fun _ => a) (bump ws k) (c :: b) in
            r = rs /\ same w' ws' /\ calls w' = calls w + 1 /\ calls ws' = calls (bump ws k) + 1 /\ buffered ws' = buffered (bump ws k) /\ match r with Some n => n <= length (c :: b) | None => True end).
        { intros o w SA Ea. apply raw_same; [exact SA|exact Ea]. }
        destruct (raw_write (fun _ => a) (bump ws k) (c :: b)) as [ws1 r] eqn:RW.
        assert (C1 : calls ws1 = calls ws + (k + 1)).
        { destruct (raw_write (fun _ => a) ws (c :: b)) as [wx rx] eqn:RX. specialize (RS (fun _ => a) ws (conj eq_refl eq_refl) eq_refl). rewrite RX in RS.
          destruct RS as (_ & _ & _ & Q & _). rewrite Q. cbn [bump calls]. lia. }
        assert (Q1 : quiet h ws [a] ws1). { split; [lia|]. replace (calls ws1 - calls ws) with (k + 1) by lia. now symmetry. }
        assert (END : r = Some 0 \/ r = None -> exists ws' ok l, quiet h ws l ws' /\
          (exists f0, forall f, f0 <= f -> sig_flush f h ws = Ret (ws', ok)) /\
          forall rounds o w, S (length b) <= rounds -> same w ws -> keeps_to o (calls w) l ->
            exists w', flush_rounds rounds o w = (w', ok) /\ same w' ws' /\ calls w' = calls w + length l).
        { intros D. exists ws1, false, [a]. split; [exact Q1|]. split.
          - exists (k + 1). intros f Hf. replace f with (k + S (f - k - 1)) by lia. rewrite ST. destruct D as [-> | ->]; reflexivity.
          - intros [|rounds] o w HR SA F; [lia|]. cbn [flush_rounds]. assert (SB := proj2 SA). rewrite B in SB. rewrite SB.
            pose proof (F 0 a eq_refl) as Fa. rewrite Nat.add_0_r in Fa. specialize (RS o w SA Fa). destruct (raw_write o w (c :: b)) as [w1 r1].
            destruct RS as (-> & S1 & K1 & _). exists w1. split; [destruct D as [-> | ->]; reflexivity|]. split; [exact S1|]. cbn [length]. exact K1. }
        destruct r as [[|n]|]; [now apply END; left| |now apply END; right]. clear END.
        destruct (IH (set_buffered ws1 (skipn (S n) (c :: b)))) as (ws' & ok & l & Q2 & [f0 G] & H).
        { cbn [set_buffered buffered skipn]. rewrite skipn_length. cbn [length] in Hm. lia. }
        exists ws', ok, ([a] ++ l). split; [eapply quiet_app; [exact Q1|exact Q2]|]. split.
        * exists (k + S f0). intros f Hf. replace f with (k + S (f - k - 1)) by lia. rewrite ST. apply G. lia.
        * intros [|rounds] o w HR SA F; [cbn [length] in HR; lia|]. cbn [flush_rounds]. assert (SB := proj2 SA). rewrite B in SB. rewrite SB. apply keeps_to_app in F. destruct F as [F1 F2].
          pose proof (F1 0 a eq_refl) as Fa. rewrite Nat.add_0_r in Fa. specialize (RS o w SA Fa). destruct (raw_write o w (c :: b)) as [w1 r1].
          destruct RS as (-> & S1 & K1 & _). destruct (H rounds o (set_buffered w1 (skipn (S n) (c :: b)))) as (w' & E' & S' & K').
          -- cbn [set_buffered buffered skipn]. rewrite skipn_length. cbn [length] in HR. lia.
          -- now apply same_set.
          -- cbn [set_buffered calls]. rewrite K1. exact F2.
          -- exists w'. split; [exact E'|]. split; [exact S'|]. rewrite K'. cbn [set_buffered calls]. rewrite K1, app_length. cbn [length]. lia.
  Qed.
  Lemma flush_goes ws : exists ws' ok l, quiet h ws l ws' /\ goes ws (fun f => sig_flush f h ws) (fun o w => flush_out o w) l ws' ok.
  Proof.
    destruct (flush_rounds_goes _ ws (le_n _)) as (ws' & ok & l & Q & F & H). exists ws', ok, l. split; [exact Q|]. split; [exact F|].
    intros o w SA FO. unfold flush_out. apply H; [|exact SA|exact FO]. destruct SA as [_ ->]. lia.
  Qed.

  Lemma raw_rounds_goes : forall m ws buf, length buf <= m -> exists ws' ok l, quiet h ws l ws' /\
    (exists f0, forall f, f0 <= f -> sig_raw_all f h ws buf = Ret (ws', ok)) /\
    forall rounds o w, length buf <= rounds -> same w ws -> keeps_to o (calls w) l ->
      exists w', raw_rounds rounds o w buf = (w', ok) /\ same w' ws' /\ calls w' = calls w + length l.
  Proof.
    assert (NIL : forall ws, exists ws' ok l, quiet h ws l ws' /\ (exists f0, forall f, f0 <= f -> sig_raw_all f h ws [] = Ret (ws', ok)) /\
       forall rounds o w, length (@nil byte) <= rounds -> same w ws -> keeps_to o (calls w) l -> exists w', raw_rounds rounds o w [] = (w', ok) /\ same w' ws' /\ calls w' = calls w + length l).
    { intros ws. exists ws, true, []. split; [now apply quiet_refl|]. split; [exists 0; now intros [|f] _|]. intros rounds o w _ SA _. exists w.
      split; [now destruct rounds|]. split; [exact SA|cbn; lia]. }
    induction m as [|m IH]; intros ws buf Hm.
    - destruct buf; [apply NIL|cbn in Hm; lia].
    - destruct buf as [|c b]; [apply NIL|]. clear NIL.
      destruct (next_answer (calls ws)) as (k & a & E & I). pose proof (answers_next _ _ _ E I) as AN.
      assert (ST : forall f, sig_raw_all (k + S f) h ws (c :: b) = match raw_write (fun _ => a) (bump ws k) (c :: b) with
          | (w', Some (S n)) => sig_raw_all f h w' (skipn (S n) (c :: b)) | (w', _) => Ret (w', false) end).
      { intros f. rewrite raw_skip by (try discriminate; exact I). cbn [sig_raw_all]. unfold sig_raw_write. cbn [bump calls]. rewrite E.
        change {| calls := calls ws + k; arrived := arrived ws; buffered := buffered ws |} with (bump ws k). destruct (raw_write (fun _ => a) (bump ws k) (c :: b)) as [w' [[|n]|]]; reflexivity. }
      assert (RS : forall o w, same w ws -> o (calls w) = a -> let '(w', r) := raw_write o w (c :: b) in let '(ws', rs) := raw_write (fun _ => a) (bump ws k) (c :: b) in
          r = rs /\ same w' ws' /\ calls w' = calls w + 1 /\ calls ws' = calls (bump ws k) + 1 /\ buffered ws' = buffered (bump ws k) /\ match r with Some n => n <= length (c :: b) | None => True end).
      { intros o w SA Ea. apply raw_same; [exact SA|exact Ea]. }
      destruct (raw_write (fun _ => a) (bump ws k) (c :: b)) as [ws1 r] eqn:RW.
      assert (C1 : calls ws1 = calls ws + (k + 1)).
      { destruct (raw_write (fun _ => a) ws (c :: b)) as [wx rx] eqn:RX. specialize (RS (fun _ => a) ws (conj eq_refl eq_refl) eq_refl). rewrite RX in RS.
        destruct RS as (_ & _ & _ & Q & _). rewrite Q. cbn [bump calls]. lia. }
      assert (Q1 : quiet h ws [a] ws1). { split; [lia|]. replace (calls ws1 - calls ws) with (k + 1) by lia. now symmetry. }
      assert (END : r = Some 0 \/ r = None -> exists ws' ok l, quiet h ws l ws' /\
        (exists f0, forall f, f0 <= f -> sig_raw_all f h ws (c :: b) = Ret (ws', ok)) /\
        forall rounds o w, S (length b) <= rounds -> same w ws -> keeps_to o (calls w) l ->
          exists w', raw_rounds rounds o w (c :: b) = (w', ok) /\ same w' ws' /\ calls w' = calls w + length l).
      { intros D. exists ws1, false, [a]. split; [exact Q1|]. split.
        - exists (k + 1). intros f Hf. replace f with (k + S (f - k - 1)) by lia. rewrite ST. destruct D as [-> | ->]; reflexivity.
        - intros [|rounds] o w HR SA F; [lia|]. cbn [raw_rounds].
          pose proof (F 0 a eq_refl) as Fa. rewrite Nat.add_0_r in Fa. specialize (RS o w SA Fa). destruct (raw_write o w (c :: b)) as [w1 r1].
          destruct RS as (-> & S1 & K1 & _). exists w1. split; [destruct D as [-> | ->]; reflexivity|]. split; [exact S1|]. cbn [length]. exact K1. }
      destruct r as [[|n]|]; [now apply END; left| |now apply END; right]. clear END.
      destruct (IH ws1 (skipn (S n) (c :: b))) as (ws' & ok & l & Q2 & [f0 G] & H).
      { cbn [skipn]. rewrite skipn_length. cbn [length] in Hm. lia. }
      exists ws', ok, ([a] ++ l). split; [eapply quiet_app; [exact Q1|exact Q2]|]. split.
      + exists (k + S f0). intros f Hf. replace f with (k + S (f - k - 1)) by lia. rewrite ST. apply G. lia.
      + intros [|rounds] o w HR SA F; [cbn [length] in HR; lia|]. cbn [raw_rounds]. apply keeps_to_app in F. destruct F as [F1 F2].
        pose proof (F1 0 a eq_refl) as Fa. rewrite Nat.add_0_r in Fa. specialize (RS o w SA Fa). destruct (raw_write o w (c :: b)) as [w1 r1].
        destruct RS as (-> & S1 & K1 & _). destruct (H rounds o w1) as (w' & E' & S' & K').
        * cbn [skipn]. rewrite skipn_length. cbn [length] in HR. lia.
        * exact S1.
        * rewrite K1. exact F2.
        * exists w'. split; [exact E'|]. split; [exact S'|]. rewrite K', K1, app_length. cbn [length]. lia.
  Qed.
  Lemma raw_all_goes ws buf : exists ws' ok l, quiet h ws l ws' /\ goes ws (fun f => sig_raw_all f h ws buf) (fun o w => raw_write_all o w buf) l ws' ok.
  Proof.
    destruct (raw_rounds_goes _ ws buf (le_n _)) as (ws' & ok & l & Q & F & H). exists ws', ok, l. split; [exact Q|]. split; [exact F|].
    intros o w SA FO. now apply H.
  Qed.

  (** ** Everything that repeats interrupted calls *)
  Definition fine {R} (ws : stdout) (X : nat -> outcome (stdout * R)) (Y : os -> stdout -> stdout * R) : Prop :=
    exists ws' r l, quiet h ws l ws' /\ goes ws X Y l ws' r.
  Lemma fine_bind {R Q} ws (X : nat -> outcome (stdout * R)) Y (K : nat -> stdout -> R -> outcome (stdout * Q)) K' :
    fine ws X Y -> (forall ws1 r1, fine ws1 (fun f => K f ws1 r1) (fun o w => K' o w r1)) ->
    fine ws (fun f => let* (w, r) := X f in K f w r) (fun o w => let '(w, r) := Y o w in K' o w r).
  Proof.
    intros (ws1 & r1 & l1 & Q1 & G1) H. destruct (H ws1 r1) as (ws2 & r2 & l2 & Q2 & G2). exists ws2, r2, (l1 ++ l2).
    split; [now apply (quiet_app h ws l1 ws1)|]. now apply (goes_bind ws X Y l1 ws1 r1 K K').
  Qed.
  Lemma fine_ret {R} ws (X : nat -> outcome (stdout * R)) Y ws' r : calls ws' = calls ws -> (forall f, X f = Ret (ws', r)) ->
    (forall o w, same w ws -> exists w', Y o w = (w', r) /\ same w' ws' /\ calls w' = calls w) -> fine ws X Y.
  Proof. intros C HX HY. exists ws', r, []. split; [now apply quiet_refl|]. now apply goes_ret. Qed.
  Lemma fine_ext {R} ws (X X' : nat -> outcome (stdout * R)) (Y Y' : os -> stdout -> stdout * R) :
    (forall f, X f = X' f) -> (forall o w, same w ws -> Y o w = Y' o w) -> fine ws X Y -> fine ws X' Y'.
  Proof. intros HX HY (ws' & r & l & Q & G). exists ws', r, l. split; [exact Q|]. now apply (goes_ext ws X X' Y Y'). Qed.
  Lemma fine_done {R} ws (r : R) : fine ws (fun _ => Ret (ws, r)) (fun _ w => (w, r)).
  Proof. apply (fine_ret ws _ _ ws r); [reflexivity|reflexivity|]. intros o w SA. now exists w. Qed.
  Lemma fine_put {R} ws (r : R) b : fine ws (fun _ => Ret (set_buffered ws (buffered ws ++ b), r)) (fun _ w => (set_buffered w (buffered w ++ b), r)).
  Proof.
    apply (fine_ret ws _ _ (set_buffered ws (buffered ws ++ b)) r); [reflexivity|reflexivity|]. intros o w [A B]. eexists. split; [reflexivity|]. split; [|reflexivity].
    rewrite B. now split.
  Qed.
  Lemma fine_flush ws : fine ws (fun f => sig_flush f h ws) flush_out.
  Proof. destruct (flush_goes ws) as (ws' & ok & l & Q & G). now exists ws', ok, l. Qed.
  Lemma fine_raw_all ws buf : fine ws (fun f => sig_raw_all f h ws buf) (fun o w => raw_write_all o w buf).
  Proof. destruct (raw_all_goes ws buf) as (ws' & ok & l & Q & G). now exists ws', ok, l. Qed.
  Lemma fine_completed ws : fine ws (fun f => sig_completed f h ws)
    (fun o w => match rev (buffered w) with c :: _ => if byte_eqb c x0a then flush_out o w else (w, true) | [] => (w, true) end).
  Proof.
    apply (fine_ext ws (fun f => sig_completed f h ws) (fun f => sig_completed f h ws)
      (fun o w => match rev (buffered ws) with c :: _ => if byte_eqb c x0a then flush_out o w else (w, true) | [] => (w, true) end)); [reflexivity|intros o w [_ ->]; reflexivity|].
    unfold sig_completed. destruct (rev (buffered ws)) as [|c r]; [apply fine_done|]. destruct (byte_eqb c x0a); [apply fine_flush|apply fine_done].
  Qed.
  Lemma fine_if_flush (b : bool) ws : fine ws (fun f => if b then sig_flush f h ws else Ret (ws, true)) (fun o w => if b then flush_out o w else (w, true)).
  Proof. destruct b; [apply fine_flush|apply fine_done]. Qed.
  Lemma fine_buf_all ws buf : fine ws (fun f => sig_buf_all f h ws buf) (fun o w => buf_write_all o w buf).
  Proof.
    set (spare := lw_capacity - length (buffered ws)).
    apply (fine_ext ws (fun f => if length buf <? spare then Ret (set_buffered ws (buffered ws ++ buf), true) else
        let* (w, ok) := if spare <? length buf then sig_flush f h ws else Ret (ws, true) in
        if negb ok then Ret (w, false) else if lw_capacity <=? length buf then sig_raw_all f h w buf else Ret (set_buffered w (buffered w ++ buf), true)) _
      (fun o w => if length buf <? spare then (set_buffered w (buffered w ++ buf), true) else
        let '(w, ok) := if spare <? length buf then flush_out o w else (w, true) in
        if negb ok then (w, false) else if lw_capacity <=? length buf then raw_write_all o w buf else (set_buffered w (buffered w ++ buf), true))).
    - reflexivity.
    - intros o w [_ B]. unfold buf_write_all. now rewrite B.
    - destruct (length buf <? spare); [apply fine_put|]. apply fine_bind; [apply fine_if_flush|]. intros ws1 [|]; cbn [negb]; [|apply fine_done].
      destruct (lw_capacity <=? length buf); [apply fine_raw_all|apply fine_put].
  Qed.
  Lemma fine_line_all ws buf : fine ws (fun f => sig_line_all f h ws buf) (fun o w => line_write_all o w buf).
  Proof.
    unfold sig_line_all, line_write_all. destruct (rfind [x0a] buf) as [i|].
    - cbv zeta. apply fine_bind; [|intros ws1 [|]; [apply fine_buf_all|apply fine_done]].
      eapply fine_ext; [reflexivity| |].
      + intros o w [_ B]. rewrite B. reflexivity.
      + destruct (buffered ws) as [|c b]; [apply fine_raw_all|]. apply fine_bind; [apply fine_buf_all|]. intros ws1 [|]; [apply fine_flush|apply fine_done].
    - apply fine_bind; [apply fine_completed|]. intros ws1 [|]; cbn [negb]; [apply fine_buf_all|apply fine_done].
  Qed.
  Lemma fine_fragments : forall fs ws, fine ws (fun f => sig_fragments f h ws fs) (fun o w => write_fragments o w fs).
  Proof.
    induction fs as [|x fs IH]; intros ws; [apply fine_done|]. cbn [sig_fragments write_fragments]. apply fine_bind; [apply fine_line_all|].
    intros ws1 [|]; [apply IH|apply fine_done].
  Qed.
  Lemma fine_println frag ws l : fine ws (fun f => sig_println f h frag ws l) (fun o w => os_println o frag w l).
  Proof. apply fine_fragments. Qed.
  Lemma fine_lines frag : forall ls ws, fine ws (fun f => sig_lines f h frag ws ls) (fun o w => print_lines o frag w ls).
  Proof.
    induction ls as [|x ls IH]; intros ws; [apply fine_done|]. cbn [sig_lines print_lines]. apply fine_bind; [apply fine_println|].
    intros ws1 [|]; [apply IH|apply fine_done].
  Qed.
  Lemma fine_try_lines frag : forall ls ws, fine ws (fun f => let* w := sig_try_lines f h frag ws ls in Ret (w, tt)) (fun o w => (try_lines o frag w ls, tt)).
  Proof.
    induction ls as [|x ls IH]; intros ws; [apply fine_done|]. cbn [sig_try_lines try_lines].
    apply (fine_ext ws (fun f => let* (w, _) := sig_println f h frag ws x in let* w := sig_try_lines f h frag w ls in Ret (w, tt)) _
      (fun o w => let '(w, _) := os_println o frag w x in (try_lines o frag w ls, tt))).
    - intros f. destruct (sig_println f h frag ws x) as [[w1 ok]| |]; reflexivity.
    - intros o w _. now destruct (os_println o frag w x).
    - apply (fine_bind ws (fun f => sig_println f h frag ws x) (fun o w => os_println o frag w x) (fun f w _ => let* w := sig_try_lines f h frag w ls in Ret (w, tt)) (fun o w _ => (try_lines o frag w ls, tt))); [apply fine_println|].
      intros ws1 _. apply IH.
  Qed.

  (** What has arrived in the end; [Z] the result of the run without signals. *)
  Definition ends {A} (ws : stdout) (X : nat -> outcome A) (Z : os -> stdout -> A) (l : list answer) (a : A) : Prop :=
    (exists f0, forall f, f0 <= f -> X f = Ret a) /\ forall o w, same w ws -> keeps_to o (calls w) l -> Z o w = a.
  Lemma ends_bind {R A} ws (X : nat -> outcome (stdout * R)) Y l1 ws1 r1 (K : nat -> stdout -> R -> outcome A) K' l2 a :
    goes ws X Y l1 ws1 r1 -> ends ws1 (fun f => K f ws1 r1) (fun o w => K' o w r1) l2 a ->
    ends ws (fun f => let* (w, r) := X f in K f w r) (fun o w => let '(w, r) := Y o w in K' o w r) (l1 ++ l2) a.
  Proof.
    intros [[f1 H1] G1] [[f2 H2] G2]. split.
    - exists (Nat.max f1 f2). intros f Hf. rewrite H1 by lia. cbn [obind]. apply H2. lia.
    - intros o w SA F. apply keeps_to_app in F. destruct F as [F1 F2]. destruct (G1 o w SA F1) as (w1 & E1 & S1 & C1). rewrite E1.
      rewrite <- C1 in F2. now apply G2.
  Qed.
  Lemma ends_ext {A} ws (X X' : nat -> outcome A) (Z Z' : os -> stdout -> A) l a :
    (forall f, X f = X' f) -> (forall o w, same w ws -> Z o w = Z' o w) -> ends ws X Z l a -> ends ws X' Z' l a.
  Proof.
    intros HX HY [[f0 H] G]. split.
    - exists f0. intros f Hf. rewrite <- HX. now apply H.
    - intros o w SA F. rewrite <- HY by exact SA. now apply G.
  Qed.
  (** Answers of [h] from [ws] on. *)
  Definition heard (ws : stdout) (l : list answer) : Prop := exists k, l = answers h (calls ws) k.
  Lemma heard_app ws l1 ws1 l2 : quiet h ws l1 ws1 -> heard ws1 l2 -> heard ws (l1 ++ l2).
  Proof.
    intros [H ->] [k ->]. exists ((calls ws1 - calls ws) + k). rewrite answers_app. now replace (calls ws + (calls ws1 - calls ws)) with (calls ws1) by lia.
  Qed.
  Lemma ends_arrived {E} ws (e : E) : exists l out, heard ws l /\ ends ws (fun f => let* out := sig_arrived f h ws in Ret (out, e)) (fun o w => (all_arrived o w, e)) l (out, e).
  Proof.
    destruct (flush_goes ws) as (ws' & ok & l & [Q1 Q2] & [f0 H] & G). exists l, (arrived ws'). split; [now exists (calls ws' - calls ws)|]. split.
    - exists f0. intros f Hf. unfold sig_arrived. now rewrite H.
    - intros o w SA F. destruct (G o w SA F) as (w' & E1 & [A _] & _). unfold all_arrived. rewrite E1. cbn [fst]. now rewrite A.
  Qed.
  Lemma perform_ends frag later : forall s ws, exists l a, heard ws l /\ ends ws (fun f => sig_perform f h frag later s ws) (fun o w => perform o frag later s w) l a.
  Proof.
    induction s as [x s IH|ls s IH|e]; intros ws; cbn [sig_perform perform].
    - destruct (fine_println frag ws x) as (ws1 & ok & l1 & Q1 & G1).
      assert (H : exists l a, heard ws1 l /\ ends ws1 (fun f => if ok then sig_perform f h frag later s ws1 else let* out := sig_arrived f h ws1 in Ret (out, RipUnprinted))
        (fun o w => if ok then perform o frag later s w else (all_arrived o w, RipUnprinted)) l a).
      { destruct ok; [apply IH|]. destruct (ends_arrived ws1 RipUnprinted) as (l & out & H). now exists l, (out, RipUnprinted). }
      destruct H as (l2 & a & H2 & E2). exists (l1 ++ l2), a. split; [now apply (heard_app ws l1 ws1)|].
      apply (ends_bind ws (fun f => sig_println f h frag ws x) (fun o w => os_println o frag w x) l1 ws1 ok
        (fun f w ok => if ok then sig_perform f h frag later s w else let* out := sig_arrived f h w in Ret (out, RipUnprinted))
        (fun o w ok => if ok then perform o frag later s w else (all_arrived o w, RipUnprinted))); assumption.
    - destruct (fine_lines frag ls ws) as (ws1 & r & l1 & Q1 & G1).
      assert (H : exists l a, heard ws1 l /\ ends ws1
        (fun f => match r with None => sig_perform f h frag later s ws1 | Some untried => let* w := sig_try_lines f h frag ws1 (later untried) in let* out := sig_arrived f h w in Ret (out, RipUnprinted) end)
        (fun o w => match r with None => perform o frag later s w | Some untried => (all_arrived o (try_lines o frag w (later untried)), RipUnprinted) end) l a).
      { destruct r as [untried|]; [|apply IH]. destruct (fine_try_lines frag (later untried) ws1) as (ws2 & [] & l2 & Q2 & G2).
        destruct (ends_arrived ws2 RipUnprinted) as (l3 & out & H3 & E3). exists (l2 ++ l3), (out, RipUnprinted). split; [now apply (heard_app ws1 l2 ws2)|].
        eapply ends_ext; [| |apply (ends_bind ws1 _ _ l2 ws2 tt (fun f w _ => let* out := sig_arrived f h w in Ret (out, RipUnprinted)) (fun o w _ => (all_arrived o w, RipUnprinted)) l3 _ G2 E3)].
        - intros f. cbv beta. destruct (sig_try_lines f h frag ws1 (later untried)); reflexivity.
        - reflexivity. }
      destruct H as (l2 & a & H2 & E2). exists (l1 ++ l2), a. split; [now apply (heard_app ws l1 ws1)|].
      eapply ends_ext; [| |apply (ends_bind ws (fun f => sig_lines f h frag ws ls) (fun o w => print_lines o frag w ls) l1 ws1 r
        (fun f w r => match r with None => sig_perform f h frag later s w | Some untried => let* w := sig_try_lines f h frag w (later untried) in let* out := sig_arrived f h w in Ret (out, RipUnprinted) end)
        (fun o w r => match r with None => perform o frag later s w | Some untried => (all_arrived o (try_lines o frag w (later untried)), RipUnprinted) end)); eassumption].
      + reflexivity.
      + intros o w _. cbv beta. destruct (print_lines o frag w ls) as [w1 [u|]]; reflexivity.
    - destruct (ends_arrived ws (RipEnd e)) as (l & out & H). now exists l, (out, RipEnd e).
  Qed.

  (** ** dd_dlt *)
  Definition rough {R} (err : R -> Prop) (ws : stdout) (X : nat -> outcome (stdout * R)) (Y : os -> stdout -> stdout * R) : Prop :=
    exists ws' r l, (quiet h ws l ws' \/ disturbed h ws l ws' /\ err r) /\ goes ws X Y l ws' r.
  Lemma fine_rough {R} err ws (X : nat -> outcome (stdout * R)) Y : fine ws X Y -> rough err ws X Y.
  Proof. intros (ws' & r & l & Q & G). exists ws', r, l. auto. Qed.
  Lemma rough_ext {R} err ws (X X' : nat -> outcome (stdout * R)) (Y Y' : os -> stdout -> stdout * R) :
    (forall f, X f = X' f) -> (forall o w, same w ws -> Y o w = Y' o w) -> rough err ws X Y -> rough err ws X' Y'.
  Proof. intros HX HY (ws' & r & l & Q & G). exists ws', r, l. split; [exact Q|]. now apply (goes_ext ws X X' Y Y'). Qed.
  (** After a disturbed call nothing is written any more. *)
  Lemma rough_bind {R Q} err err' ws (X : nat -> outcome (stdout * R)) Y (K : nat -> stdout -> R -> outcome (stdout * Q)) K' :
    rough err ws X Y -> (forall ws1 r1, rough err' ws1 (fun f => K f ws1 r1) (fun o w => K' o w r1)) ->
    (forall r1, err r1 -> exists q, err' q /\ (forall f w, K f w r1 = Ret (w, q)) /\ forall o w, K' o w r1 = (w, q)) ->
    rough err' ws (fun f => let* (w, r) := X f in K f w r) (fun o w => let '(w, r) := Y o w in K' o w r).
  Proof.
    intros (ws1 & r1 & l1 & D1 & G1) H HE. destruct D1 as [Q1|[D1 E1]].
    - destruct (H ws1 r1) as (ws2 & r2 & l2 & D2 & G2). exists ws2, r2, (l1 ++ l2). split; [|now apply (goes_bind ws X Y l1 ws1 r1 K K')].
      destruct D2 as [Q2|[D2 E2]]; [left; now apply (quiet_app h ws l1 ws1)|right; split; [now apply (disturbed_app h ws l1 ws1)|exact E2]].
    - destruct (HE r1 E1) as (q & Eq & HK & HK'). exists ws1, q, (l1 ++ []). rewrite app_nil_r. split; [right; auto|].
      rewrite <- (app_nil_r l1). apply (goes_bind ws X Y l1 ws1 r1 K K'); [exact G1|]. apply goes_ret; [intros f; apply HK|].
      intros o w SA. exists w. split; [apply HK'|]. now split.
  Qed.
  Definition fails (r : option nat) : Prop := r = None.
  Lemma rough_once ws buf : rough fails ws (fun _ => Ret (sig_once h ws buf)) (fun o w => raw_write o w buf).
  Proof.
    unfold sig_once, sig_raw_write. destruct (h (calls ws)) as [|a] eqn:E.
    - exists (bump ws 1), None, [Fails]. split.
      + right. split; [|reflexivity]. exists (calls ws), []. repeat split; try lia; try assumption; [cbn [bump calls]; lia|now rewrite Nat.sub_diag].
      + split; [exists 0; reflexivity|]. intros o w [A B] F. pose proof (F 0 Fails eq_refl) as Fa. rewrite Nat.add_0_r in Fa. unfold raw_write. rewrite Fa.
        eexists. split; [reflexivity|]. split; [split; cbn [arrived buffered bump]; rewrite ?app_nil_r; assumption|reflexivity].
    - destruct (raw_write (fun _ => a) ws buf) as [ws1 r] eqn:RW. exists ws1, r, [a].
      assert (RS : forall o w, same w ws -> o (calls w) = a -> let '(w', r') := raw_write o w buf in r' = r /\ same w' ws1 /\ calls w' = calls w + 1 /\ calls ws1 = calls ws + 1).
      { intros o w SA Ea. pose proof (raw_same o w ws a buf SA Ea) as H. rewrite RW in H. destruct (raw_write o w buf). intuition. }
      split.
      + left. pose proof (RS (fun _ => a) ws (conj eq_refl eq_refl) eq_refl) as H. rewrite RW in H. destruct H as (_ & _ & _ & C). split; [lia|].
        rewrite C. replace (calls ws + 1 - calls ws) with 1 by lia. cbn [answers]. now rewrite E.
      + split; [exists 0; reflexivity|]. intros o w SA F. pose proof (F 0 a eq_refl) as Fa. rewrite Nat.add_0_r in Fa. specialize (RS o w SA Fa).
        destruct (raw_write o w buf) as [w' r']. destruct RS as (-> & S1 & C & _). exists w'. auto.
  Qed.
  Lemma rough_buf_write ws buf : rough fails ws (fun f => sig_buf_write f h ws buf) (fun o w => buf_write o w buf).
  Proof.
    set (spare := lw_capacity - length (buffered ws)).
    apply (rough_ext fails ws (fun f => if length buf <? spare then Ret (set_buffered ws (buffered ws ++ buf), Some (length buf)) else
        let* (w, ok) := if spare <? length buf then sig_flush f h ws else Ret (ws, true) in
        if negb ok then Ret (w, None) else if lw_capacity <=? length buf then Ret (sig_once h w buf) else Ret (set_buffered w (buffered w ++ buf), Some (length buf))) _
      (fun o w => if length buf <? spare then (set_buffered w (buffered w ++ buf), Some (length buf)) else
        let '(w, ok) := if spare <? length buf then flush_out o w else (w, true) in
        if negb ok then (w, None) else if lw_capacity <=? length buf then raw_write o w buf else (set_buffered w (buffered w ++ buf), Some (length buf)))).
    - reflexivity.
    - intros o w [_ B]. unfold buf_write. now rewrite B.
    - destruct (length buf <? spare); [apply fine_rough, fine_put|].
      apply (rough_bind (fun _ : bool => False) fails); [apply fine_rough, fine_if_flush| |contradiction]. intros ws1 [|]; cbn [negb]; [|apply fine_rough, fine_done].
      destruct (lw_capacity <=? length buf); [apply rough_once|apply fine_rough, fine_put].
  Qed.
  Lemma fine_to_buf ws tail k : fine ws (fun _ => let '(w, m) := write_to_buf ws tail in Ret (w, Some (k + m))) (fun o w => let '(w, m) := write_to_buf w tail in (w, Some (k + m))).
  Proof.
    unfold write_to_buf. eapply fine_ret; [|intros f; reflexivity|].
    - reflexivity.
    - intros o w [A B]. rewrite B. eexists. split; [reflexivity|]. now split.
  Qed.
  Lemma rough_write v ws buf : rough fails ws (fun f => sig_write v f h ws buf) (fun o w => line_write v o w buf).
  Proof.
    unfold sig_write, line_write. destruct (rfind [x0a] buf) as [i|].
    - apply (rough_bind (fun _ : bool => False) fails); [apply fine_rough, fine_flush| |contradiction]. intros ws1 [|]; cbn [negb]; [|apply fine_rough, fine_done]. cbv zeta.
      set (K := fun (w : stdout) (flushed : nat) => if (i + 1 <=? flushed) && match v with TakesSome => false | TakesNone => lw_capacity <=? length (skipn flushed buf) end then (w, Some flushed) else
         let '(w, m) := write_to_buf w (if i + 1 <=? flushed then skipn flushed buf else if i + 1 - flushed <=? lw_capacity then skipn flushed (firstn (i + 1) buf)
             else match rfind [x0a] (firstn lw_capacity (skipn flushed buf)) with Some j => firstn (j + 1) (firstn lw_capacity (skipn flushed buf)) | None => firstn lw_capacity (skipn flushed buf) end) in (w, Some (flushed + m))).
      apply (rough_ext fails ws1 (fun f => let* (w, r) := Ret (sig_once h ws1 (firstn (i + 1) buf)) in match r with None => Ret (w, None) | Some 0 => Ret (w, Some 0) | Some k => Ret (K w k) end) _
        (fun o w => let '(w, r) := raw_write o w (firstn (i + 1) buf) in match r with None => (w, None) | Some 0 => (w, Some 0) | Some k => K w k end)).
      + intros f. cbn [obind]. destruct (sig_once h ws1 (firstn (i + 1) buf)) as [w [[|k]|]]; try reflexivity. unfold K. destruct ((i + 1 <=? S k) && _); [reflexivity|].
        now destruct (write_to_buf w _).
      + intros o w _. destruct (raw_write o w (firstn (i + 1) buf)) as [w1 [[|k]|]]; reflexivity.
      + apply (rough_bind fails fails ws1 (fun _ => Ret (sig_once h ws1 (firstn (i + 1) buf))) (fun o w => raw_write o w (firstn (i + 1) buf))
          (fun _ w r => match r with None => Ret (w, None) | Some 0 => Ret (w, Some 0) | Some k => Ret (K w k) end) (fun _ w r => match r with None => (w, None) | Some 0 => (w, Some 0) | Some k => K w k end)).
        * apply rough_once.
        * intros ws2 [[|k]|]; [apply fine_rough, fine_done| |apply fine_rough, fine_done]. unfold K. destruct ((i + 1 <=? S k) && _); [apply fine_rough, fine_done|].
          apply fine_rough. eapply fine_ext; [| |apply (fine_to_buf ws2)]; [|reflexivity]. intros f. cbv beta. destruct (write_to_buf ws2 _); reflexivity.
        * intros r1 ->. exists None. now split.
    - apply (rough_bind (fun _ : bool => False) fails); [apply fine_rough, fine_completed| |contradiction]. intros ws1 [|]; cbn [negb]; [apply rough_buf_write|apply fine_rough, fine_done].
  Qed.
  Definition errs (r : N + os_end) : Prop := r = inr OsError.
  Lemma rough_then v ws buf (K : nat -> stdout -> outcome (stdout * (N + os_end))) K' :
    (forall ws1, rough errs ws1 (fun f => K f ws1) K') ->
    rough errs ws (fun f => let* (w, r) := sig_write v f h ws buf in match r with None => Ret (w, inr OsError) | Some _ => K f w end)
      (fun o w => match line_write v o w buf with (w, None) => (w, inr OsError) | (w, Some _) => K' o w end).
  Proof.
    intros H. eapply rough_ext; [| |apply (rough_bind fails errs ws (fun f => sig_write v f h ws buf) (fun o w => line_write v o w buf)
      (fun f w r => match r with None => Ret (w, inr OsError) | Some _ => K f w end) (fun o w r => match r with None => (w, inr OsError) | Some _ => K' o w end))].
    - reflexivity.
    - intros o w _. cbv beta. destruct (line_write v o w buf) as [w1 [k|]]; reflexivity.
    - apply rough_write.
    - intros ws1 [k|]; [apply H|apply fine_rough, fine_done].
    - intros r1 ->. exists (inr OsError). now split.
  Qed.
  Lemma rough_message v A m e a p c buf ws : rough errs ws (fun f => sig_message v f h A m e a p c buf ws) (fun o w => os_message v o A m e a p c buf w).
  Proof.
    unfold sig_message, os_message. destruct (let* _ := _ in _) as [[[sh hd] eh]| |]; [|apply fine_rough, fine_done|apply fine_rough, fine_done].
    apply rough_then. intros ws1. apply rough_then. intros ws2. destruct (checked m u32_mod (c * 100)%N) as [ts| |]; [|apply fine_rough, fine_done|apply fine_rough, fine_done].
    apply rough_then. intros ws3. apply rough_then. intros ws4. apply rough_then. intros ws5.
    destruct (checked m u32_mod (c + 1)%N); apply fine_rough, fine_done.
  Qed.
  (** The answers heard by a run of dd_dlt: those of [h], or those up to an interrupted call that counts as failed, and then
      those that follow, and the run ends with an error. *)
  Definition heard_dd (ws : stdout) (l : list answer) (res : outcome (bytes * os_end)) : Prop :=
    heard ws l \/ exists ws' l1 l2 out, disturbed h ws l1 ws' /\ heard ws' l2 /\ l = l1 ++ l2 /\ res = Ret (out, OsError).
  Lemma heard_dd_app ws l1 ws1 l2 e : quiet h ws l1 ws1 -> heard_dd ws1 l2 e -> heard_dd ws (l1 ++ l2) e.
  Proof.
    intros Q [H|(ws' & l3 & l4 & out & D & H & -> & E)]; [left; now apply (heard_app ws l1 ws1)|]. right. exists ws', (l1 ++ l3), l4, out.
    split; [now apply (disturbed_app h ws l1 ws1)|]. split; [exact H|]. split; [apply app_assoc|exact E].
  Qed.
  Lemma loop_ends v A m e a p : forall fuel c stdin ws, exists l res, heard_dd ws l res /\
    (exists f0, forall f, f0 <= f -> sig_loop v fuel f h A m e a p c stdin ws = res) /\
    forall o w, same w ws -> keeps_to o (calls w) l -> os_loop v fuel o A m e a p c stdin w = res.
  Proof.
    induction fuel as [|fuel IH]; intros c stdin ws; cbn [sig_loop os_loop].
    - exists [], Fuel. split; [left; now exists 0|]. split; [now exists 0|reflexivity].
    - destruct (length stdin <? N.to_nat p).
      + destruct (ends_arrived ws (OsDone c)) as (l & out & H & [f0 F] & G). exists l, (Ret (out, OsDone c)). split; [now left|]. split; [exists f0; exact F|].
        intros o w SA FO. f_equal. now apply G.
      + destruct (rough_message v A m e a p c (firstn (N.to_nat p) stdin) ws) as (ws1 & r & l1 & D & [f1 F1] & G1).
        assert (N : exists l2 res, (match r with inl _ => heard_dd ws1 l2 res | inr en => heard ws1 l2 /\ exists out, res = Ret (out, en) end) /\
          (exists f0, forall f, f0 <= f -> match r with inl c' => sig_loop v fuel f h A m e a p c' (skipn (N.to_nat p) stdin) ws1 | inr en => let* out := sig_arrived f h ws1 in Ret (out, en) end = res) /\
          forall o w, same w ws1 -> keeps_to o (calls w) l2 -> match r with inl c' => os_loop v fuel o A m e a p c' (skipn (N.to_nat p) stdin) w | inr en => Ret (all_arrived o w, en) end = res).
        { destruct r as [c'|en].
          - apply IH.
          - destruct (ends_arrived ws1 en) as (l & out & H & [f0 F] & G). exists l, (Ret (out, en)). split; [split; [exact H|now exists out]|]. split; [exists f0; exact F|].
            intros o w SA FO. f_equal. now apply G. }
        destruct N as (l2 & res & H2 & [f2 F2] & G2). exists (l1 ++ l2), res. split; [|split].
        * destruct D as [Q|[D E]].
          -- apply (heard_dd_app ws l1 ws1 l2 res Q). destruct r; [exact H2|left; apply H2].
          -- rewrite E in H2. destruct H2 as [H2 [out ->]]. right. now exists ws1, l1, l2, out.
        * exists (Nat.max f1 f2). intros f Hf. rewrite F1 by lia. cbn [obind]. apply F2. lia.
        * intros o w SA FO. apply keeps_to_app in FO. destruct FO as [FO1 FO2]. destruct (G1 o w SA FO1) as (w1 & E1 & S1 & C1). rewrite E1.
          rewrite <- C1 in FO2. specialize (G2 o w1 S1 FO2). destruct r; exact G2.
  Qed.
End Past.
