From Coq Require Import String.
From Verif Require Import Base DltModel MatchModel GenModel ToolsModel MainModel PrintModel BaseFacts FindFacts DdModel DdOs RipOs RipOsSpec.

(** * The script is the program of PrintModel.v *)
Lemma run_calc {A} (o : outcome A) f g : (forall a, script_run (f a) = g a) -> script_run (calc o f) = compute o g.
Proof. intros H. destruct o; cbn [calc compute script_run]; [apply H|reflexivity|reflexivity]. Qed.
Lemma run_say_all ls s : script_run (say_all ls s) = println_all ls (script_run s).
Proof. induction ls as [|l ls IH]; [reflexivity|]. cbn [say_all println_all script_run]. now rewrite IH. Qed.
Lemma run_say_ecus m s : script_run (say_ecus m s) = println_ecus m (script_run s).
Proof.
  induction m as [|[k v] m IH]; [reflexivity|]. cbn [say_ecus println_ecus]. apply run_calc. intros _. cbn [script_run]. now rewrite IH.
Qed.
Lemma run_parallel {A} C (f : bytes -> outcome A) buf g h : (forall a, script_run (g a) = h a) ->
  script_run (parallel_script C f buf g) = parallel C f buf h.
Proof.
  intros H. unfold parallel_script, parallel. apply run_calc. intros sl. cbn [script_run]. f_equal. now apply run_calc.
Qed.
Lemma run_multi C f buf g h : (forall a, script_run (g a) = h a) -> script_run (multithreaded_script C f buf g) = multithreaded_text C f buf h.
Proof. intros H. unfold multithreaded_script, multithreaded_text. now apply run_parallel. Qed.
Lemma run_command_script C name buf : script_run (command_script C name buf) = command_text C name buf.
Proof.
  unfold command_script, command_text. cbv zeta.
  repeat match goal with |- script_run (if ?c then _ else _) = _ => destruct c end;
    cbn [script_run]; try reflexivity;
    repeat first [ rewrite run_say_all; cbn [script_run]; reflexivity
                 | rewrite run_say_ecus; cbn [script_run]; reflexivity
                 | apply run_multi; intros ?; cbn [script_run]
                 | apply run_parallel; intros ?; cbn [script_run]
                 | apply run_calc; intros ?; cbn [script_run]
                 | apply (f_equal (println _)); cbn [script_run]
                 | apply (f_equal (println_all _)); cbn [script_run]
                 | reflexivity ].
Qed.
Lemma run_ripdlt C prog args : script_run (ripdlt_script C prog args) = ripdlt_run C prog args.
Proof.
  unfold ripdlt_script, ripdlt_run. apply run_calc. intros _.
  destruct args as [|a [|b [|c r]]]; cbn [script_run]; try reflexivity. f_equal. apply run_calc. intros d. apply run_command_script.
Qed.

(** * Writing *)
Definition text (w : stdout) : bytes := arrived w ++ buffered w.
Definition wrote (o : os) (w : stdout) (buf : bytes) (r : stdout * bool) : Prop :=
  exists t rest, buf = t ++ rest /\ text (fst r) = text w ++ t /\ calls w <= calls (fst r) /\
    (snd r = true -> rest = []) /\ (snd r = false -> exists i, i < calls (fst r) /\ refuses (o i)).

Lemma raw_write_open o w buf : is_open o -> 
  match raw_write o w buf with
  | (w', Some n) => n <= length buf /\ arrived w' = arrived w ++ firstn n buf /\ buffered w' = buffered w /\ calls w' = S (calls w) /\
                    (n = 0 -> buf = [] \/ refuses (o (calls w)))
  | (w', None) => arrived w' = arrived w /\ buffered w' = buffered w /\ calls w' = S (calls w) /\ refuses (o (calls w))
  end.
Proof.
  intros O. unfold raw_write. destruct (o (calls w)) as [|k| |] eqn:E; cbn [arrived buffered calls].
  - split; [lia|]. rewrite firstn_all. repeat split; try lia. intros H. left. destruct buf; [reflexivity|discriminate].
  - split; [lia|]. repeat split; try lia. intros H. destruct buf; [now left|]. cbn in H. destruct k; [right; right; reflexivity|lia].
  - rewrite app_nil_r. repeat split; try lia. now left.
  - exfalso. now apply (O (calls w)).
Qed.
Lemma raw_rounds_open o : is_open o -> forall rounds w buf, length buf <= rounds ->
  exists t rest, buf = t ++ rest /\ arrived (fst (raw_rounds rounds o w buf)) = arrived w ++ t /\ buffered (fst (raw_rounds rounds o w buf)) = buffered w /\
    calls w <= calls (fst (raw_rounds rounds o w buf)) /\
    (snd (raw_rounds rounds o w buf) = true -> rest = []) /\
    (snd (raw_rounds rounds o w buf) = false -> exists i, i < calls (fst (raw_rounds rounds o w buf)) /\ refuses (o i)).
Proof.
  intros O. induction rounds as [|r IH]; intros w buf L.
  - destruct buf; [|cbn in L; lia]. cbn. exists [], []. rewrite !app_nil_r. repeat split; auto; try lia; try discriminate; try congruence.
  - destruct buf as [|c buf]; [cbn; exists [], []; rewrite !app_nil_r; repeat split; auto; try lia; try discriminate; try congruence|].
    cbn [raw_rounds]. pose proof (raw_write_open o w (c :: buf) O) as H. destruct (raw_write o w (c :: buf)) as [w' [[|n]|]].
    + destruct H as (_ & A & B & Cc & R). exists [], (c :: buf). cbn [fst snd]. rewrite A, B. cbn [firstn]. rewrite !app_nil_r.
      repeat split; auto; try lia; try discriminate; try congruence. intros _. destruct (R eq_refl) as [R'|R']; [discriminate|]. exists (calls w). split; [lia|exact R'].
    + destruct H as (Ln & A & B & Cc & _).
      destruct (IH w' (skipn (S n) (c :: buf))) as (t & rest & E & A' & B' & C' & D' & E').
      { rewrite skipn_length. cbn [length] in L |- *. lia. }
      exists (firstn (S n) (c :: buf) ++ t), rest. rewrite <- app_assoc, <- E, firstn_skipn. rewrite A', B', A, B, app_assoc.
      repeat split; auto; try lia.
    + destruct H as (A & B & Cc & R). exists [], (c :: buf). cbn [fst snd]. rewrite A, B, !app_nil_r. repeat split; auto; try lia; try discriminate; try congruence.
      intros _. exists (calls w). split; [lia|exact R].
Qed.
Lemma flush_rounds_open o : is_open o -> forall rounds w, length (buffered w) <= rounds ->
  text (fst (flush_rounds rounds o w)) = text w /\ calls w <= calls (fst (flush_rounds rounds o w)) /\
  (exists t, arrived (fst (flush_rounds rounds o w)) = arrived w ++ t /\ length (buffered (fst (flush_rounds rounds o w))) + length t = length (buffered w)) /\
  (snd (flush_rounds rounds o w) = true -> buffered (fst (flush_rounds rounds o w)) = []) /\
  (snd (flush_rounds rounds o w) = false -> exists i, i < calls (fst (flush_rounds rounds o w)) /\ refuses (o i)).
Proof.
  intros O. induction rounds as [|r IH]; intros w L.
  - destruct (buffered w) eqn:E; [|cbn in L; lia]. unfold flush_rounds. rewrite E. cbn [fst snd]. rewrite E.
    split; [reflexivity|]. split; [lia|]. split; [exists []; rewrite app_nil_r; now split|]. split; [auto|discriminate].
  - destruct (buffered w) as [|c buf] eqn:E.
    { cbn [flush_rounds]. rewrite E. cbn [fst snd]. rewrite E. split; [reflexivity|]. split; [lia|]. split; [exists []; rewrite app_nil_r; now split|]. split; [auto|discriminate]. }
    cbn [flush_rounds]. rewrite E. pose proof (raw_write_open o w (c :: buf) O) as H. destruct (raw_write o w (c :: buf)) as [w' [[|n]|]].
    + destruct H as (_ & A & B & Cc & R). cbn [fst snd]. unfold text. rewrite A, B, E. cbn [firstn]. rewrite app_nil_r.
      split; [reflexivity|]. split; [lia|]. split; [exists []; rewrite app_nil_r; split; [reflexivity|cbn; lia]|]. split; [discriminate|].
      intros _. destruct (R eq_refl) as [R'|R']; [discriminate|]. exists (calls w). split; [lia|exact R'].
    + destruct H as (Ln & A & B & Cc & _).
      destruct (IH (set_buffered w' (skipn (S n) (c :: buf)))) as (I1 & I2 & (t & I3 & I3') & I4 & I5).
      { cbn [buffered set_buffered]. rewrite skipn_length. cbn [length] in L |- *. lia. }
      cbn [arrived buffered calls set_buffered text] in I1, I2, I3, I3'. unfold text in I1 at 2. cbn [arrived buffered set_buffered] in I1.
      split; [rewrite I1, A, <- app_assoc, firstn_skipn; unfold text; now rewrite E|]. split; [lia|]. split; [|now split].
      exists (firstn (S n) (c :: buf) ++ t). rewrite I3, A, app_assoc. split; [reflexivity|].
      rewrite app_length, firstn_length. rewrite skipn_length in I3'. lia.
    + destruct H as (A & B & Cc & R). cbn [fst snd]. unfold text. rewrite A, B, E.
      split; [reflexivity|]. split; [lia|]. split; [exists []; rewrite app_nil_r; split; [reflexivity|cbn; lia]|]. split; [discriminate|].
      intros _. exists (calls w). split; [lia|exact R].
Qed.
Lemma flush_open o w : is_open o -> text (fst (flush_out o w)) = text w /\ calls w <= calls (fst (flush_out o w)) /\
  (snd (flush_out o w) = true -> buffered (fst (flush_out o w)) = []) /\
  (snd (flush_out o w) = false -> exists i, i < calls (fst (flush_out o w)) /\ refuses (o i)).
Proof. intros O. destruct (flush_rounds_open o O (length (buffered w)) w (le_n _)) as (A & B & _ & C & D). auto. Qed.

Definition no_lf (b : bytes) : Prop := ~ In x0a b.
Lemma buf_write_all_open o w buf : is_open o -> wrote o w buf (buf_write_all o w buf) /\
  (snd (buf_write_all o w buf) = true -> no_lf (buffered w) -> no_lf buf -> no_lf (buffered (fst (buf_write_all o w buf)))) /\
  (buf = [] -> buffered w = [] -> buf_write_all o w buf = (w, true)).
Proof.
  intros O. unfold buf_write_all. set (spare := lw_capacity - length (buffered w)).
  destruct (Nat.ltb_spec (length buf) spare) as [L|L].
  { cbn [fst snd]. split; [|split].
    - exists buf, []. cbn [fst snd calls set_buffered]. unfold text. cbn [arrived buffered set_buffered]. rewrite app_nil_r, app_assoc. repeat split; auto; try lia; try discriminate; try congruence.
    - intros _ N1 N2 I. cbn [buffered set_buffered] in I. apply in_app_or in I. now destruct I.
    - intros -> E. rewrite E. destruct w. cbn in *. now rewrite E. }
  assert (CAP : 0 < lw_capacity) by (unfold lw_capacity; lia).
  split; [|split].
  - destruct (Nat.ltb_spec spare (length buf)) as [L2|L2].
    + pose proof (flush_open o w O) as (F1 & F2 & F3 & F4). destruct (flush_out o w) as [w1 ok]. cbn [fst snd] in *. destruct ok; cbn [negb].
      * specialize (F3 eq_refl). destruct (Nat.leb_spec lw_capacity (length buf)) as [L3|L3].
        -- destruct (raw_rounds_open o O (length buf) w1 buf (le_n _)) as (t & rest & E & A & B & C & D & G).
           exists t, rest. change (raw_rounds (length buf) o w1 buf) with (raw_write_all o w1 buf) in *.
           split; [exact E|]. split; [|split; [lia|split; assumption]]. unfold text in *. rewrite A, B, F3, app_nil_r. rewrite <- F1, F3, app_nil_r. reflexivity.
        -- exists buf, []. cbn [fst snd calls set_buffered]. rewrite app_nil_r. split; [reflexivity|]. split; [|split; [lia|split; [auto|discriminate]]].
           unfold text in *. cbn [arrived buffered set_buffered]. rewrite F3, app_nil_r in F1. rewrite F1, F3. cbn [app]. reflexivity.
      * exists [], buf. cbn [fst snd]. rewrite app_nil_r. split; [reflexivity|]. split; [exact F1|]. split; [lia|]. split; [discriminate|exact F4].
    + cbn [negb]. destruct (Nat.leb_spec lw_capacity (length buf)) as [L3|L3].
      * assert (EB : buffered w = []) by (destruct (buffered w); [reflexivity|cbn [length] in *; subst spare; lia]).
        destruct (raw_rounds_open o O (length buf) w buf (le_n _)) as (t & rest & E & A & B & C & D & G).
        exists t, rest. change (raw_rounds (length buf) o w buf) with (raw_write_all o w buf) in *.
        split; [exact E|]. split; [|split; [lia|split; assumption]]. unfold text. rewrite A, B, EB, !app_nil_r. reflexivity.
      * exists buf, []. cbn [fst snd calls set_buffered]. rewrite app_nil_r. split; [reflexivity|]. split; [|split; [lia|split; [auto|discriminate]]].
        unfold text. cbn [arrived buffered set_buffered]. now rewrite app_assoc.
  - intros OK N1 N2. destruct (Nat.ltb_spec spare (length buf)) as [L2|L2].
    + pose proof (flush_open o w O) as (F1 & F2 & F3 & F4). destruct (flush_out o w) as [w1 ok]. cbn [fst snd] in *. destruct ok; cbn [negb] in *; [|discriminate].
      specialize (F3 eq_refl). destruct (Nat.leb_spec lw_capacity (length buf)) as [L3|L3].
      * destruct (raw_rounds_open o O (length buf) w1 buf (le_n _)) as (t & rest & E & A & B & _).
        unfold raw_write_all. rewrite B, F3. intros [].
      * cbn [fst buffered set_buffered]. rewrite F3. exact N2.
    + cbn [negb] in *. destruct (Nat.leb_spec lw_capacity (length buf)) as [L3|L3].
      * destruct (raw_rounds_open o O (length buf) w buf (le_n _)) as (t & rest & E & A & B & _). unfold raw_write_all. now rewrite B.
      * cbn [fst buffered set_buffered]. intros I. apply in_app_or in I. now destruct I.
  - intros -> E. subst spare. rewrite E in L. cbn [length] in L. lia.
Qed.

Lemma wrote_trans o w buf1 w1 buf2 r : wrote o w buf1 (w1, true) -> wrote o w1 buf2 r -> wrote o w (buf1 ++ buf2) r.
Proof.
  intros (t & rest & E & A & C & D & _) (t2 & rest2 & E2 & A2 & C2 & D2 & G2). cbn [fst snd] in *. specialize (D eq_refl). subst rest.
  rewrite app_nil_r in E. subst buf1. exists (t ++ t2), rest2. rewrite <- app_assoc, <- E2. split; [reflexivity|].
  split; [now rewrite A2, A, app_assoc|]. split; [lia|]. now split.
Qed.
Lemma wrote_more o w buf1 w1 buf2 : wrote o w buf1 (w1, false) -> wrote o w (buf1 ++ buf2) (w1, false).
Proof.
  intros (t & rest & E & A & C & D & G). cbn [fst snd] in *. exists t, (rest ++ buf2). rewrite app_assoc, <- E. cbn [fst snd]. repeat split; auto. discriminate.
Qed.
Lemma rfind_lf buf : match rfind [x0a] buf with
  | None => no_lf buf
  | Some i => i < length buf /\ no_lf (skipn (i + 1) buf)
  end.
Proof.
  destruct (rfind [x0a] buf) as [i|] eqn:F.
  - apply rfind_some in F; [|cbn; lia]. destruct F as [O M]. pose proof (occ_len [x0a] buf i ltac:(cbn; lia) O) as L. cbn [length] in L.
    split; [lia|]. intros I. apply In_nth_error in I. destruct I as [j Hj].
    assert (Q : nth_error buf (i + 1 + j) = Some x0a) by (rewrite <- Hj; clear; revert buf; generalize (i + 1); intros n; induction n as [|n IH]; intros [|x buf]; cbn; try reflexivity; [now destruct j|apply IH]).
    apply nth_error_split in Q. destruct Q as (p & q & E & Lp). specialize (M (i + 1 + j)).
    assert (Z : is_prefix [x0a] (skipn (i + 1 + j) buf) = true).
    { rewrite E, <- Lp, skipn_app, Nat.sub_diag, skipn_all. reflexivity. }
    specialize (M ltac:(lia)). congruence.
  - intros I. apply in_split in I. destruct I as (p & q & E). rewrite rfind_none in F by (cbn; lia). specialize (F (length p)).
    rewrite E, skipn_app, Nat.sub_diag, skipn_all in F. discriminate.
Qed.
Lemma raw_all_open o w buf : is_open o -> buffered w = [] -> wrote o w buf (raw_write_all o w buf) /\ buffered (fst (raw_write_all o w buf)) = [].
Proof.
  intros O EB. destruct (raw_rounds_open o O (length buf) w buf (le_n _)) as (t & rest & E & A & B & C & D & G).
  change (raw_rounds (length buf) o w buf) with (raw_write_all o w buf) in *. split; [|congruence].
  exists t, rest. split; [exact E|]. split; [|split; [lia|split; assumption]]. unfold text. rewrite A, B, EB, !app_nil_r. reflexivity.
Qed.
Lemma line_write_all_open o w buf : is_open o -> no_lf (buffered w) -> wrote o w buf (line_write_all o w buf) /\
  (snd (line_write_all o w buf) = true -> no_lf (buffered (fst (line_write_all o w buf)))).
Proof.
  intros O NB. unfold line_write_all. pose proof (rfind_lf buf) as R. destruct (rfind [x0a] buf) as [i|].
  - destruct R as [Li NT]. set (lines := firstn (i + 1) buf). set (tl := skipn (i + 1) buf) in *.
    assert (EB : buf = lines ++ tl) by (symmetry; apply firstn_skipn).
    assert (H : exists w1 ok, (match buffered w with
        | [] => raw_write_all o w lines
        | _ => let '(w, ok) := buf_write_all o w lines in if ok then flush_out o w else (w, false)
        end) = (w1, ok) /\ wrote o w lines (w1, ok) /\ (ok = true -> buffered w1 = [])).
    { destruct (buffered w) as [|c r] eqn:E.
      - destruct (raw_all_open o w lines O E) as [H1 H2]. destruct (raw_write_all o w lines) as [w1 ok]. exists w1, ok. auto.
      - destruct (buf_write_all_open o w lines O) as [H1 _]. destruct (buf_write_all o w lines) as [w1 [|]].
        + pose proof (flush_open o w1 O) as (F1 & F2 & F3 & F4). destruct (flush_out o w1) as [w2 ok]. cbn [fst snd] in *.
          exists w2, ok. split; [reflexivity|]. split; [|exact F3].
          destruct H1 as (t & rest & E1 & A & C & D & _). cbn [fst snd] in *. specialize (D eq_refl). subst rest.
          exists t, []. cbn [fst snd]. split; [exact E1|]. split; [now rewrite F1|]. split; [lia|]. split; [auto|exact F4].
        + exists w1, false. split; [reflexivity|]. split; [exact H1|discriminate]. }
    destruct H as (w1 & ok & -> & H1 & H2). destruct ok.
    + specialize (H2 eq_refl). destruct (buf_write_all_open o w1 tl O) as (B1 & B2 & _). split.
      * rewrite EB at 1. exact (wrote_trans _ _ _ _ _ _ H1 B1).
      * intros OK. apply B2; [exact OK|rewrite H2; intros []|exact NT].
    + split; [|discriminate]. rewrite EB. now apply wrote_more.
  - assert (H : exists w1 ok, (match rev (buffered w) with
                      | c :: _ => if byte_eqb c x0a then flush_out o w else (w, true)
                      | [] => (w, true)
                      end) = (w1, ok) /\ wrote o w [] (w1, ok) /\ (ok = true -> no_lf (buffered w1))).
    { assert (W : wrote o w [] (w, true)) by (exists [], []; cbn [fst snd]; rewrite !app_nil_r; repeat split; auto; try lia; try discriminate; try congruence).
      destruct (rev (buffered w)) as [|c r]; [exists w, true; auto|]. destruct (byte_eqb c x0a); [|exists w, true; auto].
      pose proof (flush_open o w O) as (F1 & F2 & F3 & F4). destruct (flush_out o w) as [w1 ok]. cbn [fst snd] in *. exists w1, ok. split; [reflexivity|]. split.
      - exists [], []. cbn [fst snd]. rewrite !app_nil_r. split; [reflexivity|]. split; [exact F1|]. split; [lia|]. split; [auto|exact F4].
      - intros Q. rewrite (F3 Q). intros []. }
    destruct H as (w1 & ok & -> & H1 & H2). destruct ok; cbn [negb].
    + destruct (buf_write_all_open o w1 buf O) as (B1 & B2 & _). split.
      * exact (wrote_trans _ _ _ _ _ _ H1 B1).
      * intros OK. apply B2; auto.
    + split; [|discriminate]. exact (wrote_more _ _ _ _ buf H1).
Qed.
Lemma fragments_open o : is_open o -> forall fs w, no_lf (buffered w) -> wrote o w (concat fs) (write_fragments o w fs) /\
  (snd (write_fragments o w fs) = true -> no_lf (buffered (fst (write_fragments o w fs)))).
Proof.
  intros O. induction fs as [|f fs IH]; intros w NB; cbn [write_fragments concat].
  - split; [exists [], []; cbn [fst snd]; rewrite !app_nil_r; repeat split; auto; try lia; try discriminate; try congruence|auto].
  - destruct (line_write_all_open o w f O NB) as [H1 H2]. destruct (line_write_all o w f) as [w1 [|]]; cbn [fst snd] in *.
    + destruct (IH w1 (H2 eq_refl)) as [I1 I2]. split; [|exact I2]. exact (wrote_trans _ _ _ _ _ _ H1 I1).
    + split; [|discriminate]. now apply wrote_more.
Qed.
Lemma println_open o frag w l : is_open o -> (forall t, concat (frag t) = t) -> buffered w = [] ->
  wrote o w (l ++ [x0a]) (os_println o frag w l) /\
  (snd (os_println o frag w l) = true -> buffered (fst (os_println o frag w l)) = []).
Proof.
  intros O F EB. unfold os_println. destruct (fragments_open o O (frag (l ++ [x0a])) w) as [H1 H2]; [rewrite EB; intros []|].
  rewrite F in H1. split; [exact H1|]. intros OK. specialize (H2 OK). destruct H1 as (t & rest & E & A & _ & D & _).
  rewrite (D OK), app_nil_r in E. subst t. unfold text in A. rewrite EB, app_nil_r in A.
  set (b := buffered (fst (write_fragments o w (frag (l ++ [x0a]))))) in *.
  destruct b as [|c b'] eqn:Q using rev_ind; [reflexivity|]. exfalso. rewrite !app_assoc in A. apply app_inj_tail in A. destruct A as [_ ->].
  apply H2. apply in_or_app. right. now left.
Qed.
Lemma all_arrived_open o w : is_open o -> exists rest, text w = all_arrived o w ++ rest.
Proof.
  intros O. destruct (flush_open o w O) as (F1 & _). unfold all_arrived. exists (buffered (fst (flush_out o w))). now rewrite <- F1.
Qed.

(** After a refusal that lasts nothing arrives any more. *)
Lemma raw_write_refused o w buf : refuses (o (calls w)) -> arrived (fst (raw_write o w buf)) = arrived w /\ calls (fst (raw_write o w buf)) = S (calls w) /\
  match snd (raw_write o w buf) with Some n => n = 0 | None => True end.
Proof. unfold raw_write. intros [-> | ->]; cbn [fst snd arrived calls Nat.min firstn]; rewrite app_nil_r; repeat split; lia. Qed.
Definition silent (o : os) (c : nat) : Prop := forall i, c <= i -> refuses (o i).
Lemma raw_rounds_silent o rounds w buf : silent o (calls w) -> arrived (fst (raw_rounds rounds o w buf)) = arrived w /\ calls w <= calls (fst (raw_rounds rounds o w buf)).
Proof.
  intros H. destruct rounds as [|r], buf as [|c buf]; cbn [raw_rounds fst]; auto.
  pose proof (raw_write_refused o w (c :: buf) (H _ (le_n _))) as (A & B & C). destruct (raw_write o w (c :: buf)) as [w' [[|n]|]]; cbn [fst snd] in *; try discriminate; rewrite A; split; auto; lia.
Qed.
Lemma flush_rounds_silent o rounds w : silent o (calls w) -> arrived (fst (flush_rounds rounds o w)) = arrived w /\ calls w <= calls (fst (flush_rounds rounds o w)).
Proof.
  intros H. destruct rounds as [|r]; cbn [flush_rounds]; destruct (buffered w) as [|c buf] eqn:E; cbn [fst]; auto.
  pose proof (raw_write_refused o w (c :: buf) (H _ (le_n _))) as (A & B & C). destruct (raw_write o w (c :: buf)) as [w' [[|n]|]]; cbn [fst snd] in *; try discriminate; rewrite A; split; auto; lia.
Qed.
Lemma silent_mono o c c' : c <= c' -> silent o c -> silent o c'.
Proof. intros L H i Hi. apply H. lia. Qed.
Definition still (w w' : stdout) : Prop := arrived w' = arrived w /\ calls w <= calls w'.
Lemma still_trans w1 w2 w3 : still w1 w2 -> still w2 w3 -> still w1 w3.
Proof. intros [A B] [C D]. split; [congruence|lia]. Qed.
Lemma flush_silent o w : silent o (calls w) -> still w (fst (flush_out o w)).
Proof. intros H. exact (flush_rounds_silent o _ w H). Qed.
Lemma buf_write_all_silent o w buf : silent o (calls w) -> still w (fst (buf_write_all o w buf)).
Proof.
  intros H. unfold buf_write_all. destruct (length buf <? lw_capacity - length (buffered w)); [split; cbn; auto|].
  assert (S : still w (fst (if lw_capacity - length (buffered w) <? length buf then flush_out o w else (w, true)))).
  { destruct (lw_capacity - length (buffered w) <? length buf); [now apply flush_silent|split; cbn; auto]. }
  destruct (if lw_capacity - length (buffered w) <? length buf then flush_out o w else (w, true)) as [w1 ok]. cbn [fst] in S.
  destruct ok; cbn [negb]; [|exact S]. destruct (lw_capacity <=? length buf).
  - apply (still_trans _ w1); [exact S|]. apply (raw_rounds_silent o (length buf) w1 buf). exact (silent_mono _ _ _ (proj2 S) H).
  - apply (still_trans _ w1); [exact S|]. split; cbn; auto.
Qed.
Lemma line_write_all_silent o w buf : silent o (calls w) -> still w (fst (line_write_all o w buf)).
Proof.
  intros H. unfold line_write_all. destruct (rfind [x0a] buf) as [i|].
  - assert (S : still w (fst (match buffered w with
        | [] => raw_write_all o w (firstn (i + 1) buf)
        | _ => let '(w, ok) := buf_write_all o w (firstn (i + 1) buf) in if ok then flush_out o w else (w, false)
        end))).
    { destruct (buffered w) as [|c r] eqn:E.
      - exact (raw_rounds_silent o _ w _ H).
      - pose proof (buf_write_all_silent o w (firstn (i + 1) buf) H) as B. destruct (buf_write_all o w (firstn (i + 1) buf)) as [w1 [|]]; cbn [fst] in *; [|exact B].
        apply (still_trans _ w1); [exact B|]. apply flush_silent. exact (silent_mono _ _ _ (proj2 B) H). }
    destruct (match buffered w with [] => raw_write_all o w (firstn (i + 1) buf) | _ => _ end) as [w1 [|]]; cbn [fst] in *; [|exact S].
    apply (still_trans _ w1); [exact S|]. apply buf_write_all_silent. exact (silent_mono _ _ _ (proj2 S) H).
  - assert (S : still w (fst (match rev (buffered w) with
                      | c :: _ => if byte_eqb c x0a then flush_out o w else (w, true)
                      | [] => (w, true)
                      end))).
    { destruct (rev (buffered w)) as [|c r]; [split; cbn; auto|]. destruct (byte_eqb c x0a); [now apply flush_silent|split; cbn; auto]. }
    destruct (match rev (buffered w) with [] => (w, true) | _ => _ end) as [w1 [|]]; cbn [fst negb] in *; [|exact S].
    apply (still_trans _ w1); [exact S|]. apply buf_write_all_silent. exact (silent_mono _ _ _ (proj2 S) H).
Qed.
Lemma fragments_silent o fs : forall w, silent o (calls w) -> still w (fst (write_fragments o w fs)).
Proof.
  induction fs as [|f fs IH]; intros w H; cbn [write_fragments]; [split; cbn; auto|].
  pose proof (line_write_all_silent o w f H) as S. destruct (line_write_all o w f) as [w1 [|]]; cbn [fst] in *; [|exact S].
  apply (still_trans _ w1); [exact S|]. apply IH. exact (silent_mono _ _ _ (proj2 S) H).
Qed.
Lemma try_lines_silent o frag ls : forall w, silent o (calls w) -> still w (try_lines o frag w ls).
Proof.
  induction ls as [|l ls IH]; intros w H; cbn [try_lines]; [split; auto|].
  pose proof (fragments_silent o (frag (l ++ [x0a])) w H) as S. apply (still_trans _ (fst (os_println o frag w l))); [exact S|].
  apply IH. exact (silent_mono _ _ _ (proj2 S) H).
Qed.

(** * Whole programs *)
Fixpoint no_gather (s : script) : Prop :=
  match s with Say _ s' => no_gather s' | Gather _ _ => False | Stop _ => True end.
Lemma text_empty w : buffered w = [] -> text w = arrived w.
Proof. unfold text. intros ->. apply app_nil_r. Qed.
Lemma print_lines_open o frag : is_open o -> (forall t, concat (frag t) = t) -> forall ls w, buffered w = [] ->
  match print_lines o frag w ls with
  | (w', None) => buffered w' = [] /\ arrived w' = arrived w ++ concat (map (fun l => l ++ [x0a]) ls)
  | (w', Some _) => (exists rest, text w ++ concat (map (fun l => l ++ [x0a]) ls) = text w' ++ rest) /\ exists i, i < calls w' /\ refuses (o i)
  end.
Proof.
  intros O F. induction ls as [|l ls IH]; intros w EB; cbn [print_lines map concat].
  - split; [exact EB|]. now rewrite app_nil_r.
  - destruct (println_open o frag w l O F EB) as [(t & rest & E & A & C & D & G) B]. destruct (os_println o frag w l) as [w1 [|]]; cbn [fst snd] in *.
    + rewrite (D eq_refl), app_nil_r in E. subst t. specialize (B eq_refl). specialize (IH w1 B). destruct (print_lines o frag w1 ls) as [w2 [u|]].
      * destruct IH as [[r Hr] X]. split; [|exact X]. exists r. rewrite app_assoc, <- A. exact Hr.
      * destruct IH as [I1 I2]. split; [exact I1|]. rewrite I2. rewrite text_empty in A by exact B. rewrite text_empty in A by exact EB. rewrite A. now rewrite <- app_assoc.
    + split; [|now apply G]. exists (rest ++ concat (map (fun l => l ++ [x0a]) ls)). rewrite A, E, <- !app_assoc. reflexivity.
Qed.
Lemma println_all_out ls r : out (println_all ls r) = concat (map (fun l => l ++ [x0a]) ls) ++ out r.
Proof. induction ls as [|l ls IH]; [reflexivity|]. cbn [println_all println out map concat]. rewrite IH, <- !app_assoc. reflexivity. Qed.
Lemma println_all_how ls r : how (println_all ls r) = how r.
Proof. induction ls as [|l ls IH]; [reflexivity|]. cbn [println_all println how]. exact IH. Qed.
Lemma lasting_silent o w i : lasting o -> i < calls w -> refuses (o i) -> silent o (calls w).
Proof. intros L Hi R j Hj. apply (L i j); [lia|exact R]. Qed.
Lemma perform_open o frag later : is_open o -> (forall t, concat (frag t) = t) -> forall s w, buffered w = [] -> no_gather s \/ lasting o ->
  exists arr e missing, perform o frag later s w = (arr, e) /\ arrived w ++ out (script_run s) = arr ++ missing /\
    (e = RipUnprinted \/ e = RipEnd (how (script_run s)) /\ missing = []).
Proof.
  intros O F. induction s as [l s IH|ls s IH|h]; intros w EB Q; cbn [perform script_run].
  - destruct (println_open o frag w l O F EB) as [(t & rest & E & A & C & D & G) B]. destruct (os_println o frag w l) as [w1 [|]]; cbn [fst snd] in *.
    + rewrite (D eq_refl), app_nil_r in E. subst t. specialize (B eq_refl). destruct (IH w1 B Q) as (arr & e & miss & -> & H1 & H2).
      exists arr, e, miss. split; [reflexivity|]. split; [|exact H2]. rewrite <- H1. cbn [println out].
      rewrite text_empty in A by exact B. rewrite text_empty in A by exact EB. rewrite A, <- !app_assoc. reflexivity.
    + destruct (all_arrived_open o w1 O) as [r Hr]. exists (all_arrived o w1), RipUnprinted, (r ++ rest ++ out (script_run s)). split; [reflexivity|]. split; [|now left].
      cbn [println out]. rewrite (app_assoc l), E, <- (text_empty w EB), app_assoc, (app_assoc (text w)), <- A, Hr. now rewrite <- !app_assoc.
  - destruct Q as [[]|Q]. pose proof (print_lines_open o frag O F ls w EB) as P. destruct (print_lines o frag w ls) as [w1 [u|]].
    + destruct P as [[r Hr] (i & Li & Ri)]. pose proof (lasting_silent o w1 i Q Li Ri) as Si.
      pose proof (try_lines_silent o frag (later u) w1 Si) as S1.
      pose proof (flush_silent o (try_lines o frag w1 (later u)) (silent_mono _ _ _ (proj2 S1) Si)) as S2.
      exists (all_arrived o (try_lines o frag w1 (later u))), RipUnprinted, (buffered w1 ++ r ++ out (script_run s)). split; [reflexivity|]. split; [|now left].
      unfold all_arrived. destruct S2 as [S2 _]. destruct S1 as [S1 _]. rewrite S2, S1. rewrite println_all_out, app_assoc, <- (text_empty w EB), Hr.
      unfold text. now rewrite <- !app_assoc.
    + destruct P as [P1 P2]. destruct (IH w1 P1 (or_intror Q)) as (arr & e & miss & -> & H1 & H2). exists arr, e, miss. split; [reflexivity|].
      rewrite println_all_how. split; [|exact H2]. rewrite println_all_out, app_assoc, <- P2. exact H1.
  - exists (all_arrived o w), (RipEnd h), []. split; [reflexivity|]. cbn [out how]. split; [|now right]. rewrite !app_nil_r.
    unfold all_arrived, flush_out. rewrite EB. cbn [length flush_rounds]. rewrite EB. reflexivity.
Qed.

Lemma patient_open o : patient o -> is_open o.
Proof. intros P i. destruct (P i) as [->|[k ->]]; discriminate. Qed.
Lemma patient_never o i : patient o -> ~ refuses (o i).
Proof. intros P R. unfold refuses in R. destruct (P i) as [E|[k E]]; rewrite E in R; destruct R as [R|R]; discriminate. Qed.
Lemma perform_patient o frag later : patient o -> (forall t, concat (frag t) = t) -> forall s w, buffered w = [] ->
  perform o frag later s w = (arrived w ++ out (script_run s), RipEnd (how (script_run s))).
Proof.
  intros P F. pose proof (patient_open o P) as O. induction s as [l s IH|ls s IH|h]; intros w EB; cbn [perform script_run].
  - destruct (println_open o frag w l O F EB) as [(t & rest & E & A & C & D & G) B]. destruct (os_println o frag w l) as [w1 [|]]; cbn [fst snd] in *.
    + rewrite (D eq_refl), app_nil_r in E. subst t. specialize (B eq_refl). rewrite (IH w1 B). cbn [println out how].
      rewrite text_empty in A by exact B. rewrite text_empty in A by exact EB. rewrite A, <- !app_assoc. reflexivity.
    + destruct (G eq_refl) as (i & _ & R). exfalso. exact (patient_never o i P R).
  - pose proof (print_lines_open o frag O F ls w EB) as Q. destruct (print_lines o frag w ls) as [w1 [u|]].
    + destruct Q as [_ (i & _ & R)]. exfalso. exact (patient_never o i P R).
    + destruct Q as [Q1 Q2]. rewrite (IH w1 Q1), println_all_out, println_all_how, Q2. now rewrite <- app_assoc.
  - cbn [out how]. rewrite app_nil_r. unfold all_arrived, flush_out. rewrite EB. cbn [length flush_rounds]. rewrite EB. reflexivity.
Qed.

(** Standard output is not open. *)
Section Closed.
  Variable o : os.
  Hypothesis closed : forall i, o i = NotOpen.
  Lemma raw_write_closed w buf : arrived (fst (raw_write o w buf)) = arrived w /\ buffered (fst (raw_write o w buf)) = buffered w /\ snd (raw_write o w buf) = Some (length buf).
  Proof. unfold raw_write. rewrite closed. cbn. now rewrite app_nil_r. Qed.
  Lemma raw_all_closed w buf : arrived (fst (raw_write_all o w buf)) = arrived w /\ buffered (fst (raw_write_all o w buf)) = buffered w /\ snd (raw_write_all o w buf) = true.
  Proof.
    unfold raw_write_all. destruct buf as [|c buf]; [auto|]. cbn [length raw_rounds].
    pose proof (raw_write_closed w (c :: buf)) as (A & B & C). destruct (raw_write o w (c :: buf)) as [w' n]. cbn [fst snd] in *. subst n.
    cbn [length]. replace (skipn (S (length buf)) (c :: buf)) with (@nil byte) by (symmetry; apply skipn_all2; cbn; lia).
    destruct (length buf); cbn [raw_rounds fst snd]; auto.
  Qed.
  Lemma flush_closed w : arrived (fst (flush_out o w)) = arrived w /\ snd (flush_out o w) = true /\ buffered (fst (flush_out o w)) = [].
  Proof.
    unfold flush_out. destruct (buffered w) as [|c buf] eqn:E; [cbn; rewrite E; cbn [fst snd]; rewrite E; auto|]. cbn [length flush_rounds]. rewrite E.
    pose proof (raw_write_closed w (c :: buf)) as (A & B & C). destruct (raw_write o w (c :: buf)) as [w' n]. cbn [fst snd] in *. subst n.
    cbn [length]. replace (skipn (S (length buf)) (c :: buf)) with (@nil byte) by (symmetry; apply skipn_all2; cbn; lia).
    destruct (length buf); cbn [flush_rounds set_buffered buffered fst snd arrived]; auto.
  Qed.
  Lemma buf_write_all_closed w buf : arrived (fst (buf_write_all o w buf)) = arrived w /\ snd (buf_write_all o w buf) = true.
  Proof.
    unfold buf_write_all. destruct (length buf <? lw_capacity - length (buffered w)); [auto|].
    assert (H : exists w1, (if lw_capacity - length (buffered w) <? length buf then flush_out o w else (w, true)) = (w1, true) /\ arrived w1 = arrived w).
    { destruct (lw_capacity - length (buffered w) <? length buf); [|now exists w]. pose proof (flush_closed w) as (A & B & _).
      destruct (flush_out o w) as [w1 ok]. cbn in *. subst ok. now exists w1. }
    destruct H as (w1 & -> & A). cbn [negb]. destruct (lw_capacity <=? length buf).
    - pose proof (raw_all_closed w1 buf) as (B & _ & C). rewrite B. auto.
    - cbn. auto.
  Qed.
  Lemma line_write_all_closed w buf : arrived (fst (line_write_all o w buf)) = arrived w /\ snd (line_write_all o w buf) = true.
  Proof.
    unfold line_write_all. destruct (rfind [x0a] buf) as [i|].
    - assert (H : exists w1, (match buffered w with
        | [] => raw_write_all o w (firstn (i + 1) buf)
        | _ => let '(w, ok) := buf_write_all o w (firstn (i + 1) buf) in if ok then flush_out o w else (w, false)
        end) = (w1, true) /\ arrived w1 = arrived w).
      { destruct (buffered w) as [|c r] eqn:E.
        - pose proof (raw_all_closed w (firstn (i + 1) buf)) as (A & _ & B). destruct (raw_write_all o w (firstn (i + 1) buf)) as [w1 ok]. cbn in *. subst ok. now exists w1.
        - pose proof (buf_write_all_closed w (firstn (i + 1) buf)) as (A & B). destruct (buf_write_all o w (firstn (i + 1) buf)) as [w1 ok]. cbn in *. subst ok.
          pose proof (flush_closed w1) as (A1 & B1 & _). destruct (flush_out o w1) as [w2 ok]. cbn in *. subst ok. exists w2. split; [reflexivity|congruence]. }
      destruct H as (w1 & -> & A). pose proof (buf_write_all_closed w1 (skipn (i + 1) buf)) as (B & C). rewrite B, A. auto.
    - assert (H : exists w1, (match rev (buffered w) with
                      | c :: _ => if byte_eqb c x0a then flush_out o w else (w, true)
                      | [] => (w, true)
                      end) = (w1, true) /\ arrived w1 = arrived w).
      { destruct (rev (buffered w)) as [|c r]; [now exists w|]. destruct (byte_eqb c x0a); [|now exists w]. pose proof (flush_closed w) as (A & B & _).
        destruct (flush_out o w) as [w1 ok]. cbn in *. subst ok. now exists w1. }
      destruct H as (w1 & -> & A). cbn [negb]. pose proof (buf_write_all_closed w1 buf) as (B & C). rewrite B, A. auto.
  Qed.
  Lemma fragments_closed fs : forall w, arrived (fst (write_fragments o w fs)) = arrived w /\ snd (write_fragments o w fs) = true.
  Proof.
    induction fs as [|f fs IH]; intros w; cbn [write_fragments]; [auto|]. pose proof (line_write_all_closed w f) as (A & B).
    destruct (line_write_all o w f) as [w1 ok]. cbn in A, B. subst ok. destruct (IH w1) as [C D]. rewrite C, A. auto.
  Qed.
  Lemma print_lines_closed frag ls : forall w, exists w', print_lines o frag w ls = (w', None) /\ arrived w' = arrived w.
  Proof.
    induction ls as [|l ls IH]; intros w; cbn [print_lines]; [now exists w|]. pose proof (fragments_closed (frag (l ++ [x0a])) w) as (A & B).
    fold (os_println o frag w l) in A, B. destruct (os_println o frag w l) as [w1 ok]. cbn in A, B. subst ok. destruct (IH w1) as (w2 & -> & C). exists w2. split; [reflexivity|congruence].
  Qed.
  Lemma perform_closed frag later s : forall w, perform o frag later s w = (arrived w, RipEnd (how (script_run s))).
  Proof.
    induction s as [l s IH|ls s IH|h]; intros w; cbn [perform script_run].
    - pose proof (fragments_closed (frag (l ++ [x0a])) w) as (A & B). fold (os_println o frag w l) in A, B.
      destruct (os_println o frag w l) as [w1 ok]. cbn in A, B. subst ok. rewrite IH, A. reflexivity.
    - destruct (print_lines_closed frag ls w) as (w1 & -> & A). rewrite IH, A. rewrite println_all_how. reflexivity.
    - unfold all_arrived. destruct (flush_closed w) as (A & _). rewrite A. reflexivity.
  Qed.
End Closed.

(** Only par_iter's workers print. *)
Lemma ng_calc {A} (x : outcome A) f : (forall a, no_gather (f a)) -> no_gather (calc x f).
Proof. intros H. destruct x; cbn; auto. Qed.
Lemma ng_all ls s : no_gather s -> no_gather (say_all ls s).
Proof. intros H. induction ls; cbn; auto. Qed.
Lemma ng_ecus m s : no_gather s -> no_gather (say_ecus m s).
Proof. intros H. induction m as [|[k v] m IH]; cbn [say_ecus]; [exact H|]. apply ng_calc. intros _. exact IH. Qed.
Lemma ng_command C name buf : name <> "par_iter"%string -> no_gather (command_script C name buf).
Proof.
  intros N. unfold command_script, multithreaded_script, parallel_script. cbv zeta.
  repeat match goal with |- no_gather (if ?c then _ else _) => destruct c eqn:?E end;
    try (match goal with H : (name =? "par_iter")%string = true |- _ => apply String.eqb_eq in H; contradiction end);
    repeat first [ apply ng_calc; intros ? | apply ng_all | apply ng_ecus | exact Logic.I | progress cbn [no_gather] ].
Qed.
Lemma ng_ripdlt C prog args : nth_error args 1 <> Some "par_iter"%string -> no_gather (ripdlt_script C prog args).
Proof.
  intros N. unfold ripdlt_script. apply ng_calc. intros _. destruct args as [|a [|b [|c r]]]; cbn [no_gather]; auto.
  apply ng_calc. intros d. apply ng_command. cbn in N. congruence.
Qed.

(** * Nothing is taken *)
Lemma all_arrived_silent o w : silent o (calls w) -> all_arrived o w = arrived w.
Proof. intros H. exact (proj1 (flush_silent o w H)). Qed.
Lemma print_lines_silent o frag ls : forall w, silent o (calls w) -> still w (fst (print_lines o frag w ls)).
Proof.
  induction ls as [|l ls IH]; intros w H; cbn [print_lines]; [split; cbn; auto|].
  pose proof (fragments_silent o (frag (l ++ [x0a])) w H) as S. fold (os_println o frag w l) in S.
  destruct (os_println o frag w l) as [w1 [|]]; cbn [fst] in *; [|exact S].
  apply (still_trans _ w1); [exact S|]. apply IH. exact (silent_mono _ _ _ (proj2 S) H).
Qed.
Lemma perform_refused o frag later s : forall w, silent o (calls w) -> fst (perform o frag later s w) = arrived w.
Proof.
  induction s as [l s IH|ls s IH|h]; intros w H; cbn [perform].
  - pose proof (fragments_silent o (frag (l ++ [x0a])) w H) as S. fold (os_println o frag w l) in S.
    destruct (os_println o frag w l) as [w1 ok]. cbn [fst] in S. pose proof (silent_mono _ _ _ (proj2 S) H) as H1.
    destruct ok; [rewrite (IH w1 H1); exact (proj1 S)|]. cbn [fst]. rewrite (all_arrived_silent o w1 H1). exact (proj1 S).
  - pose proof (print_lines_silent o frag ls w H) as S. destruct (print_lines o frag w ls) as [w1 [u|]]; cbn [fst] in S;
      pose proof (silent_mono _ _ _ (proj2 S) H) as H1.
    + cbn [fst]. pose proof (try_lines_silent o frag (later u) w1 H1) as S1. rewrite all_arrived_silent by exact (silent_mono _ _ _ (proj2 S1) H1).
      rewrite (proj1 S1). exact (proj1 S).
    + rewrite (IH w1 H1). exact (proj1 S).
  - cbn [fst]. now apply all_arrived_silent.
Qed.
