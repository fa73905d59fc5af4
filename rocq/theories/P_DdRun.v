(** Property theorems C132: dd_dlt between an input that may still be open and an output of which calls are interrupted, taken in part or fail
    ([dd_dlt_run] of DdRun.v; vocabulary in RunSpec.v, InSpec.v and SigSpec.v).  [patience] is the number of rounds each loop that repeats interrupted
    calls is given, [fuel] bounds the number of messages. *)
From Coq Require Import String.
From Verif Require Import Base DltModel MatchModel GenModel ToolsModel Spec MainModel DdModel PrintModel DdOs OsSpec InModel InSpec InFacts SigModel SigSpec DdLive DdRun RunSpec Samples BaseFacts DltFacts DdFacts
  DdRunFacts P_DD P_DdOs P_Sig.
From Coq Require Import ZifyBool ZifyNat ZifyN.
Ltac Zify.zify_post_hook ::= idtac.

(** The pieces and the interruptions of the input do not matter, nor do several ways of ending it. *)
Theorem C132_pieces : forall v fuel patience h A mode args evs evs' b, delivers evs b -> delivers evs' b -> (closed evs <-> closed evs') ->
  dd_dlt_run v fuel patience h A mode args evs = dd_dlt_run v fuel patience h A mode args evs'.
Proof.
  intros v fuel p h A mode args evs evs' b D D' C. destruct (closed_dec evs) as [o O].
  rewrite (dd_run_bytes v fuel p h A mode args evs b o D O), (dd_run_bytes v fuel p h A mode args evs' b o D'); [reflexivity|]. now rewrite <- C.
Qed.
Print Assumptions C132_pieces.
(** Of an input that has ended: the run of C120. *)
Theorem C132_closed : forall v fuel patience h A mode args evs b, delivers evs b -> closed evs ->
  dd_dlt_run v fuel patience h A mode args evs =
  match dd_dlt_sig v fuel patience h A mode args b with Ret (out, e) => Ret (HasEnded out e) | Panic => Panic | Fuel => Fuel end.
Proof.
  intros v fuel p h A mode args evs b D C. rewrite (dd_run_bytes v fuel p h A mode args evs b false D) by tauto. unfold dd_dlt_bytes, dd_dlt_sig.
  destruct args as [|e [|a [|size more]]]; try reflexivity. destruct (parse_u16 size); [|reflexivity]. rewrite bytes_closed. destruct (sig_loop _ _ _ _ _ _ _ _ _ _ _ _) as [[out en]| |]; reflexivity.
Qed.
Print Assumptions C132_closed.
(** Of an input that is open, if all calls of write take everything: the run of C128. *)
Theorem C132_live : forall v fuel patience h A mode args evs b, (forall i, h i = Answered TakesAll) -> 1 <= patience -> delivers evs b -> ~ closed evs ->
  (forall x, dd_dlt_run v fuel patience h A mode args evs = Ret (StillRunning x) <-> dd_dlt_live v fuel A mode args b = Ret (Waiting x)) /\
  (forall out e, dd_dlt_run v fuel patience h A mode args evs = Ret (HasEnded out e) <-> exists e0, dd_dlt_live v fuel A mode args b = Ret (Over out e0) /\ same_end e e0).
Proof.
  intros v fuel p h A mode args evs b CA Hp D C. destruct (closed_dec evs) as [[|] O]; [|tauto]. rewrite (dd_run_bytes v fuel p h A mode args evs b true D O).
  assert (X : dd_dlt_bytes v fuel p h A mode args b true = calmly (dd_dlt_live v fuel A mode args b)).
  { unfold dd_dlt_bytes, dd_dlt_live. destruct args as [|e [|a [|size more]]]; try reflexivity. destruct (parse_u16 size); [|reflexivity].
    destruct p as [|p]; [lia|]. apply (calm_loop h p CA). now split. }
  rewrite X. destruct (dd_dlt_live v fuel A mode args b) as [[y|y e0]| |]; cbn [calmly]; split; intros; split; intros H; try discriminate.
  - injection H as <-. reflexivity.
  - injection H as <-. reflexivity.
  - destruct H as (e1 & H & _). discriminate.
  - injection H as <- <-. exists e0. split; [reflexivity|]. destruct e0; cbn [same_end]; trivial.
  - destruct H as (e1 & H & S1). injection H as -> ->. f_equal. f_equal. destruct e, e1; cbn [same_end] in S1; try contradiction; [now subst|reflexivity].
  - destruct H as (e1 & H & _). discriminate.
  - destruct H as (e1 & H & _). discriminate.
Qed.
Print Assumptions C132_live.
(** What has arrived remains: whatever comes, the output begins with it. *)
Lemma delivers_more evs b more b' : delivers evs b -> ~ closed evs -> delivers more b' -> delivers (evs ++ more) (b ++ b').
Proof.
  intros D. induction D as [|evs|evs|evs|evs b D IH|d evs b Hd D IH]; cbn [closed app]; intros C M; try tauto; [constructor; tauto|].
  rewrite <- app_assoc. constructor; [exact Hd|]. apply IH; [|exact M]. destruct d; [congruence|exact C].
Qed.
Lemma closed_more evs more : ~ closed evs -> (closed (evs ++ more) <-> closed more).
Proof. induction evs as [|[[|x d]| | |] evs IH]; cbn [closed app]; tauto. Qed.
Lemma new_fits : length (buffered stdout_new) <= lw_capacity.
Proof. cbn [stdout_new buffered length]. lia. Qed.
Lemma waits_open v fuel p h A mode args evs x : dd_dlt_run v fuel p h A mode args evs = Ret (StillRunning x) -> ~ closed evs.
Proof.
  intros H C. destruct (delivers_total evs) as [b D]. rewrite (C132_closed v fuel p h A mode args evs b D C) in H. destruct (dd_dlt_sig _ _ _ _ _ _ _ _) as [[? ?]| |]; discriminate.
Qed.
Theorem C132_beginning : forall v fuel fuel' patience h A mode args evs more x,
  dd_dlt_run v fuel patience h A mode args evs = Ret (StillRunning x) ->
  (forall x', dd_dlt_run v fuel' patience h A mode args (evs ++ more) = Ret (StillRunning x') -> exists d, x' = x ++ d) /\
  (forall out e, dd_dlt_run v fuel' patience h A mode args (evs ++ more) = Ret (HasEnded out e) -> exists d, out = x ++ d).
Proof.
  intros v fuel fuel' p h A mode args evs more x H. pose proof (waits_open _ _ _ _ _ _ _ _ _ H) as C. destruct (delivers_total evs) as [b D]. destruct (delivers_total more) as [b' D'].
  destruct (closed_dec (evs ++ more)) as [o O]. rewrite (dd_run_bytes v fuel' p h A mode args _ (b ++ b') o (delivers_more _ _ _ _ D C D') O).
  rewrite (dd_run_bytes v fuel p h A mode args evs b true D) in H by (split; [tauto|discriminate]).
  unfold dd_dlt_bytes in *. destruct args as [|e [|a [|size rest]]]; try discriminate. destruct (parse_u16 size) as [psize|]; [|discriminate].
  pose proof (bytes_more v p h A mode e a psize b' o fuel fuel' 0 b stdout_new new_fits) as M. rewrite H in M. split; [intros x' E|intros out en E]; exact (M _ E).
Qed.
Print Assumptions C132_beginning.
(** If the input ends while dd_dlt waits, dd_dlt succeeds, and at most 1024 bytes follow. *)
Theorem C132_end : forall v fuel patience h A mode args evs x, fair h ->
  dd_dlt_run v fuel patience h A mode args evs = Ret (StillRunning x) ->
  exists held count p0, length held <= 1024 /\ forall p ending, p0 <= p -> ending = Delivers [] \/ ending = ReadFails \/ ending = ReadNotOpen ->
    dd_dlt_run v fuel p h A mode args (evs ++ [ending]) = Ret (HasEnded (x ++ held) (OsDone count)).
Proof.
  intros v fuel p h A mode args evs x FA H. pose proof (waits_open _ _ _ _ _ _ _ _ _ H) as C. destruct (delivers_total evs) as [b D].
  rewrite (dd_run_bytes v fuel p h A mode args evs b true D) in H by (split; [tauto|discriminate]). unfold dd_dlt_bytes in H.
  destruct args as [|e [|a [|size rest]]]; try discriminate. destruct (parse_u16 size) as [psize|] eqn:P; [|discriminate].
  destruct (bytes_end v h A mode e a psize FA fuel p 0 b stdout_new x new_fits H) as (held & n & p0 & L & F). exists held, n, p0. split; [exact L|].
  intros p' ending Hp E. assert (DE : delivers [ending] [] /\ closed [ending]) by (destruct E as [->|[->| ->]]; split; try constructor). destruct DE as [DE CE].
  pose proof (delivers_more evs b [ending] [] D C DE) as DM. rewrite app_nil_r in DM. rewrite (dd_run_bytes v fuel p' h A mode _ _ b false DM) by (rewrite closed_more by exact C; tauto).
  unfold dd_dlt_bytes. rewrite P. now apply F.
Qed.
Print Assumptions C132_end.
(** If dd_dlt has ended while the input was open, it does not matter how the input goes on. *)
Theorem C132_over : forall v fuel fuel' patience h A mode args evs more out e, ~ closed evs -> fuel <= fuel' ->
  dd_dlt_run v fuel patience h A mode args evs = Ret (HasEnded out e) ->
  dd_dlt_run v fuel' patience h A mode args (evs ++ more) = Ret (HasEnded out e) /\ (e = OsDone 0 /\ length args < 3 \/ e = OsError \/ e = OsPanic).
Proof.
  intros v fuel fuel' p h A mode args evs more out en C Hf H. destruct (delivers_total evs) as [b D]. destruct (delivers_total more) as [b' D'].
  destruct (closed_dec (evs ++ more)) as [o O]. rewrite (dd_run_bytes v fuel' p h A mode args _ (b ++ b') o (delivers_more _ _ _ _ D C D') O).
  rewrite (dd_run_bytes v fuel p h A mode args evs b true D) in H by (split; [tauto|discriminate]).
  assert (SH : forall l : list bytes, length l < 3 -> Ret (HasEnded [] (OsDone 0)) = Ret (HasEnded out en) -> Ret (HasEnded [] (OsDone 0)) = Ret (HasEnded out en) /\ (en = OsDone 0 /\ length l < 3 \/ en = OsError \/ en = OsPanic)).
  { intros l L E. split; [exact E|]. left. split; [now injection E|exact L]. }
  unfold dd_dlt_bytes in *. destruct args as [|e [|a [|size rest]]]; try (apply SH; [cbn [length]; lia|exact H]). destruct (parse_u16 size) as [psize|]; [|split; [exact H|right; right; now injection H]].
  pose proof (bytes_more v p h A mode e a psize b' o fuel fuel' 0 b stdout_new new_fits) as M. rewrite H in M. split; [exact (M Hf)|]. right.
  clear - H. revert H. generalize 0%N b stdout_new. induction fuel as [|fuel IH]; intros count b0 w H; [discriminate|]. cbn [bytes_loop] in H. destruct (_ <? _); [discriminate|].
  destruct (sig_message v p h A mode e a psize count (firstn (N.to_nat psize) b0) w) as [[w1 q]| |] eqn:E; [|discriminate|discriminate]. cbn [obind] in H.
  destruct q as [c'|en']; [exact (IH _ _ _ H)|]. destruct (sig_arrived p h w1) as [o1| |]; [|discriminate|discriminate]. cbn [obind] in H. injection H as _ <-.
  revert E. unfold sig_message. destruct (let* _ := _ in _) as [[[sh hd] eh]| |]; try (intros E; injection E as _ <-; tauto).
  assert (WR : forall w b (k : stdout -> outcome (stdout * (N + os_end))), (forall w, k w = Ret (w1, inr en') -> en' = OsError \/ en' = OsPanic) ->
    (let* (w, r) := sig_write v p h w b in match r with None => Ret (w, inr OsError) | Some _ => k w end) = Ret (w1, inr en') -> en' = OsError \/ en' = OsPanic).
  { intros w0 b1 k K E. destruct (sig_write v p h w0 b1) as [[w2 [n|]]| |]; cbn [obind] in E; try discriminate; [exact (K _ E)|injection E as _ <-; now left]. }
  apply WR. intros w2. apply WR. intros w3. destruct (checked mode u32_mod (count * 100)%N); try (intros E; injection E as _ <-; tauto).
  apply WR. intros w4. apply WR. intros w5. apply WR. intros w6. destruct (checked mode u32_mod (count + 1)%N); try discriminate; intros E; injection E as _ <-; tauto.
Qed.
Print Assumptions C132_over.
(** It does not get stuck in between: it waits for input or has ended. *)
Theorem C132_total : forall v fuel h A mode args evs b psize, fair h -> delivers evs b -> length b < fuel ->
  (forall size, nth_error args 2 = Some size -> says size psize /\ (1 <= psize < 65536)%N) ->
  exists y p0, forall p, p0 <= p -> dd_dlt_run v fuel p h A mode args evs = Ret y.
Proof.
  intros v fuel h A mode args evs b psize FA D Hf SZ. destruct (closed_dec evs) as [o O].
  assert (X : exists y p0, forall p, p0 <= p -> dd_dlt_bytes v fuel p h A mode args b o = Ret y).
  { unfold dd_dlt_bytes. destruct args as [|e [|a [|size rest]]]; try (eexists; exists 0; reflexivity). destruct (SZ size eq_refl) as [SY Hp].
    rewrite (P_Read.says_parse size psize SY ltac:(lia)). apply bytes_total; [exact FA|lia|exact Hf]. }
  destruct X as (y & p0 & X). exists y, p0. intros p Hp. rewrite (dd_run_bytes v fuel p h A mode args evs b o D O). now apply X.
Qed.
Print Assumptions C132_total.
(** If the calls that are not interrupted take everything: a beginning of what dd_dlt writes without signals. *)
Theorem C132_undisturbed : forall v fuel patience h A mode args evs b x out0 e0, fair h -> (forall i, h i = Interrupted \/ h i = Answered TakesAll) ->
  delivers evs b -> dd_dlt v fuel A mode args b = Ret (out0, e0) ->
  dd_dlt_run v fuel patience h A mode args evs = Ret (StillRunning x) -> exists held, out0 = x ++ held /\ length held <= 1024.
Proof.
  intros v fuel p h A mode args evs b x out0 e0 FA TA D H R. pose proof (waits_open _ _ _ _ _ _ _ _ _ R) as C.
  destruct (C132_end v fuel p h A mode args evs x FA R) as (held & n & p0 & L & F). destruct (C120_beginning_partial v A mode args b fuel out0 e0 h FA TA H) as (out & e & missing & f0 & G & -> & Q).
  specialize (F (Nat.max p0 f0) (Delivers []) ltac:(lia) (or_introl eq_refl)). specialize (G (Nat.max p0 f0) ltac:(lia)).
  pose proof (delivers_more evs b [Delivers []] [] D C (delivers_end _)) as DM. rewrite app_nil_r in DM.
  rewrite (C132_closed v fuel _ h A mode args _ b DM) in F by (apply closed_more; [exact C|exact Logic.I]). rewrite G in F. injection F as -> ->.
  destruct Q as [Q|[_ ->]]; [discriminate|]. exists held. rewrite app_nil_r. now split.
Qed.
Print Assumptions C132_undisturbed.

(** Two payloads of ten bytes, the second with a line feed, through a pipe in pieces and with signals on both sides; then another beginning. *)
Definition half_open : list InModel.event := [Delivers (repeat x61 3); InModel.Interrupted; Delivers (repeat x61 7 ++ repeat x62 9); Delivers [x0a; x63]].
Definition two_signals : past := fun i => if i <? 2 then Interrupted else Answered TakesAll.
Example C132_example : ~ closed half_open /\ delivers half_open (repeat x61 10 ++ repeat x62 9 ++ [x0a; x63]) /\ fair two_signals /\
  exists x, length x = 88 /\ dd_dlt_run TakesSome 30 5 two_signals addrs Debug [quad_bytes quad_ECU1; quad_bytes quad_ECU1; ten] half_open = Ret (StillRunning x) /\
  dd_dlt_run TakesSome 30 5 two_signals addrs Debug [quad_bytes quad_ECU1; quad_bytes quad_ECU1; ten] (half_open ++ [Delivers (repeat x63 9)]) = Ret (StillRunning x) /\
  exists held, length held = 44 /\ dd_dlt_run TakesSome 30 5 two_signals addrs Debug [quad_bytes quad_ECU1; quad_bytes quad_ECU1; ten] (half_open ++ [Delivers (repeat x63 9); Delivers []]) =
    Ret (HasEnded (x ++ held) (OsDone 3)).
Proof.
  assert (D : delivers half_open (repeat x61 10 ++ repeat x62 9 ++ [x0a; x63])).
  { unfold half_open. change (repeat x61 10 ++ repeat x62 9 ++ [x0a; x63]) with (repeat x61 3 ++ (repeat x61 7 ++ repeat x62 9) ++ [x0a; x63] ++ []).
    constructor; [discriminate|]. constructor. constructor; [discriminate|]. constructor; [discriminate|]. constructor. }
  split; [cbn [half_open closed]; intros C; exact C|]. split; [exact D|]. split; [intros i; exists (i + 2), TakesAll; split; [lia|]; unfold two_signals; destruct (Nat.ltb_spec (i + 2) 2); [lia|reflexivity]|].
  eexists. split; [|split; [vm_compute; reflexivity|split; [vm_compute; reflexivity|eexists; split; [|vm_compute; reflexivity]]]]; reflexivity.
Qed.
