(** Facts for C132: dd_dlt between an open input and a disturbed output. *)
From Verif Require Import Base DltModel MatchModel GenModel ToolsModel MainModel DdModel DdOs PrintModel InModel InSpec InFacts SigModel SigSpec SigFacts DdLive DdRun RunSpec BaseFacts FindFacts DdFacts.
From Coq Require Import ZifyBool ZifyNat.

(** * The input *)
Definition has (r : reader) (b : bytes) (c : Prop) : Prop := exists b', b = unread r ++ b' /\ delivers (source r) b' /\ (closed (source r) <-> c).
Definition open_reads (n : nat) (evs : list InModel.event) (b : bytes) (c : Prop) : Prop :=
  match open_read n evs with
  | None => b = [] /\ ~ c
  | Some (Got [], _) | Some (Failed, _) => b = [] /\ c
  | Some (Got d, s) => length d <= n /\ length s <= length evs /\ exists b', b = d ++ b' /\ delivers s b' /\ (closed s <-> c)
  | Some (Retry, s) => length s < length evs /\ delivers s b /\ (closed s <-> c)
  end.
Lemma open_read_ok n evs b c : 0 < n -> delivers evs b -> (closed evs <-> c) -> open_reads n evs b c.
Proof.
  intros Hn H C. unfold open_reads. destruct H as [|evs|evs|evs|evs b H|d evs b Hd H]; cbn [open_read stdin_raw_read os_read closed] in *; try tauto.
  - rewrite firstn_nil. tauto.
  - cbn [length]. split; [lia|now split].
  - destruct d as [|x d]; [congruence|]. destruct n as [|n]; [lia|]. cbn [firstn skipn]. split; [cbn [length]; rewrite firstn_length; lia|].
    split; [destruct (skipn n d); cbn [length]; lia|]. exists (skipn n d ++ b). split; [cbn [app]; now rewrite app_assoc, firstn_skipn|].
    destruct (skipn n d) as [|y s]; [now split|]. split; [constructor; [discriminate|exact H]|exact C].
Qed.
Definition open_buf_reads (n : nat) (r : reader) (b : bytes) (c : Prop) : Prop :=
  match open_buf_read n r with
  | None => b = [] /\ ~ c
  | Some (Got [], _) | Some (Failed, _) => b = [] /\ c
  | Some (Got d, r') => length d <= n /\ length (source r') <= length (source r) /\ exists b', b = d ++ b' /\ has r' b' c
  | Some (Retry, r') => length (source r') < length (source r) /\ has r' b c
  end.
Lemma open_take n (d : bytes) (s : list InModel.event) (r : reader) b' c : 0 < n -> d <> [] -> length s <= length (source r) -> delivers s b' -> (closed s <-> c) ->
  match firstn n d with
  | [] => d ++ b' = [] /\ c
  | d1 => length d1 <= n /\ length s <= length (source r) /\ exists b2, d ++ b' = d1 ++ b2 /\ has {| unread := skipn n d; source := s |} b2 c
  end.
Proof.
  intros Hn Hd L H C. destruct (firstn n d) as [|y f] eqn:F; [destruct n; [lia|]; destruct d; [congruence|discriminate]|]. rewrite <- F.
  split; [rewrite firstn_length; lia|]. split; [exact L|]. exists (skipn n d ++ b'). split; [now rewrite app_assoc, firstn_skipn|]. exists b'. now repeat split; try apply C.
Qed.
Lemma open_buf_read_ok n r b c : 0 < n -> has r b c -> open_buf_reads n r b c.
Proof.
  intros Hn (b' & -> & H & C). unfold open_buf_reads, open_buf_read. destruct (unread r) as [|x u] eqn:U.
  - cbn [app]. destruct (in_capacity <=? n).
    + pose proof (open_read_ok n _ _ c Hn H C) as R. unfold open_reads in R. destruct (open_read n (source r)) as [[a s]|]; [|exact R]. destruct a as [[|y d]| |]; cbn [source unread] in *; try exact R.
      * destruct R as (R1 & R2 & b2 & -> & R3 & R4). split; [exact R1|]. split; [exact R2|]. exists b2. split; [reflexivity|]. exists b2. now repeat split; try apply R4.
      * destruct R as (R1 & R2 & R3). split; [exact R1|]. exists b'. now repeat split; try apply R3.
    + pose proof (open_read_ok in_capacity _ _ c in_capacity_pos H C) as R. unfold open_reads in R. destruct (open_read in_capacity (source r)) as [[a s]|]; [|exact R]. destruct a as [[|y d]| |].
      * rewrite firstn_nil. exact R.
      * destruct R as (R1 & R2 & b2 & -> & R3 & R4). change (source {| unread := skipn n (y :: d); source := s |}) with s.
        pose proof (open_take n (y :: d) s r b2 c Hn ltac:(discriminate) R2 R3 R4) as T. destruct (firstn n (y :: d)); exact T.
      * destruct R as (R1 & R2 & R3). cbn [source]. split; [exact R1|]. exists b'. now repeat split; try apply R3.
      * exact R.
  - change (source {| unread := skipn n (x :: u); source := source r |}) with (source r).
    pose proof (open_take n (x :: u) (source r) r b' c Hn ltac:(discriminate) (le_n _) H C) as T. destruct (firstn n (x :: u)); exact T.
Qed.
(** What [read_exact] finds. *)
Definition exactly (n : nat) (b : bytes) (c : Prop) (got : bytes) (x : outcome exact) : Prop :=
  if length b <? n then (x = Ret Ends /\ c) \/ (x = Ret Waits /\ ~ c)
  else exists r', x = Ret (Fills (got ++ firstn n b) r') /\ has r' (skipn n b) c.
Lemma open_rounds_ok c rounds : forall n r b got, n + length (source r) <= rounds -> has r b c -> exactly n b c got (open_exact_rounds rounds n r got).
Proof.
  induction rounds as [|k IH]; intros n r b got Hr H; unfold exactly.
  - assert (n = 0) as -> by lia. destruct (Nat.ltb_spec (length b) 0); [lia|]. exists r. cbn [open_exact_rounds firstn skipn]. now rewrite app_nil_r.
  - destruct n as [|n]; [destruct (Nat.ltb_spec (length b) 0); [lia|]; exists r; cbn [open_exact_rounds firstn skipn]; now rewrite app_nil_r|].
    cbn [open_exact_rounds]. pose proof (open_buf_read_ok (S n) r b c (Nat.lt_0_succ _) H) as R. unfold open_buf_reads in R. destruct (open_buf_read (S n) r) as [[a r1]|].
    2: { destruct R as [-> R]. right. now split. }
    destruct a as [[|y d]| |].
    + destruct R as [-> R]. left. now split.
    + destruct R as (R1 & L & b' & -> & R3). set (dd := y :: d) in *. assert (1 <= length dd) by (subst dd; cbn [length]; lia).
      pose proof (IH (S n - length dd) r1 b' (got ++ dd) ltac:(lia) R3) as Q. unfold exactly in Q. rewrite app_length.
      destruct (Nat.ltb_spec (length dd + length b') (S n)) as [Q1|Q1]; destruct (Nat.ltb_spec (length b') (S n - length dd)) as [Q2|Q2]; try lia.
      * exact Q.
      * destruct Q as (r2 & Q & Q'). exists r2. split.
        { rewrite Q. rewrite (firstn_app (S n)), (firstn_all2 (n := S n) dd) by lia. now rewrite app_assoc. }
        { rewrite skipn_app, (skipn_all2 dd) by lia. exact Q'. }
    + destruct R as [R1 R2]. exact (IH (S n) r1 b got ltac:(lia) R2).
    + destruct R as [-> R]. left. now split.
Qed.
Lemma open_exact_ok n r b c : has r b c -> exactly n b c [] (open_exact n r).
Proof.
  intros H. unfold open_exact. destruct (Nat.leb_spec n (length (unread r))) as [L|L]; [|apply open_rounds_ok; [lia|exact H]].
  destruct H as (b' & -> & H & C). unfold exactly. rewrite app_length. destruct (Nat.ltb_spec (length (unread r) + length b') n); [lia|].
  eexists. rewrite firstn_app, skipn_app. replace (n - length (unread r)) with 0 by lia. cbn [firstn skipn app]. rewrite app_nil_r. split; [reflexivity|].
  exists b'. now repeat split; try apply C.
Qed.

(** * The loop *)
(** The same with the bytes there are and whether there will be more. *)
Fixpoint bytes_loop (v : std_version) (fuel patience : nat) (h : past) (A : ctor_addrs) (m : build_mode) (ecuid appid : bytes)
  (payload_size count : N) (b : bytes) (open : bool) (w : stdout) : outcome run :=
  match fuel with
  | O => Fuel
  | S f =>
      let n := N.to_nat payload_size in
      if length b <? n then if open then Ret (StillRunning (arrived w)) else let* out := sig_arrived patience h w in Ret (HasEnded out (OsDone count))
      else
        let* (w', q) := sig_message v patience h A m ecuid appid payload_size count (firstn n b) w in
        match q with
        | inl count' => bytes_loop v f patience h A m ecuid appid payload_size count' (skipn n b) open w'
        | inr e => let* out := sig_arrived patience h w' in Ret (HasEnded out e)
        end
  end.
Definition dd_dlt_bytes (v : std_version) (fuel patience : nat) (h : past) (A : ctor_addrs) (m : build_mode) (args : list bytes) (b : bytes) (open : bool) : outcome run :=
  match args with
  | ecuid :: appid :: size :: _ =>
      match parse_u16 size with
      | Some payload_size => bytes_loop v fuel patience h A m ecuid appid payload_size 0 b open stdout_new
      | None => Ret (HasEnded [] OsPanic)
      end
  | _ => Ret (HasEnded [] (OsDone 0))
  end.
Lemma run_bytes v p h A m e a psize (open : bool) : forall fuel count r b w, has r b (open = false) ->
  run_loop v fuel p h A m e a psize count r w = bytes_loop v fuel p h A m e a psize count b open w.
Proof.
  induction fuel as [|fuel IH]; intros count r b w H; [reflexivity|]. cbn [run_loop bytes_loop].
  pose proof (open_exact_ok (N.to_nat psize) r b _ H) as Q. unfold exactly in Q. destruct (_ <? _).
  - destruct Q as [[-> ->]|[-> N]]; cbn [obind]; [reflexivity|]. destruct open; [reflexivity|congruence].
  - destruct Q as (r' & -> & Q). cbn [obind app]. destruct (sig_message _ _ _ _ _ _ _ _ _ _ _) as [[w' [c'|en]]| |]; cbn [obind]; try reflexivity. now apply IH.
Qed.
Lemma dd_run_bytes v fuel p h A m args evs b (open : bool) : delivers evs b -> (closed evs <-> open = false) ->
  dd_dlt_run v fuel p h A m args evs = dd_dlt_bytes v fuel p h A m args b open.
Proof.
  intros D C. unfold dd_dlt_run, dd_dlt_bytes. destruct args as [|e [|a [|size more]]]; try reflexivity. destruct (parse_u16 size); [|reflexivity].
  apply run_bytes. exists b. cbn [reader_new unread source]. now repeat split; try apply C.
Qed.
Lemma closed_dec evs : exists open : bool, closed evs <-> open = false.
Proof.
  induction evs as [|[[|x d]| | |] evs [o IH]]; cbn [closed].
  - exists true. split; [tauto|discriminate].
  - exists false. tauto.
  - now exists o.
  - now exists o.
  - exists false. tauto.
  - exists false. tauto.
Qed.
(** An input that has ended. *)
Lemma bytes_closed v p h A m e a psize : forall fuel count b w,
  bytes_loop v fuel p h A m e a psize count b false w = (let* (out, en) := sig_loop v fuel p h A m e a psize count b w in Ret (HasEnded out en)).
Proof.
  induction fuel as [|fuel IH]; intros count b w; [reflexivity|]. cbn [bytes_loop sig_loop]. destruct (_ <? _).
  - destruct (sig_arrived p h w); reflexivity.
  - destruct (sig_message _ _ _ _ _ _ _ _ _ _ _) as [[w' [c'|en]]| |]; cbn [obind]; try reflexivity; [apply IH|]. destruct (sig_arrived p h w'); reflexivity.
Qed.

(** * The output *)
Definition grown (w w' : stdout) : Prop := (exists d, arrived w' = arrived w ++ d) /\ (length (buffered w) <= lw_capacity -> length (buffered w') <= lw_capacity).
Lemma grown_refl w : grown w w.
Proof. split; [exists []; now rewrite app_nil_r|auto]. Qed.
Lemma grown_trans w w' w'' : grown w w' -> grown w' w'' -> grown w w''.
Proof. intros [[d E] O] [[d' E'] O']. split; [exists (d ++ d'); now rewrite E', E, app_assoc|auto]. Qed.
(** More patience does not change what has been found. *)
Definition lasting {X} (x : nat -> outcome X) : Prop := forall f f' y, f <= f' -> x f = Ret y -> x f' = Ret y.
Definition step {R} (P : stdout -> R -> Prop) (w : stdout) (x : nat -> outcome (stdout * R)) : Prop :=
  lasting x /\ forall f w' r, x f = Ret (w', r) -> grown w w' /\ P w' r.
Definition any {R} (w : stdout) (r : R) : Prop := True.
Lemma step_ret {R} (P : stdout -> R -> Prop) w w' r : grown w w' -> P w' r -> step P w (fun _ => Ret (w', r)).
Proof. intros G H. split; [intros f f' y _ E; exact E|]. intros f w1 r1 E. injection E as <- <-. now split. Qed.
Lemma step_bind {R Q} P P' w (x : nat -> outcome (stdout * R)) (k : nat -> stdout -> R -> outcome (stdout * Q)) :
  step P w x -> (forall w1 r1, grown w w1 -> P w1 r1 -> step P' w1 (fun f => k f w1 r1)) ->
  step P' w (fun f => let* (w, r) := x f in k f w r).
Proof.
  intros [L H] K. split.
  - intros f f' y Hf E. destruct (x f) as [[w1 r1]| |] eqn:X; [|discriminate|discriminate]. rewrite (L _ _ _ Hf X). cbn [obind] in *. destruct (H _ _ _ X) as [G PP].
    exact (proj1 (K w1 r1 G PP) _ _ _ Hf E).
  - intros f w2 q E. destruct (x f) as [[w1 r1]| |] eqn:X; [|discriminate|discriminate]. cbn [obind] in E. destruct (H _ _ _ X) as [G PP].
    destruct (proj2 (K w1 r1 G PP) _ _ _ E) as [G' PP']. split; [now apply grown_trans with w1|exact PP'].
Qed.
Lemma step_any {R} P w (x : nat -> outcome (stdout * R)) : step P w x -> step any w x.
Proof. intros [L H]. split; [exact L|]. intros f w' r E. split; [now apply (H f w' r)|exact Logic.I]. Qed.
Lemma raw_grown h w b w' r : sig_raw_write h w b = (w', r) ->
  (exists d, arrived w' = arrived w ++ d /\ length d <= match r with Some (Some n) => n | _ => 0 end) /\ buffered w' = buffered w /\ match r with Some (Some n) => n <= length b | _ => True end.
Proof.
  unfold sig_raw_write, raw_write. destruct (h (calls w)) as [|[|k| |]]; intros H; injection H as <- <-; cbn [arrived buffered]; (split; [|split; [reflexivity|try exact Logic.I; lia]]).
  - exists []. now rewrite app_nil_r.
  - now exists b.
  - eexists. split; [reflexivity|]. rewrite firstn_length. lia.
  - exists []. now rewrite app_nil_r.
  - exists []. cbn [length]. split; [reflexivity|lia].
Qed.
Lemma flush_out_of h : forall f w w' ok, sig_flush f h w = Ret (w', ok) ->
  (exists d, arrived w' = arrived w ++ d /\ length d + length (buffered w') <= length (buffered w)) /\ (ok = true -> buffered w' = []).
Proof.
  induction f as [|f IH]; intros w w' ok H; cbn [sig_flush] in H; destruct (buffered w) as [|c b] eqn:B.
  - injection H as <- <-. rewrite B. split; [exists []; rewrite app_nil_r; now cbn [length]|auto].
  - discriminate.
  - injection H as <- <-. rewrite B. split; [exists []; rewrite app_nil_r; now cbn [length]|auto].
  - rewrite <- B in *. destruct (sig_raw_write h w (buffered w)) as [w1 r] eqn:RW. destruct (raw_grown _ _ _ _ _ RW) as ((d & A & L) & B1 & L1).
    assert (END : Ret (w1, false) = Ret (w', ok) -> (exists d, arrived w' = arrived w ++ d /\ length d + length (buffered w') <= length (buffered w)) \/ 0 < match r with Some (Some n) => n | _ => 0 end).
    { intros E. injection E as <- _. destruct r as [[[|n]|]|]; [|right; lia| |]; left; exists d; (split; [exact A|]); rewrite B1; lia. }
    destruct r as [[[|n]|]|].
    + injection H as <- <-. split; [|discriminate]. destruct (END eq_refl) as [E|E]; [exact E|lia].
    + destruct (IH _ _ _ H) as ((d' & A' & L') & O). split; [|exact O]. exists (d ++ d'). cbn [set_buffered arrived buffered] in A', L'. rewrite A', A, app_assoc. split; [reflexivity|].
      rewrite skipn_length in L'. rewrite app_length. lia.
    + injection H as <- <-. split; [|discriminate]. destruct (END eq_refl) as [E|E]; [exact E|lia].
    + destruct (IH _ _ _ H) as ((d' & A' & L') & O). split; [|exact O]. exists (d ++ d'). rewrite A', A, app_assoc. split; [reflexivity|]. rewrite B1 in L'. rewrite app_length. lia.
Qed.
Lemma flush_lasting h : forall f f' w y, f <= f' -> sig_flush f h w = Ret y -> sig_flush f' h w = Ret y.
Proof.
  induction f as [|f IH]; intros f' w y L H.
  - cbn [sig_flush] in H. destruct (buffered w) eqn:B; [|discriminate]. destruct f'; cbn [sig_flush]; now rewrite B.
  - destruct f' as [|f']; [lia|]. cbn [sig_flush] in *. destruct (buffered w) as [|c b]; [exact H|].
    destruct (sig_raw_write h w (c :: b)) as [w1 [[[|n]|]|]]; try exact H; now apply IH; [lia|].
Qed.
Lemma flush_step h w : step (fun w' ok => ok = true -> buffered w' = []) w (fun f => sig_flush f h w).
Proof.
  split; [intros f f' y L H; now apply (flush_lasting h f)|]. intros f w' ok H. destruct (flush_out_of h f w w' ok H) as ((d & A & L) & O).
  split; [|exact O]. split; [now exists d|]. lia.
Qed.
Lemma once_step h w b : step any w (fun _ => Ret (sig_once h w b)).
Proof.
  unfold sig_once. destruct (sig_raw_write h w b) as [w' r] eqn:E. destruct (raw_grown _ _ _ _ _ E) as ((d & A & _) & B & _).
  assert (G : grown w w') by (split; [now exists d|rewrite B; auto]). destruct r; apply step_ret; try exact G; exact Logic.I.
Qed.
Lemma put_grown w b : length (buffered w) + length b <= lw_capacity -> grown w (set_buffered w (buffered w ++ b)).
Proof. intros L. split; [exists []; cbn [set_buffered arrived]; now rewrite app_nil_r|]. intros _. cbn [set_buffered buffered]. rewrite app_length. exact L. Qed.
Lemma to_buf_grown w b : grown w (fst (write_to_buf w b)).
Proof.
  unfold write_to_buf. cbn [fst]. split; [exists []; cbn [set_buffered arrived]; now rewrite app_nil_r|]. intros L. cbn [set_buffered buffered]. rewrite app_length, firstn_length. lia.
Qed.
Lemma buf_write_step h w b : length (buffered w) <= lw_capacity -> step any w (fun f => sig_buf_write f h w b).
Proof.
  intros LB. unfold sig_buf_write. destruct (Nat.ltb_spec (length b) (lw_capacity - length (buffered w))) as [L|L].
  - apply step_ret; [apply put_grown; lia|exact Logic.I].
  - apply (step_bind (fun w' ok => ok = true -> length (buffered w') + Nat.min (length b) lw_capacity <= lw_capacity) any).
    + destruct (Nat.ltb_spec (lw_capacity - length (buffered w)) (length b)) as [L2|L2].
      * destruct (flush_step h w) as [F1 F2]. split; [exact F1|]. intros f w' ok E. destruct (F2 _ _ _ E) as [G O]. split; [exact G|]. intros K. rewrite (O K). cbn [length]. lia.
      * apply step_ret; [apply grown_refl|]. intros _. lia.
    + intros w1 [|] G P; cbn [negb]; [|apply step_ret; [apply grown_refl|exact Logic.I]]. specialize (P eq_refl). destruct (Nat.leb_spec lw_capacity (length b)); [apply once_step|].
      apply step_ret; [apply put_grown; lia|exact Logic.I].
Qed.
Lemma grown_fits w w' : grown w w' -> length (buffered w) <= lw_capacity -> length (buffered w') <= lw_capacity.
Proof. now intros [_ H]. Qed.
Lemma write_step v h w b : length (buffered w) <= lw_capacity -> step any w (fun f => sig_write v f h w b).
Proof.
  intros LB. unfold sig_write. destruct (rfind [x0a] b) as [i|].
  - eapply step_bind; [apply flush_step|]. intros w1 [|] G _; cbn [negb]; [|apply step_ret; [apply grown_refl|exact Logic.I]].
    destruct (once_step h w1 (firstn (i + 1) b)) as [_ O]. destruct (sig_once h w1 (firstn (i + 1) b)) as [w2 [[|n]|]]; destruct (O 0 _ _ eq_refl) as [G2 _];
      try (apply step_ret; [exact G2|exact Logic.I]).
    cbv zeta. destruct (_ && _); [apply step_ret; [exact G2|exact Logic.I]|]. match goal with |- context [write_to_buf w2 ?t] => pose proof (to_buf_grown w2 t) as TB; destruct (write_to_buf w2 t) as [w3 m] end.
    apply step_ret; [apply grown_trans with w2; assumption|exact Logic.I].
  - eapply (step_bind any).
    + unfold sig_completed. destruct (rev (buffered w)) as [|c r]; [apply step_ret; [apply grown_refl|exact Logic.I]|]. destruct (byte_eqb c x0a); [eapply step_any, flush_step|].
      apply step_ret; [apply grown_refl|exact Logic.I].
    + intros w1 [|] G _; cbn [negb]; [|apply step_ret; [apply grown_refl|exact Logic.I]]. apply buf_write_step. now apply (grown_fits w).
Qed.
Lemma message_step v h A m e a p c buf w : length (buffered w) <= lw_capacity -> step any w (fun f => sig_message v f h A m e a p c buf w).
Proof.
  assert (END : forall {R} (w : stdout) (r : R), step any w (fun _ => Ret (w, r))) by (intros R w1 r1; apply step_ret; [apply grown_refl|exact Logic.I]).
  intros LB. unfold sig_message. destruct (let* _ := _ in _) as [[[sh hd] eh]| |]; try apply END.
  apply (step_bind any); [now apply write_step|]. intros w1 [n1|] G1 _; [|apply END]. apply (grown_fits w w1 G1) in LB.
  apply (step_bind any); [now apply write_step|]. intros w2 [n2|] G2 _; [|apply END]. apply (grown_fits w1 w2 G2) in LB.
  destruct (checked m u32_mod (c * 100)%N) as [ts| |]; try apply END.
  apply (step_bind any); [now apply write_step|]. intros w3 [n3|] G3 _; [|apply END]. apply (grown_fits w2 w3 G3) in LB.
  apply (step_bind any); [now apply write_step|]. intros w4 [n4|] G4 _; [|apply END]. apply (grown_fits w3 w4 G4) in LB.
  apply (step_bind any); [now apply write_step|]. intros w5 [n5|] G5 _; [|apply END]. destruct (checked m u32_mod (c + 1)%N); apply END.
Qed.
Lemma arrived_held f h w out : sig_arrived f h w = Ret out -> exists held, out = arrived w ++ held /\ length held <= length (buffered w).
Proof.
  unfold sig_arrived. destruct (sig_flush f h w) as [[w' ok]| |] eqn:E; [|discriminate|discriminate]. cbn [obind]. intros H. injection H as <-.
  destruct (flush_out_of h f w w' ok E) as ((d & A & L) & _). exists d. split; [exact A|lia].
Qed.
Lemma arrived_lasting h w : lasting (fun f => sig_arrived f h w).
Proof.
  intros f f' y L H. unfold sig_arrived in *. destruct (sig_flush f h w) as [[w' ok]| |] eqn:E; [|discriminate|discriminate]. now rewrite (flush_lasting h f f' w _ L E).
Qed.

(** * The whole run *)
Lemma bytes_lasting v fuel h A m e a psize open : forall count b w, length (buffered w) <= lw_capacity -> lasting (fun p => bytes_loop v fuel p h A m e a psize count b open w).
Proof.
  induction fuel as [|fuel IH]; intros count b w LB f f' y L H; [discriminate|]. cbn [bytes_loop] in *. destruct (_ <? _).
  - destruct open; [exact H|]. destruct (sig_arrived f h w) as [o| |] eqn:E; [|discriminate|discriminate]. now rewrite (arrived_lasting h w f f' _ L E).
  - destruct (message_step v h A m e a psize count (firstn (N.to_nat psize) b) w LB) as [ML MG].
    destruct (sig_message v f h A m e a psize count (firstn (N.to_nat psize) b) w) as [[w1 q]| |] eqn:E; [|discriminate|discriminate]. rewrite (ML _ _ _ L E). cbn [obind] in *.
    destruct (MG _ _ _ E) as [G _]. destruct q as [c'|en].
    + now apply (IH c' _ w1 (grown_fits w w1 G LB) f).
    + destruct (sig_arrived f h w1) as [o| |] eqn:E1; [|discriminate|discriminate]. now rewrite (arrived_lasting h w1 f f' _ L E1).
Qed.
(** [y] begins like [x]. *)
Definition shows (y : run) (x : bytes) : Prop := match y with StillRunning out | HasEnded out _ => exists d, out = x ++ d end.
Lemma shows_self v p h A m e a psize open : forall fuel count b w y, length (buffered w) <= lw_capacity ->
  bytes_loop v fuel p h A m e a psize count b open w = Ret y -> shows y (arrived w).
Proof.
  induction fuel as [|fuel IH]; intros count b w y LB H; [discriminate|]. cbn [bytes_loop] in H. destruct (_ <? _).
  - destruct open; [injection H as <-; exists []; now rewrite app_nil_r|]. destruct (sig_arrived p h w) as [o| |] eqn:E; [|discriminate|discriminate]. injection H as <-.
    destruct (arrived_held p h w o E) as (d & -> & _). now exists d.
  - destruct (message_step v h A m e a psize count (firstn (N.to_nat psize) b) w LB) as [_ MG].
    destruct (sig_message v p h A m e a psize count (firstn (N.to_nat psize) b) w) as [[w1 q]| |] eqn:E; [|discriminate|discriminate]. cbn [obind] in H.
    destruct (MG _ _ _ E) as [G _]. pose proof (grown_fits w w1 G LB) as LB1. destruct G as [[d Ed] _]. destruct q as [c'|en].
    + apply IH in H; [|exact LB1]. rewrite Ed in H. destruct y as [o|o en]; destruct H as [d' ->]; exists (d ++ d'); now rewrite app_assoc.
    + destruct (sig_arrived p h w1) as [o| |] eqn:E1; [|discriminate|discriminate]. injection H as <-. destruct (arrived_held p h w1 o E1) as (d' & -> & _). rewrite Ed. exists (d ++ d'). now rewrite app_assoc.
Qed.
Lemma bytes_more v p h A m e a psize more open : forall fuel fuel' count b w, length (buffered w) <= lw_capacity ->
  match bytes_loop v fuel p h A m e a psize count b true w with
  | Ret (StillRunning x) => forall y, bytes_loop v fuel' p h A m e a psize count (b ++ more) open w = Ret y -> shows y x
  | Ret (HasEnded x en) => fuel <= fuel' -> bytes_loop v fuel' p h A m e a psize count (b ++ more) open w = Ret (HasEnded x en)
  | _ => True
  end.
Proof.
  induction fuel as [|fuel IH]; intros fuel' count b w LB; [exact Logic.I|]. cbn [bytes_loop]. destruct (Nat.ltb_spec (length b) (N.to_nat psize)) as [L|L].
  - intros y H. now apply shows_self in H.
  - destruct (message_step v h A m e a psize count (firstn (N.to_nat psize) b) w LB) as [_ MG].
    destruct (sig_message v p h A m e a psize count (firstn (N.to_nat psize) b) w) as [[w1 q]| |] eqn:E; cbn [obind]; try exact Logic.I.
    destruct (MG _ _ _ E) as [G _]. pose proof (grown_fits w w1 G LB) as LB1.
    assert (NEXT : forall f', bytes_loop v (S f') p h A m e a psize count (b ++ more) open w =
      match q with inl c' => bytes_loop v f' p h A m e a psize c' (skipn (N.to_nat psize) b ++ more) open w1 | inr en => let* out := sig_arrived p h w1 in Ret (HasEnded out en) end).
    { intros f'. cbn [bytes_loop]. rewrite app_length. destruct (Nat.ltb_spec (length b + length more) (N.to_nat psize)); [lia|].
      rewrite firstn_app, skipn_app. replace (N.to_nat psize - length b) with 0 by lia. cbn [firstn skipn]. rewrite app_nil_r, E. reflexivity. }
    destruct q as [c'|en].
    + specialize (IH (pred fuel') c' (skipn (N.to_nat psize) b) w1 LB1). destruct (bytes_loop v fuel p h A m e a psize c' _ true w1) as [[x|x en]| |]; try exact Logic.I.
      * intros y H. destruct fuel' as [|f']; [discriminate|]. rewrite NEXT in H. exact (IH y H).
      * intros Hf. destruct fuel' as [|f']; [lia|]. rewrite NEXT. apply IH. cbn [pred]. lia.
    + destruct (sig_arrived p h w1) as [o| |] eqn:E1; cbn [obind]; try exact Logic.I. intros Hf. destruct fuel' as [|f']; [lia|]. rewrite NEXT. reflexivity.
Qed.
(** The end of the input. *)
Lemma bytes_end v h A m e a psize (FAIR : fair h) : forall fuel p count b w x, length (buffered w) <= lw_capacity -> bytes_loop v fuel p h A m e a psize count b true w = Ret (StillRunning x) ->
  exists held n f0, length held <= lw_capacity /\ forall p', f0 <= p' -> bytes_loop v fuel p' h A m e a psize count b false w = Ret (HasEnded (x ++ held) (OsDone n)).
Proof.
  induction fuel as [|fuel IH]; intros p count b w x LB H; [discriminate|]. cbn [bytes_loop] in *. destruct (_ <? _).
  - injection H as <-. destruct (ends_arrived h FAIR w tt) as (l & out & _ & [f0 F] & _).
    assert (F' : forall p', f0 <= p' -> sig_arrived p' h w = Ret out).
    { intros p' Hp. specialize (F p' Hp). destruct (sig_arrived p' h w) as [o| |]; [|discriminate|discriminate]. cbn [obind] in F. congruence. }
    destruct (arrived_held f0 h w out (F' f0 (le_n _))) as (held & -> & L). exists held, count, f0. split; [lia|]. intros p' Hp. now rewrite (F' p' Hp).
  - destruct (message_step v h A m e a psize count (firstn (N.to_nat psize) b) w LB) as [ML MG].
    destruct (sig_message v p h A m e a psize count (firstn (N.to_nat psize) b) w) as [[w1 q]| |] eqn:E; cbn [obind] in H; try discriminate.
    destruct (MG _ _ _ E) as [G _]. destruct q as [c'|en].
    + destruct (IH p c' (skipn (N.to_nat psize) b) w1 x (grown_fits w w1 G LB) H) as (held & n & f0 & L & F). exists held, n, (Nat.max p f0). split; [exact L|].
      intros p' Hp. rewrite (ML p p' _ ltac:(lia) E). cbn [obind]. apply F. lia.
    + destruct (sig_arrived p h w1); discriminate.
Qed.
(** It does not get stuck. *)
Lemma bytes_total v h A m e a psize open (FAIR : fair h) : (1 <= psize)%N -> forall fuel count b w, length b < fuel ->
  exists y f0, forall p, f0 <= p -> bytes_loop v fuel p h A m e a psize count b open w = Ret y.
Proof.
  intros Hp. assert (AR : forall w, exists out f0, forall p, f0 <= p -> sig_arrived p h w = Ret out).
  { intros w. destruct (ends_arrived h FAIR w tt) as (l & out & _ & [f0 F] & _). exists out, f0.
    intros p' Hp'. specialize (F p' Hp'). destruct (sig_arrived p' h w) as [o| |]; [|discriminate|discriminate]. cbn [obind] in F. congruence. }
  induction fuel as [|fuel IH]; intros count b w L; [lia|]. cbn [bytes_loop]. destruct (Nat.ltb_spec (length b) (N.to_nat psize)) as [LB|LB].
  - destruct open; [now exists (StillRunning (arrived w)), 0|]. destruct (AR w) as (out & f0 & F). exists (HasEnded out (OsDone count)), f0. intros p Hq. now rewrite (F p Hq).
  - destruct (rough_message h FAIR v A m e a psize count (firstn (N.to_nat psize) b) w) as (w1 & q & l & _ & [f1 F1] & _). destruct q as [c'|en].
    + destruct (IH c' (skipn (N.to_nat psize) b) w1) as (y & f0 & F); [rewrite skipn_length; lia|]. exists y, (Nat.max f0 f1). intros p Hq. rewrite F1 by lia. cbn [obind]. apply F. lia.
    + destruct (AR w1) as (out & f0 & F). exists (HasEnded out en), (Nat.max f0 f1). intros p Hq. rewrite F1 by lia. cbn [obind]. now rewrite F by lia.
Qed.

(** * An operating system that takes everything *)
Section Calm.
  Variables (h : past) (p : nat).
  Hypothesis CALM : forall i, h i = Answered TakesAll.
  Definition like (w : stdout) (i : line_writer) : Prop := arrived w = sent i /\ buffered w = pending i.
  Lemma calm_raw w b : sig_raw_write h w b = ({| calls := calls w + 1; arrived := arrived w ++ b; buffered := buffered w |}, Some (Some (length b))).
  Proof. unfold sig_raw_write. now rewrite CALM. Qed.
  Lemma calm_flush w i : like w i -> exists w', sig_flush (S p) h w = Ret (w', true) /\ like w' (flush_buf i).
  Proof.
    intros [A B]. cbn [sig_flush]. destruct (buffered w) as [|c b] eqn:E.
    - exists w. split; [reflexivity|]. split; cbn [flush_buf sent pending]; [rewrite <- B, app_nil_r; exact A|exact E].
    - rewrite calm_raw. cbn [length]. rewrite skipn_all2 by (cbn [length]; lia). eexists. split; [destruct p; reflexivity|].
      split; cbn [set_buffered arrived buffered flush_buf sent pending]; [now rewrite A, B|reflexivity].
  Qed.
  Lemma calm_buf w i b : like w i -> exists w' n, sig_buf_write (S p) h w b = Ret (w', Some n) /\ like w' (fst (bw_write i b)).
  Proof.
    intros [A B]. unfold sig_buf_write, bw_write. rewrite B. destruct (length b <? lw_capacity - length (pending i)).
    - do 2 eexists. split; [reflexivity|]. split; cbn [fst set_buffered arrived buffered sent pending]; [exact A|reflexivity].
    - assert (F : exists w1, (if lw_capacity - length (pending i) <? length b then sig_flush (S p) h w else Ret (w, true)) = Ret (w1, true) /\
        like w1 (if lw_capacity - length (pending i) <? length b then flush_buf i else i)).
      { destruct (_ <? _); [apply calm_flush; now split|]. exists w. split; [reflexivity|now split]. }
      destruct F as (w1 & -> & A1 & B1). cbn [obind negb]. unfold sig_once. destruct (lw_capacity <=? length b).
      + rewrite calm_raw. do 2 eexists. split; [reflexivity|]. split; cbn [fst arrived buffered sent pending]; [now rewrite A1|exact B1].
      + do 2 eexists. split; [reflexivity|]. split; cbn [fst set_buffered arrived buffered sent pending]; [exact A1|now rewrite B1].
  Qed.
  Lemma calm_write v w i b : like w i -> exists w' n, sig_write v (S p) h w b = Ret (w', Some n) /\ like w' (write_ v i b).
  Proof.
    intros LK. unfold sig_write, write_, lw_write. destruct (rfind [x0a] b) as [k|] eqn:R.
    - destruct (calm_flush w i LK) as (w1 & -> & A1 & B1). cbn [obind negb]. unfold sig_once. rewrite calm_raw.
      assert (LL : k + 1 <= length b).
      { apply rfind_some in R; [|cbn; lia]. destruct R as [O _]. apply skipn_nl in O. apply (f_equal (@length byte)) in O. rewrite skipn_length in O. cbn [length] in O. lia. }
      rewrite firstn_length, Nat.min_l by exact LL. replace (k + 1) with (S k) in * by lia. rewrite Nat.leb_refl. cbn [andb].
      set (w2 := {| calls := calls w1 + 1; arrived := arrived w1 ++ firstn (S k) b; buffered := buffered w1 |}). cbn [flush_buf sent pending] in A1, B1.
      assert (P0 : buffered w2 = []) by exact B1. assert (A2 : arrived w2 = (sent i ++ pending i) ++ firstn (S k) b) by (unfold w2; cbn [arrived]; now rewrite A1).
      cbn [flush_buf sent pending length app]. destruct v; [|destruct (lw_capacity <=? length (skipn (S k) b))].
      + unfold write_to_buf. do 2 eexists. split; [reflexivity|]. split; cbn [fst set_buffered arrived buffered sent pending]; [exact A2|now rewrite P0].
      + do 2 eexists. split; [reflexivity|]. split; cbn [fst sent pending firstn]; [exact A2|exact P0].
      + unfold write_to_buf. do 2 eexists. split; [reflexivity|]. split; cbn [fst set_buffered arrived buffered sent pending]; [exact A2|now rewrite P0].
    - assert (F : exists w1, sig_completed (S p) h w = Ret (w1, true) /\ like w1 (flush_if_completed_line i)).
      { unfold sig_completed, flush_if_completed_line. rewrite (proj2 LK). destruct (rev (pending i)) as [|c r]; [now exists w|]. destruct (byte_eqb c x0a); [now apply calm_flush|now exists w]. }
      destruct F as (w1 & -> & LK1). cbn [obind negb]. apply calm_buf. exact LK1.
  Qed.
  Lemma calm_message v A m e a psize c buf w i : like w i -> exists w' q, sig_message v (S p) h A m e a psize c buf w = Ret (w', q) /\ like w' (fst (dd_message v A m e a psize c buf i)) /\
    match snd (dd_message v A m e a psize c buf i) with Some c' => q = inl c' | None => q = inr OsPanic end.
  Proof.
    intros LK. unfold sig_message, dd_message. destruct (let* _ := _ in _) as [[[sh hd] eh]| |]; try (do 2 eexists; split; [reflexivity|]; split; [exact LK|reflexivity]). cbv zeta.
    destruct (calm_write v w i (storage_header_as_bytes sh) LK) as (w1 & n1 & -> & LK1). cbn [obind].
    destruct (calm_write v w1 _ (std_header_as_bytes hd) LK1) as (w2 & n2 & -> & LK2). cbn [obind].
    destruct (checked m u32_mod (c * 100)%N) as [ts| |]; try (do 2 eexists; split; [reflexivity|]; split; [exact LK2|reflexivity]).
    destruct (calm_write v w2 _ (be32_bytes ts) LK2) as (w3 & n3 & -> & LK3). cbn [obind].
    destruct (calm_write v w3 _ (ext_header_as_bytes eh) LK3) as (w4 & n4 & -> & LK4). cbn [obind].
    destruct (calm_write v w4 _ buf LK4) as (w5 & n5 & -> & LK5). cbn [obind].
    destruct (checked m u32_mod (c + 1)%N); do 2 eexists; (split; [reflexivity|]; split; [exact LK5|reflexivity]).
  Qed.
  Definition calmly (x : outcome live) : outcome run :=
    match x with
    | Ret (Waiting out) => Ret (StillRunning out)
    | Ret (Over out e) => Ret (HasEnded out (match e with DdDone n => OsDone n | DdPanic => OsPanic end))
    | Panic => Panic
    | Fuel => Fuel
    end.
  Lemma calm_loop v A m e a psize : forall fuel count b w i, like w i ->
    bytes_loop v fuel (S p) h A m e a psize count b true w = calmly (live_loop v fuel A m e a psize count b i).
  Proof.
    induction fuel as [|fuel IH]; intros count b w i LK; [reflexivity|]. cbn [bytes_loop live_loop]. destruct (_ <? _); [cbn [calmly]; now rewrite (proj1 LK)|].
    destruct (calm_message v A m e a psize count (firstn (N.to_nat psize) b) w i LK) as (w' & q & -> & LK' & Q). cbn [obind].
    destruct (dd_message v A m e a psize count (firstn (N.to_nat psize) b) i) as [i' [c'|]]; cbn [fst snd] in *; subst q.
    - now apply IH.
    - unfold sig_arrived. destruct (calm_flush w' i' LK') as (w2 & -> & A2 & _). cbn [obind calmly]. now rewrite A2.
  Qed.
End Calm.
