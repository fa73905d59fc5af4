(** Property theorems C95, C96: pipelines of dd_dlt and ripdlt as in test/test_gen.sh (vocabulary in
    PipeSpec.v). *)
From Coq Require Import String.
From Verif Require Import Base DltModel MatchModel GenModel ToolsModel DdModel MainModel Spec CommandSpec PipeSpec BaseFacts DltFacts CodecFacts ParseFacts
  FindFacts IterFacts DltIterFacts LayoutFacts GenFacts GroupFacts MapFacts ToolFacts Utf8Facts TotalFacts CommandFacts ExactFacts DdFacts PipeFacts P_Commands P_Exact P_DD.
From Verif Require EditCommands.
From Verif Require Samples.
From Coq Require Import Sorted ZifyBool ZifyNat ZifyN.
Import Samples(m1, m2, quad_ECU1).
Ltac Zify.zify_post_hook ::= Z.div_mod_to_equations.
Local Open Scope string_scope.
Local Open Scope list_scope.

(** * C95: several runs of dd_dlt appended to one file *)
(** [out] is what the run [r] writes. *)
Definition recorded (v : std_version) (A : ctor_addrs) (mode : build_mode) (r : recording) (out : bytes) : Prop :=
  forall fuel, messages r < fuel ->
    dd_dlt v fuel A mode [quad_bytes (rec_ecu r); quad_bytes (rec_app r); rec_arg r] (rec_input r) = Ret (out, DdDone (N.of_nat (messages r))).

Lemma recorded_out v A mode r : rec_ok r -> exists ms, recorded v A mode r (concat ms) /\ Forall valid_message ms /\ length ms = messages r /\
  numbered (rec_ecu r) 0 (map entry_of ms).
Proof.
  intros (SZ & Hp & F & LR & FL & B). exists (wires v A (rec_ecu r) (rec_app r) (18 + rec_size r) 0 (rec_chunks r)).
  split; [|split; [|split]].
  - intros fuel Hf. apply (run_spec v A mode _ _ (rec_size r) (rec_arg r) [] _ _ fuel (18 + rec_size r)); try assumption; try lia.
    + apply checked_len. lia.
    + unfold in_budget, messages in *. destruct mode; [exact B|]. apply (N.le_lt_trans _ 42949673); [exact B|reflexivity].
  - apply wires_valid; [lia|exact F|exact FL].
  - apply wires_length.
  - apply wires_numbered; [unfold u16_mod; lia|exact B].
Qed.
Lemma recorded_unique v A mode r o1 o2 : recorded v A mode r o1 -> recorded v A mode r o2 -> o1 = o2.
Proof. intros H1 H2. specialize (H1 (S (messages r)) (le_n _)). specialize (H2 (S (messages r)) (le_n _)). congruence. Qed.
Lemma recorded_file v A mode rs : forall outs, Forall rec_ok rs -> Forall2 (recorded v A mode) rs outs ->
  exists ess, dltit (concat outs) = Ret (concat ess) /\ Forall2 (fun r es => numbered (rec_ecu r) 0 es /\ length es = messages r) rs ess.
Proof.
  intros outs F R.
  enough (exists mss, concat outs = concat (concat mss) /\ Forall valid_message (concat mss) /\
    Forall2 (fun r ms => numbered (rec_ecu r) 0 (map entry_of ms) /\ length ms = messages r) rs mss) as (mss & E & V & N).
  { exists (map (map entry_of) mss). split.
    - rewrite E, (dltit_concat _ V). f_equal. exact (concat_map entry_of mss).
    - clear - N. induction N as [|r ms rs mss [H1 H2] N IH]; constructor; [|exact IH]. split; [exact H1|]. now rewrite map_length. }
  induction R as [|r out rs outs H R IH]; [exists []; repeat split; constructor|]. inversion F as [|x y F1 F2]; subst x y.
  destruct (IH F2) as (mss & E & V & N). destruct (recorded_out v A mode r F1) as (ms & H' & V1 & L1 & N1).
  exists (ms :: mss). cbn [concat]. rewrite concat_app, <- E, (recorded_unique _ _ _ _ _ _ H H'). split; [reflexivity|].
  split; [apply Forall_app; now split|]. constructor; [now split|exact N].
Qed.

Section Recorded.
  Context (rs : list recording) (ess : list (list storage_entry)).
  Hypothesis N2 : Forall2 (fun r es => numbered (rec_ecu r) 0 es /\ length es = messages r) rs ess.

  Lemma ess_in es : In es ess -> exists r, In r rs /\ numbered (rec_ecu r) 0 es /\ length es = messages r.
  Proof. clear - N2. induction N2 as [|r x rs' ess' [H1 H2] N IH]; intros I; [destruct I|]. destruct I as [<-|I]; [exists r; split; [now left|split; assumption]|]. destruct (IH N I) as (r' & ? & ?). exists r'. split; [now right|assumption]. Qed.
  Lemma all_numbered x : In x (concat ess) -> exists r, In r rs /\ stamped x = true /\ stamp x <> None /\ ecu_of x = rec_ecu r /\ 1 <= messages r.
  Proof.
    intros I. apply in_concat in I. destruct I as (es & I1 & I2). destruct (ess_in es I1) as (r & Ir & Hn & Hl). exists r. split; [exact Ir|].
    destruct (numbered_in _ _ _ _ Hn I2) as (H1 & H2 & H3 & _). repeat split; try assumption. destruct es; [destruct I2|cbn [length] in Hl; lia].
  Qed.
  Lemma concat_stamped : filter stamped (concat ess) = concat ess.
  Proof.
    clear - N2. induction N2 as [|r x rs' ess' [H1 H2] N IH]; [reflexivity|]. cbn [concat]. rewrite filter_app, (IH N). f_equal. exact (numbered_stamped _ _ _ H1).
  Qed.
  Lemma concat_all_stamped : all_stamped (concat ess).
  Proof. intros e I _. destruct (all_numbered e I) as (_ & _ & _ & H & _). exact H. Qed.
  Lemma concat_count : length (concat ess) = list_sum (map messages rs).
  Proof. clear - N2. induction N2 as [|r x rs' ess' [H1 H2] N IH]; [reflexivity|]. cbn [concat map list_sum fold_right]. rewrite app_length, (IH N), H2. reflexivity. Qed.

  (** Runs of at least two messages are lifecycles. *)
  Lemma cycles rel : Forall (fun r => 2 <= messages r) rs ->
    (rel = not_earlier \/ rel = same_cycle) -> maximal_runs rel (concat ess) ess.
  Proof.
    intros F R.
    assert (NE : forall es, In es ess -> 2 <= length es).
    { intros es I. destruct (ess_in es I) as (r & Ir & _ & ->). rewrite Forall_forall in F. now apply F. }
    apply recorded_runs.
    - apply Forall_forall. intros es I. destruct (ess_in es I) as (r & Ir & Hn & Hl). split; [specialize (NE es I); destruct es; [cbn in NE; lia|discriminate]|].
      destruct (numbered_linked _ _ _ Hn) as (L1 & L2 & _). now destruct R as [-> | ->].
    - intros g h d Ig Ih. destruct (ess_in g Ig) as (r & _ & Hn & _). destruct (ess_in h Ih) as (r' & _ & Hn' & _).
      pose proof (NE g Ig). pose proof (NE h Ih). destruct h as [|y h]; [cbn in *; lia|].
      destruct (numbered_last _ _ _ d Hn ltac:(destruct g; [cbn in *; lia|discriminate])) as (_ & G2 & _). destruct (numbered_head _ _ _ _ Hn') as (_ & Y2 & _).
      assert (Q : not_earlier (last g d) (hd d (y :: h)) = false) by (unfold not_earlier, stamp_value; cbn [hd]; rewrite G2, Y2; lia).
      destruct R as [-> | ->]; [exact Q|]. unfold same_cycle. rewrite Q. apply andb_false_r.
  Qed.
  Lemma periods : Forall (fun r => 101 <= messages r) rs -> maximal_runs continuous (concat ess) ess.
  Proof.
    intros F.
    assert (NE : forall es, In es ess -> 101 <= length es).
    { intros es I. destruct (ess_in es I) as (r & Ir & _ & ->). rewrite Forall_forall in F. now apply F. }
    apply recorded_runs.
    - apply Forall_forall. intros es I. destruct (ess_in es I) as (r & Ir & Hn & Hl). split; [specialize (NE es I); destruct es; [cbn in NE; lia|discriminate]|].
      now destruct (numbered_linked _ _ _ Hn) as (_ & _ & L3).
    - intros g h d Ig Ih. destruct (ess_in g Ig) as (r & _ & Hn & _). destruct (ess_in h Ih) as (r' & _ & Hn' & _).
      pose proof (NE g Ig). pose proof (NE h Ih). destruct h as [|y h]; [cbn [length] in *; lia|].
      destruct (numbered_last _ _ _ d Hn ltac:(destruct g; [cbn [length] in *; lia|discriminate])) as (_ & _ & _ & G4 & _). destruct (numbered_head _ _ _ _ Hn') as (_ & _ & _ & Y4 & _).
      unfold continuous. cbn [hd]. rewrite G4, Y4. apply N.leb_gt. lia.
  Qed.
  Lemma spans {X} (f : list storage_entry -> X) (g : recording -> X) : (forall r es, In r rs -> numbered (rec_ecu r) 0 es -> length es = messages r -> f es = g r) -> map f ess = map g rs.
  Proof.
    clear - N2. induction N2 as [|r x rs' ess' [H1 H2] N IH]; intros H; [reflexivity|]. cbn [map]. f_equal; [apply H; [now left|assumption|assumption]|].
    apply (IH N). intros r' es I. apply H. now right.
  Qed.
  (** The entries of one ECU. *)
  Lemma of_ecu k : exists ess', from_ecu k (concat ess) = concat ess' /\
    Forall2 (fun r es => numbered (rec_ecu r) 0 es /\ length es = messages r) (runs_of k rs) ess'.
  Proof.
    clear - N2. induction N2 as [|r x rs' ess' [H1 H2] N IH]; [exists []; split; [reflexivity|constructor]|]. destruct (IH N) as (e2 & E & F). cbn [concat].
    unfold from_ecu, runs_of in *. rewrite filter_app. cbn [filter]. rewrite E. clear IH N E N2.
    assert (Q : filter (fun e => if quad_dec (ecu_of e) k then true else false) x = if same_quad (rec_ecu r) k then x else []).
    { unfold same_quad. destruct (quad_dec (rec_ecu r) k) as [D|D]; [apply filter_all|].
      - apply Forall_forall. intros y I. destruct (numbered_in _ _ _ _ H1 I) as (_ & _ & Q & _). rewrite Q. destruct (quad_dec (rec_ecu r) k); congruence.
      - assert (G : forall l, (forall y, In y l -> ecu_of y = rec_ecu r) -> filter (fun e => if quad_dec (ecu_of e) k then true else false) l = []).
        { induction l as [|y l IH]; intros H; [reflexivity|]. cbn [filter]. rewrite (H y (or_introl eq_refl)). destruct (quad_dec (rec_ecu r) k); [congruence|]. apply IH. intros z I. apply H. now right. }
        apply G. intros y I. now destruct (numbered_in _ _ _ _ H1 I) as (_ & _ & Q & _). }
    rewrite Q. destruct (same_quad (rec_ecu r) k); cbn [andb]; [|exists e2; split; [reflexivity|exact F]].
    destruct (Nat.leb_spec 1 (messages r)) as [L|L].
    - exists (x :: e2). split; [reflexivity|]. constructor; [now split|exact F].
    - exists e2. destruct x; [|cbn [length] in H2; lia]. split; [reflexivity|exact F].
  Qed.
  Lemma ecus : forall k, In k (map ecu_of (concat ess)) <-> exists r, In r rs /\ rec_ecu r = k /\ 1 <= messages r.
  Proof.
    intros k. split.
    - intros I. apply in_map_iff in I. destruct I as (x & <- & I). destruct (all_numbered x I) as (r & H1 & _ & _ & H4 & H5). exists r. repeat split; auto.
    - intros (r & I & <- & L). assert (E : exists es, In es ess /\ numbered (rec_ecu r) 0 es /\ length es = messages r).
      { clear - N2 I. induction N2 as [|r' x rs' ess' [H1 H2] N IH]; [destruct I|]. destruct I as [->|I]; [exists x; split; [now left|split; assumption]|].
        destruct (IH N I) as (es & ? & ?). exists es. split; [now right|assumption]. }
      destruct E as (es & Ie & Hn & Hl). destruct es as [|x es]; [cbn in Hl; lia|]. destruct (numbered_head _ _ _ _ Hn) as (_ & _ & _ & _ & <-).
      apply in_map, in_concat. exists (x :: es). split; [exact Ie|now left].
  Qed.
  Lemma drops : drops_to_zero (concat ess) /\ forall d, secs_of (hd d (concat ess)) = 0%N \/ concat ess = [].
  Proof.
    clear - N2. induction N2 as [|r x rs' ess' [H1 H2] N IH]; [split; [exact I|now right]|]. destruct (IH N) as [D Z]. cbn [concat]. split.
    - apply drops_app; [|exact D|exact Z]. destruct (numbered_linked _ _ _ H1) as (_ & _ & L). clear - L.
      induction x as [|a x IH]; [exact I|]. destruct x as [|b x]; [exact I|]. destruct L as [L1 L2]. split; [now left|now apply IH].
    - intros d. destruct x as [|a x]; [exact (Z d)|]. left. cbn [app hd]. now destruct (numbered_head _ _ _ _ H1) as (_ & _ & _ & -> & _).
  Qed.
End Recorded.

Lemma largest_seconds rs ess : Forall2 (fun r es => numbered (rec_ecu r) 0 es /\ length es = messages r) rs ess -> Forall (fun r => 1 <= messages r) rs ->
  largest (map secs_of (concat ess)) = largest (map seconds rs).
Proof.
  intros N F. apply N.le_antisymm; apply largest_le; intros s I; apply in_map_iff in I.
  - destruct I as (x & <- & I). apply in_concat in I. destruct I as (es & I1 & I2). destruct (ess_in rs ess N es I1) as (r & Ir & Hn & Hl).
    destruct (numbered_in _ _ _ _ Hn I2) as (_ & _ & _ & H). etransitivity; [|apply largest_ge, (in_map seconds), Ir]. unfold seconds. rewrite <- Hl.
    etransitivity; [exact H|]. apply N.div_le_mono; lia.
  - destruct I as (r & <- & I). assert (E : exists es, In es ess /\ numbered (rec_ecu r) 0 es /\ length es = messages r).
    { clear - N I. induction N as [|r' x rs' ess' [H1 H2] N IH]; [destruct I|]. destruct I as [->|I]; [exists x; split; [now left|split; assumption]|].
      destruct (IH I) as (es & ? & ?). exists es. split; [now right|assumption]. }
    destruct E as (es & Ie & Hn & Hl). rewrite Forall_forall in F. specialize (F r I).
    assert (NE : es <> []) by (destruct es; [cbn in Hl; lia|discriminate]).
    destruct es as [|x0 es0]; [congruence|]. set (es := x0 :: es0) in *.
    destruct (numbered_last _ _ _ x0 Hn NE) as (_ & _ & _ & L4 & _).
    assert (IL : In (last es x0) (concat ess)).
    { apply in_concat. exists es. split; [exact Ie|]. subst es. clear. revert x0. induction es0 as [|y l IH]; intros x0; [now left|]. right.
      destruct l as [|z l]; [now left|]. specialize (IH y). change (last (x0 :: y :: z :: l) x0) with (last (y :: z :: l) x0).
      replace (last (y :: z :: l) x0) with (last (y :: z :: l) y); [exact IH|]. clear. revert z. induction l as [|w l IH]; intros z; [reflexivity|]. apply IH. }
    etransitivity; [|apply largest_ge, (in_map secs_of), IL]. rewrite L4, Hl. unfold seconds. apply N.div_le_mono; lia.
Qed.
Lemma unique_table vals h h' : number_table vals h -> number_table vals h' -> h = h'.
Proof. apply EditCommands.number_table_unique. Qed.
Lemma single_table k h : number_table [k] h -> h = [(k, 1)].
Proof. intros T. apply (unique_table _ _ _ T). apply hist_of_table. exact (hist_repeat k 1 ltac:(lia)). Qed.

Theorem C95_recordings : forall v A mode rs outs, Forall rec_ok rs -> Forall2 (recorded v A mode) rs outs ->
  forall (M : machine) (b : bytes), b = concat outs ->
  (* the number of messages *)
  run_command M "count" b = Ret [LCount (list_sum (map messages rs))] /\
  (* no gaps *)
  run_command M "itertools" b = Ret [LLong 0] /\
  (* a run of at least two messages is a lifecycle *)
  (Forall (fun r => 2 <= messages r) rs ->
     run_command M "iter" b = Ret [LLong (length (filter (fun r => 180001 <=? N.of_nat (messages r))%N rs))] /\
     (exists h, number_table (map seconds rs) h /\ run_command M "histogram_lifecycles" b = Ret (LHeading lifecycle_heading :: buckets h)) /\
     (Forall (fun r => utf8_text (quad_bytes (rec_ecu r))) rs ->
      exists m, recorded_rows rs (fun rs' x => number_table (map seconds rs') (fst x) /\ snd x = list_sum (map messages rs')) m /\
        run_command M "split_lifecycles" b = Ret (LHeading lifecycle_heading :: ecu_lines m))) /\
  (* a run of more than a hundred messages is a continuous period *)
  (Forall (fun r => 101 <= messages r) rs ->
     exists h, number_table (map seconds rs) h /\ run_command M "histogram_timestamp" b = Ret (LHeading continuous_heading :: buckets h)) /\
  (* per ECU the periods are joined to a single one *)
  (Forall (fun r => utf8_text (quad_bytes (rec_ecu r))) rs ->
   exists m, recorded_rows rs (fun rs' x => x = ([(largest (map seconds rs'), 1)], list_sum (map messages rs'))) m /\
     run_command M "split_timestamp" b = Ret (LHeading continuous_heading :: ecu_lines m)).
Proof.
  intros v A mode rs outs F R M b ->. destruct (recorded_file v A mode rs outs F R) as (ess & E & N).
  pose proof (concat_stamped rs ess N) as CS. pose proof (concat_all_stamped rs ess N) as AS.
  assert (TX : Forall (fun r => utf8_text (quad_bytes (rec_ecu r))) rs -> ecus_text (concat ess)).
  { intros T e I. destruct (all_numbered rs ess N e I) as (r & Ir & _ & _ & -> & _). rewrite Forall_forall in T. now apply T. }
  split; [|split; [|split; [|split]]].
  - rewrite (C59_count M _ _ E). now rewrite (concat_count rs ess N).
  - destruct (C63_itertools M _ _ E) as [H _]. rewrite CS in H. rewrite H.
    + do 3 f_equal. enough (G : filter (fun p => stamp_value (fst p) + half_an_hour <=? stamp_value (snd p))%N (neighbours (concat ess)) = []) by now rewrite G.
      assert (G : forall l : list (storage_entry * storage_entry), (forall p, In p l -> (stamp_value (snd p) < stamp_value (fst p) + half_an_hour)%N) ->
        filter (fun p => stamp_value (fst p) + half_an_hour <=? stamp_value (snd p))%N l = []).
      { induction l as [|p l IH]; intros Hl; [reflexivity|]. cbn [filter]. pose proof (Hl p (or_introl eq_refl)).
        destruct (N.leb_spec (stamp_value (fst p) + half_an_hour) (stamp_value (snd p))); [lia|]. apply IH. intros; apply Hl; now right. }
      apply G. clear - N. unfold neighbours.
      enough (K : forall xs e k ys, numbered e k xs -> (forall d, stamp_value (hd d ys) = 0%N \/ ys = []) ->
        (forall p, In p (combine ys (List.tl ys)) -> (stamp_value (snd p) < stamp_value (fst p) + half_an_hour)%N) ->
        forall p, In p (combine (xs ++ ys) (List.tl (xs ++ ys))) -> (stamp_value (snd p) < stamp_value (fst p) + half_an_hour)%N).
      { assert (K2 : (forall p, In p (combine (concat ess) (List.tl (concat ess))) -> (stamp_value (snd p) < stamp_value (fst p) + half_an_hour)%N) /\
          (forall d, stamp_value (hd d (concat ess)) = 0%N \/ concat ess = [])).
        { induction N as [|r x rs ess [H1 H2] N [IH1 IH2]]; [split; [intros p []|now right]|]. cbn [concat]. split.
          - exact (K x _ _ _ H1 IH2 IH1).
          - intros d. destruct x as [|a x]; [exact (IH2 d)|]. left. cbn [app hd]. destruct (numbered_head _ _ _ _ H1) as (_ & Q & _). unfold stamp_value. now rewrite Q. }
        apply K2. }
      induction xs as [|x xs IH]; intros e k ys Hn Z Hy p I; [now apply Hy|].
      destruct (numbered_head _ _ _ _ Hn) as (_ & X2 & _). cbn [app List.tl] in I.
      destruct xs as [|y xs].
      * cbn [app] in I. destruct ys as [|y ys]; [destruct I|]. cbn [combine] in I. destruct I as [<-|I]; [|apply Hy; exact I]. cbn [fst snd].
        destruct (Z y) as [Q|Q]; [|discriminate]. cbn [hd] in Q. rewrite Q. unfold half_an_hour. lia.
      * cbn [app combine] in I. destruct I as [<-|I].
        -- cbn [fst snd]. destruct (numbered_head _ _ _ _ (numbered_tail _ _ _ _ Hn)) as (_ & Y2 & _). unfold stamp_value. rewrite X2, Y2. unfold half_an_hour. lia.
        -- apply (IH e (S k) ys (numbered_tail _ _ _ _ Hn) Z Hy p). exact I.
    + intros a z I. assert (Ia : In a (concat ess)) by (unfold neighbours in I; now apply in_combine_l in I).
      destruct (all_numbered rs ess N a Ia) as (_ & _ & _ & H' & _). exact H'.
  - intros L2.
    assert (SP : map (span stamp_value) ess = map (fun r => 100 * (N.of_nat (messages r) - 1))%N rs).
    { apply (spans rs ess N). intros r es I Hn Hl. rewrite Forall_forall in L2. specialize (L2 r I). rewrite <- Hl in *.
      apply (span_numbered (rec_ecu r)); [exact Hn|destruct es; [cbn in L2; lia|discriminate]]. }
    assert (SS : map (fun g => span stamp_value g / 10000)%N ess = map seconds rs).
    { rewrite <- (map_map (span stamp_value) (fun n => n / 10000)%N), SP, map_map. apply map_ext. intros r. unfold seconds.
      generalize (N.of_nat (messages r) - 1)%N. intros n. clear. change 10000%N with (100 * 100)%N. rewrite <- N.div_div by discriminate. f_equal. rewrite N.mul_comm. now apply N.div_mul. }
    split; [|split].
    + destruct (C63_iter M _ _ E) as [H _]. destruct (H AS) as (runs & Mr & ->). rewrite CS in Mr.
      rewrite (runs_unique not_earlier _ _ _ Mr (cycles rs ess N not_earlier L2 (or_introl eq_refl))). do 3 f_equal.
      transitivity (length (filter (fun n => half_an_hour <=? n)%N (map (span stamp_value) ess))).
      { clear. induction ess as [|g l IH]; [reflexivity|]. cbn [filter map]. destruct (half_an_hour <=? span stamp_value g)%N; cbn [length]; now rewrite IH. }
      rewrite SP. clear - L2. induction L2 as [|r rs Hr L2 IH]; [reflexivity|]. cbn [filter map].
      replace (half_an_hour <=? 100 * (N.of_nat (messages r) - 1))%N with (180001 <=? N.of_nat (messages r))%N by (unfold half_an_hour; lia).
      destruct (180001 <=? N.of_nat (messages r))%N; cbn [length]; now rewrite IH.
    + destruct (C63_histogram_lifecycles M _ _ E) as [H _]. destruct (H AS) as (runs & h & Mr & T & ->). exists h. split; [|reflexivity]. rewrite CS in Mr.
      rewrite (runs_unique same_cycle _ _ _ Mr (cycles rs ess N same_cycle L2 (or_intror eq_refl))) in T. now rewrite SS in T.
    + intros T. destruct (C63_split_lifecycles M _ _ E) as [H _]. rewrite CS in H. destruct (H AS (TX T)) as (m & (R1 & R2 & R3) & ->). exists m. split; [|reflexivity].
      split; [exact R1|]. split; [intros k; rewrite R2; apply (ecus rs ess N)|].
      intros k x I. destruct (R3 k x I) as (L & runs & Mr & Tb). destruct (of_ecu rs ess N k) as (e2 & Q & N'). rewrite Q in *.
      assert (L2' : Forall (fun r => 2 <= messages r) (runs_of k rs)).
      { apply Forall_forall. intros r Ir. apply filter_In in Ir. rewrite Forall_forall in L2. now apply L2. }
      rewrite (runs_unique not_earlier _ _ _ Mr (cycles _ e2 N' not_earlier L2' (or_introl eq_refl))) in Tb. split; [|rewrite L; exact (concat_count _ e2 N')].
      enough (SS' : map (fun g => span stamp_value g / 10000)%N e2 = map seconds (runs_of k rs)) by now rewrite SS' in Tb.
      apply (spans _ e2 N'). intros r es Ir Hn Hl. rewrite Forall_forall in L2'. specialize (L2' r Ir). unfold seconds. rewrite <- Hl in *.
      rewrite (proj1 (span_numbered (rec_ecu r) es Hn ltac:(destruct es; [cbn in L2'; lia|discriminate]))).
      generalize (N.of_nat (length es) - 1)%N. intros n. clear. change 10000%N with (100 * 100)%N. rewrite <- N.div_div by discriminate. f_equal. rewrite N.mul_comm. now apply N.div_mul.
  - intros L. destruct (C62_histogram_timestamp M _ _ E) as (runs & h & Mr & T & ->). exists h. split; [|reflexivity].
    rewrite (runs_unique continuous _ _ _ Mr (periods rs ess N L)) in T.
    enough (SS : map (span secs_of) ess = map seconds rs) by now rewrite SS in T.
    apply (spans rs ess N). intros r es I Hn Hl. rewrite Forall_forall in L. specialize (L r I). unfold seconds. rewrite <- Hl in *.
    apply (span_numbered (rec_ecu r)); [exact Hn|destruct es; [cbn [length] in L; lia|discriminate]].
  - intros T. destruct (C62_split_timestamp M _ _ E) as [H _]. destruct (H (TX T)) as (m & (R1 & R2 & R3) & ->). exists m. split; [|reflexivity].
    split; [exact R1|]. split; [intros k; rewrite R2; apply (ecus rs ess N)|].
    intros k [tb n] I. destruct (R3 k _ I) as (L & runs & Mr & Tb). cbn [fst snd] in *. destruct (of_ecu rs ess N k) as (e2 & Q & N').
    assert (NE : from_ecu k (concat ess) <> []).
    { intros Z. apply (in_map fst) in I. apply R2 in I. apply in_map_iff in I. destruct I as (x & Hx & I).
      assert (In x (from_ecu k (concat ess))) as I' by (unfold from_ecu; apply filter_In; split; [exact I|]; destruct (quad_dec (ecu_of x) k); [reflexivity|cbn [fst] in Hx; congruence]).
      rewrite Z in I'. destruct I'. }
    rewrite Q in *. destruct (drops _ e2 N') as [D Z]. rewrite (joined_runs _ runs Mr D Z NE) in Tb. cbn [map fst snd] in Tb. rewrite N.sub_0_r in Tb.
    apply single_table in Tb. subst tb. f_equal; [|rewrite L; exact (concat_count _ e2 N')].
    rewrite (largest_seconds _ e2 N'); [reflexivity|]. apply Forall_forall. intros r Ir. apply filter_In in Ir. destruct Ir as [_ Ir]. apply andb_prop in Ir. destruct Ir as [_ Ir]. now apply Nat.leb_le.
Qed.
Print Assumptions C95_recordings.

(** Two runs of ECU1 and one of ECU2, one byte per message: 250, 2 and 101 messages. *)
Definition quad_ECU2 : quad := Quad x45 x43 x55 x32.
Definition sample_run (e : quad) (n : nat) : recording :=
  {| rec_ecu := e; rec_app := e; rec_arg := [x31]; rec_size := 1; rec_chunks := repeat [x2a] n; rec_rest := [] |}.
Definition sample_runs : list recording := [sample_run quad_ECU1 250; sample_run quad_ECU2 101; sample_run quad_ECU1 2].
Definition sample_out (r : recording) : bytes :=
  match dd_dlt TakesSome (S (messages r)) addrs Debug [quad_bytes (rec_ecu r); quad_bytes (rec_app r); rec_arg r] (rec_input r) with Ret (out, _) => out | _ => [] end.
Definition sample_file : bytes := concat (map sample_out sample_runs).
Lemma sample_run_ok e n : (N.of_nat n <= 42949673)%N -> rec_ok (sample_run e n).
Proof.
  intros Hn. split; [exists [1%N]; split; [discriminate|]; split; [repeat constructor|]; split; reflexivity|]. split; [cbn; lia|].
  split; [apply Forall_forall; intros c I; apply repeat_spec in I; now subst c|]. split; [cbn; lia|].
  split; [apply Forall_forall; intros c I; apply repeat_spec in I; subst c; apply short_fits; cbn; lia|]. unfold messages, sample_run. cbn [rec_chunks]. now rewrite repeat_length.
Qed.
Example C95_example :
  Forall rec_ok sample_runs /\ Forall2 (recorded TakesSome addrs Debug) sample_runs (map sample_out sample_runs) /\
  Forall (fun r => 2 <= messages r) sample_runs /\ Forall (fun r => utf8_text (quad_bytes (rec_ecu r))) sample_runs /\ map seconds sample_runs = [2; 1; 0]%N /\
  run_command (lab []) "count" sample_file = Ret [LCount 353] /\
  run_command (lab []) "histogram_lifecycles" sample_file = Ret [LHeading lifecycle_heading; LBucket 0 1 1; LBucket 1 2 1; LBucket 2 3 1] /\
  run_command (lab []) "split_timestamp" sample_file =
    Ret [LHeading continuous_heading; LEcu (quad_bytes quad_ECU1) ([(2%N, 1)], 252); LEcu (quad_bytes quad_ECU2) ([(1%N, 1)], 101)].
Proof.
  assert (OK : Forall rec_ok sample_runs) by (do 3 (constructor; [apply sample_run_ok; vm_compute; discriminate|]); constructor).
  split; [exact OK|]. split.
  { revert OK. generalize sample_runs as rs. induction 1 as [|r rs H F IH]; constructor; [|exact IH].
    destruct (recorded_out TakesSome addrs Debug r H) as (ms & R & _). unfold sample_out. rewrite (R (S (messages r)) (le_n _)). exact R. }
  split; [do 3 (constructor; [vm_compute; lia|]); constructor|]. split; [do 3 (constructor; [apply from_utf8_exact; reflexivity|]); constructor|].
  do 3 (split; [vm_compute; reflexivity|]). vm_compute. reflexivity.
Qed.

(** * C96: packing several times and unpacking again *)
(** What a user of the library does to get back the data: join the payloads of the messages. *)
Definition unpack (b : bytes) : outcome bytes :=
  let* es := dltit b in
  let* ps := mapM (fun e => payload (dlt e)) es in
  Ret (concat (map opt_bytes ps)).
Fixpoint unpacks (n : nat) (b : bytes) : outcome bytes :=
  match n with O => Ret b | S n => let* x := unpacks n b in unpack x end.
(** [out] is what comes out of [input | dd_dlt .. | dd_dlt .. | ..]. *)
Fixpoint packed (v : std_version) (A : ctor_addrs) (mode : build_mode) (ls : list level) (input out : bytes) : Prop :=
  match ls with
  | [] => out = input
  | l :: ls => exists mid,
      (forall fuel, length input < fuel ->
         dd_dlt v fuel A mode [quad_bytes (lvl_ecu l); quad_bytes (lvl_app l); lvl_arg l] input =
           Ret (mid, DdDone (N.of_nat (length input / N.to_nat (lvl_size l))))) /\
      packed v A mode ls mid out
  end.
Definition most_messages (mode : build_mode) : N := match mode with Release => 2 ^ 32 - 1 | Debug => 42949673 end%N.

(** Cutting into chunks. *)
Lemma cut_chunks s (b : bytes) : 0 < s -> exists chunks rest, b = concat chunks ++ rest /\ Forall (fun c => length c = s) chunks /\ length rest < s /\ length chunks = length b / s.
Proof.
  intros Hs. remember (length b / s) as n eqn:E. revert b E. induction n as [|n IH]; intros b E.
  - exists [], b. split; [reflexivity|]. split; [constructor|]. split; [|reflexivity]. destruct (Nat.lt_ge_cases (length b) s) as [L|L]; [exact L|].
    exfalso. assert (1 <= length b / s) by (apply Nat.div_le_lower_bound; lia). lia.
  - assert (L : s <= length b).
    { destruct (Nat.lt_ge_cases (length b) s) as [L|L]; [|exact L]. rewrite Nat.div_small in E by exact L. discriminate. }
    destruct (IH (skipn s b)) as (cs & rest & E1 & F & L1 & L2).
    { rewrite skipn_length. replace (length b) with (1 * s + (length b - s)) in E by lia. rewrite Nat.div_add_l in E by lia. lia. }
    exists (firstn s b :: cs), rest. split; [cbn [concat]; rewrite <- app_assoc, <- E1; symmetry; apply firstn_skipn|].
    split; [constructor; [rewrite firstn_length; lia|exact F]|]. split; [exact L1|]. cbn [length]. lia.
Qed.
Lemma chunks_len s (chunks : list bytes) : Forall (fun c => length c = s) chunks -> length (concat chunks) = length chunks * s.
Proof. induction 1 as [|c cs H F IH]; [reflexivity|]. cbn [concat length Nat.mul]. rewrite app_length, IH. lia. Qed.
Lemma firstn_chunks s (chunks : list bytes) (rest : bytes) k : Forall (fun c => length c = s) chunks -> k <= length chunks ->
  concat (firstn k chunks) = firstn (k * s) (concat chunks ++ rest).
Proof.
  intros F. revert k. induction F as [|c cs H F IH]; intros k Hk; [cbn [length] in Hk; replace k with 0 by lia; now rewrite firstn_nil|].
  destruct k as [|k]; [reflexivity|]. cbn [firstn concat length Nat.mul] in *. rewrite (IH k ltac:(lia)), <- app_assoc.
  rewrite (firstn_app (s + k * s) c), H. replace (s + k * s - s) with (k * s) by lia. f_equal. rewrite firstn_all2 by lia. reflexivity.
Qed.
(** One level: the output, and unpacking a beginning of it. *)
Lemma one_level v A mode l input : let s := N.to_nat (lvl_size l) in
  (exists ds, ds <> [] /\ Forall (fun d => (d < 10)%N) ds /\ lvl_arg l = numeral ds /\ decimal ds = lvl_size l) ->
  (1 <= lvl_size l <= 1024)%N -> (N.of_nat (length input / s) <= most_messages mode)%N ->
  exists mid, (forall fuel, length input < fuel ->
      dd_dlt v fuel A mode [quad_bytes (lvl_ecu l); quad_bytes (lvl_app l); lvl_arg l] input = Ret (mid, DdDone (N.of_nat (length input / s)))) /\
    length mid = length input / s * (34 + s) /\
    forall x, x <= length mid -> unpack (firstn x mid) = Ret (firstn (x / (34 + s) * s) input).
Proof.
  intros s SZ Hp HB. assert (Hs : 0 < s) by (unfold s; lia). destruct (cut_chunks s input Hs) as (chunks & rest & E & F & LR & LC).
  assert (F' : Forall (fun c => N.of_nat (length c) = lvl_size l) chunks) by (eapply Forall_impl; [|exact F]; cbn; unfold s; lia).
  assert (FL : Forall line_fits chunks) by (eapply Forall_impl; [|exact F]; cbn; intros c Hc; apply short_fits; unfold s in Hc; lia).
  assert (IB : in_budget mode (length chunks)) by (rewrite LC; unfold in_budget, most_messages in *; destruct mode; [exact HB|lia]).
  pose proof (checked_len mode (lvl_size l) ltac:(lia)) as CL.
  destruct (wires_valid v A (lvl_ecu l) (lvl_app l) (lvl_size l) chunks ltac:(lia) F' FL 0) as [V L].
  set (ms := wires v A (lvl_ecu l) (lvl_app l) (18 + lvl_size l) 0 chunks) in *.
  assert (LM : length ms = length chunks) by apply wires_length. fold s in L.
  assert (Lm : length (concat ms) = length input / s * (34 + s)) by (rewrite (chunks_len (34 + s) ms L), LM, LC; reflexivity).
  exists (concat ms). split; [|split; [exact Lm|]].
  - intros fuel Hf. rewrite E at 1. rewrite (run_spec v A mode _ _ (lvl_size l) (lvl_arg l) [] chunks rest fuel _ SZ ltac:(lia) CL ltac:(unfold s in LR; lia) F' IB).
    + fold ms. now rewrite LC.
    + rewrite LC. apply Nat.le_lt_trans with (length input); [|exact Hf]. apply Nat.div_le_upper_bound; [lia|]. nia.
  - intros x Hx. set (k := x / (34 + s)).
    assert (Hk : k <= length chunks) by (rewrite LC; unfold k; apply Nat.div_le_upper_bound; lia).
    assert (D : dltit (firstn x (concat ms)) = Ret (map entry_of (firstn k ms))).
    { assert (D : dltit_offset (firstn x (concat ms)) = Ret (entries (filter (fun p => (fst p + length (snd p) <=? x)%nat) (with_offsets (@length byte) 0 ms)))).
      { rewrite <- layout_bare, <- placed_bare. apply dltit_offset_chain. exact (layout_chain_cut (bare ms) [] x [] (bare_ok ms V) not_in_nil). }
      rewrite (dltit_map _ _ D). f_equal. unfold entries. rewrite map_map. cbn [snd].
      assert (G : forall l0 k0, Forall (fun m => length m = 34 + s) l0 ->
        map (fun p => entry_of (snd p)) (filter (fun p => (fst p + length (snd p) <=? x)%nat) (with_offsets (@length byte) k0 l0)) = map entry_of (firstn ((x - k0) / (34 + s)) l0)).
      { induction l0 as [|m l0 IH]; intros k0 Fm; [now rewrite firstn_nil|]. inversion Fm as [|a b Hm Fm']; subst a b. cbn [with_offsets filter fst snd]. rewrite Hm.
        destruct (Nat.leb_spec (k0 + (34 + s)) x) as [Q|Q].
        - cbn [map snd]. rewrite IH by exact Fm'. replace (x - k0) with (1 * (34 + s) + (x - (k0 + (34 + s)))) by lia. rewrite Nat.div_add_l by lia. reflexivity.
        - rewrite IH by exact Fm'. rewrite !Nat.div_small by lia. reflexivity. }
      rewrite (G ms 0 L). now rewrite Nat.sub_0_r. }
    unfold unpack. rewrite D. cbn [obind].
    assert (P : forall cs count k, Forall (fun c => N.of_nat (length c) = lvl_size l) cs -> Forall line_fits cs -> (count + N.of_nat (length cs) <= u32_mod)%N ->
      mapM (fun e => payload (dlt e)) (map entry_of (firstn k (wires v A (lvl_ecu l) (lvl_app l) (18 + lvl_size l) count cs))) = Ret (map Some (firstn k cs))).
    { clear - Hp. induction cs as [|c cs IH]; intros count k Fc Fl Hb; [now rewrite !firstn_nil|]. destruct k as [|k]; [reflexivity|].
      inversion Fc as [|a b Hc Fc']; subst a b. inversion Fl as [|a b Hl Fl']; subst a b. cbn [wires firstn map mapM]. rewrite (accepted_fits v c Hl).
      cbn [length] in Hb.
      destruct (wire_entry A (lvl_ecu l) (lvl_app l) (18 + lvl_size l) count c ltac:(unfold u16_mod; lia) ltac:(lia)) as (_ & _ & _ & _ & _ & _ & _ & ->).
      cbn [obind]. rewrite IH by (assumption || lia). reflexivity. }
    pose proof (P chunks 0%N k F' FL ltac:(unfold in_budget, u32_mod in *; destruct mode; lia)) as PM.
    match goal with |- obind ?t _ = _ => change t with (mapM (fun e => payload (dlt e)) (map entry_of (firstn k (wires v A (lvl_ecu l) (lvl_app l) (18 + lvl_size l) 0 chunks)))) end.
    rewrite PM. cbn [obind]. f_equal. rewrite map_map. cbn [opt_bytes]. rewrite map_id.
    rewrite E. now apply firstn_chunks.
Qed.
Lemma kept_le ls : forall len, kept ls len <= len.
Proof.
  induction ls as [|l ls IH]; intros len; [reflexivity|]. cbn [kept]. set (s := N.to_nat (lvl_size l)). specialize (IH (len / s * (34 + s))).
  destruct (Nat.eq_dec s 0) as [->|Hs]; [lia|].
  assert (kept ls (len / s * (34 + s)) / (34 + s) <= len / s) by (apply Nat.div_le_upper_bound; lia).
  assert (len / s * s <= len) by (rewrite Nat.mul_comm; now apply Nat.mul_div_le). nia.
Qed.

Theorem C96_unpack : forall v A mode ls input, packable (most_messages mode) ls (length input) ->
  (exists out, packed v A mode ls input out) /\
  forall out, packed v A mode ls input out ->
    unpacks (length ls) out = Ret (firstn (kept ls (length input)) input) /\
    (no_rest ls (length input) -> unpacks (length ls) out = Ret input).
Proof.
  intros v A mode.
  assert (G : forall ls input, packable (most_messages mode) ls (length input) ->
    (exists out, packed v A mode ls input out) /\
    forall out, packed v A mode ls input out -> unpacks (length ls) out = Ret (firstn (kept ls (length input)) input)).
  { induction ls as [|l ls IH]; intros input P.
    - cbn [packed]. split; [now exists input|]. intros out ->. cbn [kept unpacks length]. now rewrite firstn_all.
    - cbn [packable] in P. destruct P as (SZ & Hp & HB & P). set (s := N.to_nat (lvl_size l)) in *.
      destruct (one_level v A mode l input SZ Hp HB) as (mid & R & Lm & U). fold s in R, Lm, U. rewrite <- Lm in P.
      destruct (IH mid P) as [(out0 & IH1) IH2]. cbn [packed]. split; [exists out0, mid; now split|].
      intros out (mid' & R' & Po). assert (mid' = mid) as ->.
      { specialize (R (S (length input)) (le_n _)). specialize (R' (S (length input)) (le_n _)). fold s in R'. congruence. }
      cbn [length unpacks]. rewrite (IH2 out Po). cbn [obind]. rewrite U by apply kept_le. cbn [kept]. fold s. now rewrite Lm. }
  intros ls input P. destruct (G ls input P) as [G1 G2]. split; [exact G1|]. intros out Po. split; [now apply G2|]. intros NR.
  rewrite (G2 out Po). f_equal. enough (K : forall ls len, packable (most_messages mode) ls len -> no_rest ls len -> kept ls len = len) by (rewrite K; [apply firstn_all|exact P|exact NR]).
  clear. induction ls as [|l ls IH]; intros len P NR; [reflexivity|]. cbn [packable no_rest kept] in *. destruct P as (_ & Hp & _ & P). set (s := N.to_nat (lvl_size l)) in *. destruct NR as [NR1 NR2].
  rewrite (IH _ P NR2). assert (s <> 0) by (unfold s; lia). rewrite Nat.div_mul by lia. pose proof (Nat.div_mod len s ltac:(lia)). lia.
Qed.
Print Assumptions C96_unpack.

(** As in test_gen.sh: "Hello World" four times, 11 bytes per message, then one message of 45 bytes per message, then two of 79
    bytes per message. *)
Definition sample_levels : list level :=
  [{| lvl_ecu := quad_ECU1; lvl_app := quad_ECU1; lvl_arg := [x31; x31]; lvl_size := 11 |};
   {| lvl_ecu := quad_ECU2; lvl_app := quad_ECU2; lvl_arg := [x34; x35]; lvl_size := 45 |};
   {| lvl_ecu := quad_ECU1; lvl_app := quad_ECU2; lvl_arg := [x31; x35; x38]; lvl_size := 158 |}].
Example C96_example : packable (most_messages Debug) sample_levels 44 /\ no_rest sample_levels 44 /\ kept sample_levels 43 = 22 /\
  exists out l, packed TakesSome addrs Debug sample_levels (concat (repeat hello 4)) out /\ dltit_offset out = Ret l /\ map fst l = [0; 192] /\
    unpacks 3 out = Ret (concat (repeat hello 4)).
Proof.
  assert (P : packable (most_messages Debug) sample_levels 44).
  { cbn [packable sample_levels lvl_arg lvl_size]. split; [exists [1; 1]%N; split; [discriminate|]; split; [repeat constructor|]; split; reflexivity|].
    split; [lia|]. split; [vm_compute; discriminate|]. split; [exists [4; 5]%N; split; [discriminate|]; split; [repeat constructor|]; split; reflexivity|].
    split; [lia|]. split; [vm_compute; discriminate|]. split; [exists [1; 5; 8]%N; split; [discriminate|]; split; [repeat constructor|]; split; reflexivity|].
    split; [lia|]. split; [vm_compute; discriminate|exact I]. }
  assert (NR : no_rest sample_levels 44) by (repeat split; vm_compute; reflexivity).
  split; [exact P|]. split; [exact NR|]. split; [vm_compute; reflexivity|].
  destruct (C96_unpack TakesSome addrs Debug sample_levels (concat (repeat hello 4)) P) as [(out & Po) U].
  destruct (U out Po) as [_ U2]. pose proof (U2 NR) as U3.
  destruct Po as (o1 & R1 & o2 & R2 & o3 & R3 & Q). cbn [packed] in Q. subst o3.
  pose proof (R1 60 ltac:(vm_compute; lia)) as C1. vm_compute in C1. injection C1 as C1. subst o1.
  pose proof (R2 400 ltac:(vm_compute; lia)) as C2. vm_compute in C2. injection C2 as C2. subst o2.
  pose proof (R3 1000 ltac:(vm_compute; lia)) as C3. vm_compute in C3. injection C3 as C3. subst out.
  eexists. eexists. split; [cbn [packed]; eexists; split; [exact R1|]; eexists; split; [exact R2|]; eexists; split; [exact R3|reflexivity]|].
  split; [vm_compute; reflexivity|]. split; [reflexivity|]. vm_compute. reflexivity.
Qed.
