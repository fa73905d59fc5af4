(** Property theorems for C34, C45 and C52, beyond the files the partitions cover: whatever is lost, the
    parallel commands report on exactly the front part of the file that the partitions make up, and
    what is lost is shorter than one share. *)
From Coq Require Import String.
From Verif Require Import Base DltModel MatchModel GenModel ToolsModel MainModel Spec CommandSpec BaseFacts DltFacts CodecFacts ParseFacts
  FindFacts IterFacts DltIterFacts LayoutFacts GrepFacts GrepTools PartitionFacts GenFacts GroupFacts MapFacts MergeFacts TreeFacts ToolFacts
  Utf8Facts CommandFacts TotalFacts ExactFacts HelloRegex P_Partition P_Tools P_Commands P_Exact P_Balance.
From Verif Require Samples.
From Coq Require Import Sorted Permutation ZifyBool ZifyNat ZifyN.
Import Samples(m1, m1_valid).
Local Open Scope string_scope.
Local Open Scope list_scope.
Ltac Zify.zify_post_hook ::= idtac.

Lemma dltit_layout parts last : enclosed parts last -> dltit (layout parts last) = Ret (map entry_of (map snd parts)).
Proof. intros EN. destruct (layout_entries parts last EN) as (it & E & <-). now apply dltit_map. Qed.

Lemma partition_kept parts last num l : enclosed parts last -> at_most 65536 parts ->
  partition_from DLT (layout parts last) num = Ret l ->
  exists ess lost others, layout parts last = concat l ++ lost /\ Forall2 (fun s es => dltit s = Ret es) l ess /\
    dltit (concat l) = Ret (concat ess) /\ dltit lost = Ret others /\ dltit (layout parts last) = Ret (concat ess ++ others).
Proof.
  intros EN MX E. destruct (partition_chunks parts last num l EN MX E) as (chunks & parts' & last' & C1 & C2 & C3 & C4 & C5).
  exists (map (fun c => map entry_of (map snd (fst c))) chunks), (layout parts' last'), (map entry_of (map snd parts')).
  assert (ES : concat (map (fun c => map entry_of (map snd (fst c))) chunks) = map entry_of (concat (map (fun c : list (bytes * bytes) * bytes => map snd (fst c)) chunks))).
  { rewrite concat_map, map_map. reflexivity. }
  split; [exact C3|]. split.
  { rewrite C1. clear - C2. induction C2 as [|c cs H _ IH]; [constructor|]. cbn [map]. constructor; [|exact IH]. now apply dltit_layout. }
  split; [|split; [now apply dltit_layout|]].
  - pose proof (partition_between parts last EN MX num l E l [] (eq_sym (app_nil_r l))) as B.
    destruct (enclosed_split parts last (length (concat l)) EN ltac:(rewrite C3, app_length; lia) B) as (ps1 & l1 & ps2 & l2 & S1 & S2 & S3 & S4 & S5 & _).
    rewrite C3, firstn_app, firstn_all, Nat.sub_diag, app_nil_r in S1.
    rewrite C3, skipn_app, skipn_all, Nat.sub_diag in S2. cbn [app skipn] in S2.
    assert (LL : length (map snd ps2) = length (map snd parts')).
    { pose proof (dltit_layout _ _ S5) as D1. rewrite <- S2, (dltit_layout _ _ C4) in D1. injection D1 as D1.
      apply (f_equal (@length _)) in D1. rewrite !map_length in D1. now rewrite !map_length. }
    assert (map snd ps1 = concat (map (fun c : list (bytes * bytes) * bytes => map snd (fst c)) chunks)) as Q.
    2: { rewrite S1, (dltit_layout _ _ S4). apply f_equal. rewrite ES. exact (f_equal (map entry_of) Q). }
    rewrite S3 in C5. apply (f_equal (firstn (length (map snd ps1)))) in C5 as F.
    assert (L1 : length (map snd ps1) = length (concat (map (fun c : list (bytes * bytes) * bytes => map snd (fst c)) chunks))).
    { apply (f_equal (@length _)) in C5. rewrite !app_length in C5. lia. }
    rewrite firstn_app, firstn_all, Nat.sub_diag, app_nil_r in F. rewrite F, L1.
    now rewrite firstn_app, firstn_all, Nat.sub_diag, app_nil_r.
  - rewrite ES, <- map_app, <- C5. now apply dltit_layout.
Qed.

Lemma lost_short parts last num max l lost : enclosed parts last -> at_most 65536 parts -> 0 < num ->
  partition_from DLT (layout parts last) num = Ret l -> layout parts last = concat l ++ lost ->
  at_most (N.of_nat max) parts -> 0 < max <= length (layout parts last) / num -> length lost < length (layout parts last) / num.
Proof.
  intros EN MX Hn E L AM RM. destruct (C106_file parts last num max l EN MX AM RM Hn E) as [(rest & E1 & E2 & _) _].
  rewrite L in E1 at 1. apply app_inv_head in E1. now subst rest.
Qed.

(** C34, whatever is lost: the parallel count is the sequential count of the file without [lost], its
    last part, and that is shorter than a share if no message is longer than a share. *)
Theorem C34_loss_partial : forall (M : machine) parts last l,
  let file := layout parts last in
  fair_sched (sched M) -> 0 < cores M -> enclosed parts last -> at_most 65536 parts ->
  partition_from DLT file (cores M) = Ret l ->
  exists lost, file = concat l ++ lost /\
    (forall max, at_most (N.of_nat max) parts -> 0 < max <= length file / cores M -> length lost < length file / cores M) /\
    (exists n k, run_command M "count" (concat l) = Ret [LCount n] /\ run_command M "count" lost = Ret [LCount k] /\
       run_command M "count" file = Ret [LCount (n + k)] /\
       run_command M "par_count" file = Ret [LSlices (cores M) (length l); LCount n]) /\
    (forall n, run_command M "count_hello_world" (concat l) = Ret [LCount n] ->
       run_command M "par_count_hello_world" file = Ret [LSlices (cores M) (length l); LCount n]) /\
    (run_command M "count_hello_world" (concat l) = Panic -> run_command M "par_count_hello_world" file = Panic).
Proof.
  intros M parts last l file F Hc EN MX E. destruct (partition_kept parts last (cores M) l EN MX E) as (ess & lost & others & L & FE & DK & DL & DF).
  exists lost. split; [exact L|]. split.
  { intros max. now apply (lost_short parts last (cores M) max l lost). }
  split; [|].
  - exists (length (concat ess)), (length others). split; [now apply C59_count|]. split; [now apply C59_count|]. split.
    + rewrite <- app_length. now apply C59_count.
    + replace (length (concat ess)) with (list_sum (map (@length _) ess)).
      * apply (proj1 (C64_parallel_counts M file l "count" "par_count" F E ltac:(cbn; tauto))).
        clear - FE. induction FE as [|s es l ess D FE IH]; [constructor|]. constructor; [now apply C59_count|exact IH].
      * clear. induction ess as [|es ess IH]; [reflexivity|]. cbn [map concat list_sum fold_right]. change (fold_right Nat.add 0) with list_sum. rewrite app_length, IH. reflexivity.
  - destruct (C64_parallel_counts M file l "count_hello_world" "par_count_hello_world" F E ltac:(cbn; tauto)) as [P1 P2].
    destruct (C59_count_hello_world M (concat l) _ DK) as [K1 K2].
    assert (DEC : forall es, (forall e : storage_entry, In e es -> whole e) \/ exists e, In e es /\ ~ whole e).
    { clear. induction es as [|e es [IH|(e' & I & N)]]; [left; intros e []| |right; exists e'; split; [now right|exact N]].
      destruct (whole_dec e) as [W|W]; [left; intros e' [<-|I]; auto|right; exists e; split; [now left|exact W]]. }
    destruct (DEC (concat ess)) as [W|W].
    + destruct (K1 W) as (holds & HS & R). rewrite R. split; [|discriminate]. intros n [= <-].
      replace (length (filter holds (concat ess))) with (list_sum (map (fun es => length (filter holds es)) ess)).
      * apply P1. clear - FE W HS. induction FE as [|s es l ess D FE IH]; [constructor|]. cbn [concat map] in *. constructor; [|apply IH; intros; apply W, in_or_app; now right].
        destruct (proj1 (C59_count_hello_world M s es D) ltac:(intros e I; apply W, in_or_app; now left)) as (holds' & HS' & R). rewrite R. do 3 f_equal. f_equal.
        apply filter_ext. intros e. specialize (HS e). specialize (HS' e). destruct (holds e), (holds' e); intuition congruence.
      * clear. induction ess as [|es ess IH]; [reflexivity|]. cbn [map concat list_sum fold_right]. change (fold_right Nat.add 0) with list_sum. rewrite filter_app, app_length, IH. reflexivity.
    + rewrite (K2 W). split; [discriminate|]. intros _. apply P2.
      * intros s I. clear - FE I DEC. induction FE as [|s' es l ess D FE IH]; [destruct I|]. destruct I as [<-|I]; [|now apply IH].
        destruct (C59_count_hello_world M s' es D) as [Q1 Q2]. destruct (DEC es) as [W|W]; [destruct (Q1 W) as (h & _ & ->)|rewrite (Q2 W)]; discriminate.
      * destruct W as (e & I & N). clear - FE I N. induction FE as [|s' es l ess D FE IH]; [destruct I|]. cbn [concat] in I. apply in_app_or in I. destruct I as [I|I].
        -- exists s'. split; [now left|]. apply (proj2 (C59_count_hello_world M s' es D)). now exists e.
        -- destruct (IH I) as (s & I' & P). exists s. split; [now right|exact P].
Qed.
Print Assumptions C34_loss_partial.

Lemma forall2_offsets (l : list bytes) ess : Forall2 (fun s es => dltit s = Ret es) l ess ->
  Forall2 (fun s es => exists it, dltit_offset s = Ret it /\ map snd it = es) l ess.
Proof.
  induction 1 as [|s es l ess D FE IH]; constructor; [|exact IH]. destruct (dltit_total s) as (it & E & E').
  exists it. split; [exact E|congruence].
Qed.

(** C45, whatever is lost: the parallel histogram shows the periods of the file without [lost], and at
    most one additional period for every border between two parts. *)
Theorem C45_loss_partial : forall (s : scheduler) parts last num l,
  let file := layout parts last in
  fair_sched s -> enclosed parts last -> at_most 65536 parts -> 0 < num ->
  partition_from DLT file num = Ret l ->
  exists lost h h', file = concat l ++ lost /\
    (forall max, at_most (N.of_nat max) parts -> 0 < max <= length file / num -> length lost < length file / num) /\
    continuous_timestamp_histogram (concat l) = Ret h /\
    par_continuous_timestamp_histogram s num file = Ret h' /\
    counts h <= counts h' <= counts h + (length l - 1).
Proof.
  intros s parts last num l file F EN MX Hn E.
  destruct (C42_parallel_histogram s s num file F F Hn) as (l' & hs & h' & E' & FH & P & _ & A & KS & U).
  assert (l' = l) by congruence. subst l'.
  destruct (partition_kept parts last num l EN MX E) as (ess & lost & others & L & FD & DK & DL & DF).
  destruct (dltit_total (concat l)) as (it & Eit & Mit). assert (Q : map snd it = concat ess) by congruence.
  apply forall2_offsets in FD as FE. destruct (continuous_spec _ it Eit) as (h & Eh & H).
  exists lost, h, h'. split; [exact L|]. split; [intros max; now apply (lost_short parts last num max l lost)|]. split; [exact Eh|]. split; [exact P|].
  destruct (hist_of_totals _ _ H) as [C _]. rewrite C. unfold durations. rewrite map_length, Q.
  rewrite (counts_sum N.eq_dec h' hs (ascending_nodup N.compare N_order _ A) KS U).
  assert (X : map counts hs = map (runs secs_rel) ess).
  { clear - FH FE. revert hs FH. induction FE as [|sl es l ess (it & E1 & E2) FE IH]; intros hs FH; inversion FH as [|? h0 ? hs' X1 X2]; subst; [reflexivity|].
    cbn [map]. f_equal; [|now apply IH]. destruct (continuous_spec sl it E1) as (h1 & E3 & H1). assert (h1 = h0) by congruence. subst h1.
    destruct (hist_of_totals _ _ H1) as [C _]. rewrite C. unfold durations, runs. now rewrite map_length. }
  rewrite X. pose proof (runs_concat secs_rel ess secs_rel_refl) as [R1 R2]. unfold runs in R1 at 1, R2 at 2. split; [exact R1|].
  replace (length l) with (length ess); [exact R2|]. clear - FE. induction FE; cbn; congruence.
Qed.
Print Assumptions C45_loss_partial.

Lemma ecu_messages_of fuel b es m : length b + 5 <= fuel -> dltit b = Ret es -> timestamp_splitit fuel b = Ret m ->
  forall k, ecu_messages k m = length (from_ecu k es).
Proof.
  intros Hf D Em k. unfold from_ecu. destruct fuel as [|f]; [lia|]. destruct (C43_split_timestamp b f _ m D Em) as (A0 & K0 & X0 & _). unfold ecu_messages.
  set (tab := map (fun kx : quad * (list (N * nat) * nat) => (fst kx, snd (snd kx))) m).
  assert (FT : map fst tab = map fst m) by (unfold tab; rewrite map_map; reflexivity).
  destruct (in_dec quad_dec k (map fst m)) as [I|NI].
  - assert (I' := I). rewrite <- FT in I'. apply in_map_iff in I'. destruct I' as ([k' n] & Ek & I'). cbn in Ek. subst k'.
    assert (Hn' : n = length (filter (fun e => if quad_dec (ecu_of e) k then true else false) es)).
    { unfold tab in I'. apply in_map_iff in I'. destruct I' as ([k' x] & [= <- <-] & I'). exact (X0 _ _ I'). }
    rewrite <- Hn'. rewrite (under_tally quad_cmp quad_order) by (unfold sorted; rewrite FT; exact A0). unfold tally.
    apply (get_in quad_cmp quad_order) in I'; [now rewrite I'|]. unfold sorted. rewrite FT. exact A0.
  - rewrite under_absent by now rewrite FT. symmetry.
    destruct (filter (fun e => if quad_dec (ecu_of e) k then true else false) es) as [|e es'] eqn:Fe; [reflexivity|].
    exfalso. apply NI, K0. assert (I : In e (e :: es')) by now left. rewrite <- Fe in I. apply filter_In in I. destruct I as [I1 I2].
    destruct (quad_dec (ecu_of e) k) as [<-|]; [now apply in_map|discriminate].
Qed.

(** C52, whatever is lost: the parallel table has the messages of every ECU in the file without [lost]. *)
Theorem C52_loss_partial : forall (s : scheduler) parts last num fuel l,
  let file := layout parts last in
  fair_sched s -> enclosed parts last -> at_most 65536 parts -> 0 < num -> length file + 5 <= fuel ->
  partition_from DLT file num = Ret l ->
  exists lost m x m', file = concat l ++ lost /\
    (forall max, at_most (N.of_nat max) parts -> 0 < max <= length file / num -> length lost < length file / num) /\
    timestamp_splitit fuel (concat l) = Ret m /\ timestamp_splitit fuel lost = Ret x /\
    par_timestamp_splitit fuel s num file = Ret m' /\
    forall k, ecu_messages k m' = ecu_messages k m /\
      (exists m0, timestamp_splitit fuel file = Ret m0 /\ ecu_messages k m0 = ecu_messages k m + ecu_messages k x).
Proof.
  intros s parts last num fuel l file F EN MX Hn Hf E.
  destruct (C42_parallel_split s s num fuel _ F F Hn Hf) as (l' & ms & m' & E' & FM & P & _ & A & U & _).
  assert (l' = l) by congruence. subst l'.
  destruct (partition_kept parts last num l EN MX E) as (ess & lost & others & L & FD & DK & DL & DF). fold file in L, DF.
  assert (LL : length file = length (concat l) + length lost) by (rewrite L; apply app_length).
  destruct (tsplit_ret fuel (concat l) ltac:(lia)) as [m Em]. destruct (tsplit_ret fuel lost ltac:(lia)) as [x Ex].
  destruct (tsplit_ret fuel file ltac:(lia)) as [m0 Em0].
  exists lost, m, x, m'. split; [exact L|]. split; [intros max; now apply (lost_short parts last num max l lost)|].
  split; [exact Em|]. split; [exact Ex|]. split; [exact P|]. intros k. split.
  - rewrite U, (ecu_messages_of fuel (concat l) _ m ltac:(lia) DK Em k).
    assert (LS : forall sl, In sl l -> length sl + 5 <= fuel).
    { intros sl I. apply in_split in I. destruct I as (a & z & ->). rewrite concat_app in LL. cbn [concat] in LL. rewrite !app_length in LL. lia. }
    clear - FM FD LS. revert ms FM.
    induction FD as [|sl es l ess D FD IH]; intros ms FM; inversion FM as [|? m0 ? ms' X1 X2]; subst; [reflexivity|].
    cbn [map list_sum fold_right concat]. change (fold_right Nat.add 0) with list_sum. unfold from_ecu. rewrite filter_app, app_length. fold (from_ecu k es). fold (from_ecu k (concat ess)).
    rewrite (ecu_messages_of fuel sl _ m0 ltac:(apply LS; now left) D X1 k). f_equal. apply IH; [|exact X2]. intros sl' I. apply LS. now right.
  - exists m0. split; [exact Em0|]. rewrite (ecu_messages_of fuel file _ m0 ltac:(lia) DF Em0 k), (ecu_messages_of fuel (concat l) _ m ltac:(lia) DK Em k), (ecu_messages_of fuel lost _ x ltac:(lia) DL Ex k).
    unfold from_ecu. rewrite filter_app, app_length. reflexivity.
Qed.
Print Assumptions C52_loss_partial.
(** Eight messages on three cores: two are lost, and the bound on what is lost applies. *)
Example loss_example : exists l lost, enclosed (map (fun m => ([], m)) (repeat m1 8)) [] /\ at_most 65536 (map (fun m => ([], m)) (repeat m1 8)) /\
  partition_from DLT (layout (map (fun m => ([], m)) (repeat m1 8)) []) 3 = Ret l /\
  layout (map (fun m => ([], m)) (repeat m1 8)) [] = concat l ++ lost /\ lost <> [] /\
  at_most (N.of_nat (length m1)) (map (fun m => ([], m)) (repeat m1 8)) /\ 0 < length m1 <= length (layout (map (fun m => ([], m)) (repeat m1 8)) []) / 3.
Proof.
  eexists. exists (m1 ++ m1). split.
  { apply enclosed_check; [|vm_compute; reflexivity]. apply Forall_forall. intros p I. apply in_map_iff in I. destruct I as (m & <- & I). apply repeat_spec in I. subst. exact m1_valid. }
  split. { apply Forall_forall. intros p I. apply in_map_iff in I. destruct I as (m & <- & I). apply repeat_spec in I. subst. vm_compute. discriminate. }
  split; [vm_compute; reflexivity|]. split; [vm_compute; reflexivity|]. split; [discriminate|].
  split. { apply Forall_forall. intros p I. apply in_map_iff in I. destruct I as (m & <- & I). apply repeat_spec in I. subst. apply N.le_refl. }
  vm_compute. split; repeat constructor.
Qed.
