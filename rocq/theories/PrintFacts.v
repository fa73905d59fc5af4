(** Facts about the characters that ripdlt prints (PrintModel.v, PrintSpec.v). *)
From Coq Require Import String Permutation.
From Verif Require Import Base BaseFacts DltModel MatchModel GenModel ToolsModel MainModel Spec PrintModel PrintSpec.
Local Open Scope string_scope. Local Open Scope list_scope.

(** * Numerals *)
Lemma decimal_snoc ds d : decimal (ds ++ [d]) = (10 * decimal ds + d)%N.
Proof. unfold decimal. now rewrite fold_left_app. Qed.
Lemma numeral_app a b : numeral (a ++ b) = numeral a ++ numeral b.
Proof. apply map_app. Qed.
Lemma dec_loop_spec : forall f n acc, (n < 2 ^ N.of_nat f)%N ->
  exists ds, Forall (fun d => (d < 10)%N) ds /\ dec_loop (S f) n acc = numeral ds ++ acc /\ decimal ds = n /\
             (ds = [0%N] \/ exists d ds', ds = d :: ds' /\ d <> 0%N).
Proof.
  induction f as [|f IH]; intros n acc Hn; cbn [dec_loop]; cbv zeta; destruct (N.ltb_spec n 10) as [L|L].
  - exists [n]. split; [constructor; [exact L|constructor]|]. split; [cbn [numeral map app]; now rewrite N.mod_small|]. split; [reflexivity|].
    change (2 ^ N.of_nat 0)%N with 1%N in Hn. left. f_equal. lia.
  - change (2 ^ N.of_nat 0)%N with 1%N in Hn. lia.
  - exists [n]. split; [constructor; [exact L|constructor]|]. split; [cbn [numeral map app]; now rewrite N.mod_small|]. split; [reflexivity|].
    destruct (N.eq_dec n 0) as [->|NZ]; [now left|right; exists n, []; now split].
  - assert (P : (2 ^ N.of_nat (S f) = 2 * 2 ^ N.of_nat f)%N) by (rewrite Nat2N.inj_succ; apply N.pow_succ_r'). rewrite P in Hn.
    destruct (IH (n / 10)%N (u8 (48 + n mod 10) :: acc)) as (ds & F & E & V & H).
    { apply N.div_lt_upper_bound; lia. }
    exists (ds ++ [(n mod 10)%N]). assert (ML : (n mod 10 < 10)%N) by (apply N.mod_lt; lia). split; [|split; [|split]].
    + apply Forall_app. split; [exact F|]. constructor; [exact ML|constructor].
    + cbn [dec_loop] in E. cbv zeta in E. rewrite E, numeral_app, <- app_assoc. reflexivity.
    + rewrite decimal_snoc, V. symmetry. apply N.div_mod. lia.
    + right. destruct H as [->|(d & ds' & -> & NZ)].
      * change (decimal [0%N]) with 0%N in V. assert (1 <= n / 10)%N by (apply N.div_le_lower_bound; lia). lia.
      * exists d, (ds' ++ [(n mod 10)%N]). now split.
Qed.
Lemma size_bound n : (n < 2 ^ N.of_nat (N.size_nat n))%N.
Proof.
  destruct n as [|p]; [reflexivity|]. cbn [N.size_nat]. induction p as [p IH|p IH|]; cbn [Pos.size_nat].
  - rewrite Nat2N.inj_succ, N.pow_succ_r'. lia.
  - rewrite Nat2N.inj_succ, N.pow_succ_r'. lia.
  - reflexivity.
Qed.
Lemma dec_numeral n : numeral_of n (dec n).
Proof.
  destruct (dec_loop_spec (N.size_nat n) n [] (size_bound n)) as (ds & F & E & V & H). exists ds. unfold dec. rewrite E, app_nil_r. now repeat split.
Qed.
Lemma dec_nat_numeral n : numeral_of_nat n (dec_nat n).
Proof. apply dec_numeral. Qed.

(** Digits, and where a numeral ends. *)
Definition digit (c : byte) : Prop := (48 <= bN c < 58)%N.
Lemma numeral_digits ds : Forall (fun d => (d < 10)%N) ds -> Forall digit (numeral ds).
Proof.
  induction 1 as [|d ds H F IH]; [constructor|]. constructor; [|exact IH]. unfold digit. rewrite bN_u8, N.mod_small by lia. lia.
Qed.
Lemma digits_prefix : forall a b c c' r r', Forall digit a -> Forall digit b -> ~ digit c -> ~ digit c' ->
  a ++ c :: r = b ++ c' :: r' -> a = b /\ c :: r = c' :: r'.
Proof.
  induction a as [|x a IH]; intros [|y b] c c' r r' FA FB NC NC' E.
  - now split.
  - injection E as -> _. inversion FB; contradiction.
  - injection E as <- _. inversion FA; contradiction.
  - injection E as -> E. inversion FA; inversion FB; subst. destruct (IH b c c' r r') as [-> Q]; try assumption. now split.
Qed.
Lemma numeral_inj : forall ds ds', Forall (fun d => (d < 10)%N) ds -> Forall (fun d => (d < 10)%N) ds' -> numeral ds = numeral ds' -> ds = ds'.
Proof.
  induction ds as [|d ds IH]; intros [|d' ds'] F F' E; try discriminate; [reflexivity|].
  change (u8 (48 + d) :: numeral ds = u8 (48 + d') :: numeral ds') in E.
  assert (E1 : u8 (48 + d) = u8 (48 + d')) by congruence. assert (E2 : numeral ds = numeral ds') by congruence. clear E. inversion F as [|? ? Hd Fr]; inversion F' as [|? ? Hd' Fr']; subst. f_equal; [|now apply IH].
  apply (f_equal bN) in E1. rewrite !bN_u8, !N.mod_small in E1 by lia. lia.
Qed.
Lemma numeral_prefix n n' t t' c c' r r' : numeral_of n t -> numeral_of n' t' -> ~ digit c -> ~ digit c' ->
  t ++ c :: r = t' ++ c' :: r' -> n = n' /\ c :: r = c' :: r'.
Proof.
  intros (ds & F & -> & <- & _) (ds' & F' & -> & <- & _) NC NC' E.
  destruct (digits_prefix _ _ _ _ _ _ (numeral_digits _ F) (numeral_digits _ F') NC NC' E) as [E1 E2]. split; [|exact E2]. f_equal. now apply numeral_inj.
Qed.
Lemma numeral_nonempty n t : numeral_of n t -> exists c r, t = c :: r /\ digit c.
Proof.
  intros (ds & F & -> & _ & H). pose proof (numeral_digits _ F) as D. destruct H as [->|(d & ds' & -> & _)]; (do 2 eexists; split; [reflexivity|]; inversion D; subst; assumption).
Qed.
(** Numerals are unique. *)
Lemma decimal_big d ds : d <> 0%N -> (1 <= decimal (d :: ds))%N.
Proof.
  intros NZ. unfold decimal. cbn [fold_left].
  assert (G : forall l a, (1 <= a)%N -> (1 <= fold_left (fun n d => 10 * n + d) l a)%N).
  { induction l as [|x l IH]; intros a Ha; cbn [fold_left]; [exact Ha|]. apply IH. lia. }
  apply G. lia.
Qed.
Lemma numeral_unique n t t' : numeral_of n t -> numeral_of n t' -> t = t'.
Proof.
  intros (ds & F & -> & V & H) (ds' & F' & -> & V' & H'). f_equal. revert n ds' F F' V V' H H'.
  induction ds as [|d ds IH] using rev_ind; intros n ds' F F' V V' H H'.
  { destruct H as [H|(? & ? & H & _)]; discriminate. }
  destruct ds' as [|d' ds' _] using rev_ind.
  { destruct H' as [H'|(? & ? & H' & _)]; discriminate. }
  rewrite decimal_snoc in V, V'. apply Forall_app in F, F'. destruct F as [F Fd], F' as [F' Fd']. inversion Fd; inversion Fd'; subst.
  assert (Q : decimal ds = decimal ds' /\ d = d') by lia. destruct Q as [Q ->]. f_equal.
  assert (Z : forall l x, (l ++ [x] = [0%N] \/ exists d ds', l ++ [x] = d :: ds' /\ d <> 0%N) -> l = [] \/ (1 <= decimal l)%N /\ exists d ds', l = d :: ds' /\ d <> 0%N).
  { intros l x [E|(d & l' & E & NZ)].
    - left. destruct l as [|? [|? ?]]; [reflexivity|discriminate|discriminate].
    - destruct l as [|y l]; [now left|]. injection E as -> _. right. split; [now apply decimal_big|eauto]. }
  destruct (Z _ _ H) as [->|[B1 HH1]], (Z _ _ H') as [->|[B2 HH2]]; [reflexivity| | |].
  - change (decimal []) with 0%N in Q. lia.
  - change (decimal []) with 0%N in Q. lia.
  - apply (IH (decimal ds)); try assumption; try reflexivity; try (now symmetry); now right.
Qed.

(** * Texts *)
Lemma lit_app a b : lit (a ++ b)%string = lit a ++ lit b.
Proof. unfold lit. induction a as [|c a IH]; [reflexivity|]. cbn. f_equal. exact IH. Qed.
Lemma join_ascii l : join_args l = ascii (String.concat " " l).
Proof.
  induction l as [|s l IH]; [reflexivity|]. destruct l as [|s' l]; [reflexivity|].
  change (join_args (s :: s' :: l)) with (lit s ++ lit " " ++ join_args (s' :: l)). rewrite IH.
  change (String.concat " " (s :: s' :: l)) with (s ++ " " ++ String.concat " " (s' :: l))%string.
  unfold ascii. fold (lit (s ++ " " ++ String.concat " " (s' :: l))%string). now rewrite !lit_app.
Qed.
Lemma println_all_out ls next : println_all ls next = {| out := lines_text ls ++ out next; how := how next |}.
Proof.
  induction ls as [|l ls IH]; [now destruct next|]. cbn [println_all]. rewrite IH. unfold println, lines_text. cbn [out how map concat]. now rewrite <- !app_assoc.
Qed.
Lemma entries_appear m : entries_text m (debug_entries m).
Proof.
  induction m as [|[k v] m IH]; [constructor|]. destruct m as [|kv m].
  - apply one_entry; [apply dec_numeral|apply dec_nat_numeral].
  - change (debug_entries ((k, v) :: kv :: m)) with (dec k ++ lit ": " ++ dec_nat v ++ lit ", " ++ debug_entries (kv :: m)).
    apply more_entries; [apply dec_numeral|apply dec_nat_numeral|discriminate|exact IH].
Qed.
Ltac numerals := repeat first [apply dec_numeral | apply dec_nat_numeral].
Lemma bucket_appears cmd h : Forall2 (appears cmd) (print_buckets h) (map bucket_text h).
Proof. induction h as [|[k v] h IH]; constructor; [|exact IH]. apply appears_bucket; numerals. Qed.
Lemma size_appears cmd h : Forall2 (appears cmd) (map (fun kv => LSize (fst kv) (snd kv) (fst kv * N.of_nat (snd kv) / 1024)%N) h) (map size_text h).
Proof. induction h as [|[k v] h IH]; constructor; [|exact IH]. apply appears_size; numerals. Qed.
Lemma offset_appears cmd h : Forall2 (appears cmd) (print_offsets h) (map offset_text h).
Proof. induction h as [|[k v] h IH]; constructor; [|exact IH]. apply appears_offset; numerals. Qed.
Lemma type_appears cmd h : Forall2 (appears cmd) (map (fun kv => LType (fst kv) (snd kv)) h) (map type_text h).
Proof.
  induction h as [|[[vb t] n] h IH]; constructor; [|exact IH]. cbn [fst snd].
  assert (E : type_text (vb, t, n) = ascii (if vb then "(true, " else "(false, ") ++ ascii (type_name t) ++ ascii "): " ++ dec_nat n).
  { unfold type_text, debug_info. cbn [fst snd].
    destruct vb; (destruct t as [[[]|[]|[]|[]]|]; cbn [debug_type type_name]; unfold ascii; repeat rewrite <- app_assoc; reflexivity). }
  rewrite E. apply appears_type. numerals.
Qed.
Lemma slices_appear cmd n k : appears cmd (LSlices n k) (slices_text n k).
Proof. apply appears_slices; numerals. Qed.
Lemma long_appears cmd r : appears cmd (LLong r) (long_text r).
Proof. unfold long_text. change (dec (min_time_dms / 10000) ++ lit "s") with (ascii "1800s"). apply (appears_long cmd r (dec_nat r)). numerals. Qed.
Lemma longs_appear cmd rs : Forall2 (appears cmd) (map LLong rs) (map long_text rs).
Proof. induction rs; constructor; [apply long_appears|assumption]. Qed.
Definition ecu_text (kv : quad * (list (N * nat) * nat)) : bytes := quad_bytes (fst kv) ++ lit " #lifecycles: " ++ debug_row (snd kv).
Lemma ecu_appears cmd m : Forall2 (appears cmd) (map (fun kx => LEcu (quad_bytes (fst kx)) (snd kx)) m) (map ecu_text m).
Proof.
  induction m as [|[k [h n]] m IH]; constructor; [|exact IH]. cbn [fst snd].
  assert (E : ecu_text (k, (h, n)) = quad_bytes k ++ ascii " #lifecycles: ({" ++ debug_entries h ++ ascii "}, " ++ dec_nat n ++ ascii ")").
  { unfold ecu_text, debug_row. cbn [fst snd]. rewrite app_assoc. change (ascii " #lifecycles: ({") with (lit " #lifecycles: " ++ lit "({"). now rewrite <- !app_assoc. }
  rewrite E. apply appears_ecu; [apply entries_appear|numerals].
Qed.

(** The loop over ECUs prints the rows up to the first id that is not text. *)
Lemma ecus_ret m next ls : print_ecus m = Ret ls ->
  ls = map (fun kx => LEcu (quad_bytes (fst kx)) (snd kx)) m /\
  println_ecus m next = {| out := lines_text (map ecu_text m) ++ out next; how := how next |}.
Proof.
  revert ls. induction m as [|[k v] m IH]; intros ls; cbn [print_ecus mapM].
  - intros E. injection E as <-. split; [reflexivity|]. now destruct next.
  - unfold print_ecus in *. cbn [mapM fst snd println_ecus]. destruct (from_utf8_ok (quad_bytes k)); cbn [obind compute]; [|discriminate].
    destruct (mapM _ m) as [ls'| |] eqn:E; cbn [obind]; [|discriminate|discriminate]. intros Q. injection Q as <-.
    destruct (IH ls' eq_refl) as [-> ->]. split; [reflexivity|]. unfold println, lines_text. cbn [out how map concat]. f_equal.
    change (ecu_text (k, v)) with (quad_bytes k ++ lit " #lifecycles: " ++ debug_row v). now rewrite <- !app_assoc.
Qed.
Lemma ecus_panic m next : print_ecus m = Panic -> exists pre k v post, m = pre ++ (k, v) :: post /\
  (forall k', In k' (map fst pre) -> from_utf8_ok (quad_bytes k') = true) /\ from_utf8_ok (quad_bytes k) = false /\
  println_ecus m next = {| out := lines_text (map ecu_text pre); how := Crashed |}.
Proof.
  induction m as [|[k v] m IH]; [discriminate|]. unfold print_ecus in *. cbn [mapM fst snd println_ecus].
  destruct (from_utf8_ok (quad_bytes k)) eqn:U; cbn [obind compute].
  - destruct (mapM _ m) as [ls'| |] eqn:E; cbn [obind]; [discriminate| |discriminate]. intros _.
    destruct (IH eq_refl) as (pre & k0 & v0 & post & -> & T & NT & ->). exists ((k, v) :: pre), k0, v0, post. split; [reflexivity|]. split; [|split; [exact NT|]].
    + intros k' [<-|I]; [exact U|now apply T].
    + unfold println, lines_text. cbn [out how map concat]. f_equal. change (ecu_text (k, v)) with (quad_bytes k ++ lit " #lifecycles: " ++ debug_row v). now rewrite <- !app_assoc.
  - intros _. exists [], k, v, m. split; [reflexivity|]. split; [intros k' []|]. split; [exact U|reflexivity].
Qed.
Lemma ecus_nofuel m : print_ecus m <> Fuel.
Proof.
  unfold print_ecus. induction m as [|[k v] m IH]; cbn [mapM fst snd]; [discriminate|]. destruct (from_utf8_ok _); cbn [obind]; [|discriminate].
  destruct (mapM _ m); cbn [obind]; [discriminate|discriminate|congruence].
Qed.

(** * Whole commands *)
Definition prints (cmd : string) (r : run) (ls : list line) : Prop :=
  how r = Finished /\ exists ts, out r = lines_text ts /\ Forall2 (appears cmd) ls ts.
Lemma prints_finished cmd : prints cmd finished [].
Proof. split; [reflexivity|]. exists []. split; [reflexivity|constructor]. Qed.
Lemma prints_line cmd l t next ls : appears cmd l t -> prints cmd next ls -> prints cmd (println t next) (l :: ls).
Proof.
  intros A (H & ts & E & F). split; [exact H|]. exists (t :: ts). split; [|now constructor]. unfold println, lines_text. cbn [out map concat].
  rewrite E. now rewrite <- app_assoc.
Qed.
Lemma prints_all cmd ls1 ts1 next ls : Forall2 (appears cmd) ls1 ts1 -> prints cmd next ls -> prints cmd (println_all ts1 next) (ls1 ++ ls).
Proof. intros F P. induction F; cbn [println_all app]; [exact P|]. now apply prints_line. Qed.
Lemma prints_all_end cmd ls ts : Forall2 (appears cmd) ls ts -> prints cmd (println_all ts finished) ls.
Proof. intros F. rewrite <- (app_nil_r ls). apply prints_all; [exact F|apply prints_finished]. Qed.
Lemma prints_ecus cmd m next ls ls' : print_ecus m = Ret ls -> prints cmd next ls' -> prints cmd (println_ecus m next) (ls ++ ls').
Proof.
  intros E (H & ts & Q & F). destruct (ecus_ret m next ls E) as [-> ->]. split; [exact H|]. exists (map ecu_text m ++ ts). cbn [out]. rewrite Q.
  split; [unfold lines_text; now rewrite map_app, concat_app|]. apply Forall2_app; [apply ecu_appears|exact F].
Qed.
Lemma ret_inv {A B} (o : outcome A) (f : A -> outcome B) r : obind o f = Ret r -> exists a, o = Ret a /\ f a = Ret r.
Proof. destruct o; cbn [obind]; [eauto|discriminate|discriminate]. Qed.
Ltac bind_ret H := let a := fresh "a" in let E := fresh "E" in apply ret_inv in H; destruct H as (a & E & H); try rewrite E; cbn [compute].

Lemma slices_ret M b s : slices_line M b = Ret s -> exists l, partition_from DLT b (cores M) = Ret l /\ s = LSlices (cores M) (length l).
Proof. unfold slices_line. intros H. bind_ret H. injection H as <-. eauto. Qed.
Lemma par_ret (C : console) cmd f b next ls : (let* s := slices_line C b in let* r := multithreaded (sched C) (cores C) f b in Ret [s; LCount r]) = Ret ls ->
  (forall r, prints cmd (next r) [LCount r]) -> prints cmd (multithreaded_text C f b next) ls.
Proof.
  intros H N. unfold multithreaded_text, parallel. apply ret_inv in H. destruct H as (s & Es & H). destruct (slices_ret C b s Es) as (l & El & ->).
  apply ret_inv in H. destruct H as (r & Er & H). injection H as <-. unfold multithreaded in Er. rewrite El in *. cbn [obind compute] in *.
  apply ret_inv in Er. destruct Er as (rs & Em & Er). rewrite Em. cbn [compute]. injection Er as <-. apply prints_line; [apply slices_appear|apply N].
Qed.
Lemma count_appears cmd r next : appears cmd (LCount r) (dec_nat r ++ next) -> prints cmd (println (dec_nat r ++ next) finished) [LCount r].
Proof. intros A. apply prints_line; [exact A|apply prints_finished]. Qed.

Lemma mapM_all {A B} (f : A -> outcome B) l rs : mapM f l = Ret rs -> map f l = map Ret rs.
Proof.
  revert rs. induction l as [|x l IH]; intros rs; cbn [mapM map]; intros H; [injection H as <-; reflexivity|].
  apply ret_inv in H. destruct H as (a & -> & H). apply ret_inv in H. destruct H as (l' & El & H). injection H as <-. cbn [map]. f_equal. now apply IH.
Qed.

Ltac dispatch cmd := repeat match goal with
  | |- context [if (cmd =? ?s)%string then _ else _] => destruct (String.eqb_spec cmd s) as [->|_]
  end.

Ltac same_order := eexists; split; [left; reflexivity|].
Lemma command_ret (C : console) cmd b ls : fair_arrival (arrival C) -> run_command C cmd b = Ret ls ->
  exists ls', same_lines cmd ls ls' /\ prints cmd (command_text C cmd b) ls'.
Proof.
  intros [FA _]. unfold run_command, command_text. cbv zeta. dispatch cmd; intros H.
  - same_order. bind_ret H. injection H as <-. apply prints_line; [apply appears_heading|].
    apply prints_all_end, bucket_appears.
  - same_order. bind_ret H. apply ret_inv in H. destruct H as (l & El & H). injection H as <-. apply prints_line; [apply appears_heading|].
    rewrite <- (app_nil_r l). apply prints_ecus; [exact El|apply prints_finished].
  - same_order. bind_ret H. apply ret_inv in H. destruct H as (l & El & H). injection H as <-. apply prints_line; [apply appears_heading|].
    rewrite <- (app_nil_r l). apply prints_ecus; [exact El|apply prints_finished].
  - same_order. apply ret_inv in H. destruct H as (s & Es & H). destruct (slices_ret C b s Es) as (l & El & ->).
    apply ret_inv in H. destruct H as (m & Em & H). apply ret_inv in H. destruct H as (l' & El' & H). injection H as <-.
    unfold par_timestamp_splitit in Em. unfold parallel. rewrite El in *. cbn [obind compute] in *.
    apply ret_inv in Em. destruct Em as (ms & Ems & Em). rewrite Ems. injection Em as <-. cbn [compute].
    apply prints_line; [apply appears_heading|]. apply prints_line; [apply slices_appear|].
    rewrite <- (app_nil_r l'). apply prints_ecus; [exact El'|apply prints_finished].
  - same_order. bind_ret H. injection H as <-. apply prints_line; [apply appears_heading|].
    apply prints_all_end, bucket_appears.
  - same_order. apply ret_inv in H. destruct H as (s & Es & H). destruct (slices_ret C b s Es) as (l & El & ->).
    apply ret_inv in H. destruct H as (m & Em & H). injection H as <-.
    unfold par_continuous_timestamp_histogram in Em. unfold parallel. rewrite El in *. cbn [obind compute] in *.
    apply ret_inv in Em. destruct Em as (ms & Ems & Em). rewrite Ems. injection Em as <-. cbn [compute].
    apply prints_line; [apply appears_heading|]. apply prints_line; [apply slices_appear|].
    apply prints_all_end, bucket_appears.
  - same_order. bind_ret H. injection H as <-. apply prints_line; [apply appears_heading|].
    apply prints_all_end, type_appears.
  - same_order. bind_ret H. injection H as <-. apply prints_line; [apply appears_heading|]. apply prints_all; [apply size_appears|].
    apply prints_line; [|apply prints_finished]. apply (appears_total "histogram_payload_size" _ (dec _)). numerals.
  - same_order. bind_ret H. injection H as <-. apply prints_line; [apply appears_heading|]. apply prints_all; [apply size_appears|].
    apply prints_line; [|apply prints_finished]. apply (appears_total "histogram_message_size" _ (dec _)). numerals.
  - same_order. bind_ret H. injection H as <-. apply count_appears. apply (appears_count "count"). numerals.
  - same_order. apply (par_ret C _ _ _ _ _ H). intros r. apply count_appears. apply (appears_count "par_count"). numerals.
  - same_order. bind_ret H. injection H as <-. apply prints_line; [apply appears_heading|].
    apply prints_all_end, offset_appears.
  - same_order. bind_ret H. injection H as <-. apply count_appears. apply (appears_count "count_hello_world"). numerals.
  - same_order. bind_ret H. injection H as <-. apply count_appears. apply (appears_count "count_hello_world_raw"). numerals.
  - same_order. bind_ret H. injection H as <-. apply count_appears. apply (appears_count "count_hello_world_grepit"). numerals.
  - same_order. apply (par_ret C _ _ _ _ _ H). intros r. apply count_appears. apply (appears_count "par_count_hello_world"). numerals.
  - same_order. apply (par_ret C _ _ _ _ _ H). intros r. apply count_appears. apply (appears_count "par_count_hello_world_raw"). numerals.
  - same_order. apply (par_ret C _ _ _ _ _ H). intros r. apply count_appears. apply (appears_count "par_count_hello_world_grepit"). numerals.
  - apply ret_inv in H. destruct H as (s & Es & H). destruct (slices_ret C b s Es) as (l & El & ->). rewrite El in *. cbn [obind compute] in *.
    apply ret_inv in H. destruct H as (rs & Em & H). injection H as <-. rewrite Em, (mapM_all _ _ _ Em). cbn [compute].
    exists (LSlices (cores C) (length l) :: map LLong (arrival C (map Ret rs))). split.
    + right. split; [reflexivity|]. do 3 eexists. split; [reflexivity|]. split; [reflexivity|]. apply Permutation_map, Permutation_sym, FA.
    + apply prints_line; [apply slices_appear|]. apply prints_all_end, longs_appear.
  - same_order. bind_ret H. injection H as <-. apply prints_line; [apply long_appears|apply prints_finished].
  - same_order. bind_ret H. injection H as <-. apply prints_line; [apply long_appears|apply prints_finished].
  - discriminate.
Qed.
