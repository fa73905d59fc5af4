(** Commands on files with overwritten payloads (C90) and on concatenated files (C91). *)
From Coq Require Import String.
From Verif Require Import Base DltModel MatchModel GenModel ToolsModel MainModel Spec CommandSpec ReadSpec EditSpec BaseFacts DltFacts CodecFacts ParseFacts
  FindFacts IterFacts DltIterFacts LayoutFacts GrepFacts GrepTools PartitionFacts GenFacts GroupFacts MapFacts MergeFacts TreeFacts ToolFacts
  Utf8Facts CommandFacts TotalFacts ExactFacts AppendFacts ReadFacts EditFacts P_Tools P_Commands P_Exact.
From Coq Require Import Sorted Permutation.
Local Open Scope string_scope.
Local Open Scope list_scope.

(** * Uniqueness of tables *)
Lemma sorted_same {A} (R : A -> A -> Prop) : (forall a, ~ R a a) -> (forall a b c, R a b -> R b c -> R a c) ->
  forall l l', StronglySorted R l -> StronglySorted R l' -> (forall x, In x l <-> In x l') -> l = l'.
Proof.
  intros I T. induction l as [|a l IH]; intros [|b l'] S S' E.
  - reflexivity.
  - exfalso. apply (E b). now left.
  - exfalso. apply (E a). now left.
  - inversion S as [|x y Sl Fa]; subst. inversion S' as [|x y Sl' Fb]; subst. rewrite Forall_forall in Fa, Fb.
    assert (a = b).
    { destruct (proj1 (E a) (or_introl eq_refl)) as [Q|Q]; [now symmetry|].
      destruct (proj2 (E b) (or_introl eq_refl)) as [Q'|Q']; [exact Q'|].
      exfalso. apply (I a). apply (T a b a); [now apply Fa|now apply Fb]. }
    subst b. f_equal. apply IH; [exact Sl|exact Sl'|]. intros x. split; intros Q.
    + destruct (proj1 (E x) (or_intror Q)) as [->|Q']; [|exact Q']. exfalso. apply (I x). now apply Fa.
    + destruct (proj2 (E x) (or_intror Q)) as [->|Q']; [|exact Q']. exfalso. apply (I x). now apply Fb.
Qed.
Lemma same_rows {K X} (m m' : list (K * X)) : NoDup (map fst m) -> map fst m = map fst m' ->
  (forall k x x', In (k, x) m -> In (k, x') m' -> x = x') -> m = m'.
Proof.
  revert m'. induction m as [|[k x] m IH]; intros [|[k' x'] m'] ND E H; try discriminate; [reflexivity|].
  cbn [map fst] in E. injection E as <- E. inversion ND as [|y z N1 N2]; subst.
  assert (x = x') by (apply (H k); now left). subst x'. f_equal. apply IH; [exact N2|exact E|].
  intros k0 y y' I I'. apply (H k0); now right.
Qed.
Lemma strongly_nodup {A} (R : A -> A -> Prop) l : (forall a, ~ R a a) -> StronglySorted R l -> NoDup l.
Proof.
  intros I. induction 1 as [|a l S IH F]; constructor; [|exact IH]. intros Q. rewrite Forall_forall in F. now apply (I a), F.
Qed.
Lemma number_table_unique vals h h' : number_table vals h -> number_table vals h' -> h = h'.
Proof.
  intros [S H] [S' H'].
  assert (Ir : forall a : N, ~ (a < a)%N) by (intros; lia).
  assert (E : map fst h = map fst h').
  { apply (sorted_same N.lt Ir); [intros; lia|exact S|exact S'|]. intros k. split; intros Q; apply in_map_iff in Q; destruct Q as ([k0 n] & <- & Q); cbn [fst].
    - apply H in Q. apply H' in Q. now apply (in_map fst) in Q.
    - apply H' in Q. apply H in Q. now apply (in_map fst) in Q. }
  apply same_rows; [now apply (strongly_nodup N.lt)|exact E|].
  intros k n n' I I'. apply H in I. apply H' in I'. destruct I as [_ ->]. now destruct I' as [_ ->].
Qed.

(** * Entries without their tails *)
Definition erase (e : storage_entry) : storage_entry :=
  Build_storage_entry (sheader e) (Build_dlt_entry (header (dlt e)) (repeat x00 (List.length (tail (dlt e))))).
Lemma erase_same_head p q : valid_message (snd p) -> same_head p q -> erase (entry_of (snd p)) = erase (entry_of (snd q)).
Proof.
  intros (_ & V & _) (_ & L & E). destruct p as [k m], q as [k' m']. cbn [snd] in *.
  assert (N : forall j, j < 20 -> nth j m x00 = nth j m' x00) by (intros j Hj; exact (nth_firstn_eq m m' 20 j x00 E Hj)).
  unfold erase, entry_of. cbn [sheader dlt header tail]. rewrite !skipn_length, L.
  unfold u32le_at, u16_at, byte_at. rewrite !N by lia. reflexivity.
Qed.
Lemma erase_shows l ms l' ms' : Forall (fun p => valid_message (snd p)) ms -> Forall (fun p => valid_message (snd p)) ms' ->
  shows l ms -> shows l' ms' -> Forall2 same_head ms ms' -> map erase (map snd l) = map erase (map snd l').
Proof.
  intros F F' S S' R. rewrite (shows_entries _ _ F S), (shows_entries _ _ F' S'). clear S S' F'. unfold entries. rewrite !map_map. cbn [snd].
  induction R as [|p q ms ms' H R IH]; [reflexivity|]. inversion F as [|x y V F2]; subst. cbn [map].
  rewrite (erase_same_head p q V H). f_equal. now apply IH.
Qed.
Lemma erase_map {X} (f : storage_entry -> X) es es' : (forall e, f (erase e) = f e) -> map erase es = map erase es' -> map f es = map f es'.
Proof.
  intros H E. rewrite <- (map_ext _ _ H es), <- (map_ext _ _ H es'), <- !(map_map erase f). now rewrite E.
Qed.
Lemma last_map {A B} (f : A -> B) l d d' : l <> [] -> last (map f l) d' = f (last l d).
Proof. induction l as [|x [|y l] IH]; intros H; [congruence|reflexivity|]. apply IH. discriminate. Qed.
Lemma runs_erase (rel : storage_entry -> storage_entry -> bool) : (forall a b, rel (erase a) (erase b) = rel a b) ->
  forall xs gs, maximal_runs rel xs gs -> maximal_runs rel (map erase xs) (map (map erase) gs).
Proof.
  intros H xs gs (A & B & C & D). split; [|split; [|split]].
  - rewrite <- concat_map. now f_equal.
  - apply Forall_forall. intros g I. apply in_map_iff in I. destruct I as (g0 & <- & I). rewrite Forall_forall in B.
    specialize (B g0 I). destruct g0; [congruence|discriminate].
  - apply Forall_forall. intros g I. apply in_map_iff in I. destruct I as (g0 & <- & I). rewrite Forall_forall in C.
    specialize (C g0 I). clear - H C. induction g0 as [|x [|y g] IH]; [exact Logic.I|exact Logic.I|]. cbn [map linked] in *. destruct C as [C1 C2].
    split; [now rewrite H|]. now apply IH.
  - clear A C xs. induction gs as [|g [|h gs] IH]; [exact Logic.I|exact Logic.I|].
    inversion B as [|x y B1 B']; subst. inversion B' as [|x y B2 B3]; subst. destruct D as [D1 D2].
    change (map (map erase) (g :: h :: gs)) with (map erase g :: map erase h :: map (map erase) gs).
    split; [|exact (IH B' D2)].
    intros d. destruct h as [|y h]; [congruence|]. destruct g as [|x g]; [congruence|].
    rewrite (last_map erase (x :: g) x d) by discriminate. cbn [map hd]. rewrite H. apply (D1 x).
Qed.
Lemma erase_runs rel : (forall a b, rel (erase a) (erase b) = rel a b) ->
  forall es es' gs gs', map erase es = map erase es' -> maximal_runs rel es gs -> maximal_runs rel es' gs' ->
  map (map erase) gs = map (map erase) gs'.
Proof.
  intros H es es' gs gs' E R R'. apply (runs_erase rel H) in R. apply (runs_erase rel H) in R'. rewrite E in R.
  exact (runs_unique rel _ _ _ R R').
Qed.
Lemma erase_span (f : storage_entry -> N) g : (forall e, f (erase e) = f e) -> span f (map erase g) = span f g.
Proof.
  intros H. destruct g as [|x g]; [reflexivity|]. cbn [map span]. f_equal; [|apply H].
  destruct g as [|y g]; [apply H|]. rewrite (last_map erase (y :: g) x) by discriminate. apply H.
Qed.
Lemma erase_extent (f : storage_entry -> N) g : (forall e, f (erase e) = f e) -> extent f (map erase g) = extent f g.
Proof.
  intros H. destruct g as [|x g]; [reflexivity|]. cbn [map extent]. f_equal; [apply H|].
  destruct g as [|y g]; [apply H|]. rewrite (last_map erase (y :: g) x) by discriminate. apply H.
Qed.
Lemma erase_of_runs {X} (f : list storage_entry -> X) gs gs' : (forall g, f (map erase g) = f g) -> map (map erase) gs = map (map erase) gs' -> map f gs = map f gs'.
Proof. intros H E. rewrite <- (map_ext _ _ H gs), <- (map_ext _ _ H gs'), <- !(map_map (map erase) f). now rewrite E. Qed.
Lemma erase_in es es' (P : storage_entry -> Prop) : (forall e, P (erase e) <-> P e) -> map erase es = map erase es' ->
  (exists e, In e es /\ P e) -> exists e, In e es' /\ P e.
Proof.
  intros H E (e & I & Q). apply (in_map erase) in I. rewrite E in I. apply in_map_iff in I. destruct I as (e' & E' & I').
  exists e'. split; [exact I'|]. apply H. rewrite E'. now apply H.
Qed.
Lemma erase_filter es (f : storage_entry -> bool) : (forall e, f (erase e) = f e) -> map erase (filter f es) = filter f (map erase es).
Proof. intros H. induction es as [|e es IH]; [reflexivity|]. cbn [map filter]. rewrite H. destruct (f e); cbn [map]; now rewrite IH. Qed.

Lemma bytes_before_irr a : ~ bytes_before a a.
Proof. induction a as [|x a IH]; [easy|]. cbn. intros [H|[_ H]]; [lia|now apply IH]. Qed.
Lemma bytes_before_trans a b c : bytes_before a b -> bytes_before b c -> bytes_before a c.
Proof.
  revert b c. induction a as [|x a IH]; intros [|y b] [|z c]; cbn; try tauto.
  intros [H|[-> H]] [H'|[-> H']]; [left; lia|left; exact H|left; exact H'|right; split; [reflexivity|now apply (IH b)]].
Qed.
Lemma ecu_rows_unique es es' m m' : map erase es = map erase es' -> ecu_rows es periods_row m -> ecu_rows es' periods_row m' -> m = m'.
Proof.
  intros E (S & K & R) (S' & K' & R').
  set (Q := fun a b : quad => bytes_before (quad_bytes a) (quad_bytes b)) in *.
  assert (Ir : forall a, ~ Q a a) by (intros a; apply bytes_before_irr).
  assert (Tr : forall a b c, Q a b -> Q b c -> Q a c) by (intros a b c; apply bytes_before_trans).
  assert (EE : map ecu_of es = map ecu_of es') by (apply erase_map; [reflexivity|exact E]).
  assert (EK : map fst m = map fst m').
  { apply (sorted_same Q Ir Tr _ _ S S'). intros k. rewrite K, K'. now rewrite EE. }
  apply same_rows; [exact (strongly_nodup Q _ Ir S)|exact EK|].
  intros k [t n] [t' n'] I I'. destruct (R k _ I) as (L & gs & G & T). destruct (R' k _ I') as (L' & gs' & G' & T'). cbn [fst snd] in *.
  assert (EF : map erase (from_ecu k es) = map erase (from_ecu k es')).
  { unfold from_ecu. rewrite !erase_filter by reflexivity. now rewrite E. }
  f_equal.
  - assert (ER : map (extent secs_of) gs = map (extent secs_of) gs').
    { apply erase_of_runs; [intros g; now apply erase_extent|]. exact (erase_runs continuous (fun a b => eq_refl) _ _ _ _ EF G G'). }
    rewrite ER in T. exact (number_table_unique _ _ _ T T').
  - rewrite L, L'. apply (f_equal (@List.length _)) in EF. now rewrite !map_length in EF.
Qed.

Definition head_commands : list string := ["count"; "histogram_message_size"; "histogram_payload_size"; "histogram_timestamp"; "split_timestamp"].
Lemma head_commands_same M b b' es es' cmd : dltit b = Ret es -> dltit b' = Ret es' -> map erase es = map erase es' ->
  In cmd head_commands -> run_command M cmd b' = run_command M cmd b.
Proof.
  intros D D' E [<-|[<-|[<-|[<-|[<-|[]]]]]].
  - rewrite (C59_count M b es D), (C59_count M b' es' D'). apply (f_equal (@List.length _)) in E. rewrite !map_length in E. now rewrite E.
  - destruct (C60_message_sizes M b es D) as (h & T & ->). destruct (C60_message_sizes M b' es' D') as (h' & T' & ->).
    rewrite <- (erase_map (fun e => N.of_nat (size_of e)) es es' (fun e => eq_refl) E) in *. now rewrite (number_table_unique _ _ _ T T').
  - assert (NS : (forall e, In e es -> ~ stunted e) \/ exists e, In e es /\ stunted e).
    { clear. induction es as [|e es [IH|IH]].
      - left. intros e [].
      - destruct (flag (htype e) 0) eqn:F; [destruct (lt_dec (List.length (tail (dlt e))) (announced (htype e)))|].
        + right. exists e. split; [now left|split; assumption].
        + left. intros x [<-|I]; [intros [_ Q]; contradiction|now apply IH].
        + left. intros x [<-|I]; [intros [Q _]; congruence|now apply IH].
      - right. destruct IH as (x & I & Q). exists x. split; [now right|exact Q]. }
    assert (SE : forall e, stunted (erase e) <-> stunted e) by (intros e; unfold stunted, htype, erase; cbn [dlt header tail]; now rewrite repeat_length).
    destruct NS as [NS|NS].
    + destruct (C60_payload_sizes M b es D) as [H _]. destruct (H NS) as (h & T & ->).
      destruct (C60_payload_sizes M b' es' D') as [H' _]. destruct H' as (h' & T' & ->).
      { intros e I Q. destruct (erase_in es' es stunted SE (eq_sym E) (ex_intro _ e (conj I Q))) as (x & Ix & Qx). exact (NS x Ix Qx). }
      assert (EB : map (fun e => N.of_nat (List.length (body e))) es = map (fun e => N.of_nat (List.length (body e))) es').
      { apply erase_map; [|exact E]. intros e. unfold body, htype, erase. cbn [dlt header tail]. now rewrite !skipn_length, repeat_length. }
      rewrite <- EB in *. now rewrite (number_table_unique _ _ _ T T').
    + destruct (C60_payload_sizes M b es D) as [_ H]. rewrite (H NS).
      destruct (C60_payload_sizes M b' es' D') as [_ H']. apply H'. exact (erase_in es es' stunted SE E NS).
  - destruct (C62_histogram_timestamp M b es D) as (gs & h & R & T & ->). destruct (C62_histogram_timestamp M b' es' D') as (gs' & h' & R' & T' & ->).
    assert (ER : map (span secs_of) gs = map (span secs_of) gs').
    { apply erase_of_runs; [intros g; now apply erase_span|]. exact (erase_runs continuous (fun a b => eq_refl) _ _ _ _ E R R'). }
    rewrite <- ER in T'. now rewrite (number_table_unique _ _ _ T T').
  - destruct (C62_split_timestamp M b es D) as [H1 H2]. destruct (C62_split_timestamp M b' es' D') as [H1' H2'].
    destruct (text_dec es) as [T|T].
    + destruct (H1 T) as (m & R & ->). destruct H1' as (m' & R' & ->).
      { intros e I. destruct (erase_in es' es (fun x => quad_bytes (ecu_of x) = quad_bytes (ecu_of e)) (fun x => iff_refl _) (eq_sym E)) as (x & Ix & <-); [now exists e|]. now apply T. }
      now rewrite (ecu_rows_unique es es' m m' E R R').
    + rewrite (H2 T). apply H2'. exact (erase_in es es' (fun e => ~ utf8_text (quad_bytes (ecu_of e))) (fun x => iff_refl _) E T).
Qed.

(** * Concatenated files *)
Lemma concat_entries parts b es1 es2 : parts_ok parts -> dltit (layout parts []) = Ret es1 -> dltit b = Ret es2 ->
  dltit (layout parts [] ++ b) = Ret (es1 ++ es2).
Proof.
  intros OK D1 D2. destruct (dltit_offset_total b) as (l & E & _). pose proof (dltit_map b l E) as E2.
  assert (es2 = map snd l) by congruence. subst es2. clear D2 E2.
  destruct (append_read parts b l OK E) as (l1 & E3 & S1). pose proof (dltit_map _ _ E3) as E4.
  destruct (layout_read parts [] OK not_in_nil) as (l1' & E5 & S1' & E6).
  pose proof (placed_valid parts 0 OK) as PV.
  rewrite (shows_entries _ _ PV S1) in E4. rewrite (shows_entries _ _ PV S1') in E6. rewrite D1 in E6. injection E6 as ->.
  rewrite E4, map_app. unfold shift. now rewrite map_map.
Qed.
Lemma listed_table {K} dec (before : K -> K -> Prop) : (forall a, ~ before a a) -> forall vals h, table dec before vals h ->
  forall k, listed dec h k = count_occ dec vals k.
Proof.
  intros Ir vals h [S H] k. pose proof (strongly_nodup before _ Ir S) as ND.
  assert (L : forall h : list (K * nat), NoDup (map fst h) -> (forall n, In (k, n) h -> listed dec h k = n) /\ ((forall n, ~ In (k, n) h) -> listed dec h k = 0)).
  { clear. induction h as [|[k' n'] h IH]; intros ND; [split; [intros n []|reflexivity]|].
    cbn [map fst] in ND. inversion ND as [|x y N1 N2]; subst. specialize (IH N2) as [I1 I2]. unfold listed in *. cbn [filter fst]. split.
    - intros n [E|I]; [injection E as -> ->|].
      + destruct (dec k k); [|congruence]. cbn [map snd list_sum fold_right]. unfold list_sum in I2. rewrite I2; [lia|]. intros m Q. apply N1. now apply (in_map fst) in Q.
      + destruct (dec k' k) as [->|]; [exfalso; apply N1; now apply (in_map fst) in I|]. now apply I1.
    - intros Q. destruct (dec k' k) as [->|]; [exfalso; apply (Q n'); now left|]. apply I2. intros q I. apply (Q q). now right. }
  destruct (L h ND) as [L1 L2]. destruct (in_dec dec k vals) as [I|I].
  - apply L1. now apply H.
  - rewrite L2; [symmetry; now apply count_occ_not_In|]. intros n Q. apply H in Q. tauto.
Qed.
Lemma table_keys {K} dec (before : K -> K -> Prop) vals h : table dec before vals h -> forall k, In k (map fst h) <-> In k vals.
Proof.
  intros [_ H] k. split.
  - intros I. apply in_map_iff in I. destruct I as ([k' n] & <- & I). now apply H in I.
  - intros I. assert (Q : In (k, count_occ dec vals k) h) by now apply H. now apply (in_map fst) in Q.
Qed.
Lemma added_tables {K} dec (before : K -> K -> Prop) : (forall a, ~ before a a) -> forall v1 v2 h1 h2 h,
  table dec before v1 h1 -> table dec before v2 h2 -> table dec before (v1 ++ v2) h -> added dec before h1 h2 h.
Proof.
  intros Ir v1 v2 h1 h2 h T1 T2 T. split; [apply T|]. split; intros k.
  - rewrite (listed_table dec before Ir _ _ T), (listed_table dec before Ir _ _ T1), (listed_table dec before Ir _ _ T2). apply count_occ_app.
  - rewrite (table_keys _ _ _ _ T), (table_keys _ _ _ _ T1), (table_keys _ _ _ _ T2). apply in_app_iff.
Qed.
Lemma total_sum l1 l2 : P_Exact.total (l1 ++ l2) = (P_Exact.total l1 + P_Exact.total l2)%N.
Proof. induction l1 as [|x l1 IH]; cbn; [reflexivity|]. unfold P_Exact.total in *. rewrite IH. lia. Qed.
Lemma fold_left_fold (h : list (N * nat)) : forall t, fold_left (fun t kv => (t + fst kv * N.of_nat (snd kv))%N) h t = (t + fold_right N.add 0 (map (fun kn => fst kn * N.of_nat (snd kn)) h))%N.
Proof. induction h as [|x h IH]; intros t; cbn [fold_left map fold_right]; [lia|]. rewrite IH. lia. Qed.
Lemma weighed_total vals h : number_table vals h -> weighed h = P_Exact.total vals.
Proof. intros T. apply table_hist_of in T. destruct (hist_of_totals _ _ T) as [_ E]. unfold P_Exact.total. rewrite <- E. unfold weighed, hist_total. rewrite fold_left_fold. lia. Qed.
Lemma type_before_irr a : ~ type_before a a.
Proof. destruct a as [v [t|]]; unfold type_before; cbn [fst snd]; [|now intros [[? ?]|[_ []]]; congruence]. intros [[? ?]|[_ [H|[_ H]]]]; [congruence|lia|lia]. Qed.
