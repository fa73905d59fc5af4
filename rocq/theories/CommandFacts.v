(** Facts about the ripdlt commands as they are dispatched by [main]. *)
From Coq Require Import String.
From Verif Require Import Base DltModel MatchModel GenModel ToolsModel MainModel Spec BaseFacts DltFacts CodecFacts ParseFacts
  FindFacts IterFacts DltIterFacts LayoutFacts GrepFacts GrepTools PartitionFacts GenFacts GroupFacts MapFacts MergeFacts TreeFacts ToolFacts Utf8Facts.
From Coq Require Import Sorted Permutation.

(** * Slices of a file *)
Lemma message_in_slice pre s post k m : message_at s k m -> message_at (pre ++ s ++ post) (length pre + k) m.
Proof.
  intros [V (p & q & E & L)]. split; [exact V|]. exists (pre ++ p), (q ++ post). subst s. split.
  - now rewrite <- !app_assoc.
  - rewrite app_length. lia.
Qed.
Lemma partition_slices b num l s : partition_from DLT b num = Ret l -> In s l ->
  exists pre post, b = pre ++ s ++ post.
Proof.
  intros E I. destruct num as [|num]; [discriminate|].
  destruct (partition_pieces b (S num) ltac:(lia)) as (l' & rest & E' & _ & Q).
  assert (l' = l) by congruence. subst l'. apply in_split in I. destruct I as (l1 & l2 & ->).
  exists (concat l1), (concat l2 ++ rest). rewrite Q, concat_app. cbn [concat]. now rewrite <- !app_assoc.
Qed.
Lemma slice_complete pre s post : all_complete (pre ++ s ++ post) -> all_complete s.
Proof. intros H k m M. apply (H (length pre + k)). now apply message_in_slice. Qed.
Lemma slice_text pre s post : all_ecu_text (pre ++ s ++ post) -> all_ecu_text s.
Proof. intros H k m M. apply (H (length pre + k)). now apply message_in_slice. Qed.

Lemma complete_entries b l : dltit_offset b = Ret l -> all_complete b -> Forall (fun e => full (dlt e)) (map snd l).
Proof.
  intros E C. apply Forall_forall. intros e I. apply in_map_iff in I. destruct I as ([k e'] & <- & I).
  destruct (iteration_genuine b l E) as [G _]. destruct (G k e' I) as (m & M & D & _).
  apply (complete_full e' m D). now apply (C k).
Qed.
Lemma text_entries b l : dltit_offset b = Ret l -> all_ecu_text b ->
  forall e, In e (map snd l) -> from_utf8_ok (quad_bytes (ecu (sheader e))) = true.
Proof.
  intros E C e I. apply in_map_iff in I. destruct I as ([k e'] & <- & I). cbn [snd].
  destruct (iteration_genuine b l E) as [G _]. destruct (G k e' I) as (m & M & D & _).
  apply from_utf8_exact. specialize (C k m M). destruct D as (_ & _ & _ & _ & D & _). now rewrite D.
Qed.
Lemma entries_len b l : dltit_offset b = Ret l -> length l <= length b.
Proof.
  intros E. destruct (iteration_total b 0) as [(l' & E' & L) _]. unfold dltit_offset in E.
  assert (X : Ret l = Ret l') by (rewrite <- E, <- E'; reflexivity). injection X as <-. lia.
Qed.

(** * No panic *)
Lemma count_ret b : exists n, ToolsModel.count b = Ret n.
Proof. destruct (dltit_total b) as (l & _ & E). unfold ToolsModel.count. rewrite E. now eexists. Qed.
Lemma raw_ret b : exists n, count_hello_world_raw b = Ret n. Proof. now eexists. Qed.
Lemma continuous_ret b : exists h, continuous_timestamp_histogram b = Ret h.
Proof. destruct (dltit_total b) as (l & E & _). destruct (continuous_spec b l E) as (h & Eh & _). now exists h. Qed.
Lemma message_ret b : exists h, histogram_message b = Ret h.
Proof. destruct (dltit_total b) as (l & E & _). destruct (histogram_message_spec b l E) as (h & Eh & _). now exists h. Qed.
Lemma h_star_not_empty ds b : never_empty (h_star_world ds) b.
Proof. intros s e (mid & _ & _ & ->). lia. Qed.
Lemma grepit_ret ds fa b : leftmost (h_star_world ds) fa -> (N.of_nat (length b) < 2 ^ 64 - 1)%N ->
  exists l, grep_collect fa b = Ret l.
Proof.
  intros LM Hb. destruct (grep_collect_run (h_star_world ds) fa LM b Hb (S (length b)) (h_star_not_empty ds b) ltac:(lia) (S (length b)) 0 ltac:(lia)) as (l & E & _).
  now exists l.
Qed.
Lemma mapM_total {A B} (f : A -> outcome B) (l : list A) : (forall x, In x l -> exists y, f x = Ret y) -> exists ys, mapM f l = Ret ys.
Proof.
  induction l as [|x l IH]; intros H; [now eexists|]. cbn [mapM]. destruct (H x (or_introl eq_refl)) as [y ->]. cbn [obind].
  destruct IH as [ys ->]; [intros; apply H; now right|]. now eexists.
Qed.
Lemma mapM_length {A B} (f : A -> outcome B) l : forall ys, mapM f l = Ret ys -> Forall2 (fun x y => f x = Ret y) l ys.
Proof.
  induction l as [|x l IH]; intros ys H; cbn [mapM] in H; [injection H as <-; constructor|].
  destruct (f x) as [y| |] eqn:E; try discriminate H. cbn [obind] in H.
  destruct (mapM f l) as [ys'| |]; try discriminate H. injection H as <-. constructor; auto.
Qed.
Lemma slices_ret M b : 0 < cores M -> exists ln, slices_line M b = Ret ln.
Proof.
  intros H. destruct (partition_pieces b (cores M) H) as (l & rest & E & _). unfold slices_line. rewrite E. now eexists.
Qed.
Lemma multithreaded_ret sc num (f : bytes -> outcome nat) b : 0 < num ->
  (forall pre s post, b = pre ++ s ++ post -> exists n, f s = Ret n) -> exists n, multithreaded sc num f b = Ret n.
Proof.
  intros H F. destruct (partition_pieces b num H) as (l & rest & E & _). unfold multithreaded. rewrite E. cbn [obind].
  destruct (@mapM_total bytes nat f l) as [ys ->]; [|now eexists]. intros s I. destruct (partition_slices b num l s E I) as (pre & post & Q).
  exact (F pre s post Q).
Qed.
Lemma print_ecus_ret (m : list (quad * (list (N * nat) * nat))) :
  (forall k, In k (map fst m) -> from_utf8_ok (quad_bytes k) = true) -> exists ls, print_ecus m = Ret ls.
Proof.
  intros H. apply mapM_total. intros [k x] I. cbn [fst]. rewrite H; [now eexists|]. now apply (in_map fst) in I.
Qed.
Lemma map_fst_in {K V} (m : list (K * V)) k : In k (map fst m) -> exists v, In (k, v) m.
Proof. intros I. apply in_map_iff in I. destruct I as ([k' v] & <- & I). now exists v. Qed.
(** The keys of a reduction tree of maps are keys of its leaves. *)
Lemma split_keys t k : Forall okm (leaves t) -> In k (map fst (reduce_tree [] split_merge t)) ->
  exists m, In m (leaves t) /\ In k (map fst m).
Proof.
  intros F I. apply map_fst_in in I. destruct I as [v I].
  apply (get_in quad_cmp quad_order) in I; [|apply (split_ok t F)]. rewrite split_get in I by exact F.
  induction F as [|m l Hm F IH]; [discriminate|]. cbn [map fold_right] in I.
  destruct (map_get quad_cmp k m) as [w|] eqn:G.
  - exists m. split; [now left|]. apply (get_in quad_cmp quad_order) in G; [|apply Hm]. now apply (in_map fst) in G.
  - cbn [oop] in I. destruct (IH I) as (m' & A & B). exists m'. split; [now right|exact B].
Qed.

(** ... and every key of a leaf is a key of the whole. *)
Lemma split_keys_all t k m : Forall okm (leaves t) -> In m (leaves t) -> In k (map fst m) ->
  In k (map fst (reduce_tree [] split_merge t)).
Proof.
  intros F I K. enough (G : map_get quad_cmp k (reduce_tree [] split_merge t) <> None).
  { destruct (map_get quad_cmp k (reduce_tree [] split_merge t)) as [v|] eqn:Q; [|congruence].
    apply (get_in quad_cmp quad_order) in Q; [|apply (split_ok t F)]. now apply (in_map fst) in Q. }
  rewrite split_get by exact F. induction F as [|m0 l Hm F IH]; [destruct I|]. cbn [map fold_right].
  destruct I as [->|I].
  - apply map_fst_in in K. destruct K as [w K]. apply (get_in quad_cmp quad_order) in K; [|apply Hm]. rewrite K.
    destruct (fold_right _ None _); discriminate.
  - specialize (IH I). revert IH. generalize (fold_right (oop eop) None (map (map_get quad_cmp k) l)). intros [x|] IH; [|now destruct (IH eq_refl)].
    destruct (map_get quad_cmp k m0); discriminate.
Qed.

(** Every parallel command of a machine leaves no slice out and invents none. *)
Definition fair (M : machine) : Prop := fair_sched (sched M).

Lemma tsplit_ret fuel s : length s + 5 <= fuel -> exists m, timestamp_splitit fuel s = Ret m.
Proof.
  intros L. destruct (dltit_total s) as (l & E & _). pose proof (entries_len s l E).
  destruct (timestamp_splitit_spec fuel s l E ltac:(lia)) as (m & Em & _). now exists m.
Qed.
Lemma tsplit_text fuel s m : length s + 5 <= fuel -> timestamp_splitit fuel s = Ret m -> all_ecu_text s ->
  okm m /\ forall k, In k (map fst m) -> from_utf8_ok (quad_bytes k) = true.
Proof.
  intros L Em T. destruct (dltit_total s) as (l & E & _). pose proof (entries_len s l E).
  destruct (timestamp_splitit_spec fuel s l E ltac:(lia)) as (m' & Em' & OK & KS & _).
  assert (m' = m) by congruence. subst m'. split; [exact OK|]. intros k I. apply KS in I.
  apply in_map_iff in I. destruct I as (e & <- & I). exact (text_entries s l E T e I).
Qed.

Section Runs.
  Variable M : machine.
  Variable b : bytes.
  Hypothesis Hc : 0 < cores M.

  Lemma par_ret f : (forall pre s post, b = pre ++ s ++ post -> exists n, f s = Ret n) ->
    exists ls, (let* s := slices_line M b in let* r := multithreaded (sched M) (cores M) f b in Ret [s; LCount r]) = Ret ls.
  Proof.
    intros F. destruct (slices_ret M b Hc) as [ln ->]. cbn [obind].
    destruct (multithreaded_ret (sched M) (cores M) f b Hc F) as [n ->]. now eexists.
  Qed.
  Lemma par_hist_ret : exists h, par_continuous_timestamp_histogram (sched M) (cores M) b = Ret h.
  Proof.
    destruct (partition_pieces b (cores M) Hc) as (l & rest & E & _). unfold par_continuous_timestamp_histogram. rewrite E. cbn [obind].
    destruct (@mapM_total bytes _ continuous_timestamp_histogram l) as [ys ->]; [intros; apply continuous_ret|]. now eexists.
  Qed.
  Lemma psplit_ret fuel : length b + 5 <= fuel -> exists m, par_timestamp_splitit fuel (sched M) (cores M) b = Ret m.
  Proof.
    intros L. destruct (partition_pieces b (cores M) Hc) as (l & rest & E & _). unfold par_timestamp_splitit. rewrite E. cbn [obind].
    destruct (@mapM_total bytes _ (timestamp_splitit fuel) l) as [ys ->]; [|now eexists].
    intros s I. destruct (partition_slices b (cores M) l s E I) as (pre & post & Q). apply tsplit_ret.
    apply (f_equal (@List.length byte)) in Q. rewrite !app_length in Q. lia.
  Qed.
  Lemma psplit_text fuel m : fair M -> length b + 5 <= fuel -> par_timestamp_splitit fuel (sched M) (cores M) b = Ret m -> all_ecu_text b ->
    forall k, In k (map fst m) -> from_utf8_ok (quad_bytes k) = true.
  Proof.
    intros FM L Em T k Ik. destruct (partition_pieces b (cores M) Hc) as (l & rest & E & _). unfold par_timestamp_splitit in Em. rewrite E in Em. cbn [obind] in Em.
    destruct (mapM (timestamp_splitit fuel) l) as [ys| |] eqn:Q; try discriminate Em. cbn [obind] in Em. injection Em as <-.
    apply mapM_length in Q.
    assert (P : forall m', In m' ys -> okm m' /\ forall k, In k (map fst m') -> from_utf8_ok (quad_bytes k) = true).
    { intros m' I. assert (X : exists s, In s l /\ timestamp_splitit fuel s = Ret m').
      { clear - Q I. induction Q as [|s y l ys H Q IH]; [destruct I|]. destruct I as [->|I]; [exists s; cbn; auto|].
        destruct (IH I) as (s' & A & B). exists s'. cbn. auto. }
      destruct X as (s & Is & Es). destruct (partition_slices b (cores M) l s E Is) as (pre & post & Qs).
      apply (tsplit_text fuel s m'); [|exact Es|].
      - apply (f_equal (@List.length byte)) in Qs. rewrite !app_length in Qs. lia.
      - rewrite Qs in T. now apply slice_text in T. }
    pose proof (FM _ ys) as FP.
    destruct (split_keys (sched M _ ys) k) as (m' & I1 & I2); [|exact Ik|].
    - apply Forall_forall. intros m' I. apply (Permutation_in _ FP) in I. apply P, I.
    - apply (Permutation_in _ FP) in I1. now apply (P m' I1).
  Qed.

  Lemma in_slice_size pre s post : b = pre ++ s ++ post -> length s <= length b.
  Proof. intros ->. rewrite !app_length. lia. Qed.

  (** Commands that run on any file. *)
  Lemma robust_ret ds name : leftmost (h_star_world ds) (find_at M) -> (N.of_nat (length b) < 2 ^ 64 - 1)%N ->
    In name ["count"; "par_count"; "histogram_timestamp"; "par_histogram_timestamp"; "histogram_message_size";
             "histogram_hello_world"; "count_hello_world_raw"; "count_hello_world_grepit";
             "par_count_hello_world_raw"; "par_count_hello_world_grepit"]%string ->
    exists ls, run_command M name b = Ret ls.
  Proof.
    intros LM Hb I.
    assert (G : forall pre s post, b = pre ++ s ++ post -> exists n, count_hello_world_grepit (find_at M) s = Ret n).
    { intros pre s post Q. unfold count_hello_world_grepit.
      destruct (grepit_ret ds (find_at M) s LM) as [l ->]; [apply in_slice_size in Q; lia|]. now eexists. }
    repeat (destruct I as [<-|I]; [unfold run_command; cbn [String.eqb Ascii.eqb Bool.eqb]|]); try (destruct I).
    - destruct (count_ret b) as [n ->]. now eexists.
    - apply par_ret. intros; apply count_ret.
    - destruct (continuous_ret b) as [h ->]. now eexists.
    - destruct (slices_ret M b Hc) as [ln ->]. cbn [obind]. destruct par_hist_ret as [h ->]. now eexists.
    - destruct (message_ret b) as [h ->]. now eexists.
    - unfold histogram_hello_world. destruct (grepit_ret ds (find_at M) b LM Hb) as [l ->]. cbn [obind].
      destruct (histogram_hist (fun off => Ret (N.of_nat off / idx_bucket_size)%N) (fun off => (N.of_nat off / idx_bucket_size)%N) (map fst l)) as (h & -> & _); [reflexivity|]. now eexists.
    - destruct (raw_ret b) as [n ->]. now eexists.
    - destruct (G [] b []) as [n ->]; [now rewrite app_nil_r|]. now eexists.
    - apply par_ret. intros; apply raw_ret.
    - apply par_ret. exact G.
  Qed.

  Hypothesis C : all_complete b.
  Lemma sub_complete pre s post : b = pre ++ s ++ post -> all_complete s.
  Proof. intros Q. rewrite Q in C. now apply slice_complete in C. Qed.
  Lemma ciret s : all_complete s -> exists n, lifecycle_iter s = Ret n.
  Proof.
    intros Cs. destruct (dltit_total s) as (l & E & _). rewrite (lifecycle_iter_spec s l E (complete_entries s l E Cs)). now eexists.
  Qed.
  Lemma chret s : all_complete s -> exists n, count_hello_world s = Ret n.
  Proof. intros Cs. destruct (dltit_total s) as (l & E & _). exact (count_hello_world_ret s l E (complete_entries s l E Cs)). Qed.

  Lemma complete_ret name :
    In name ["histogram_lifecycles"; "histogram_message_type"; "histogram_payload_size"; "count_hello_world";
             "par_count_hello_world"; "iter"; "par_iter"; "itertools"]%string ->
    exists ls, run_command M name b = Ret ls.
  Proof.
    intros I. destruct (dltit_total b) as (l & E & _). pose proof (complete_entries b l E C) as F.
    repeat (destruct I as [<-|I]; [unfold run_command; cbn [String.eqb Ascii.eqb Bool.eqb]|]); try (destruct I).
    - destruct (lifecycle_histogram_spec b l E F) as (h & -> & _). now eexists.
    - destruct (mstp_spec b l E F) as (h & ks & -> & _). now eexists.
    - destruct (histogram_payload_spec b l E) as (h & -> & _); [|now eexists].
      intros e Ie. rewrite Forall_forall in F. destruct (full_payload (dlt e) (F e Ie)) as [p ->]. discriminate.
    - destruct (count_hello_world_ret b l E F) as [n ->]. now eexists.
    - apply par_ret. intros pre s post Q. apply chret. eapply sub_complete; exact Q.
    - rewrite (lifecycle_iter_spec b l E F). now eexists.
    - destruct (slices_ret M b Hc) as [ln ->]. cbn [obind].
      destruct (partition_pieces b (cores M) Hc) as (sl & rest & Es & _). rewrite Es. cbn [obind].
      destruct (@mapM_total bytes _ lifecycle_iter sl) as [ys ->]; [|now eexists].
      intros s Is. destruct (partition_slices b (cores M) sl s Es Is) as (pre & post & Q). apply ciret. eapply sub_complete; exact Q.
    - rewrite (lifecycle_itertools_spec b l E F). now eexists.
  Qed.

  Hypothesis T : all_ecu_text b.
  Lemma text_ret name : fair M -> In name ["split_lifecycles"; "split_timestamp"; "par_split_timestamp"]%string ->
    exists ls, run_command M name b = Ret ls.
  Proof.
    intros FM I. destruct (dltit_total b) as (l & E & _). pose proof (complete_entries b l E C) as F.
    repeat (destruct I as [<-|I]; [unfold run_command; cbn [String.eqb Ascii.eqb Bool.eqb]|]); try (destruct I).
    - destruct (lifecycle_splitit_spec (finalize_fuel b) b l E) as (m & -> & _ & KS & _); [unfold finalize_fuel; lia|exact F|].
      cbn [obind]. destruct (print_ecus_ret m) as [ls ->]; [|now eexists]. intros k Ik. apply KS in Ik.
      apply in_map_iff in Ik. destruct Ik as (e & <- & Ie). apply filter_In in Ie. now apply (text_entries b l E T).
    - destruct (tsplit_ret (finalize_fuel b) b ltac:(unfold finalize_fuel; lia)) as [m Em]. rewrite Em. cbn [obind].
      destruct (print_ecus_ret m) as [ls ->]; [|now eexists].
      apply (tsplit_text (finalize_fuel b) b m ltac:(unfold finalize_fuel; lia) Em T).
    - destruct (slices_ret M b Hc) as [ln ->]. cbn [obind].
      destruct (psplit_ret (finalize_fuel b) ltac:(unfold finalize_fuel; lia)) as [m Em]. rewrite Em. cbn [obind].
      destruct (print_ecus_ret m) as [ls ->]; [|now eexists].
      apply (psplit_text (finalize_fuel b) m FM ltac:(unfold finalize_fuel; lia) Em T).
  Qed.
End Runs.
