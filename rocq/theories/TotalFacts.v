(** Totals of histograms; parallel against sequential. *)
From Verif Require Import Base DltModel MatchModel GenModel ToolsModel Spec BaseFacts DltFacts CodecFacts ParseFacts
  FindFacts IterFacts DltIterFacts LayoutFacts GrepTools PartitionFacts GenFacts GroupFacts MapFacts MergeFacts TreeFacts ToolFacts.
From Coq Require Import Sorted Permutation.

(** * Tables *)
Lemma under_absent {K} (dec : forall a b : K, {a = b} + {a <> b}) k (h : list (K * nat)) :
  ~ In k (map fst h) -> under dec k h = 0.
Proof.
  unfold under. induction h as [|[k1 v] h IH]; intros N; [reflexivity|]. cbn [filter fst map].
  destruct (dec k1 k) as [->|]; [exfalso; apply N; now left|]. apply IH. intros I. apply N. now right.
Qed.
Lemma under_tally {K} cmp (O : total_order cmp) (dec : forall a b : K, {a = b} + {a <> b}) k (h : list (K * nat)) :
  sorted cmp h -> under dec k h = tally cmp k h.
Proof.
  induction h as [|[k1 v] h IH]; intros S; [reflexivity|].
  unfold under, tally in *. cbn [filter fst map map_get].
  destruct (dec k1 k) as [->|NE].
  - rewrite (cmp_refl cmp O). cbn [map snd list_sum fold_right].
    assert (N : ~ In k (map fst h)).
    { intros I. apply (sorted_head cmp _ _ _ _ S) in I. rewrite (cmp_refl cmp O) in I. discriminate. }
    pose proof (under_absent dec k h N) as U. unfold under in U. change (fold_right Nat.add 0) with list_sum. rewrite U. lia.
  - specialize (IH (sorted_tail cmp _ _ S)). destruct (cmp k k1) eqn:C.
    + apply (order_eq _ O) in C. congruence.
    + rewrite IH. rewrite (proj2 (get_none cmp O k h (sorted_tail cmp _ _ S))); [reflexivity|].
      intros I. apply (sorted_head cmp _ _ _ _ S) in I. pose proof (order_trans _ O _ _ _ C I) as X.
      rewrite (cmp_refl cmp O) in X. discriminate.
    + exact IH.
Qed.

Lemma sum_N l : N.of_nat (list_sum l) = fold_right N.add 0%N (map N.of_nat l).
Proof. induction l as [|x l IH]; [reflexivity|]. cbn [list_sum map fold_right]. change (fold_right Nat.add 0) with list_sum. rewrite <- IH. lia. Qed.
Lemma ones {A} (l : list A) : fold_right N.add 0%N (map (fun _ => 1%N) l) = N.of_nat (length l).
Proof. induction l as [|x l IH]; [reflexivity|]. cbn [map fold_right length]. rewrite IH. lia. Qed.
Lemma counts_freq {I K} cmp (O : total_order cmp) (key : I -> K) xs ks : ascending cmp ks -> (forall k, In k ks <-> In k (map key xs)) ->
  counts (map (fun k => (k, freq cmp key k xs)) ks) = length xs.
Proof.
  intros A KS. apply Nat2N.inj. unfold counts. rewrite sum_N, !map_map. cbn [snd].
  pose proof (freq_sum cmp O key (fun _ => 1%N) xs ks (ascending_nodup cmp O ks A)) as F.
  rewrite ones in F. rewrite <- F by (intros x Ix; apply KS; now apply in_map). f_equal. apply map_ext. intros k. lia.
Qed.
Lemma hist_total_sum h : hist_total h = fold_right N.add 0%N (map (fun kv => (fst kv * N.of_nat (snd kv))%N) h).
Proof.
  unfold hist_total.
  assert (G : forall t, fold_left (fun t kv => (t + fst kv * N.of_nat (snd kv))%N) h t = (t + fold_right N.add 0 (map (fun kv => fst kv * N.of_nat (snd kv)) h))%N).
  { induction h as [|kv h IH]; intros t; cbn [fold_left map fold_right]; [lia|]. rewrite IH. lia. }
  rewrite G. lia.
Qed.
Lemma hist_of_totals l h : hist_of l h -> counts h = length l /\ hist_total h = fold_right N.add 0%N l.
Proof.
  intros H. destruct (histogram_spec N.compare N_order (fun k : N => Ret k) (fun k => k) l) as (ks & A & KS & E); [reflexivity|].
  destruct (histogram_hist (fun k : N => Ret k) (fun k => k) l) as (h' & E' & H'); [reflexivity|].
  rewrite map_id in H'. assert (h' = h) by (eapply hist_of_unique; eassumption). subst h'.
  assert (Q : h = map (fun k => (k, freq N.compare (fun k => k) k l)) ks) by congruence. rewrite Q. split.
  - exact (counts_freq N.compare N_order (fun k => k) l ks A KS).
  - rewrite hist_total_sum, map_map. cbn [fst snd].
    pose proof (freq_sum N.compare N_order (fun k : N => k) (fun k => k) l ks (ascending_nodup N.compare N_order ks A)) as F.
    rewrite map_id in F. apply F. intros x Ix. apply KS. now rewrite map_id.
Qed.

(** * If a split returns, so did its key function and its reducers. *)
Section SplitInv.
  Context {K S I R : Type}.
  Variable cmp : K -> K -> comparison.
  Hypothesis O : total_order cmp.
  Variable keyfn : I -> outcome K.
  Variable key : I -> K.
  Variable redfn : K -> S.
  Variable red : Reduce S I R.
  Notation Sp := (Split cmp keyfn redfn red).

  Lemma feed_keys xs : forall m m', feed Sp m xs = Ret m' -> Forall (fun x => exists k, keyfn x = Ret k) xs.
  Proof.
    induction xs as [|x xs IH]; intros m m' H; [constructor|]. cbn [feed Split rnext] in H.
    destruct (keyfn x) as [k| |] eqn:E; try discriminate H. cbn [obind] in H.
    destruct (rnext red _ x) as [s| |]; try discriminate H. cbn [obind] in H. constructor; [now exists k|]. now apply IH in H.
  Qed.
  Lemma feed_inv xs : forall m m', (forall x, In x xs -> keyfn x = Ret (key x)) -> sorted cmp m -> feed Sp m xs = Ret m' ->
    forall k, exists s, feed red (start cmp redfn m k) (sub cmp key k xs) = Ret s.
  Proof.
    induction xs as [|x xs IH]; intros m m' KF SM H k; [eexists; reflexivity|].
    cbn [feed Split rnext] in H. rewrite KF in H by now left. cbn [obind] in H. fold (start cmp redfn m (key x)) in H.
    destruct (rnext red (start cmp redfn m (key x)) x) as [s'| |] eqn:N; try discriminate H. cbn [obind] in H.
    destruct (IH _ m' ltac:(intros; apply KF; now right) (insert_sorted cmp O (key x) s' m SM) H k) as [s Es].
    unfold sub in *. cbn [filter]. unfold start in Es. rewrite (get_insert cmp O) in Es by exact SM.
    destruct (keq cmp (key x) k) eqn:Q.
    - apply (keq_iff cmp O) in Q. subst k. rewrite (keq_refl cmp O) in Es. cbn [feed]. rewrite N. cbn [obind]. now exists s.
    - assert (Q' : keq cmp k (key x) = false).
      { destruct (keq cmp k (key x)) eqn:Q'; [|reflexivity]. apply (keq_iff cmp O) in Q'. subst k. now rewrite (keq_refl cmp O) in Q. }
      rewrite Q' in Es. now exists s.
  Qed.
  Lemma finalize_inv m : forall acc r, split_finalize cmp red m acc = Ret r -> forall k s, In (k, s) m -> exists x, rfinal red s = Ret x.
  Proof.
    induction m as [|[k0 s0] m IH]; intros acc r H k s; [intros []|]. cbn [split_finalize] in H.
    destruct (rfinal red s0) as [x| |] eqn:E; try discriminate H. cbn [obind] in H.
    intros [[= <- <-]|J]; [now exists x|]. eapply IH; eassumption.
  Qed.
  Lemma run_split_inv xs r : (forall x, In x xs -> keyfn x = Ret (key x)) -> run_reduce Sp [] xs = Ret r ->
    ascending cmp (map fst r) /\ (forall k, In k (map fst r) <-> In k (map key xs)) /\
    forall k x, In (k, x) r -> run_reduce red (redfn k) (sub cmp key k xs) = Ret x.
  Proof.
    intros KF H. destruct xs as [|x0 xs'].
    { cbn in H. injection H as <-. split; [constructor|]. split; [tauto|intros k x []]. }
    remember (x0 :: xs') as xs eqn:X.
    unfold run_reduce in H. destruct (feed Sp [] xs) as [m| |] eqn:E; try discriminate H. cbn [obind Split rfinal] in H.
    pose proof (feed_inv xs [] m KF (sorted_nil cmp) E) as FI.
    assert (FF : forall k, In k (map key xs) -> exists x, run_reduce red (redfn k) (sub cmp key k xs) = Ret x).
    { intros k Ik.
      destruct (feed_split cmp O keyfn key redfn red xs []
        (fun k => match feed red (redfn k) (sub cmp key k xs) with Ret s => s | _ => redfn k end) KF (sorted_nil cmp)) as (m' & E' & SM & G).
      { intros k' _. unfold start. cbn [map_get]. destruct (FI k') as [s Es]. unfold start in Es. cbn [map_get] in Es. now rewrite Es. }
      assert (m' = m) by congruence. subst m'. pose proof (proj1 (G k) Ik) as Gk. apply (get_in cmp O) in Gk; [|exact SM].
      destruct (finalize_inv m [] r H k _ Gk) as [x Ex]. exists x. unfold run_reduce.
      destruct (FI k) as [s Es]. unfold start in Es. cbn [map_get] in Es. rewrite Es in *. exact Ex. }
    assert (D : exists res : K -> R, forall k, In k (map key xs) -> run_reduce red (redfn k) (sub cmp key k xs) = Ret (res k)).
    { destruct (FF (key x0)) as [d _]; [rewrite X; now left|].
      exists (fun k => match run_reduce red (redfn k) (sub cmp key k xs) with Ret x => x | _ => d end).
      intros k Ik. destruct (FF k Ik) as [x ->]. reflexivity. }
    destruct D as [res D]. destruct (run_split cmp O keyfn key redfn red xs res KF D) as (ks & A & KS & Er).
    unfold run_reduce in Er. rewrite E in Er. cbn [obind Split rfinal] in Er.
    assert (Q : r = map (fun k => (k, res k)) ks) by congruence. rewrite Q.
    assert (FE : map fst (map (fun k => (k, res k)) ks) = ks) by (rewrite map_map; apply map_id).
    rewrite FE. split; [exact A|]. split; [exact KS|]. intros k x J. apply in_map_iff in J. destruct J as (k' & [= <- <-] & J).
    apply D, KS, J.
  Qed.
End SplitInv.

Lemma histogram_inv {I K} (cmp : K -> K -> comparison) (O : total_order cmp) (keyfn : I -> outcome K) xs h :
  histogram cmp keyfn xs = Ret h -> counts h = length xs.
Proof.
  intros H. destruct xs as [|x0 xs]; [cbn in H; injection H as <-; reflexivity|]. remember (x0 :: xs) as l eqn:X.
  assert (F : Forall (fun x => exists k, keyfn x = Ret k) l).
  { unfold histogram, run_reduce in H. destruct (feed _ [] l) as [m| |] eqn:E; try discriminate H. now apply feed_keys in E. }
  assert (D : exists key, forall x, In x l -> keyfn x = Ret (key x)).
  { rewrite Forall_forall in F. destruct (F x0) as [k0 _]; [rewrite X; now left|].
    exists (fun x => match keyfn x with Ret k => k | _ => k0 end). intros x Ix. destruct (F x Ix) as [k ->]. reflexivity. }
  destruct D as [key D]. destruct (histogram_spec cmp O keyfn key l D) as (ks & A & KS & E).
  assert (Q : h = map (fun k => (k, freq cmp key k l)) ks) by congruence. rewrite Q. now apply counts_freq.
Qed.

Lemma fork_inv {I S1 S2 R1 R2} (r1 : Reduce S1 I R1) (r2 : Reduce S2 I R2) xs : forall s1 s2 x,
  run_reduce (Fork r1 r2) (s1, s2) xs = Ret x -> run_reduce r1 s1 xs = Ret (fst x) /\ run_reduce r2 s2 xs = Ret (snd x).
Proof.
  unfold run_reduce. induction xs as [|y xs IH]; intros s1 s2 x H; cbn [feed Fork rnext rfinal fst snd obind] in *.
  - destruct (rfinal r1 s1) as [x1| |]; try discriminate H. cbn [obind] in H.
    destruct (rfinal r2 s2) as [x2| |]; try discriminate H. injection H as <-. auto.
  - destruct (rnext r1 s1 y) as [t1| |]; try discriminate H. cbn [obind] in *.
    destruct (rnext r2 s2 y) as [t2| |]; try discriminate H. cbn [obind] in *. now apply IH.
Qed.
(** If a map of key counts tells the frequency of each key, its counts add up. *)
Lemma counts_of_parts {I K} cmp (O : total_order cmp) (key : I -> K) xs (h : list (K * nat)) :
  ascending cmp (map fst h) -> (forall k, In k (map fst h) <-> In k (map key xs)) ->
  (forall k n, In (k, n) h -> n = freq cmp key k xs) -> counts h = length xs.
Proof.
  intros A KS F. rewrite <- (counts_freq cmp O key xs (map fst h) A KS). f_equal. clear A KS.
  induction h as [|[k n] h IH]; [reflexivity|]. cbn [map fst]. f_equal; [f_equal; apply F; now left|].
  apply IH. intros; apply F; now right.
Qed.

(** * The number of runs *)
Fixpoint breaks {A} (rel : A -> A -> bool) (xs : list A) : nat :=
  match xs with
  | x :: ((y :: _) as l) => (if rel x y then 0 else 1) + breaks rel l
  | _ => 0
  end.
Lemma pend_breaks {A} (rel : A -> A -> bool) xs : forall lz s e, (forall x, rel x x = true) ->
  length (pend rel lz s e xs) = 1 + breaks rel (e :: xs).
Proof.
  induction xs as [|x xs IH]; intros lz s e R; cbn [pend].
  - rewrite R. now destruct lz.
  - change (breaks rel (e :: x :: xs)) with ((if rel e x then 0 else 1) + breaks rel (x :: xs)). rewrite R. destruct (rel e x).
    + rewrite IH by exact R. reflexivity.
    + destruct lz; cbn [length]; rewrite IH by exact R; reflexivity.
Qed.
Definition runs {A} (rel : A -> A -> bool) (xs : list A) : nat := length (grouped rel xs).
Lemma runs_breaks {A} (rel : A -> A -> bool) x xs : (forall x, rel x x = true) -> runs rel (x :: xs) = 1 + breaks rel (x :: xs).
Proof. intros R. apply (pend_breaks rel xs false x x R). Qed.
Lemma breaks_app {A} (rel : A -> A -> bool) x xs y ys :
  breaks rel ((x :: xs) ++ y :: ys) = breaks rel (x :: xs) + (if rel (last xs x) y then 0 else 1) + breaks rel (y :: ys).
Proof.
  revert x. induction xs as [|x' xs IH]; intros x.
  - cbn [app last]. change (breaks rel (x :: y :: ys)) with ((if rel x y then 0 else 1) + breaks rel (y :: ys)). cbn [breaks]. lia.
  - change ((x :: x' :: xs) ++ y :: ys) with (x :: ((x' :: xs) ++ y :: ys)).
    change (breaks rel (x :: ((x' :: xs) ++ y :: ys))) with ((if rel x x' then 0 else 1) + breaks rel ((x' :: xs) ++ y :: ys)).
    rewrite IH. change (breaks rel (x :: x' :: xs)) with ((if rel x x' then 0 else 1) + breaks rel (x' :: xs)).
    replace (last (x' :: xs) x) with (last xs x'); [lia|]. clear.
    assert (G : forall (l : list A) d d', l <> [] -> last l d = last l d').
    { induction l as [|a l IH]; intros d d' N; [congruence|]. destruct l as [|b l]; [reflexivity|]. apply (IH d d'). discriminate. }
    destruct xs as [|z xs]; [reflexivity|]. apply (G (z :: xs)). discriminate.
Qed.
Lemma runs_app {A} (rel : A -> A -> bool) xs ys : (forall x, rel x x = true) ->
  runs rel (xs ++ ys) <= runs rel xs + runs rel ys /\ runs rel xs + runs rel ys <= runs rel (xs ++ ys) + 1.
Proof.
  intros R. destruct xs as [|x xs]; [cbn [app]; unfold runs at 2 4; cbn; lia|].
  destruct ys as [|y ys]; [rewrite app_nil_r; unfold runs at 3 5; cbn; lia|].
  change ((x :: xs) ++ y :: ys) with (x :: (xs ++ y :: ys)). rewrite !runs_breaks by exact R.
  change (x :: (xs ++ y :: ys)) with ((x :: xs) ++ y :: ys). rewrite breaks_app. destruct (rel (last xs x) y); lia.
Qed.
Lemma runs_concat {A} (rel : A -> A -> bool) (ls : list (list A)) : (forall x, rel x x = true) ->
  runs rel (concat ls) <= list_sum (map (runs rel) ls) /\ list_sum (map (runs rel) ls) <= runs rel (concat ls) + (length ls - 1).
Proof.
  intros R. induction ls as [|l ls [IH1 IH2]]; [cbn; lia|]. cbn [concat map list_sum fold_right length].
  change (fold_right Nat.add 0) with list_sum.
  pose proof (runs_app rel l (concat ls) R) as [A1 A2]. split; [lia|].
  destruct ls as [|l' ls]; [cbn [concat map list_sum fold_right] in *; rewrite app_nil_r; lia|].
  cbn [length] in *. lia.
Qed.

(** * The entries of a file and of its partitions *)
Lemma layout_entries parts last : enclosed parts last ->
  exists l, dltit_offset (layout parts last) = Ret l /\ map snd l = map entry_of (map snd parts).
Proof.
  intros EN. destruct (enclosed_ok parts last EN) as [OK NL].
  destruct (layout_read parts last OK NL) as (l & E & _ & _).
  exists l. split; [exact E|].
  assert (D : dltit_offset (layout parts last) = Ret (entries (placed 0 parts))).
  { apply dltit_offset_chain. pose proof (layout_chain_cut parts [] (length (layout parts last)) last OK NL) as C.
    rewrite firstn_all in C. cbn [app length Nat.add] in C. rewrite filter_all in C; [exact C|].
    eapply Forall_impl; [|apply (placed_bound parts 0 last)]. cbn. intros a Ha. now apply Nat.leb_le. }
  assert (Q : l = entries (placed 0 parts)) by congruence. rewrite Q. unfold entries. rewrite !map_map. cbn [snd].
  generalize 0 as k. clear. induction parts as [|[j m] ps IH]; intros k; [reflexivity|]. cbn [placed map snd]. f_equal. apply IH.
Qed.
(** Partitions that cover the file hold its entries, slice by slice. *)
Lemma partition_entries parts last num l : enclosed parts last -> at_most 65536 parts ->
  partition_from DLT (layout parts last) num = Ret l ->
  exists (ess : list (list storage_entry)) rest,
    Forall2 (fun s es => exists it, dltit_offset s = Ret it /\ map snd it = es) l ess /\ map entry_of (map snd parts) = concat ess ++ rest /\
    (concat l = layout parts last -> rest = []).
Proof.
  intros EN MX E. destruct (partition_chunks parts last num l EN MX E) as (chunks & parts' & last' & C1 & C2 & C3 & C4 & C5).
  exists (map (fun c => map entry_of (map snd (fst c))) chunks), (map entry_of (map snd parts')). split; [|split].
  - rewrite C1. clear - C2. induction C2 as [|c cs EN _ IH]; [constructor|]. cbn [map]. constructor; [|exact IH]. now apply layout_entries.
  - rewrite C5, map_app. f_equal. clear. induction chunks as [|c cs IH]; [reflexivity|]. cbn [map concat]. now rewrite map_app, IH.
  - intros Q. rewrite Q in C3. destruct parts' as [|[j m] ps]; [reflexivity|]. exfalso.
    apply (f_equal (@length byte)) in C3. rewrite app_length in C3. cbn [layout] in C3. rewrite !app_length in C3.
    destruct C4 as [V _]. inversion V as [|x y V1 _]; subst. cbn in V1. destruct V1 as (_ & V1 & _). lia.
Qed.
