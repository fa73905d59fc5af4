(** Proofs for C94: machine arithmetic in the commands of ripdlt. *)
From Coq Require Import String Permutation.
From Verif Require Import Base DltModel MatchModel GenModel ToolsModel MainModel DdModel WordModel ToolsWord Spec WordSpec CommandSpec BaseFacts DltFacts CodecFacts ParseFacts FindFacts
  IterFacts DltIterFacts PartitionFacts GenFacts GroupFacts MapFacts MergeFacts TreeFacts ToolFacts TotalFacts CommandFacts ExactFacts WordFacts P_Word.
From Coq Require Import ZifyBool ZifyNat ZifyN.

Lemma plus_ok m a b : (N.of_nat (a + b) < usize_mod m)%N -> plus m a b = Ret (a + b).
Proof. intros H. unfold plus. rewrite add_nat by exact H. cbn [obind]. now rewrite Nat2N.id. Qed.
Lemma times_ok m a b : (a * b < usize_mod m)%N -> times m a b = Ret (a * b)%N.
Proof. intros H. unfold times, checked. now rewrite (proj2 (N.ltb_lt _ _) H). Qed.
Lemma u32_below m a b : below (u32_sub a b) (u32_minus m a b).
Proof. unfold u32_sub, u32_minus. destruct (b <=? a)%N; [now right|now left]. Qed.
Lemma u32_le m a b : (b <= a)%N -> u32_minus m a b = u32_sub a b.
Proof. intros H. unfold u32_sub, u32_minus. now rewrite (proj2 (N.leb_le _ _) H). Qed.

(** * Reducers that agree for at most [n] steps *)
Definition agree {S I R} (n F : nat) (Inv : nat -> S -> Prop) (r r' : Reduce S I R) : Prop :=
  (forall k k' s, k <= k' -> Inv k s -> Inv k' s) /\
  (forall k s x, Inv k s -> k < n -> rnext r' s x = rnext r s x /\ forall s', rnext r s x = Ret s' -> Inv (Datatypes.S k) s') /\
  (forall k s, Inv k s -> k + F <= n -> rfinal r' s = rfinal r s).

Lemma agree_run {S I R} n F Inv (r r' : Reduce S I R) : agree n F Inv r r' -> forall xs k s, Inv k s -> k + length xs + F <= n ->
  run_reduce r' s xs = run_reduce r s xs.
Proof.
  intros (A1 & A2 & A3). unfold run_reduce. induction xs as [|x xs IH]; intros k s Hs L; cbn [feed length] in *.
  - cbn [obind]. apply (A3 k); [exact Hs|lia].
  - destruct (A2 k s x Hs ltac:(lia)) as [-> N]. destruct (rnext r s x) as [s'| |] eqn:E; cbn [obind]; try reflexivity.
    apply (IH (Datatypes.S k)); [now apply N|lia].
Qed.

Lemma agree_count {I} m n : (N.of_nat n < usize_mod m)%N -> agree n 0 (fun k c => c <= k) (@Count I) (CountWord m).
Proof.
  intros H. split; [intros; lia|]. split; [|reflexivity]. intros k c x Hc Hk. cbn [rnext Count CountWord Fold]. rewrite plus_ok by lia.
  split; [reflexivity|]. intros s' E. injection E as <-. lia.
Qed.
Lemma agree_fork {S1 S2 I R1 R2} n F I1 I2 (r1 r1' : Reduce S1 I R1) (r2 r2' : Reduce S2 I R2) : agree n F I1 r1 r1' -> agree n F I2 r2 r2' ->
  agree n F (fun k s => I1 k (fst s) /\ I2 k (snd s)) (Fork r1 r2) (Fork r1' r2').
Proof.
  intros (A1 & A2 & A3) (B1 & B2 & B3). split; [|split].
  - intros k k' s L [H1 H2]. split; [now apply (A1 k)|now apply (B1 k)].
  - intros k [s1 s2] x [H1 H2] L. cbn [rnext Fork fst snd] in *. destruct (A2 k s1 x H1 L) as [-> N1], (B2 k s2 x H2 L) as [-> N2]. split; [reflexivity|].
    destruct (rnext r1 s1 x) as [t1| |]; try discriminate. destruct (rnext r2 s2 x) as [t2| |]; try discriminate. intros s' E. injection E as <-. auto.
  - intros k [s1 s2] [H1 H2] L. cbn [rfinal Fork fst snd] in *. now rewrite (A3 k s1 H1 L), (B3 k s2 H2 L).
Qed.
Lemma get_forall {K V} cmp (P : V -> Prop) k (m : list (K * V)) v : Forall (fun kv => P (snd kv)) m -> map_get cmp k m = Some v -> P v.
Proof.
  induction 1 as [|[k' v'] m H F IH]; cbn [map_get]; [discriminate|]. destruct (cmp k k'); [|discriminate|exact IH]. intros E. injection E as <-. exact H.
Qed.
Lemma insert_forall {K V} cmp (P : V -> Prop) k v (m : list (K * V)) : P v -> Forall (fun kv => P (snd kv)) m -> Forall (fun kv => P (snd kv)) (map_insert cmp k v m).
Proof.
  intros H. induction 1 as [|[k' v'] m H' F IH]; cbn [map_insert]; [now repeat constructor|]. destruct (cmp k k'); repeat constructor; auto.
Qed.
Lemma agree_split {K S I R} n F Inv cmp (keyfn : I -> outcome K) redfn (r r' : Reduce S I R) : agree n F Inv r r' -> (forall k, Inv 0 (redfn k)) ->
  agree n F (fun k m => Forall (fun kv => Inv k (snd kv)) m) (Split cmp keyfn redfn r) (Split cmp keyfn redfn r').
Proof.
  intros (A1 & A2 & A3) Z. split; [|split].
  - intros k k' m L. apply Forall_impl. intros kv. now apply A1.
  - intros k m x Hm L. cbn [rnext Split]. destruct (keyfn x) as [key| |]; cbn [obind]; [|split; [reflexivity|discriminate]..].
    assert (Hs : Inv k (match map_get cmp key m with Some s => s | None => redfn key end)).
    { destruct (map_get cmp key m) as [s|] eqn:G; [exact (get_forall cmp (Inv k) key m s Hm G)|]. apply (A1 0); [lia|apply Z]. }
    destruct (A2 k _ x Hs L) as [-> N]. split; [reflexivity|]. intros s' E. destruct (rnext r _ x) as [t| |] eqn:Q; try discriminate. injection E as <-.
    apply (insert_forall cmp (Inv (Datatypes.S k))); [now apply N|]. revert Hm. apply Forall_impl. intros kv. apply A1. lia.
  - intros k m Hm L. cbn [rfinal Split]. generalize (@nil (K * R)). induction Hm as [|[k' v] m H Hm IH]; intros acc; [reflexivity|].
    cbn [split_finalize]. cbn [snd] in H. rewrite (A3 k v H L). destruct (rfinal r v); cbn [obind]; auto.
Qed.
Lemma agree_over {S1 S2 I M R} n F Inv (r r' : Reduce S1 M R) (a : Adapt S2 I M) fuel : agree n F Inv r r' ->
  agree n (F + fuel) (fun k s => Inv k (fst s)) (ReducerOver r a fuel) (ReducerOver r' a fuel).
Proof.
  intros (A1 & A2 & A3). split; [|split].
  - intros k k' s L. now apply A1.
  - intros k [s1 s2] x H L. cbn [rnext ReducerOver fst] in *. destruct (adapt a s2 x) as [[s2' [|[o|]]]| |]; cbn [obind]; try (split; [reflexivity|]; discriminate).
    + split; [reflexivity|]. intros s' E. injection E as <-. cbn [fst]. apply (A1 k); [lia|exact H].
    + destruct (A2 k s1 o H L) as [-> N]. split; [reflexivity|]. intros s' E. destruct (rnext r s1 o) as [t| |]; try discriminate. injection E as <-. cbn [fst]. now apply N.
    + split; [reflexivity|]. intros s' E. injection E as <-. cbn [fst]. apply (A1 k); [lia|exact H].
  - intros k [s1 s2] H L. cbn [rfinal ReducerOver fst snd] in *. revert k s1 s2 H L. induction fuel as [|f IH]; intros k s1 s2 H L; [reflexivity|].
    cbn [reducer_finalize]. destruct (finalize a s2) as [[s2' [|[o|]]]| |]; cbn [obind]; try reflexivity.
    + apply (A3 k); [exact H|lia].
    + destruct (A2 k s1 o H ltac:(lia)) as [-> N]. destruct (rnext r s1 o) as [t| |]; cbn [obind]; try reflexivity.
      apply (IH (Datatypes.S k)); [now apply N|lia].
    + apply (IH k); [exact H|lia].
Qed.
Lemma agree_nil {S1 I R} n F Inv (r r' : Reduce S1 I R) fuel : agree n F Inv r r' ->
  agree n F (fun k s => Inv k (fst s)) (ReducerOver r NilAdapter fuel) (ReducerOver r' NilAdapter fuel).
Proof.
  intros A. destruct (agree_over n F Inv r r' NilAdapter fuel A) as (B1 & B2 & _). split; [exact B1|]. split; [exact B2|].
  intros k [s1 s2] H L. destruct fuel as [|f]; [reflexivity|]. cbn [rfinal ReducerOver reducer_finalize NilAdapter finalize obind fst snd] in *.
  destruct A as (_ & _ & A3). now apply (A3 k).
Qed.
Lemma agree_countg {I} m n : (N.of_nat n < usize_mod m)%N -> agree n 0 (fun k s => fst s <= k) (@CountG I) (CountWordG m).
Proof. intros H. exact (agree_nil n 0 _ _ _ 1 (agree_count m n H)). Qed.
Lemma agree_more {S I R} n F F' Inv (r r' : Reduce S I R) : F <= F' -> agree n F Inv r r' -> agree n F' Inv r r'.
Proof. intros L (A1 & A2 & A3). split; [exact A1|]. split; [exact A2|]. intros k s H Q. apply (A3 k s H). lia. Qed.

Lemma count_items_len {I} m (xs : list I) : (N.of_nat (length xs) < usize_mod m)%N -> count_items m xs = Ret (length xs).
Proof.
  intros H. unfold count_items. rewrite (agree_run (length xs) 0 _ _ _ (agree_count m (length xs) H) xs 0 0); [|lia|lia].
  apply run_count.
Qed.
Lemma histogram_words {I K} m cmp (key : I -> outcome K) xs : (N.of_nat (length xs) < usize_mod m)%N -> histogram_word m cmp key xs = histogram cmp key xs.
Proof.
  intros H. unfold histogram_word, histogram.
  pose proof (agree_split (length xs) 0 _ cmp key (fun _ => (0, tt)) CountG (CountWordG m) (agree_countg m _ H)) as A.
  apply (agree_run (length xs) 0 _ _ _ (A ltac:(intros; cbn; lia)) xs 0 []); [constructor|lia].
Qed.

(** * The per ECU reducers *)
Definition ecu_reducer_word {S2} m (chain : Adapt S2 storage_entry N) (fuel : nat) :=
  ReducerOver
    (Fork (ReducerOver (Split N.compare (fun k => Ret k) (fun _ => (0, tt)) (CountWordG m)) chain fuel) (CountWordG m))
    NilAdapter fuel.
Definition ecu_reducer {S2} (chain : Adapt S2 storage_entry N) (fuel : nat) :=
  ReducerOver
    (Fork (ReducerOver (Split N.compare (fun k => Ret k) (fun _ => (0, tt)) CountG) chain fuel) CountG)
    NilAdapter fuel.
Lemma per_ecu {S2} m (chain : Adapt S2 storage_entry N) fuel keyfn (z : S2) xs : (N.of_nat (length xs) + N.of_nat fuel < usize_mod m)%N ->
  run_reduce (Split quad_cmp keyfn (fun _ => ((([], z), (0, tt)), tt)) (ecu_reducer_word m chain fuel)) [] xs =
  run_reduce (Split quad_cmp keyfn (fun _ => ((([], z), (0, tt)), tt)) (ecu_reducer chain fuel)) [] xs.
Proof.
  intros H. set (n := length xs + fuel). assert (Hn : (N.of_nat n < usize_mod m)%N) by (unfold n; lia).
  pose proof (agree_split n 0 _ N.compare (fun k => Ret k) (fun _ => (0, tt)) _ _ (@agree_countg N m n Hn) ltac:(intros; cbn; lia)) as A1.
  pose proof (agree_over n 0 _ _ _ chain fuel A1) as A2.
  pose proof (agree_more n 0 (0 + fuel) _ _ _ ltac:(lia) (@agree_countg storage_entry m n Hn)) as A3.
  pose proof (agree_fork n (0 + fuel) _ _ _ _ _ _ A2 A3) as A4.
  pose proof (agree_nil n (0 + fuel) _ _ _ fuel A4) as A5.
  pose proof (agree_split n (0 + fuel) _ quad_cmp keyfn (fun _ : quad => ((([], z), (0, tt)), tt)) _ _ A5) as A6.
  apply (agree_run n (0 + fuel) _ _ _ (A6 ltac:(intros; cbn; split; [constructor|lia])) xs 0 []); [constructor|unfold n; lia].
Qed.

(** * Iteration *)
Definition small (m : target) (b : bytes) : Prop := (word_len b <= slice_max m)%N.
Lemma dltit_words m b : small m b -> dltit_word m b = dltit b.
Proof.
  intros Hb. destruct C87_types as (W & F & _ & _ & Wm & _). unfold dltit_word. destruct (dltit_total b) as (l & E & ->).
  pose proof (C87_sequential _ DLT m b 0%N 2 (S (length b)) W Hb Wm) as [_ C]; [change (2 ^ bits m)%N with (usize_mod m); change (length (marker DLT)) with 4; words|].
  change (collect (fun off => fallback_word DLT m 2 b off) (S (length b)) 0%N) with (collect (fallback_word DLT m 2 b) (S (length b)) 0%N). rewrite C.
  change (N.to_nat 0) with 0. change (dltit_offset b) with (collect (fallback_next DLT 2 b) (S (length b)) 0) in E. rewrite E. cbn [list_words obind]. now rewrite map_map.
Qed.
Lemma entries_count b es : dltit b = Ret es -> 20 * length es <= length b.
Proof.
  intros E. destruct (dltit_total b) as (l & El & E'). assert (es = map snd l) by congruence. subst es. rewrite map_length.
  apply dltit_offset_chain, chain_count in El; lia.
Qed.
Lemma chain_sizes b off l : dchain b off l -> off <= length b -> list_sum (map storage_len (map snd l)) + off <= length b.
Proof.
  induction 1 as [| |off k n v l F P C IH]; intros Ho; try (cbn; lia). destruct F as (F1 & F2 & F3).
  assert (Cd : dcand b k n v) by (split; assumption). pose proof (cand_bounds DLT parse dlt_lawful b k n v Cd) as (En & _ & B).
  change (len_of DLT v) with (storage_len v) in En. specialize (IH B). cbn [map snd]. unfold list_sum in *. cbn [fold_right]. lia.
Qed.
Lemma entries_sizes b es : dltit b = Ret es -> list_sum (map storage_len es) <= length b.
Proof.
  intros E. destruct (dltit_total b) as (l & El & E'). assert (es = map snd l) by congruence. subst es.
  apply dltit_offset_chain, chain_sizes in El; lia.
Qed.
Lemma u32le_lt l k : (u32le_at l k < u32_mod)%N.
Proof.
  unfold u32le_at, byte_at, u32_mod. rewrite ?Nat.add_0_r. pose proof (bN_lt (nth k l x00)). pose proof (bN_lt (nth (k + 1) l x00)).
  pose proof (bN_lt (nth (k + 2) l x00)). pose proof (bN_lt (nth (k + 3) l x00)). unfold bN in *. lia.
Qed.
Lemma u32be_lt l k : (u32be_at l k < u32_mod)%N.
Proof.
  unfold u32be_at, byte_at, u32_mod. pose proof (bN_lt (nth k l x00)). pose proof (bN_lt (nth (k + 1) l x00)).
  pose proof (bN_lt (nth (k + 2) l x00)). pose proof (bN_lt (nth (k + 3) l x00)). unfold bN in *. lia.
Qed.
Lemma entry_facts b es e : dltit b = Ret es -> In e es -> (esecs e < u32_mod)%N /\ length (tail (dlt e)) <= storage_len e.
Proof.
  intros E I. destruct (dltit_total b) as (l & El & E'). assert (es = map snd l) by congruence. subst es.
  apply in_map_iff in I. destruct I as ([k e'] & <- & I). cbn [snd]. destruct (iteration_genuine b l El) as [G _].
  destruct (G k e' I) as (msg & _ & (_ & D2 & D) & L). split.
  - unfold esecs. rewrite D2. apply u32le_lt.
  - rewrite L. destruct D as (_ & _ & _ & _ & _ & _ & D). rewrite D, skipn_length. lia.
Qed.
Lemma ts_lt e t : ts e = Some t -> (t < u32_mod)%N.
Proof. rewrite ts_stamp. unfold stamp. destruct (_ && _); [|discriminate]. intros E. injection E as <-. apply u32be_lt. Qed.
Lemma collect_len {S A} (next : S -> outcome (S * option A)) : forall fuel s l, collect next fuel s = Ret l -> length l < fuel.
Proof.
  induction fuel as [|f IH]; intros s l; [discriminate|]. cbn [collect]. destruct (next s) as [[s' [a|]]| |]; cbn [obind]; try discriminate.
  - destruct (collect next f s') as [l'| |] eqn:E; cbn [obind]; try discriminate. intros H. injection H as <-. apply IH in E. cbn [length]. lia.
  - intros H. injection H as <-. cbn. lia.
Qed.
Lemma grep_collect_words m fa b : small m b -> grep_collect_word m fa b = list_words (grep_collect fa b).
Proof.
  intros Hb. destruct C87_types as (W & F & _ & _ & Wm & _). unfold grep_collect_word, grep_collect. change 0%N with (N.of_nat 0).
  apply (collect_words _ _ (fun _ => True)); [|auto|exact I]. intros o _. rewrite (C87_grep _ DLT m fa (S (length b)) b (N.of_nat o) W Hb Wm). now rewrite Nat2N.id.
Qed.
Lemma grep_offsets fa b l : grep_collect fa b = Ret l -> Forall (fun p => fst p <= length b) l.
Proof.
  unfold grep_collect. generalize (S (length b)) at 2. intros n. generalize 0. revert l. induction n as [|n IH]; intros l o; [discriminate|]. cbn [collect].
  destruct (grep_next DLT fa (S (length b)) b o) as [[o' [[k v]|]]| |] eqn:E; cbn [obind]; try discriminate.
  - destruct (collect _ n o') as [l'| |] eqn:E'; cbn [obind]; try discriminate. intros H. injection H as <-. constructor; [|now apply (IH _ o')].
    unfold grep_next in E. destruct (grep_search DLT fa (S (length b)) b o) as [[[k' v']|]| |] eqn:G; cbn [obind] in E; try discriminate. injection E as _ <- <-.
    destruct C87_types as (W & F & _ & _ & Wm). specialize (Wm {| usize_width := Bits64; build := Debug |}). destruct Wm as [Wm _]. pose proof (grep_search_fits DLT _ W Wm fa b _ _ _ _ G). cbn [fst]. lia.
  - intros H. injection H as <-. constructor.
Qed.
Lemma partition_words_dlt m b num : small m b -> partition_word DLT m b (N.of_nat num) = partition_from DLT b num.
Proof. intros Hb. destruct C87_types as (W & F & _ & _ & Wm & _). rewrite (C87_partition _ DLT m b (N.of_nat num) W F Hb Wm). now rewrite Nat2N.id. Qed.

(** * Differences *)
Lemma ts_delta_words m p : ts_rel (fst p) (snd p) = true -> ts_delta_word m p = ts_delta p.
Proof.
  intros H. unfold ts_delta_word, ts_delta. rewrite !timestamp_ts. cbn [obind]. unfold ts_rel, opt_geb in H.
  destruct (ts (snd p)) as [t1|]; cbn [unwrap obind]; [|reflexivity]. destruct (ts (fst p)) as [t0|]; cbn [unwrap obind]; [|reflexivity].
  apply u32_le. now apply N.leb_le.
Qed.
Lemma ts_delta_below m p : below (ts_delta p) (ts_delta_word m p).
Proof. unfold ts_delta_word, ts_delta. repeat (apply below_bind; [apply below_refl|intros]). apply u32_below. Qed.
Lemma ts_delta_word_none m p : ts (fst p) = None -> ts_delta_word m p = Panic.
Proof. intros H. unfold ts_delta_word. rewrite !timestamp_ts. cbn [obind]. destruct (ts (snd p)); cbn [unwrap obind]; [now rewrite H|reflexivity]. Qed.
Lemma ts_delta_word_nofuel m p : ts_delta_word m p <> Fuel.
Proof.
  unfold ts_delta_word. rewrite !timestamp_ts. cbn [obind]. destruct (ts (snd p)); cbn; [|discriminate]. destruct (ts (fst p)); cbn; [|discriminate].
  unfold u32_minus. destruct (_ <=? _)%N; [discriminate|]. now destruct (build m).
Qed.
Lemma mapM_ext {A B} (f g : A -> outcome B) l : (forall x, In x l -> f x = g x) -> mapM f l = mapM g l.
Proof.
  induction l as [|x l IH]; intros H; [reflexivity|]. cbn [mapM]. rewrite (H x) by now left. destruct (g x); cbn [obind]; try reflexivity.
  rewrite IH by (intros; apply H; now right). reflexivity.
Qed.
Lemma filterM_ext {A} (f g : A -> outcome bool) l : (forall x, In x l -> f x = g x) -> filterM f l = filterM g l.
Proof.
  induction l as [|x l IH]; intros H; [reflexivity|]. cbn [filterM]. rewrite (H x) by now left. destruct (g x); cbn [obind]; try reflexivity.
  rewrite IH by (intros; apply H; now right). reflexivity.
Qed.
Lemma filterM_len {A} (f : A -> outcome bool) l : forall r, filterM f l = Ret r -> length r <= length l.
Proof.
  induction l as [|x l IH]; intros r H; cbn [filterM] in H; [injection H as <-; cbn; lia|]. destruct (f x) as [y| |]; try discriminate. cbn [obind] in H.
  destruct (filterM f l) as [ys| |]; try discriminate. cbn [obind] in H. injection H as <-. specialize (IH ys eq_refl). destruct y; cbn [length]; lia.
Qed.
Lemma filterM_sound {A} (f : A -> outcome bool) l : forall r x, filterM f l = Ret r -> In x r -> f x = Ret true /\ In x l.
Proof.
  induction l as [|z l IH]; intros r x H I; cbn [filterM] in H; [injection H as <-; destruct I|]. destruct (f z) as [y| |] eqn:E; try discriminate. cbn [obind] in H.
  destruct (filterM f l) as [ys| |]; try discriminate. cbn [obind] in H. injection H as <-. destruct y.
  - destruct I as [<-|I]; [split; [exact E|now left]|]. destruct (IH ys x eq_refl I). split; [assumption|now right].
  - destruct (IH ys x eq_refl I). split; [assumption|now right].
Qed.
Lemma mapM_len {A B} (f : A -> outcome B) l : forall r, mapM f l = Ret r -> length r = length l.
Proof.
  induction l as [|x l IH]; intros r H; cbn [mapM] in H; [injection H as <-; reflexivity|]. destruct (f x) as [y| |]; try discriminate. cbn [obind] in H.
  destruct (mapM f l) as [ys| |]; try discriminate. cbn [obind] in H. injection H as <-. cbn [length]. now rewrite (IH ys eq_refl).
Qed.

(** * Commands on one slice *)
Lemma filter_length_le {A} (f : A -> bool) l : length (filter f l) <= length l.
Proof. induction l as [|x l IH]; cbn [filter length]; [lia|]. destruct (f x); cbn [length]; lia. Qed.
Lemma stamped_cases es : {unstamped es} + {all_stamped es}.
Proof.
  induction es as [|e es IH]; [right; intros e []|]. destruct (stamped e) eqn:S; [destruct (stamp e) as [t|] eqn:T|].
  - destruct IH as [U|A]; [left|right].
    + destruct U as (x & I & H). exists x. split; [now right|exact H].
    + intros x [<-|I]; [now rewrite T|now apply A].
  - left. exists e. split; [now left|now split].
  - destruct IH as [U|A]; [left|right].
    + destruct U as (x & I & H). exists x. split; [now right|exact H].
    + intros x [<-|I]; [now rewrite S|now apply A].
Qed.
Lemma few m b n : small m b -> n <= length b -> (N.of_nat n < usize_mod m)%N.
Proof. unfold small. words. Qed.
Section Slice.
  Variable m : target.
  Variable b : bytes.
  Hypothesis Hb : small m b.
  Variable es : list storage_entry.
  Hypothesis E : dltit b = Ret es.
  Let Ln : 20 * length es <= length b := entries_count b es E.

  Lemma few_entries n : n <= length es -> (N.of_nat n < usize_mod m)%N.
  Proof. intros. apply (few m b); [exact Hb|lia]. Qed.
  Lemma count_words : count_word m b = count b.
  Proof. unfold count_word, count. rewrite (dltit_words m b Hb), E. cbn [obind]. apply count_items_len, few_entries; lia. Qed.
  Lemma hello_words : count_hello_world_word m b = count_hello_world b.
  Proof.
    unfold count_hello_world_word, count_hello_world. rewrite (dltit_words m b Hb), E. cbn [obind].
    destruct (filterM hello_predicate es) as [r| |] eqn:F; cbn [obind]; try reflexivity. apply filterM_len in F. apply count_items_len, few_entries, F.
  Qed.
  Lemma continuous_words : continuous_timestamp_histogram_word m b = continuous_timestamp_histogram b.
  Proof.
    unfold continuous_timestamp_histogram_word, continuous_timestamp_histogram. rewrite (dltit_words m b Hb), E. cbn [obind].
    rewrite (groupby_iter_spec secs_pred secs_rel) by reflexivity. cbn [obind].
    rewrite (mapM_ext (secs_delta_word m) secs_delta).
    2: { intros p I. pose proof (secs_groups es) as G. rewrite Forall_forall in G. specialize (G p I). apply u32_le. exact G. }
    destruct (mapM secs_delta (grouped secs_rel es)) as [ds| |] eqn:D; cbn [obind]; try reflexivity. apply mapM_len in D.
    apply histogram_words, few_entries. rewrite D. apply grouped_len.
  Qed.
  Lemma mstp_words : mstp_info_histogram_word m b = mstp_info_histogram b.
  Proof.
    unfold mstp_info_histogram_word, mstp_info_histogram. rewrite (dltit_words m b Hb), E. cbn [obind]. apply histogram_words, few_entries.
    apply filter_length_le.
  Qed.
  Lemma payload_words : histogram_payload_word m b = histogram_payload b.
  Proof.
    unfold histogram_payload_word, histogram_payload. rewrite (dltit_words m b Hb), E. cbn [obind].
    destruct (mapM _ es) as [ds| |] eqn:D; cbn [obind]; try reflexivity. apply mapM_len in D. apply histogram_words, few_entries. lia.
  Qed.
  Lemma message_words : histogram_message_word m b = histogram_message b.
  Proof.
    unfold histogram_message_word, histogram_message. rewrite (dltit_words m b Hb), E. cbn [obind]. apply histogram_words, few_entries. rewrite map_length. lia.
  Qed.
  Lemma ecu_groups xs gs : groupby_iter ecu_ts_pred xs = Ret gs -> gs = grouped ecu_ts_rel xs /\ Forall (fun p => ts_le (fst p) (snd p)) gs.
  Proof.
    intros G. assert (B : below (groupby_iter ecu_ts_pred xs) (groupby_iter (fun a b => Ret (ecu_ts_rel a b)) xs)).
    { unfold groupby_iter. apply ba_from, ba_group. apply ecu_ts_below. }
    rewrite (groupby_iter_spec (fun a b => Ret (ecu_ts_rel a b)) ecu_ts_rel) in B by reflexivity. destruct B as [B|B]; rewrite G in B; [discriminate|]. injection B as ->. split; [reflexivity|].
    apply grouped_trans; [exact ts_le_trans|]. intros x y H. apply andb_true_iff in H. apply H.
  Qed.
  Lemma lifecycle_histogram_words : lifecycle_histogram_word m b = lifecycle_histogram b.
  Proof.
    unfold lifecycle_histogram_word, lifecycle_histogram. rewrite (dltit_words m b Hb), E. cbn [obind].
    destruct (groupby_iter ecu_ts_pred (filter with_ts es)) as [gs| |] eqn:G; cbn [obind]; try reflexivity.
    destruct (ecu_groups _ _ G) as [Eg F]. rewrite Forall_forall in F. rewrite (mapM_ext (ts_delta_word m) ts_delta) by (intros p I; apply ts_delta_words; now apply F).
    destruct (mapM ts_delta gs) as [ds| |] eqn:D; cbn [obind]; try reflexivity. apply mapM_len in D. apply histogram_words, few_entries. rewrite D, Eg.
    eapply Nat.le_trans; [apply grouped_len|]. apply filter_length_le.
  Qed.
  Lemma lifecycle_iter_words : lifecycle_iter_word m b = lifecycle_iter b.
  Proof.
    unfold lifecycle_iter_word, lifecycle_iter. rewrite (dltit_words m b Hb), E. cbn [obind].
    rewrite (groupby_iter_spec ts_pred ts_rel) by (intros; apply ts_pred_rel). cbn [obind].
    rewrite (filterM_ext (long_enough_word m) long_enough).
    2: { intros p I. pose proof (ts_groups (filter with_ts es)) as G. rewrite Forall_forall in G. unfold long_enough_word, long_enough. now rewrite ts_delta_words by now apply G. }
    destruct (filterM long_enough _) as [r| |] eqn:F; cbn [obind]; try reflexivity. apply filterM_len in F. apply count_items_len, few_entries.
    pose proof (grouped_len ts_rel (filter with_ts es)). pose proof (filter_length_le with_ts es). lia.
  Qed.
  Lemma lifecycle_itertools_words : lifecycle_itertools_word m b = lifecycle_itertools b.
  Proof.
    unfold lifecycle_itertools_word, lifecycle_itertools. rewrite (dltit_words m b Hb), E. cbn [obind].
    destruct (filterM _ (tuple_windows (filter with_ts es))) as [ps| |] eqn:P; cbn [obind]; try reflexivity.
    rewrite (filterM_ext (long_enough_word m) long_enough).
    2: { intros p I. destruct (filterM_sound _ _ _ _ P I) as [H _]. rewrite ts_pred_rel in H. injection H as H. unfold long_enough_word, long_enough. now rewrite ts_delta_words. }
    destruct (filterM long_enough ps) as [r| |] eqn:F; cbn [obind]; try reflexivity. apply filterM_len in F. apply filterM_len in P. apply count_items_len, few_entries.
    rewrite windows_neighbours in P. unfold neighbours in P. rewrite combine_length in P. pose proof (filter_length_le with_ts es). lia.
  Qed.
  Lemma timestamp_splitit_words fuel : length b + 5 <= fuel -> (N.of_nat (length es) + N.of_nat fuel < usize_mod m)%N ->
    timestamp_splitit_word m fuel b = timestamp_splitit fuel b.
  Proof.
    intros Lf H. destruct (timestamp_splitit_exact fuel b es Lf E) as (t & Et & _).
    unfold timestamp_splitit_word. rewrite (dltit_words m b Hb), E. cbn [obind]. unfold timestamp_reducer_word. cbv zeta.
    pose proof (per_ecu m (Adapter (MapA (secs_delta_word m))
      (Adapter (Merge pair_cmp (fun a b => Ret (merge_overlapping a b)) (fun r => Ret (period_key r))) (Adapter (GroupBy secs_pred) NilAdapter fuel) fuel) fuel)
      fuel (fun e => Ret (ecu (sheader e))) (tt, (([], None), (GEmpty, tt))) es H) as P. refine (eq_trans P _). clear P.
    rewrite Et. unfold timestamp_splitit in Et. rewrite E in Et. cbn [obind] in Et. rewrite <- Et. symmetry.
    match goal with |- ?x = ?y => assert (B : below x y) end; [|destruct B as [B|B]; [rewrite B in Et; discriminate Et|exact B]].
    apply br_run, br_split. unfold timestamp_reducer, ecu_reducer. cbv zeta. apply br_over; [|apply ba_refl]. apply br_fork; [|apply br_refl].
    apply br_over; [apply br_refl|]. apply ba_comp; [|apply ba_refl]. apply ba_map. intros p. apply u32_below.
  Qed.
  Lemma lifecycle_splitit_words fuel : 5 <= fuel -> (N.of_nat (length es) + N.of_nat fuel < usize_mod m)%N ->
    lifecycle_splitit_word m fuel b = lifecycle_splitit fuel b.
  Proof.
    intros Lf H. rewrite (lifecycle_splitit_with fuel b es E).
    unfold lifecycle_splitit_word. rewrite (dltit_words m b Hb), E. cbn [obind]. unfold lifecycle_reducer_word. cbv zeta.
    pose proof (per_ecu m (Adapter (MapA (ts_mapping_word m)) (Adapter (GroupBy ts_pred) NilAdapter fuel) fuel)
      fuel (fun e => Ret (ecu (sheader e))) (tt, (GEmpty, tt)) (filter with_ts es)) as P. refine (eq_trans (P _) _); clear P.
    { pose proof (filter_length_le with_ts es). lia. }
    change (splitit_with (ts_mapping_word m) fuel (filter with_ts es) = splitit_with ts_mapping fuel (filter with_ts es)).
    assert (B : below (splitit_with ts_mapping fuel (filter with_ts es)) (splitit_with (ts_mapping_word m) fuel (filter with_ts es))).
    { apply with_below. intros p. apply below_bind; [apply ts_delta_below|intros; apply below_refl]. }
    destruct B as [B|B]; [|symmetry; exact B]. rewrite B.
    destruct (stamped_cases es) as [U|S].
    - destruct (with_none es U) as (x & Ix & Tx).
      destruct (grouped_none ts_rel (fun e => ts e = None) (of_ecu (ecu_of x) (filter with_ts es))) as (p & Ip & Pp).
      + apply ts_rel_refl.
      + apply ts_rel_none.
      + exists x. split; [|exact Tx]. rewrite of_from. apply filter_In. split; [exact Ix|]. now destruct (quad_dec (ecu_of x) (ecu_of x)).
      + apply (with_panic (ts_mapping_word m) fuel _ (ecu_of x) p Lf); [| |exact Ip|].
        * intros q. unfold ts_mapping_word. pose proof (ts_delta_word_nofuel m q). destruct (ts_delta_word m q); cbn; congruence.
        * now apply in_map.
        * unfold ts_mapping_word. now rewrite ts_delta_word_none.
    - destruct (lifecycle_splitit_exact fuel b es Lf E S) as (t & Et & _). rewrite (lifecycle_splitit_with fuel b es E), B in Et. discriminate.
  Qed.
End Slice.
Lemma raw_words m b : small m b -> count_hello_world_raw_word m b = count_hello_world_raw b.
Proof.
  intros Hb. unfold count_hello_world_raw_word, count_hello_world_raw. apply count_items_len, (few m b); [exact Hb|].
  destruct (raw_exact b) as (ks & S & P & Q). unfold count_hello_world_raw in Q. injection Q as Q. rewrite Q.
  assert (Nd : NoDup ks) by (clear - S; induction S as [|x l S IH F]; constructor; [|exact IH]; intros I; rewrite Forall_forall in F; apply F in I; lia).
  assert (IN : incl ks (seq 0 (length b))).
  { intros k I. apply P in I. apply in_seq. destruct I as (u & v & -> & <-). rewrite !app_length. cbn. lia. }
  apply NoDup_incl_length in IN; [|exact Nd]. now rewrite seq_length in IN.
Qed.
Lemma grepit_words m fa b : small m b -> count_hello_world_grepit_word m fa b = count_hello_world_grepit fa b.
Proof.
  intros Hb. unfold count_hello_world_grepit_word, count_hello_world_grepit. rewrite grep_collect_words by exact Hb.
  destruct (grep_collect fa b) as [l| |] eqn:G; cbn [list_words obind]; try reflexivity. pose proof (collect_len _ _ _ _ G).
  rewrite count_items_len; rewrite map_length; [reflexivity|]. apply (few m b); [exact Hb|lia].
Qed.

Lemma few_fuel m b s es : small m b -> length s <= length b -> dltit s = Ret es -> (N.of_nat (length es) + N.of_nat (finalize_fuel b) < usize_mod m)%N.
Proof. intros Hb Ls E. apply entries_count in E. unfold finalize_fuel, small in *. words. Qed.

(** * Printing *)
Lemma feed_map {I J K S R} cmp (key : J -> outcome K) redfn (r : Reduce S J R) (r' : Reduce S I R) (g : I -> J) xs :
  (forall s x, rnext r s (g x) = rnext r' s x) -> (forall s, rfinal r s = rfinal r' s) -> forall t,
  run_reduce (Split cmp key redfn r) t (map g xs) = run_reduce (Split cmp (fun x => key (g x)) redfn r') t xs.
Proof.
  intros H1 H2. unfold run_reduce. induction xs as [|x xs IH]; intros t; cbn [map feed obind].
  - cbn [rfinal Split]. generalize (@nil (K * R)). induction t as [|[k v] t IHt]; intros acc; [reflexivity|]. cbn [split_finalize]. rewrite H2.
    destruct (rfinal r' v); cbn [obind]; auto.
  - cbn [rnext Split]. destruct (key (g x)) as [k| |]; cbn [obind]; try reflexivity. rewrite H1. destruct (rnext r' _ x) as [s'| |]; cbn [obind]; try reflexivity. apply IH.
Qed.
Lemma hello_hist_words m fa b : small m b -> histogram_hello_world_word m fa b = histogram_hello_world fa b.
Proof.
  intros Hb. unfold histogram_hello_world_word, histogram_hello_world. rewrite grep_collect_words by exact Hb.
  destruct (grep_collect fa b) as [l| |] eqn:G; cbn [list_words obind]; try reflexivity. pose proof (collect_len _ _ _ _ G).
  rewrite histogram_words by (rewrite !map_length; apply (few m b); [exact Hb|lia]).
  replace (map fst (map (fun p : nat * storage_entry => (N.of_nat (fst p), snd p)) l)) with (map N.of_nat (map fst l)) by (rewrite !map_map; reflexivity).
  unfold histogram. apply (feed_map N.compare (fun off => Ret (off / idx_bucket_size)%N) (fun _ => (0, tt)) CountG CountG N.of_nat); [|reflexivity]. intros [c []] x. reflexivity.
Qed.
Lemma buckets_words m h : Forall (fun kv => fst kv + 1 < usize_mod m)%N h -> print_buckets_word m h = Ret (print_buckets h).
Proof.
  induction 1 as [|[k v] h H F IH]; [reflexivity|]. unfold print_buckets_word in *. cbn [mapM fst snd] in *. rewrite add_ok by exact H.
  cbn [obind]. rewrite IH. reflexivity.
Qed.
Lemma sizes_words m h : forall t, (t + fold_right N.add 0 (map (fun kv => fst kv * N.of_nat (snd kv)) h) < usize_mod m)%N ->
  print_sizes_word m h t = Ret (map (fun kv => LSize (fst kv) (snd kv) (fst kv * N.of_nat (snd kv) / 1024)%N) h ++
    [LTotal ((t + fold_right N.add 0 (map (fun kv => fst kv * N.of_nat (snd kv)) h)) / 1024)%N]).
Proof.
  induction h as [|[k v] h IH]; intros t H; cbn [map fold_right fst snd print_sizes_word app] in *; [now rewrite N.add_0_r|].
  rewrite times_ok by lia. cbn [obind]. rewrite add_ok by lia. cbn [obind]. rewrite IH by lia. cbn [obind]. now rewrite N.add_assoc.
Qed.
Lemma print_sizes_words m h : (hist_total h < usize_mod m)%N -> print_sizes_word m h 0 = Ret (print_sizes h).
Proof. intros H. unfold print_sizes. rewrite hist_total_sum in *. now rewrite sizes_words. Qed.
Lemma offsets_words m h n : (n <= slice_max m)%N -> Forall (fun kv => fst kv * idx_bucket_size <= n)%N h -> print_offsets_word m h = Ret (print_offsets h).
Proof.
  intros Hn. induction 1 as [|[k v] h H F IH]; [reflexivity|]. unfold print_offsets_word, print_offsets in *. cbn [mapM map fst snd] in *.
  rewrite times_ok by words. cbn [obind]. unfold idx_bucket_size in *. rewrite add_ok by words. cbn [obind].
  rewrite times_ok by words. cbn [obind]. rewrite IH. reflexivity.
Qed.
Lemma table_keys {K} dec before (vals : list K) h (P : K -> Prop) : table dec before vals h -> (forall v, In v vals -> P v) -> Forall (fun kv => P (fst kv)) h.
Proof. intros [_ T] H. apply Forall_forall. intros [k n] I. apply T in I. now apply H. Qed.
Lemma mapM_in {A B} (f : A -> outcome B) l : forall r y, mapM f l = Ret r -> In y r -> exists x, In x l /\ f x = Ret y.
Proof.
  induction l as [|x l IH]; intros r y H I; cbn [mapM] in H; [injection H as <-; destruct I|]. destruct (f x) as [z| |] eqn:E; try discriminate. cbn [obind] in H.
  destruct (mapM f l) as [ys| |]; try discriminate. cbn [obind] in H. injection H as <-. destruct I as [<-|I]; [exists x; split; [now left|exact E]|].
  destruct (IH ys y eq_refl I) as (u & Iu & Eu). exists u. split; [now right|exact Eu].
Qed.
Lemma continuous_keys b h : continuous_timestamp_histogram b = Ret h -> Forall (fun kv => fst kv < u32_mod)%N h.
Proof.
  intros H. destruct (dltit_total b) as (l & El & E). destruct (continuous_spec b l El) as (h' & Eh & Q). assert (h' = h) by congruence. subst h'.
  apply hist_of_table in Q. apply (table_keys _ _ _ _ (fun k => (k < u32_mod)%N) Q). intros v I. unfold durations in I. apply in_map_iff in I. destruct I as ([a z] & <- & I).
  apply grouped_in in I. destruct I as [_ I]. destruct (entry_facts b _ z E I) as [L _]. unfold secs_diff. cbn [fst snd]. lia.
Qed.
Lemma lifecycle_keys b h : lifecycle_histogram b = Ret h -> Forall (fun kv => fst kv <= 429496)%N h.
Proof.
  unfold lifecycle_histogram. intros H. destruct (dltit b) as [es| |]; try discriminate. cbn [obind] in H. destruct (groupby_iter _ _) as [gs| |]; try discriminate. cbn [obind] in H.
  destruct (mapM ts_delta gs) as [ds| |] eqn:D; try discriminate. cbn [obind] in H.
  destruct (histogram_table N.compare N_order N.eq_dec (fun id => Ret (id / 10000)%N) (fun id => (id / 10000)%N) ds) as (h' & Eh & T); [reflexivity|].
  assert (h' = h) by congruence. subst h'. apply (table_keys _ _ _ _ (fun k => (k <= 429496)%N) T). intros v I. apply in_map_iff in I. destruct I as (d & <- & I).
  destruct (mapM_in _ _ _ _ D I) as (p & _ & Ep). unfold ts_delta in Ep. rewrite !timestamp_ts in Ep. cbn [obind] in Ep.
  destruct (ts (snd p)) as [t1|] eqn:T1; try discriminate. cbn [unwrap obind] in Ep. destruct (ts (fst p)) as [t0|]; try discriminate. cbn [unwrap obind] in Ep.
  apply ts_lt in T1. unfold u32_sub in Ep. destruct (t0 <=? t1)%N; try discriminate. injection Ep as <-.
  unfold u32_mod in T1. apply N.lt_succ_r, N.div_lt_upper_bound; lia.
Qed.
Lemma hello_keys fa b h : histogram_hello_world fa b = Ret h -> Forall (fun kv => fst kv * idx_bucket_size <= word_len b)%N h.
Proof.
  unfold histogram_hello_world. intros H. destruct (grep_collect fa b) as [l| |] eqn:G; try discriminate. cbn [obind] in H. apply grep_offsets in G. rewrite Forall_forall in G.
  destruct (histogram_table N.compare N_order N.eq_dec (fun off => Ret (N.of_nat off / idx_bucket_size)%N) (fun off => (N.of_nat off / idx_bucket_size)%N) (map fst l)) as (h' & Eh & T); [reflexivity|].
  assert (h' = h) by congruence. subst h'. apply (table_keys _ _ _ _ (fun k => (k * idx_bucket_size <= word_len b)%N) T). intros v I. apply in_map_iff in I. destruct I as (o & <- & I).
  apply in_map_iff in I. destruct I as (p & <- & I). specialize (G p I). unfold word_len, idx_bucket_size. pose proof (N.mul_div_le (N.of_nat (fst p)) 100000000 ltac:(discriminate)). lia.
Qed.
Lemma message_total b h : histogram_message b = Ret h -> (hist_total h <= word_len b)%N.
Proof.
  intros H. destruct (dltit_total b) as (l & El & E). destruct (histogram_message_spec b l El) as (h' & Eh & Q). assert (h' = h) by congruence. subst h'.
  destruct (hist_of_totals _ _ Q) as [_ ->]. rewrite <- (map_map storage_len N.of_nat), <- sum_N. pose proof (entries_sizes b _ E). unfold word_len. lia.
Qed.
Lemma payload_total b h : histogram_payload b = Ret h -> (hist_total h <= word_len b)%N.
Proof.
  unfold histogram_payload. intros H. destruct (dltit b) as [es| |] eqn:E; try discriminate. cbn [obind] in H. destruct (mapM _ es) as [ls| |] eqn:D; try discriminate. cbn [obind] in H.
  destruct (histogram_hist (fun id => Ret (N.of_nat id)) N.of_nat ls) as (h' & Eh & Q); [reflexivity|]. assert (h' = h) by congruence. subst h'.
  destruct (hist_of_totals _ _ Q) as [_ ->]. rewrite <- sum_N. pose proof (entries_sizes b _ E) as L. pose proof (entry_facts b es) as F. specialize (fun e => F e E).
  enough (list_sum ls <= list_sum (map storage_len es)) by (unfold word_len; lia). clear - D F. revert ls D. induction es as [|e es IH]; intros ls D; cbn [mapM] in D.
  - injection D as <-. cbn. lia.
  - destruct (payload (dlt e)) as [p| |] eqn:P; try discriminate. cbn [obind] in D. destruct (mapM _ es) as [ls'| |] eqn:D'; try discriminate. cbn [obind] in D. injection D as <-.
    specialize (IH (fun x I => F x (or_intror I)) ls' eq_refl). destruct (F e (or_introl eq_refl)) as [_ T]. unfold list_sum in *. cbn [map fold_right].
    enough (match p with Some s => length s | None => 0 end <= length (tail (dlt e))) by lia.
    rewrite payload_exact in P. cbv zeta in P. destruct p as [q|]; [|lia].
    repeat match type of P with context [if ?c then _ else _] => destruct c end; try discriminate; injection P as <-; rewrite ?skipn_length; lia.
Qed.

(** * Reductions *)
Section Reduce.
  Variable m : target.
  Context {A : Type}.
  Variables (ident : A) (op : A -> A -> A) (opw : A -> A -> outcome A) (w : A -> nat).
  Hypothesis w0 : w ident = 0.
  Hypothesis wop : forall x y, w (op x y) = w x + w y.
  Hypothesis ok : forall x y, (N.of_nat (w x + w y) < usize_mod m)%N -> opw x y = Ret (op x y).
  Lemma reduce_weight t : w (reduce_tree ident op t) = list_sum (map w (leaves t)).
  Proof.
    induction t as [| a|l IHl r IHr]; cbn [reduce_tree leaves map].
    - exact w0.
    - cbn. lia.
    - rewrite wop, IHl, IHr, map_app, list_sum_app. reflexivity.
  Qed.
  Lemma reduce_words t : (N.of_nat (list_sum (map w (leaves t))) < usize_mod m)%N -> reduce_word ident opw t = Ret (reduce_tree ident op t).
  Proof.
    induction t as [| a|l IHl r IHr]; intros H; cbn [reduce_word reduce_tree leaves] in *; try reflexivity. rewrite map_app, list_sum_app in H.
    rewrite IHl, IHr by lia. cbn [obind]. apply ok. rewrite !reduce_weight. exact H.
  Qed.
End Reduce.
Lemma list_sum_perm l l' : Permutation l l' -> list_sum l = list_sum l'.
Proof. induction 1; unfold list_sum in *; cbn [fold_right]; lia. Qed.

Definition got {K} cmp (k : K) (acc : list (K * nat)) : nat := match map_get cmp k acc with Some n => n | None => 0 end.
Lemma insert_counts {K} cmp (k : K) v acc : counts (map_insert cmp k (got cmp k acc + v) acc) = counts acc + v.
Proof.
  unfold counts, got. induction acc as [|[k' v'] acc IH]; cbn [map_insert map_get]; [unfold list_sum; cbn; lia|]. unfold list_sum in *.
  destruct (cmp k k'); cbn [map snd fold_right] in *; lia.
Qed.
Lemma got_counts {K} cmp (k : K) acc : got cmp k acc <= counts acc.
Proof. unfold counts, got. induction acc as [|[k' v'] acc IH]; cbn [map_get]; [lia|]. unfold list_sum in *. destruct (cmp k k'); cbn [map snd fold_right] in *; lia. Qed.
Lemma hist_merge_counts {K} cmp (next : list (K * nat)) : forall acc, counts (hist_merge cmp acc next) = counts acc + counts next.
Proof.
  induction next as [|[k v] next IH]; intros acc; cbn [hist_merge fold_left]; [unfold counts; cbn; lia|].
  change (counts (hist_merge cmp (map_insert cmp k (got cmp k acc + v) acc) next) = counts acc + counts ((k, v) :: next)).
  rewrite IH, insert_counts. unfold counts, list_sum. cbn [map snd fold_right]. lia.
Qed.
Lemma hist_merge_words {K} m cmp (next : list (K * nat)) : forall acc, (N.of_nat (counts acc + counts next) < usize_mod m)%N ->
  hist_merge_word m cmp acc next = Ret (hist_merge cmp acc next).
Proof.
  induction next as [|[k v] next IH]; intros acc H; [reflexivity|]. cbn [hist_merge_word]. fold (got cmp k acc). pose proof (got_counts cmp k acc).
  assert (C : counts ((k, v) :: next) = v + counts next) by reflexivity. rewrite C in H. rewrite plus_ok by lia. cbn [obind]. rewrite IH; [reflexivity|]. rewrite insert_counts. lia.
Qed.

Definition wx (x : list (N * nat) * nat) : nat := counts (fst x) + snd x.
Definition W (m : list (quad * (list (N * nat) * nat))) : nat := list_sum (map (fun kx => wx (snd kx)) m).
Definition gotx (k : quad) (acc : list (quad * (list (N * nat) * nat))) : list (N * nat) * nat := match map_get quad_cmp k acc with Some x => x | None => ([], 0) end.
Lemma insert_W k v acc : W (map_insert quad_cmp k (hist_merge N.compare (fst (gotx k acc)) (fst v), snd (gotx k acc) + snd v) acc) = W acc + wx v.
Proof.
  unfold W, gotx. induction acc as [|[k' v'] acc IH]; cbn [map_insert map_get].
  - unfold list_sum, wx. cbn [map snd fst fold_right]. rewrite hist_merge_counts. unfold counts. cbn. lia.
  - unfold list_sum in *. destruct (quad_cmp k k'); cbn [map snd fst fold_right] in *.
    + unfold wx at 1. cbn [fst snd]. rewrite hist_merge_counts. unfold wx. lia.
    + unfold wx at 1. cbn [fst snd]. rewrite hist_merge_counts. unfold wx. unfold counts at 1. cbn. lia.
    + lia.
Qed.
Lemma gotx_W k acc : wx (gotx k acc) <= W acc.
Proof.
  unfold W, gotx. induction acc as [|[k' v'] acc IH]; cbn [map_get]; [cbn; lia|]. unfold list_sum in *. destruct (quad_cmp k k'); cbn [map snd fold_right] in *; try lia.
  unfold wx at 1. cbn. lia.
Qed.
Lemma split_merge_W next : forall acc, W (split_merge acc next) = W acc + W next.
Proof.
  induction next as [|[k v] next IH]; intros acc; cbn [split_merge fold_left]; [unfold W; cbn; lia|].
  change (W (split_merge (map_insert quad_cmp k (hist_merge N.compare (fst (gotx k acc)) (fst v), snd (gotx k acc) + snd v) acc) next) = W acc + W ((k, v) :: next)).
  rewrite IH, insert_W. unfold W, list_sum. cbn [map snd fold_right]. lia.
Qed.
Lemma split_merge_words m next : forall acc, (N.of_nat (W acc + W next) < usize_mod m)%N -> split_merge_word m acc next = Ret (split_merge acc next).
Proof.
  induction next as [|[k v] next IH]; intros acc H; [reflexivity|]. cbn [split_merge_word]. cbv zeta. fold (gotx k acc). pose proof (gotx_W k acc) as G. unfold wx at 1 in G.
  assert (C : W ((k, v) :: next) = wx v + W next) by reflexivity. rewrite C in H. unfold wx at 1 in H.
  rewrite hist_merge_words by lia. cbn [obind]. rewrite plus_ok by lia. cbn [obind]. rewrite IH; [reflexivity|]. rewrite insert_W. unfold wx at 1. lia.
Qed.

Lemma pieces b num l : partition_from DLT b num = Ret l -> list_sum (map (@length byte) l) <= length b.
Proof.
  intros E. destruct num as [|num]; [discriminate|]. destruct (partition_pieces b (S num) ltac:(lia)) as (l' & rest & E' & _ & Q).
  assert (l' = l) by congruence. subst l'. rewrite Q, app_length. enough (list_sum (map (@length byte) l) = length (concat l)) by lia.
  clear. induction l as [|x l IH]; [reflexivity|]. cbn [map concat]. rewrite app_length, <- IH. reflexivity.
Qed.
Lemma piece_len l s : In s l -> length s <= list_sum (map (@length byte) l).
Proof. induction l as [|x l IH]; intros I; [destruct I|]. unfold list_sum in *. cbn [map fold_right]. destruct I as [<-|I]; [lia|]. apply IH in I. lia. Qed.
Lemma mapM_sum {B} (f : bytes -> outcome B) (w : B -> nat) l : (forall s r, In s l -> f s = Ret r -> w r <= length s) -> forall rs, mapM f l = Ret rs ->
  list_sum (map w rs) <= list_sum (map (@length byte) l).
Proof.
  induction l as [|s l IH]; intros H rs E; cbn [mapM] in E; [injection E as <-; cbn; lia|]. destruct (f s) as [r| |] eqn:F; try discriminate. cbn [obind] in E.
  destruct (mapM f l) as [rs'| |]; try discriminate. cbn [obind] in E. injection E as <-. unfold list_sum in *. cbn [map fold_right].
  specialize (H s r (or_introl eq_refl) F) as H1. specialize (IH (fun s r I => H s r (or_intror I)) rs' eq_refl). lia.
Qed.
Section Parallel.
  Variable m : target.
  Context {B : Type}.
  Variables (ident : B) (op : B -> B -> B) (opw : B -> B -> outcome B) (w : B -> nat).
  Hypothesis w0 : w ident = 0.
  Hypothesis wop : forall x y, w (op x y) = w x + w y.
  Hypothesis ok : forall x y, (N.of_nat (w x + w y) < usize_mod m)%N -> opw x y = Ret (op x y).
  Variables (f fw : bytes -> outcome B).
  Lemma parallel_words (sc : scheduler) l b : fair_sched sc -> small m b -> list_sum (map (@length byte) l) <= length b ->
    (forall s, length s <= length b -> fw s = f s) -> (forall s r, length s <= length b -> f s = Ret r -> w r <= length s) ->
    mapM fw l = mapM f l /\
    (forall rs, mapM f l = Ret rs -> reduce_word ident opw (sc B rs) = Ret (reduce_tree ident op (sc B rs))).
  Proof.
    intros Fs Hb L H1 H2. split.
    - apply mapM_ext. intros s I. apply H1. apply piece_len in I. lia.
    - intros rs E. apply (reduce_words m ident op opw w w0 wop ok). rewrite (list_sum_perm _ (map w rs)) by (apply Permutation_map, Fs).
      apply (few m b); [exact Hb|]. pose proof (mapM_sum f w l ltac:(intros s r I; apply H2; apply piece_len in I; lia) rs E). lia.
  Qed.
End Parallel.
Lemma continuous_weight b h : continuous_timestamp_histogram b = Ret h -> counts h <= length b.
Proof.
  intros H. destruct (dltit_total b) as (l & El & E). destruct (continuous_spec b l El) as (h' & Eh & Q). assert (h' = h) by congruence. subst h'.
  destruct (hist_of_totals _ _ Q) as [-> _]. unfold durations. rewrite map_length. apply entries_count in E. eapply Nat.le_trans; [apply grouped_len|lia].
Qed.
Lemma merged_keys (P : N -> Prop) next : forall acc, Forall (fun kv => P (fst kv)) acc -> Forall (fun kv : N * nat => P (fst kv)) next -> Forall (fun kv => P (fst kv)) (hist_merge N.compare acc next).
Proof.
  induction next as [|[k v] next IH]; intros acc Ha Hn; [exact Ha|]. inversion_clear Hn as [|x y Hk Hn']. cbn [hist_merge fold_left]. apply IH; [|exact Hn'].
  clear IH Hn'. cbn [fst snd] in *. generalize (match map_get N.compare k acc with Some n => n | None => 0 end + v). intros u.
  induction Ha as [|[k' v'] acc H Ha IHa]; cbn [map_insert]; [now repeat constructor|]. destruct (N.compare k k'); repeat constructor; auto.
Qed.
Lemma tree_keys (P : N -> Prop) t : Forall (Forall (fun kv : N * nat => P (fst kv))) (leaves t) -> Forall (fun kv => P (fst kv)) (reduce_tree [] (hist_merge N.compare) t).
Proof.
  induction t as [| a|l IHl r IHr]; cbn [leaves reduce_tree]; intros H; [constructor|now inversion H|]. apply Forall_app in H. destruct H. apply merged_keys; auto.
Qed.
