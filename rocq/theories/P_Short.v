(** Property theorems C129: reports stay short.  However large the file, the size and type histograms
    have a bounded number of lines; the number of sizes grows with the square root of the file; the tables
    per ECU have one line per ECU that occurs. *)
From Coq Require Import String.
From Verif Require Import Base DltModel MatchModel GenModel ToolsModel MainModel Spec CommandSpec BaseFacts DltFacts CodecFacts ParseFacts
  FindFacts IterFacts DltIterFacts LayoutFacts GrepFacts GroupFacts MapFacts CommandFacts TotalFacts ExactFacts P_Iter P_Exact.
From Verif Require Samples.
From Coq Require Import Sorted Permutation FinFun.
Import Samples(m1, m2, m3, m1_valid, m2_valid, m3_valid).
Local Open Scope string_scope.
Local Open Scope list_scope.
Ltac Zify.zify_post_hook ::= idtac.

(** * Tables have a row for each different value *)
Lemma sorted_nodup {K} (before : K -> K -> Prop) (irr : forall x, ~ before x x) l : StronglySorted before l -> NoDup l.
Proof.
  induction 1 as [|x l S IH F]; constructor; [|exact IH]. intros I. rewrite Forall_forall in F. exact (irr x (F x I)).
Qed.

Lemma table_keys {K} dec (before : K -> K -> Prop) vals h : table dec before vals h -> forall k, In k (map fst h) <-> In k vals.
Proof.
  intros [_ H] k. split.
  - intros I. apply in_map_iff in I. destruct I as ((k' & n) & <- & I). now apply H in I.
  - intros I. apply in_map_iff. exists (k, count_occ dec vals k). split; [reflexivity|]. apply H. now split.
Qed.

Lemma table_short {K} dec (before : K -> K -> Prop) (irr : forall x, ~ before x x) vals h cands :
  table dec before vals h -> incl vals cands -> length h <= length cands.
Proof.
  intros T I. rewrite <- (map_length fst h). apply NoDup_incl_length.
  - exact (sorted_nodup _ irr _ (proj1 T)).
  - intros k Hk. apply I. now apply (table_keys dec before vals h T).
Qed.

Lemma table_few {K} dec (before : K -> K -> Prop) (irr : forall x, ~ before x x) vals h :
  table dec before vals h -> length h <= length vals.
Proof. intros T. exact (table_short dec before irr vals h vals T (incl_refl _)). Qed.

Lemma N_irr (x : N) : ~ (x < x)%N.
Proof. lia. Qed.

Lemma type_irr p : ~ type_before p p.
Proof.
  destruct p as [v t]. unfold type_before. cbn [fst snd]. intros [[A B]|[_ H]]; [congruence|].
  destruct t; [|exact H]. lia.
Qed.

(** Numbers in an interval. *)
Lemma sorted_span (l : list N) lo hi : StronglySorted N.lt l -> Forall (fun x => (lo <= x <= hi)%N) l ->
  (N.of_nat (length l) <= hi + 1 - lo)%N.
Proof.
  revert lo. induction l as [|x l IH]; intros lo S F; [cbn [length]; lia|].
  inversion S as [|? ? S' F']; subst. inversion F as [|? ? Hx Fl]; subst.
  assert (F2 : Forall (fun y => (x + 1 <= y <= hi)%N) l).
  { rewrite Forall_forall in *. intros y Hy. specialize (F' y Hy). specialize (Fl y Hy). lia. }
  specialize (IH (x + 1)%N S' F2). cbn [length]. lia.
Qed.

(** Different numbers have a large sum. *)
Lemma sorted_sum (l : list N) lo : StronglySorted N.lt l -> Forall (fun x => (lo <= x)%N) l ->
  (N.of_nat (length l) * (2 * lo + N.of_nat (length l)) <= 2 * fold_right N.add 0 l + N.of_nat (length l))%N.
Proof.
  revert lo. induction l as [|x l IH]; intros lo S F; [cbn [length fold_right]; lia|].
  inversion S as [|? ? S' F']; subst. inversion F as [|? ? Hx Fl]; subst.
  assert (F2 : Forall (fun y => (lo + 1 <= y)%N) l).
  { rewrite Forall_forall in *. intros y Hy. specialize (F' y Hy). lia. }
  specialize (IH (lo + 1)%N S' F2). cbn [length fold_right]. rewrite Nat2N.inj_succ. nia.
Qed.

Lemma sub_sum (l vals : list N) : NoDup l -> incl l vals -> (fold_right N.add 0 l <= fold_right N.add 0 vals)%N.
Proof.
  revert vals. induction l as [|x l IH]; intros vals D I; [cbn [fold_right]; lia|].
  inversion D as [|? ? N' D']; subst.
  destruct (in_split x vals (I x (or_introl eq_refl))) as (v1 & v2 & ->).
  assert (I' : incl l (v1 ++ v2)).
  { intros y Hy. specialize (I y (or_intror Hy)). rewrite in_app_iff in *. cbn [In] in I.
    destruct I as [I|[->|I]]; [now left|contradiction|now right]. }
  specialize (IH _ D' I'). cbn [fold_right].
  enough (A : forall u, fold_right N.add 0%N (u ++ x :: v2) = (x + fold_right N.add 0 (u ++ v2))%N) by (rewrite A; lia).
  induction u as [|z u IHu]; cbn [app fold_right]; [reflexivity|rewrite IHu; lia].
Qed.

(** * Entries *)
Lemma entry_message b l k e : dltit_offset b = Ret l -> In (k, e) l ->
  exists m, message_at b k m /\ denotes e m /\ storage_len e = length m.
Proof. intros E I. exact (proj1 (C12_iteration_genuine b l E) k e I). Qed.

Lemma denotes_size e m : valid_message m -> denotes e m -> size_of e = length m /\ length (body e) <= length m - 20.
Proof.
  intros (_ & L & U) D. destruct D as (_ & _ & _ & _ & _ & _ & _ & Dl & Dt). split.
  - unfold size_of. rewrite Dl, U. lia.
  - unfold body. rewrite Dt, !skipn_length. lia.
Qed.

Lemma u16_small (b : bytes) i : (u16_at b i <= 65535)%N.
Proof. unfold u16_at, byte_at. generalize (bN_lt (nth i b x00)) (bN_lt (nth (i + 1) b x00)). intros. unfold bN in *. lia. Qed.

Lemma valid_small m : valid_message m -> (20 <= N.of_nat (length m) <= 65551)%N.
Proof. intros (_ & L & U). generalize (u16_small m 18). rewrite U. lia. Qed.

(** Entries do not overlap: their sizes do not exceed the file. *)
Lemma disjoint_sum (l : list (nat * storage_entry)) lo hi :
  Forall (fun p => lo <= fst p /\ fst p + storage_len (snd p) <= hi) l -> lo <= hi ->
  (forall i j k e k' e', nth_error l i = Some (k, e) -> nth_error l j = Some (k', e') -> i < j -> k + storage_len e <= k') ->
  lo + list_sum (map (fun p => storage_len (snd p)) l) <= hi.
Proof.
  revert lo. induction l as [|[k e] l IH]; intros lo F Hle H; [cbn [map list_sum fold_right]; lia|].
  inversion F as [|? ? [Hk He] Fl]; subst. cbn [fst snd] in Hk, He. change (list_sum (map _ ((k, e) :: l))) with
    (storage_len e + list_sum (map (fun p : nat * storage_entry => storage_len (snd p)) l)).
  enough (k + storage_len e + list_sum (map (fun p : nat * storage_entry => storage_len (snd p)) l) <= hi) by lia.
  apply IH; [|exact He|].
  - rewrite Forall_forall in *. intros [k' e'] I. destruct (In_nth_error _ _ I) as (j & Ej).
    specialize (H 0 (S j) k e k' e' eq_refl Ej ltac:(lia)). split; [exact H|exact (proj2 (Fl _ I))].
  - intros i j a x a' x' Ei Ej Hij. exact (H (S i) (S j) a x a' x' Ei Ej ltac:(lia)).
Qed.

Lemma entries_of b es : dltit b = Ret es -> exists l, dltit_offset b = Ret l /\ es = map snd l.
Proof.
  intros E. destruct (dltit_offset_total b) as (l & El & _). exists l. split; [exact El|].
  rewrite (dltit_map b l El) in E. congruence.
Qed.

Lemma entry_sizes b es : dltit b = Ret es ->
  Forall (fun e => (20 <= N.of_nat (size_of e) <= 65551)%N /\ length (body e) + 20 <= size_of e) es /\
  list_sum (map size_of es) <= length b.
Proof.
  intros E. destruct (entries_of b es E) as (l & El & ->).
  assert (G : forall k e, In (k, e) l -> exists m, message_at b k m /\ denotes e m /\ storage_len e = length m)
    by (intros k e I; exact (entry_message b l k e El I)).
  assert (Z : forall k e, In (k, e) l -> storage_len e = size_of e).
  { intros k e I. destruct (G k e I) as (m & (V & _) & D & ->). symmetry. exact (proj1 (denotes_size e m V D)). }
  split.
  - rewrite Forall_forall. intros e I. apply in_map_iff in I. destruct I as ([k e'] & <- & I). cbn [snd].
    destruct (G k e' I) as (m & (V & _) & D & _). destruct (denotes_size e' m V D) as [-> B].
    generalize (valid_small m V). lia.
  - rewrite map_map.
    rewrite (map_ext_in (fun x => size_of (snd x)) (fun x => storage_len (snd x))) by (intros [k e] I; symmetry; exact (Z k e I)).
    apply (disjoint_sum l 0 (length b)); [|lia|exact (proj2 (C12_iteration_genuine b l El))].
    rewrite Forall_forall. intros [k e] I. cbn [fst snd]. split; [lia|].
    destruct (G k e I) as (m & (_ & O) & _ & ->). destruct O as (pre & post & -> & <-). rewrite !app_length. lia.
Qed.

Lemma sum_N (l : list nat) : fold_right N.add 0%N (map N.of_nat l) = N.of_nat (list_sum l).
Proof. induction l as [|x l IH]; [reflexivity|]. change (list_sum (x :: l)) with (x + list_sum l). cbn [map fold_right]. rewrite IH. lia. Qed.

Lemma rows_square (vals : list N) h lo hi n : number_table vals h -> Forall (fun v => (lo <= v <= hi)%N) vals ->
  (fold_right N.add 0 vals <= n)%N ->
  (N.of_nat (length h) <= hi + 1 - lo)%N /\
  (N.of_nat (length h) * (2 * lo + N.of_nat (length h)) <= 2 * n + N.of_nat (length h))%N.
Proof.
  intros T F L. assert (K : forall k, In k (map fst h) <-> In k vals) by exact (table_keys _ _ _ _ T).
  assert (F' : Forall (fun v => (lo <= v <= hi)%N) (map fst h)).
  { rewrite Forall_forall in *. intros v I. apply F. now apply K. }
  generalize (sorted_span (map fst h) lo hi (proj1 T) F').
  assert (F2 : Forall (fun v => (lo <= v)%N) (map fst h)) by (eapply Forall_impl; [|exact F']; cbv beta; lia).
  generalize (sorted_sum (map fst h) lo (proj1 T) F2).
  generalize (sub_sum (map fst h) vals (sorted_nodup _ N_irr _ (proj1 T)) ltac:(intros k I; now apply K)).
  rewrite map_length. generalize (N.of_nat (length h)). generalize (fold_right N.add 0%N (map fst h)). intros s r A B C.
  split; [exact C|]. lia.
Qed.

(** * C129 *)
(** The size histograms have at most 65532 rows (and two lines more), and r rows only for files of
    at least r * (r + 39) / 2 bytes. *)
Theorem C129_sizes : forall (M : machine) (cmd : string) (b : bytes) ls,
  In cmd ["histogram_message_size"; "histogram_payload_size"] -> run_command M cmd b = Ret ls ->
  exists rows, length ls = rows + 2 /\ (N.of_nat rows <= 65532)%N /\ rows * (rows + 39) <= 2 * length b.
Proof.
  intros M cmd b ls HC R. destruct (dltit_offset_total b) as (l & El & _). assert (E := dltit_map b l El).
  set (es := map snd l) in *. destruct (entry_sizes b es E) as [F S].
  destruct HC as [<-|[<-|[]]].
  - destruct (C60_message_sizes M b es E) as (h & T & R'). rewrite R' in R. injection R as <-.
    exists (length h). split; [cbn [length]; rewrite app_length, map_length; cbn [length]; lia|].
    destruct (rows_square _ h 20 65551 (N.of_nat (length b)) T) as [A B].
    + rewrite Forall_map. eapply Forall_impl; [|exact F]. cbv beta. tauto.
    + rewrite <- (map_map size_of N.of_nat), sum_N. lia.
    + split; [lia|]. nia.
  - destruct (C60_payload_sizes M b es E) as [G P].
    assert (NS : forall e, In e es -> ~ stunted e).
    { intros e I St. rewrite P in R by (exists e; now split). discriminate. }
    destruct (G NS) as (h & T & R'). rewrite R' in R. injection R as <-.
    exists (length h). split; [cbn [length]; rewrite app_length, map_length; cbn [length]; lia|].
    assert (SB : list_sum (map (fun e => length (body e)) es) + 20 * length es <= length b).
    { enough (list_sum (map (fun e => length (body e)) es) + 20 * length es <= list_sum (map size_of es)) by lia.
      clear - F. induction F as [|e es' [_ He] _ IH]; [cbn; lia|]. cbn [map length].
      change (list_sum (length (body e) :: map (fun e => length (body e)) es')) with (length (body e) + list_sum (map (fun e => length (body e)) es')).
      change (list_sum (size_of e :: map size_of es')) with (size_of e + list_sum (map size_of es')). lia. }
    assert (FW : length h <= length es).
    { rewrite <- (map_length (fun e => N.of_nat (length (body e))) es). exact (table_few _ _ N_irr _ _ T). }
    destruct (rows_square _ h 0 65531 (N.of_nat (length b - 20 * length es)) T) as [A B].
    + rewrite Forall_map. eapply Forall_impl; [|exact F]. cbv beta. lia.
    + rewrite <- (map_map (fun e => length (body e)) N.of_nat), sum_N. lia.
    + split; [lia|]. nia.
Qed.
Print Assumptions C129_sizes.

(** The message types have at most 22 rows below the heading. *)
Definition types_shown : list (bool * option msg_type) := nodup type_dec (map (fun n => shown_type (u8 (N.of_nat n))) (seq 0 256)).
Lemma types_shown_all c : In (shown_type c) types_shown.
Proof.
  apply nodup_In. apply in_map_iff. exists (N.to_nat (bN c)). generalize (bN_lt c). intros L. split.
  - rewrite N2Nat.id, u8_bN. reflexivity.
  - apply in_seq. lia.
Qed.
Lemma types_shown_number : length types_shown = 22.
Proof. vm_compute. reflexivity. Qed.

Theorem C129_types : forall (M : machine) (b : bytes) ls,
  run_command M "histogram_message_type" b = Ret ls -> length ls <= 23.
Proof.
  intros M b ls R. destruct (dltit_offset_total b) as (l & El & _). assert (E := dltit_map b l El). set (es := map snd l) in *.
  destruct (C61_message_types M b es E) as [G P].
  assert (W : forall e, In e es -> extended e = true -> whole e).
  { intros e I X. unfold whole. apply Nat.nlt_ge. intros Lt. rewrite P in R; [discriminate|].
    exists e. split; [exact I|]. split; [exact X|]. unfold whole. lia. }
  destruct (G W) as (h & T & R'). rewrite R' in R. injection R as <-. cbn [length]. rewrite map_length.
  apply le_n_S. rewrite <- types_shown_number. apply (table_short _ _ type_irr _ _ _ T).
  intros k I. apply in_map_iff in I. destruct I as (e & <- & _). apply types_shown_all.
Qed.
Print Assumptions C129_types.

(** * Tables per ECU *)
Lemma before_irr a : ~ bytes_before a a.
Proof. induction a as [|x a IH]; cbn [bytes_before]; [tauto|]. intros [L|[_ H]]; [lia|exact (IH H)]. Qed.

Lemma runs_few {A} (rel : A -> A -> bool) es runs : maximal_runs rel es runs -> length runs <= length es.
Proof.
  intros (C & NE & _). rewrite <- C. clear C. induction runs as [|r runs IH]; [cbn; lia|].
  cbn [concat length]. rewrite app_length. inversion NE; subst. specialize (IH ltac:(assumption)). destruct r; [congruence|cbn [length]; lia].
Qed.

Lemma file_period_length p l : length (file_period p l) = S (length l).
Proof. induction l as [|q l IH]; [reflexivity|]. cbn [file_period]. destruct (fst p <? fst q)%N; cbn [length]; [reflexivity|now rewrite IH]. Qed.
Lemma join_length p l : forall r l', join p l = Some (r, l') -> length l = S (length l').
Proof.
  induction l as [|q l IH]; intros r l' E; cbn [join] in E; [discriminate|].
  destruct (meets q p); [injection E as _ <-; reflexivity|].
  destruct (join p l) as [[r' l'']|]; [|discriminate]. injection E as _ <-. cbn [length]. now rewrite (IH _ _ eq_refl).
Qed.
Lemma joined_few ps : length (joined ps) <= length ps.
Proof.
  unfold joined. enough (A : forall acc, length (fold_left add_period ps acc) <= length acc + length ps) by exact (A []).
  induction ps as [|p ps IH]; intros acc; cbn [fold_left length]; [lia|]. specialize (IH (add_period acc p)).
  enough (length (add_period acc p) <= S (length acc)) by lia. unfold add_period. destruct (join p acc) as [[r l']|] eqn:J.
  - rewrite file_period_length, (join_length p acc r l' J). lia.
  - rewrite file_period_length. lia.
Qed.

Lemma cycles_row_few es x : cycles_row es x -> length (fst x) <= length es.
Proof.
  intros (_ & runs & R & T). apply Nat.le_trans with (length runs); [|exact (runs_few _ _ _ R)].
  rewrite <- (map_length (fun g => span stamp_value g / 10000)%N runs). exact (table_few _ _ N_irr _ _ T).
Qed.
Lemma periods_row_few es x : periods_row es x -> length (fst x) <= length es.
Proof.
  intros (_ & runs & R & T). apply Nat.le_trans with (length runs); [|exact (runs_few _ _ _ R)].
  rewrite <- (map_length (extent secs_of) runs). eapply Nat.le_trans; [|apply joined_few].
  rewrite <- (map_length (fun p : N * N => snd p - fst p)%N (joined (map (extent secs_of) runs))). exact (table_few _ _ N_irr _ _ T).
Qed.

Lemma from_ecus_sum ks : NoDup ks -> forall es, list_sum (map (fun k => length (from_ecu k es)) ks) <= length es.
Proof.
  induction 1 as [|k ks NI D IH]; intros es; [cbn; lia|]. cbn [map].
  change (list_sum (length (from_ecu k es) :: map (fun k => length (from_ecu k es)) ks)) with
    (length (from_ecu k es) + list_sum (map (fun k => length (from_ecu k es)) ks)).
  set (others := filter (fun e => if quad_dec (ecu_of e) k then false else true) es).
  assert (A : length (from_ecu k es) + length others = length es).
  { unfold from_ecu, others. clear. induction es as [|e es IH]; [reflexivity|]. cbn [filter].
    destruct (quad_dec (ecu_of e) k); cbn [length]; lia. }
  assert (B : forall k', In k' ks -> from_ecu k' es = from_ecu k' others).
  { intros k' I. assert (k' <> k) by (intros ->; contradiction). unfold from_ecu, others. clear - H.
    induction es as [|e es IH]; [reflexivity|]. cbn [filter]. destruct (quad_dec (ecu_of e) k) as [Ek|NE].
    - destruct (quad_dec (ecu_of e) k') as [Ek'|_]; [congruence|exact IH].
    - cbn [filter]. destruct (quad_dec (ecu_of e) k'); [f_equal|]; exact IH. }
  specialize (IH others). rewrite (map_ext_in _ (fun k => length (from_ecu k others))) by (intros k' I; now rewrite (B k' I)). lia.
Qed.

(** Lines and table entries of a report. *)
Definition entries_shown (ls : list line) : nat :=
  list_sum (map (fun l => match l with LEcu _ x => 1 + length (fst x) | _ => 1 end) ls).

Lemma ecu_rows_few es row m : ecu_rows es row m -> (forall xs x, row xs x -> length (fst x) <= length xs) ->
  length m = length (nodup quad_dec (map ecu_of es)) /\ entries_shown (ecu_lines m) <= length m + length es.
Proof.
  intros (S & K & R) F.
  assert (D : NoDup (map fst m)).
  { apply (sorted_nodup (fun a b => bytes_before (quad_bytes a) (quad_bytes b))); [|exact S]. intros x. apply before_irr. }
  split.
  - rewrite <- (map_length fst m). apply Nat.le_antisymm; apply NoDup_incl_length; try assumption; try apply NoDup_nodup.
    + intros k I. apply nodup_In. now apply K.
    + intros k I. apply K. now apply nodup_In in I.
  - enough (A : entries_shown (ecu_lines m) <= length m + list_sum (map (fun k => length (from_ecu k es)) (map fst m))).
    { generalize (from_ecus_sum (map fst m) D es). lia. }
    clear S K D. induction m as [|[k x] m IH]; [cbn; lia|].
    assert (H := F _ _ (R k x (or_introl eq_refl))). specialize (IH (fun k' x' I => R k' x' (or_intror I))).
    change (entries_shown (ecu_lines ((k, x) :: m))) with (1 + length (fst x) + entries_shown (ecu_lines m)).
    change (list_sum (map (fun k => length (from_ecu k es)) (map fst ((k, x) :: m)))) with
      (length (from_ecu k es) + list_sum (map (fun k => length (from_ecu k es)) (map fst m))). cbn [length]. lia.
Qed.

Lemma stamped_dec es : {all_stamped es} + {unstamped es}.
Proof.
  induction es as [|e es [IH|IH]].
  - left. intros e [].
  - destruct (stamped e) eqn:Es; [destruct (stamp e) eqn:Est|].
    + left. intros e' [<-|I] H; [congruence|exact (IH e' I H)].
    + right. exists e. split; [now left|]. now split.
    + left. intros e' [<-|I] H; [congruence|exact (IH e' I H)].
  - right. destruct IH as (e' & I & H). exists e'. split; [now right|exact H].
Qed.

Lemma stamped_subset es : incl (nodup quad_dec (map ecu_of (filter stamped es))) (nodup quad_dec (map ecu_of es)).
Proof.
  intros k I. apply nodup_In in I. apply nodup_In. apply in_map_iff in I. destruct I as (e & <- & I).
  apply in_map. now apply filter_In in I.
Qed.

(** The tables per ECU have one line per ECU of the file that has entries to be shown, and all tables
    together have at most as many rows as the file has entries. *)
Theorem C129_ecus : forall (M : machine) (cmd : string) (b : bytes) es ls,
  In cmd ["split_lifecycles"; "split_timestamp"] -> dltit b = Ret es -> run_command M cmd b = Ret ls ->
  length ls <= 1 + length (nodup quad_dec (map ecu_of es)) /\
  (cmd = "split_timestamp" -> length ls = 1 + length (nodup quad_dec (map ecu_of es))) /\
  entries_shown ls <= length ls + length es.
Proof.
  intros M cmd b es ls HC E R. destruct HC as [<-|[<-|[]]].
  - destruct (C63_split_lifecycles M b es E) as [G P].
    destruct (stamped_dec es) as [AS|U]; [|rewrite P in R by (now left); discriminate].
    destruct (text_dec (filter stamped es)) as [TX|U]; [|rewrite P in R by (now right); discriminate].
    destruct (G AS TX) as (m & Rw & R'). rewrite R' in R. injection R as <-.
    destruct (ecu_rows_few _ _ _ Rw cycles_row_few) as [L S].
    assert (LF : length (filter stamped es) <= length es) by (clear; induction es as [|e es IH]; cbn [filter]; [lia|destruct (stamped e); cbn [length]; lia]).
    assert (LN := NoDup_incl_length (NoDup_nodup quad_dec _) (stamped_subset es)).
    assert (LL : length (ecu_lines m) = length m) by (unfold ecu_lines; now rewrite map_length).
    change (entries_shown (LHeading lifecycle_heading :: ecu_lines m)) with (1 + entries_shown (ecu_lines m)).
    cbn [length]. rewrite LL. split; [lia|]. split; [discriminate|]. lia.
  - destruct (C62_split_timestamp M b es E) as [G P].
    destruct (text_dec es) as [TX|U]; [|rewrite P in R by exact U; discriminate].
    destruct (G TX) as (m & Rw & R'). rewrite R' in R. injection R as <-.
    destruct (ecu_rows_few _ _ _ Rw periods_row_few) as [L S].
    assert (LL : length (ecu_lines m) = length m) by (unfold ecu_lines; now rewrite map_length).
    change (entries_shown (LHeading continuous_heading :: ecu_lines m)) with (1 + entries_shown (ecu_lines m)).
    cbn [length]. rewrite LL. split; [lia|]. split; [lia|]. lia.
Qed.
Print Assumptions C129_ecus.

(** Every report of a sequential command has at most a tenth as many lines and table entries as the
    file has bytes, and three more. *)
Theorem C129_linear : forall (M : machine) (cmd : string) (b : bytes) ls,
  In cmd ["count"; "count_hello_world"; "count_hello_world_raw"; "iter"; "itertools"; "histogram_message_size"; "histogram_payload_size";
          "histogram_message_type"; "histogram_timestamp"; "histogram_lifecycles"; "split_timestamp"; "split_lifecycles"] ->
  run_command M cmd b = Ret ls -> 10 * entries_shown ls <= length b + 30.
Proof.
  intros M cmd b ls HC R. destruct (dltit_offset_total b) as (l & El & _). assert (E := dltit_map b l El).
  destruct (entry_sizes b (map snd l) E) as [F S]. set (es := map snd l) in *.
  assert (N20 : 20 * length es <= length b).
  { enough (20 * length es <= list_sum (map size_of es)) by lia. clear - F. induction F as [|e es' [He _] _ IH]; [cbn; lia|].
    cbn [map length]. change (list_sum (size_of e :: map size_of es')) with (size_of e + list_sum (map size_of es')). lia. }
  assert (Flat : forall ls', Forall (fun l => match l with LEcu _ _ => False | _ => True end) ls' -> entries_shown ls' = length ls').
  { clear. induction 1 as [|x ls' H _ IH]; [reflexivity|]. cbn [length]. unfold entries_shown in *. cbn [map].
    destruct x; try contradiction; cbn [list_sum fold_right] in *; change (fold_right Nat.add 0) with list_sum in *; lia. }
  assert (FewN : forall h vals, number_table vals h -> length vals <= length es -> length h <= length es).
  { intros h vals T Lv. eapply Nat.le_trans; [exact (table_few _ _ N_irr _ _ T)|exact Lv]. }
  assert (LF : length (filter stamped es) <= length es) by (clear; induction es as [|e es IH]; cbn [filter]; [lia|destruct (stamped e); cbn [length]; lia]).
  destruct HC as [<-|[<-|[<-|[<-|[<-|[<-|[<-|[<-|[<-|[<-|HC]]]]]]]]]].
  - rewrite (C59_count M b es E) in R. injection R as <-. cbn; lia.
  - change (run_command M "count_hello_world" b) with (let* r := count_hello_world b in Ret [LCount r]) in R.
    destruct (count_hello_world b); try discriminate. injection R as <-. cbn; lia.
  - change (run_command M "count_hello_world_raw" b) with (let* r := count_hello_world_raw b in Ret [LCount r]) in R.
    destruct (count_hello_world_raw b); try discriminate. injection R as <-. cbn; lia.
  - destruct (C63_iter M b es E) as [G P]. destruct (stamped_dec es) as [AS|U]; [|rewrite P in R by exact U; discriminate].
    destruct (G AS) as (runs & _ & R'). rewrite R' in R. injection R as <-. cbn [entries_shown map list_sum fold_right]; lia.
  - change (run_command M "itertools" b) with (let* r := lifecycle_itertools b in Ret [LLong r]) in R.
    destruct (lifecycle_itertools b); try discriminate. injection R as <-. cbn; lia.
  - destruct (C60_message_sizes M b es E) as (h & T & R'). rewrite R' in R. injection R as <-. rewrite Flat.
    + cbn [length]. rewrite app_length, map_length. cbn [length]. generalize (FewN _ _ T ltac:(now rewrite map_length)). lia.
    + constructor; [exact Logic.I|]. apply Forall_app. split; [|repeat constructor]. apply Forall_map, Forall_forall. intros; exact Logic.I.
  - destruct (C60_payload_sizes M b es E) as [G P].
    assert (NS : forall e, In e es -> ~ stunted e) by (intros e I St; rewrite P in R by (exists e; now split); discriminate).
    destruct (G NS) as (h & T & R'). rewrite R' in R. injection R as <-. rewrite Flat.
    + cbn [length]. rewrite app_length, map_length. cbn [length]. generalize (FewN _ _ T ltac:(now rewrite map_length)). lia.
    + constructor; [exact Logic.I|]. apply Forall_app. split; [|repeat constructor]. apply Forall_map, Forall_forall. intros; exact Logic.I.
  - destruct (C61_message_types M b es E) as [G P].
    assert (W : forall e, In e es -> extended e = true -> whole e).
    { intros e I X. unfold whole. apply Nat.nlt_ge. intros Lt. rewrite P in R; [discriminate|].
      exists e. split; [exact I|]. split; [exact X|]. unfold whole. lia. }
    destruct (G W) as (h & T & R'). rewrite R' in R. injection R as <-. rewrite Flat.
    + cbn [length]. rewrite map_length. generalize (table_few _ _ type_irr _ _ T). rewrite map_length.
      assert (length (filter extended es) <= length es) by (clear; induction es as [|e es IH]; cbn [filter]; [lia|destruct (extended e); cbn [length]; lia]). lia.
    + constructor; [exact Logic.I|]. apply Forall_map, Forall_forall. intros; exact Logic.I.
  - destruct (C62_histogram_timestamp M b es E) as (runs & h & Rn & T & R'). rewrite R' in R. injection R as <-. rewrite Flat.
    + cbn [length]. unfold buckets. rewrite map_length. generalize (FewN _ _ T ltac:(rewrite map_length; exact (runs_few _ _ _ Rn))). lia.
    + constructor; [exact Logic.I|]. apply Forall_map, Forall_forall. intros; exact Logic.I.
  - destruct (C63_histogram_lifecycles M b es E) as [G P]. destruct (stamped_dec es) as [AS|U]; [|rewrite P in R by exact U; discriminate].
    destruct (G AS) as (runs & h & Rn & T & R'). rewrite R' in R. injection R as <-. rewrite Flat.
    + cbn [length]. unfold buckets. rewrite map_length. generalize (FewN _ _ T ltac:(rewrite map_length; generalize (runs_few _ _ _ Rn); lia)). lia.
    + constructor; [exact Logic.I|]. apply Forall_map, Forall_forall. intros; exact Logic.I.
  - assert (HC' : In cmd ["split_lifecycles"; "split_timestamp"]) by (destruct HC as [<-|[<-|[]]]; cbn [In]; tauto).
    destruct (C129_ecus M cmd b es ls HC' E R) as (A & _ & B).
    assert (length (nodup quad_dec (map ecu_of es)) <= length es).
    { rewrite <- (map_length ecu_of es). apply NoDup_incl_length; [apply NoDup_nodup|]. intros k I. now apply nodup_In in I. }
    lia.
Qed.
Print Assumptions C129_linear.

(** Both bounds of C129_sizes are attained, by files of messages of all lengths. *)
Definition of_length (n : nat) : bytes :=
  the_pattern ++ repeat x00 12 ++ [x20; x00] ++ be16_bytes (N.of_nat (n + 4)) ++ repeat x61 n.
Definition lengths_file (n : nat) : bytes := concat (map of_length (seq 0 n)).

Lemma of_length_size n : length (of_length n) = n + 20.
Proof.
  unfold of_length, be16_bytes. rewrite !app_length, !repeat_length. cbn [length]. change (length the_pattern) with 4. lia.
Qed.
Lemma of_length_valid n : (N.of_nat n <= 65531)%N -> valid_message (of_length n).
Proof.
  intros L. split; [reflexivity|]. split; [rewrite of_length_size; lia|].
  rewrite of_length_size. replace (n + 20 - 16) with (n + 4) by lia.
  transitivity (be16 (u8 (N.of_nat (n + 4) / 256)) (u8 (N.of_nat (n + 4)))).
  - unfold u16_at, be16. change (byte_at (of_length n) 18) with (bN (u8 (N.of_nat (n + 4) / 256))).
    change (byte_at (of_length n) (18 + 1)) with (bN (u8 (N.of_nat (n + 4)))). lia.
  - apply be16_of_bytes. lia.
Qed.

Lemma lengths_file_size n : 2 * length (lengths_file n) = n * (n + 39).
Proof.
  unfold lengths_file. induction n as [|n IH]; [reflexivity|].
  rewrite seq_S, map_app, concat_app, app_length. cbn [map concat Nat.add]. rewrite app_nil_r, of_length_size. nia.
Qed.

Lemma nodup_table (vals : list N) h : number_table vals h -> NoDup vals -> length h = length vals.
Proof.
  intros T D. rewrite <- (map_length fst h). apply Nat.le_antisymm; apply NoDup_incl_length; try assumption.
  - exact (sorted_nodup _ N_irr _ (proj1 T)).
  - intros k I. now apply (table_keys _ _ _ _ T).
  - intros k I. now apply (table_keys _ _ _ _ T).
Qed.

Lemma shown_sizes (ms : list bytes) : forall k l, shows l (with_offsets (@length byte) k ms) -> Forall valid_message ms ->
  map (fun e => N.of_nat (size_of e)) (map snd l) = map (fun m => N.of_nat (length m)) ms.
Proof.
  induction ms as [|m ms IH]; intros k l Sh V; unfold shows in Sh; cbn [with_offsets] in Sh;
    inversion Sh as [|i ? l' ? [_ D] Sh']; subst; [reflexivity|].
  cbn [map]. f_equal; [|exact (IH _ _ Sh' (Forall_inv_tail V))].
  now rewrite (proj1 (denotes_size _ _ (Forall_inv V) D)).
Qed.

Example C129_attained : forall (M : machine) n, (N.of_nat n <= 65532)%N ->
  2 * length (lengths_file n) = n * (n + 39) /\
  exists ls, run_command M "histogram_message_size" (lengths_file n) = Ret ls /\ length ls = n + 2.
Proof.
  intros M n L. split; [exact (lengths_file_size n)|].
  assert (V : Forall valid_message (map of_length (seq 0 n))).
  { apply Forall_map, Forall_forall. intros k I. apply of_length_valid. apply in_seq in I. lia. }
  destruct (C13_file_read _ V) as (l & El & Sh & E). fold (lengths_file n) in El, E.
  destruct (C60_message_sizes M (lengths_file n) (map snd l) E) as (h & T & R).
  eexists. split; [exact R|]. cbn [length]. rewrite app_length, map_length. cbn [length].
  assert (EV : map (fun e => N.of_nat (size_of e)) (map snd l) = map (fun k => N.of_nat (k + 20)) (seq 0 n)).
  { transitivity (map (fun m => N.of_nat (length m)) (map of_length (seq 0 n))).
    - exact (shown_sizes _ 0 l Sh V).
    - rewrite map_map. apply map_ext. intros k. now rewrite of_length_size. }
  rewrite EV in T. rewrite (nodup_table _ _ T).
  - rewrite map_length, seq_length. lia.
  - apply FinFun.Injective_map_NoDup; [intros x y H; lia|apply seq_NoDup].
Qed.

(** All 22 rows of message types occur. *)
Definition typed (n : nat) : bytes :=
  the_pattern ++ repeat x00 12 ++ [x21; x00; x00; x0e] ++ [u8 (N.of_nat n)] ++ repeat x00 9.
Example C129_all_types : forall M : machine,
  exists ls, run_command M "histogram_message_type" (concat (map typed (seq 0 256))) = Ret ls /\ length ls = 23.
Proof.
  intros M. set (b := concat (map typed (seq 0 256))).
  assert (C : match mstp_info_histogram b with Ret h => length h = 22 | _ => False end) by (vm_compute; reflexivity).
  change (run_command M "histogram_message_type" b) with
    (let* h := mstp_info_histogram b in Ret (LHeading "(verbose, message type): # dlt messages" :: map (fun kv => LType (fst kv) (snd kv)) h)).
  destruct (mstp_info_histogram b) as [h| |]; [|contradiction|contradiction]. eexists. split; [reflexivity|].
  cbn [length]. now rewrite map_length, C.
Qed.

(** Three messages of two sizes; one ECU. *)
Example C129_example : exists es, dltit (m1 ++ m2 ++ m1) = Ret es /\ length es = 3 /\ length (nodup quad_dec (map ecu_of es)) = 1 /\
  forall M : machine, exists ls ls', run_command M "histogram_message_size" (m1 ++ m2 ++ m1) = Ret ls /\ length ls = 4 /\
    run_command M "split_timestamp" (m1 ++ m2 ++ m1) = Ret ls' /\ length ls' = 2.
Proof.
  eexists. split; [vm_compute; reflexivity|]. split; [reflexivity|]. split; [reflexivity|]. intros M. eexists. eexists.
  split; [vm_compute; reflexivity|]. split; [reflexivity|]. split; [vm_compute; reflexivity|]. reflexivity.
Qed.
