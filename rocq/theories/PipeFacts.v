(** Facts for C95 and C96. *)
From Verif Require Import Base DltModel MatchModel GenModel ToolsModel DdModel MainModel Spec CommandSpec PipeSpec BaseFacts DltFacts CodecFacts ParseFacts
  FindFacts IterFacts DltIterFacts LayoutFacts GenFacts GroupFacts MapFacts ToolFacts TotalFacts ExactFacts DdFacts P_DD.
From Coq Require Import Sorted ZifyBool ZifyNat ZifyN.
Ltac Zify.zify_post_hook ::= Z.div_mod_to_equations.

(** * What the reader sees in a message of dd_dlt *)
Lemma wire_stamp A e a len count pl : (len < u16_mod)%N -> (count * 100 < u32_mod)%N ->
  let x := entry_of (wire A e a len count pl) in
  stamped x = true /\ stamp x = Some (100 * count)%N /\ std_ecu x = None /\ secs_of x = (count / 100)%N /\ ecu_of x = e.
Proof.
  intros Hl Hc x. destruct (wire_entry A e a len count pl Hl ltac:(lia)) as (E1 & E2 & _ & _ & _ & E6 & _ & _). fold x in E1, E2, E6.
  assert (HT : header_type (header (dlt x)) = x31) by (unfold x, wire; destruct e, a; reflexivity).
  split; [unfold stamped, htype; now rewrite HT|]. split.
  - rewrite <- ts_stamp. apply P_Tools.ts_some. rewrite E6. rewrite N.mod_small by lia. do 2 f_equal. lia.
  - split; [unfold std_ecu, htype; now rewrite HT|]. split; [exact E2|exact E1].
Qed.

(** The entries of a run: number [i] has time stamp [100 * i] and second [i / 100]. *)
Definition numbered (e : quad) (k : nat) (es : list storage_entry) : Prop :=
  forall i x, nth_error es i = Some x ->
    stamped x = true /\ stamp x = Some (100 * N.of_nat (k + i))%N /\ std_ecu x = None /\ secs_of x = (N.of_nat (k + i) / 100)%N /\ ecu_of x = e.
Lemma wires_numbered v A e a len chunks : (len < u16_mod)%N -> (N.of_nat (length chunks) <= 42949673)%N ->
  numbered e 0 (map entry_of (wires v A e a len 0 chunks)).
Proof.
  intros Hl Hn i x H. cbn [Nat.add].
  assert (I : i < length chunks).
  { assert (i < length (map entry_of (wires v A e a len 0 chunks))) by (apply nth_error_Some; congruence). rewrite map_length, wires_length in *. assumption. }
  destruct (nth_error chunks i) as [c|] eqn:C; [|apply nth_error_None in C; lia].
  rewrite (map_nth_error entry_of i _ (wires_nth v A e a len chunks 0 i c C)) in H. injection H as <-. try rewrite N.add_0_l.
  apply wire_stamp; [exact Hl|unfold u32_mod; lia].
Qed.
Lemma numbered_tail e k x es : numbered e k (x :: es) -> numbered e (S k) es.
Proof. intros H i y Hi. specialize (H (S i) y Hi). now rewrite Nat.add_succ_comm. Qed.
Lemma numbered_head e k x es : numbered e k (x :: es) ->
  stamped x = true /\ stamp x = Some (100 * N.of_nat k)%N /\ std_ecu x = None /\ secs_of x = (N.of_nat k / 100)%N /\ ecu_of x = e.
Proof. intros H. specialize (H 0 x eq_refl). now rewrite Nat.add_0_r in H. Qed.
Lemma numbered_last e k es d : numbered e k es -> es <> [] ->
  stamped (last es d) = true /\ stamp (last es d) = Some (100 * N.of_nat (k + length es - 1))%N /\ std_ecu (last es d) = None /\
  secs_of (last es d) = (N.of_nat (k + length es - 1) / 100)%N /\ ecu_of (last es d) = e.
Proof.
  revert k. induction es as [|x es IH]; intros k H NE; [congruence|]. destruct es as [|y es].
  - cbn [last length]. replace (k + 1 - 1) with k by lia. exact (numbered_head _ _ _ _ H).
  - change (last (x :: y :: es) d) with (last (y :: es) d). replace (k + length (x :: y :: es) - 1) with (S k + length (y :: es) - 1) by (cbn [length]; lia).
    apply IH; [exact (numbered_tail _ _ _ _ H)|discriminate].
Qed.
Lemma numbered_stamped e k es : numbered e k es -> filter stamped es = es.
Proof.
  revert k. induction es as [|x es IH]; intros k H; [reflexivity|]. cbn [filter]. destruct (numbered_head _ _ _ _ H) as [-> _]. f_equal.
  exact (IH _ (numbered_tail _ _ _ _ H)).
Qed.
Lemma numbered_in e k es x : numbered e k es -> In x es -> stamped x = true /\ stamp x <> None /\ ecu_of x = e /\ (secs_of x <= N.of_nat (k + length es - 1) / 100)%N.
Proof.
  intros H I. apply In_nth_error in I. destruct I as [i I]. assert (i < length es) by (apply nth_error_Some; congruence).
  destruct (H i x I) as (H1 & H2 & _ & H4 & H5). split; [exact H1|]. split; [congruence|]. split; [exact H5|]. rewrite H4. apply N.div_le_mono; lia.
Qed.
Lemma numbered_linked e k es : numbered e k es -> linked not_earlier es /\ linked same_cycle es /\ linked continuous es.
Proof.
  revert k. induction es as [|x es IH]; intros k H; [cbn; auto|]. destruct es as [|y es]; [cbn; auto|].
  destruct (IH _ (numbered_tail _ _ _ _ H)) as (I1 & I2 & I3).
  destruct (numbered_head _ _ _ _ H) as (_ & X2 & X3 & X4 & _). destruct (numbered_head _ _ _ _ (numbered_tail _ _ _ _ H)) as (_ & Y2 & Y3 & Y4 & _).
  assert (NE : not_earlier x y = true) by (unfold not_earlier, stamp_value; rewrite X2, Y2; lia).
  split; [split; assumption|]. split.
  - split; [|exact I2]. unfold same_cycle, same_ecu. now rewrite X3, Y3, NE.
  - split; [|exact I3]. unfold continuous. rewrite X4, Y4. apply N.leb_le, N.div_le_mono; lia.
Qed.

(** * Runs *)
(** [ess]: the entries of each run. *)
Lemma recorded_runs (rel : storage_entry -> storage_entry -> bool) (ess : list (list storage_entry)) :
  Forall (fun es => es <> [] /\ linked rel es) ess ->
  (forall g h d, In g ess -> In h ess -> rel (last g d) (hd d h) = false) ->
  maximal_runs rel (concat ess) ess.
Proof.
  intros F B. split; [reflexivity|]. split; [eapply Forall_impl; [|exact F]; now intros ? []|]. split; [eapply Forall_impl; [|exact F]; now intros ? []|].
  clear F. induction ess as [|g ess IH]; [exact I|]. destruct ess as [|h ess]; [exact I|]. split.
  - intros d. apply B; [now left|right; now left].
  - apply IH. intros g' h' d I1 I2. apply B; now right.
Qed.
Lemma span_numbered e es : numbered e 0 es -> es <> [] ->
  span stamp_value es = (100 * (N.of_nat (length es) - 1))%N /\ span secs_of es = ((N.of_nat (length es) - 1) / 100)%N.
Proof.
  intros H NE. destruct es as [|x es]; [congruence|]. destruct (numbered_head _ _ _ _ H) as (_ & X2 & _ & X4 & _).
  assert (L : last es x = last (x :: es) x) by (destruct es; reflexivity).
  destruct (numbered_last _ _ _ x H NE) as (_ & L2 & _ & L4 & _). cbn [span]. rewrite L. unfold stamp_value. rewrite X2, L2, X4, L4. cbn [length]. split; [lia|].
  rewrite N.sub_0_r. f_equal. lia.
Qed.

(** * Periods after joining: if every period starts at zero, one is left *)
Lemma joined_zero bs : forall b, fold_left add_period (map (fun b => (0%N, b)) bs) [(0%N, b)] = [(0%N, N.max b (largest bs))].
Proof.
  induction bs as [|c bs IH]; intros b; [cbn; now rewrite N.max_0_r|]. cbn [map fold_left].
  assert (E : add_period [(0%N, b)] (0%N, c) = [(0%N, N.max b c)]).
  { unfold add_period. cbn [join]. unfold meets. cbn [fst snd]. destruct (N.leb_spec 0 c); [|lia]. destruct (N.leb_spec 0 b); [|lia]. reflexivity. }
  rewrite E, IH. cbn [largest fold_right]. now rewrite N.max_assoc.
Qed.
Fixpoint drops_to_zero (xs : list storage_entry) : Prop :=
  match xs with
  | x :: ((y :: _) as xs') => (continuous x y = true \/ secs_of y = 0%N) /\ drops_to_zero xs'
  | _ => True
  end.
Lemma drops_app xs ys : drops_to_zero xs -> drops_to_zero ys -> (forall d, secs_of (hd d ys) = 0%N \/ ys = []) -> drops_to_zero (xs ++ ys).
Proof.
  intros H Hy Z. induction xs as [|x xs IH]; [exact Hy|]. destruct xs as [|y xs].
  - destruct ys as [|y ys]; [exact I|]. cbn [app drops_to_zero]. split; [|exact Hy]. right. destruct (Z y) as [Q|Q]; [exact Q|discriminate].
  - cbn [app drops_to_zero] in *. split; [apply H|]. apply IH, H.
Qed.
Lemma drops_inv g h : drops_to_zero (g ++ h) -> drops_to_zero h /\ forall d, g <> [] -> h <> [] -> continuous (last g d) (hd d h) = true \/ secs_of (hd d h) = 0%N.
Proof.
  induction g as [|x g IH]; intros H; [split; [exact H|congruence]|]. destruct g as [|y g].
  - cbn [app] in H. destruct h as [|z h]; [split; [exact I|congruence]|]. destruct H as [H1 H2]. split; [exact H2|]. intros d _ _. exact H1.
  - destruct H as [_ H]. destruct (IH H) as [I1 I2]. split; [exact I1|]. intros d _ Hh. change (last (x :: y :: g) d) with (last (y :: g) d).
    apply I2; [discriminate|exact Hh].
Qed.
Lemma runs_from_zero xs runs : maximal_runs continuous xs runs -> drops_to_zero xs -> (forall d, secs_of (hd d xs) = 0%N \/ xs = []) ->
  Forall (fun g => fst (extent secs_of g) = 0%N) runs.
Proof.
  intros (E & NE & _ & B). subst xs. induction NE as [|g runs Ng NE IH]; intros D Z; [constructor|].
  destruct g as [|x g]; [congruence|].
  assert (X0 : secs_of x = 0%N) by (destruct (Z x) as [Q|Q]; [exact Q|discriminate]).
  constructor; [exact X0|]. cbn [concat] in D. destruct (drops_inv _ _ D) as [D1 D2]. apply IH.
  - destruct runs; [exact I|apply B].
  - exact D1.
  - intros d. destruct runs as [|h runs]; [right; reflexivity|]. left. inversion NE as [|h' r' Nh _]; subst h' r'.
    destruct h as [|y h]; [congruence|]. destruct (D2 d ltac:(discriminate) ltac:(discriminate)) as [Q|Q]; [|exact Q].
    cbn [concat app hd] in Q. destruct B as [B _]. specialize (B d). cbn [hd] in B. rewrite Q in B. discriminate.
Qed.
Lemma linked_last (g : list storage_entry) d : linked continuous g -> forall x, In x g -> (secs_of x <= secs_of (last g d))%N.
Proof.
  induction g as [|y g IH]; intros L x I; [destruct I|]. destruct g as [|z g].
  - destruct I as [->|[]]. cbn [last]. lia.
  - change (last (y :: z :: g) d) with (last (z :: g) d). destruct L as [L1 L2]. destruct I as [->|I]; [|now apply IH].
    specialize (IH L2 z (or_introl eq_refl)). unfold continuous in L1. lia.
Qed.
Lemma largest_le l m : (forall x, In x l -> (x <= m)%N) -> (largest l <= m)%N.
Proof. induction l as [|x l IH]; intros H; cbn [largest fold_right]; [lia|]. apply N.max_lub; [apply H; now left|apply IH; intros; apply H; now right]. Qed.
Lemma largest_ge l x : In x l -> (x <= largest l)%N.
Proof. induction l as [|y l IH]; intros I; [destruct I|]. cbn [largest fold_right]. fold (largest l). destruct I as [->|I]; [lia|]. specialize (IH I). lia. Qed.
Lemma joined_runs xs runs : maximal_runs continuous xs runs -> drops_to_zero xs -> (forall d, secs_of (hd d xs) = 0%N \/ xs = []) -> xs <> [] ->
  joined (map (extent secs_of) runs) = [(0%N, largest (map secs_of xs))].
Proof.
  intros M D Z NE. pose proof (runs_from_zero xs runs M D Z) as F. destruct M as (E & NN & L & _).
  assert (Q : map (extent secs_of) runs = map (fun b => (0%N, b)) (map (fun g => snd (extent secs_of g)) runs)).
  { rewrite map_map. clear - F. induction F as [|g runs Hg F IH]; [reflexivity|]. cbn [map]. f_equal; [|exact IH]. destruct (extent secs_of g) as [p q]. cbn [fst snd] in *. now subst p. }
  rewrite Q. set (bs := map (fun g => snd (extent secs_of g)) runs).
  assert (LB : largest bs = largest (map secs_of xs)).
  { apply N.le_antisymm.
    - apply largest_le. intros b I. apply in_map_iff in I. destruct I as (g & <- & I). rewrite Forall_forall in NN. specialize (NN g I). destruct g as [|x g]; [congruence|]. cbn [extent snd].
      apply largest_ge, in_map. subst xs. apply in_concat. exists (x :: g). split; [exact I|].
      destruct g as [|y g]; [now left|]. right. clear. revert y. induction g as [|z g IH]; intros y; [now left|]. right. apply IH.
    - apply largest_le. intros b I. apply in_map_iff in I. destruct I as (x & <- & I). subst xs. apply in_concat in I. destruct I as (g & Ig & Ix).
      rewrite Forall_forall in L. pose proof (linked_last g x (L g Ig) x Ix) as Hx.
      etransitivity; [exact Hx|]. enough (secs_of (last g x) = snd (extent secs_of g)) as -> by (apply largest_ge, (in_map (fun g => snd (extent secs_of g))), Ig).
      destruct g as [|y g]; [destruct Ix|]. cbn [extent snd]. destruct g as [|z g]; [reflexivity|]. f_equal. clear. revert z. induction g as [|w g IH]; intros z; [reflexivity|]. apply IH. }
  unfold joined. destruct bs as [|b bs'] eqn:EB.
  - exfalso. apply NE. subst xs bs. destruct runs; [reflexivity|discriminate].
  - cbn [map fold_left]. change (add_period [] (0%N, b)) with [(0%N, b)]. rewrite joined_zero. rewrite <- LB. reflexivity.
Qed.
