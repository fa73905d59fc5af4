(** Property theorem C100: partitions of files of equal messages, as dd_dlt writes them (vocabulary in
    PipeSpec.v). *)
From Coq Require Import String.
From Verif Require Import Base DltModel MatchModel GenModel ToolsModel DdModel MainModel Spec CommandSpec PipeSpec BaseFacts DltFacts CodecFacts ParseFacts
  FindFacts IterFacts DltIterFacts LayoutFacts PartitionFacts GenFacts DdFacts UniformFacts P_Tools P_Exact P_DD P_Pipe.
From Verif Require Samples.
Import Samples(m1, m1_valid).
Ltac Zify.zify_post_hook ::= idtac.
Local Open Scope nat_scope.
Local Open Scope list_scope.

Section Numbers.
  Variables (len n num : nat).
  Hypothesis Hn : 0 < num.
  Hypothesis HL : 20 <= len.
  Lemma share_size : n * len / num / len = n / num.
  Proof. rewrite Nat.div_div by lia. rewrite Nat.mul_comm, (Nat.mul_comm num len). apply Nat.div_mul_cancel_l; lia. Qed.
  Lemma share_none : n < num -> shares len n num = [].
  Proof. intros H. unfold shares. now rewrite (Nat.div_small n num) by exact H. Qed.
  Lemma shares_numbers : num <= n -> exists share rest full,
    share = n / num /\ 1 <= share /\ 1 <= rest <= share /\ n = full * share + rest /\ num * share <= n /\
    (n = num * share -> rest = share /\ full + 1 = num /\ n * len / num mod len = 0) /\
    (n <> num * share -> num <= full) /\
    shares len n num = (if (rest =? share) && (n * len / num mod len =? 0) then repeat share full ++ [rest]
      else if (rest * len <=? n * len / num / 4) || ((rest =? 1) && (n * len / num mod len =? len - 1)) then repeat share (full - 1) ++ [share + rest]
      else repeat share full).
  Proof.
    intros H. exists (n / num), ((n - 1) mod (n / num) + 1), ((n - ((n - 1) mod (n / num) + 1)) / (n / num)). split; [reflexivity|].
    assert (S1 : 1 <= n / num) by (apply Nat.div_le_lower_bound; lia). split; [exact S1|].
    assert (SH : num * (n / num) <= n) by (apply Nat.mul_div_le; lia).
    unfold shares. destruct (Nat.eqb_spec (n / num) 0) as [Z|_]; [lia|].
    pose proof (Nat.div_mod (n - 1) (n / num) ltac:(lia)) as D. pose proof (Nat.mod_upper_bound (n - 1) (n / num) ltac:(lia)) as U.
    assert (Z0 : n = num * (n / num) -> n * len / num mod len = 0).
    { intros E. rewrite E at 1. replace (num * (n / num) * len) with (n / num * len * num) by lia. rewrite Nat.div_mul by lia. apply Nat.mod_mul. lia. }
    assert (P : 1 <= n) by (clear - H Hn; lia). clear H. revert D U. generalize ((n - 1) mod (n / num)) as m. generalize ((n - 1) / (n / num)) as q.
    revert S1 SH Z0. generalize (n * len / num mod len) as z. generalize (n / num) as share. intros share z S1 SH Z0 q m D U.
    assert (FE : (n - (m + 1)) / share = q) by (symmetry; apply (Nat.div_unique _ share _ 0); nia).
    rewrite FE. split; [lia|]. split; [nia|]. split; [exact SH|]. split; [|split; [|reflexivity]].
    - intros E. assert (Q : q = num - 1) by nia. split; [nia|]. split; [lia|]. now apply Z0.
    - intros E. nia.
  Qed.
End Numbers.

(** The pieces are the messages in order, as many in each piece as [shares] says. *)
Theorem C100_pieces : forall (ms : list bytes) len num, Forall valid_message ms -> Forall (fun m => length m = len) ms ->
  (N.of_nat len <= 65536)%N -> 0 < num ->
  partition_from DLT (concat ms) num = Ret (map (@concat byte) (cut_at (shares len (length ms) num) ms)).
Proof.
  intros ms len num V EL ML Hn. unfold partition_from. destruct (Nat.eqb_spec num 0) as [?|_]; [lia|].
  destruct ms as [|m0 ms0] eqn:E0.
  { unfold shares. cbn [length concat]. rewrite !Nat.div_0_l by lia. reflexivity. }
  rewrite <- E0 in *. assert (PL : 20 <= len).
  { rewrite E0 in V, EL. inversion V as [|x y (_ & H & _) _]; subst x y. inversion EL; subst; lia. }
  assert (P : 0 < length ms) by (rewrite E0; cbn [length]; lia). clear E0 m0 ms0.
  rewrite (concat_length_eq ms len EL).
  destruct (Nat.lt_ge_cases (length ms) num) as [L|L].
  - rewrite share_none by assumption. cbn [cut_at map]. rewrite partition_step, (concat_length_eq ms len EL).
    destruct (_ || _); [reflexivity|]. set (c := length ms * len / num).
    assert (C : c < len) by (apply Nat.div_lt_upper_bound; nia). assert (C2 : 2 * c <= length ms * len).
    { apply (Nat.le_trans _ (num * c)); [|apply Nat.mul_div_le; lia]. apply Nat.mul_le_mono_r. lia. }
    rewrite (cut_equal ms len V EL ML PL); [|nia|nia].
    rewrite Nat.div_small by exact C. reflexivity.
  - set (size := length ms * len / num). assert (SE : size / len = length ms / num) by (apply share_size; lia).
    assert (S1 : 1 <= length ms / num) by (apply Nat.div_le_lower_bound; lia).
    pose proof (loop_shares ms len V EL ML PL size ltac:(rewrite SE; exact S1) (length ms) (S (length ms * len)) ltac:(lia) ltac:(lia) ltac:(lia)) as Q.
    rewrite Nat.sub_diag in Q. cbn [Nat.mul Nat.add skipn] in Q. rewrite Q, SE. do 4 f_equal. clear Q.
    unfold shares_of, shares. fold size. destruct (Nat.eqb_spec (length ms / num) 0) as [?|_]; [lia|].
    destruct (shares_numbers len (length ms) num Hn PL L) as (share & rest & full & E1 & H1 & H2 & H3 & H4 & H5 & H6 & _). rewrite <- E1 in *.
    assert (R : (length ms - 1) mod share + 1 = rest).
    { assert (Q : rest - 1 = (length ms - 1) mod share) by (apply (Nat.mod_unique _ share full); lia). rewrite <- Q. lia. }
    rewrite R. assert (F : (length ms - rest) / share = full) by (symmetry; apply (Nat.div_unique _ share full 0); lia). rewrite F.
    destruct (Nat.eq_dec (length ms) (num * share)) as [E|E].
    + destruct (H5 E) as (-> & _ & Z). fold size in Z. rewrite Z, !Nat.eqb_refl. reflexivity.
    + destruct (Nat.leb_spec 1 full) as [_|Q]; [reflexivity|]. specialize (H6 E). lia.
Qed.
Print Assumptions C100_pieces.

(** If the number of messages is a multiple of the number of pieces, every message is in one of them, and
    all pieces are equal. *)
Theorem C100_even : forall len q num, 20 <= len -> 0 < q -> 0 < num -> shares len (q * num) num = repeat q num.
Proof.
  intros len q num HL Hq Hn. destruct (shares_numbers len (q * num) num Hn HL ltac:(nia)) as (share & rest & full & E1 & H1 & H2 & H3 & H4 & H5 & _ & ->).
  rewrite Nat.div_mul in E1 by lia. destruct (H5 ltac:(lia)) as (-> & F & Z). rewrite Z, !Nat.eqb_refl. cbn [andb]. rewrite E1.
  change [q] with (repeat q 1). rewrite <- repeat_app. f_equal. exact F.
Qed.
Print Assumptions C100_even.

(** Otherwise: nothing if there are fewer messages than pieces; else at least as many pieces as asked for, and
    fewer messages are lost than there are in a piece, or as many. *)
Theorem C100_bounds : forall len n num, 20 <= len -> 0 < num ->
  (n < num -> shares len n num = []) /\
  (num <= n -> num <= length (shares len n num) <= n / (n / num) /\ Forall (fun k => n / num <= k) (shares len n num) /\
     n <= list_sum (shares len n num) + n / num /\ list_sum (shares len n num) <= n).
Proof.
  intros len n num HL Hn. split; [apply share_none; assumption|]. intros H.
  destruct (shares_numbers len n num Hn HL H) as (share & rest & full & <- & H1 & H2 & H3 & H4 & H5 & H6 & ->).
  assert (SR : forall k, list_sum (repeat share k) = k * share) by (induction k as [|k IH]; cbn [repeat list_sum fold_right Nat.mul]; unfold list_sum in *; [reflexivity|cbn [fold_right]; lia]).
  assert (FR : forall k, Forall (fun x => share <= x) (repeat share k)) by (intros k; apply Forall_forall; intros x I; apply repeat_spec in I; lia).
  assert (QF : full <= n / share) by (apply Nat.div_le_lower_bound; lia).
  destruct (Nat.eq_dec n (num * share)) as [E|E].
  - destruct (H5 E) as (-> & F & Z). rewrite Z, !Nat.eqb_refl. cbn [andb]. rewrite app_length, repeat_length, list_sum_app, SR. cbn [length list_sum fold_right].
    assert (n / share = num) by (symmetry; apply (Nat.div_unique _ share num 0); lia).
    split; [lia|]. split; [apply Forall_app; split; [apply FR|constructor; [lia|constructor]]|]. lia.
  - specialize (H6 E). destruct ((rest =? share) && _) eqn:T.
    + apply Bool.andb_true_iff in T. destruct T as [T _]. apply Nat.eqb_eq in T. rewrite app_length, repeat_length, list_sum_app, SR. cbn [length list_sum fold_right].
      assert (full + 1 <= n / share) by (apply Nat.div_le_lower_bound; lia).
      split; [lia|]. split; [apply Forall_app; split; [apply FR|constructor; [lia|constructor]]|]. lia.
    + destruct (_ || _).
      * rewrite app_length, repeat_length, list_sum_app, SR. cbn [length list_sum fold_right].
        assert (Q : (full - 1) * share + share = full * share) by nia.
        split; [lia|]. split; [apply Forall_app; split; [apply FR|constructor; [lia|constructor]]|]. lia.
      * rewrite repeat_length, SR. split; [lia|]. split; [apply FR|]. lia.
Qed.
Print Assumptions C100_bounds.

Lemma cut_all {A : Type} (P : A -> Prop) ns : forall l, Forall P l -> Forall (Forall P) (cut_at ns l).
Proof.
  induction ns as [|k ns IH]; intros l F; [constructor|]. cbn [cut_at]. rewrite <- (firstn_skipn k l) in F. apply Forall_app in F. destruct F as [F1 F2].
  constructor; [exact F1|now apply IH].
Qed.
Lemma cut_lengths {A : Type} ns : forall l : list A, list_sum ns <= length l -> map (@length A) (cut_at ns l) = ns.
Proof.
  induction ns as [|k ns IH]; intros l H; [reflexivity|]. cbn [list_sum fold_right] in H. cbn [cut_at map]. rewrite firstn_length, IH by (rewrite skipn_length; unfold list_sum; lia).
  f_equal. lia.
Qed.

(** What the parallel count prints, for every order of the reductions: the number of pieces and the sum of
    the shares; the real number if it is a multiple of the number of cores. *)
Theorem C100_par_count : forall (M : machine) (ms : list bytes) len, fair_sched (sched M) -> Forall valid_message ms -> ms <> [] ->
  Forall (fun m => length m = len) ms -> (N.of_nat len <= 65536)%N -> 0 < cores M ->
  run_command M "par_count" (concat ms) =
    Ret [LSlices (cores M) (length (shares len (length ms) (cores M))); LCount (list_sum (shares len (length ms) (cores M)))] /\
  (forall q, length ms = q * cores M -> run_command M "par_count" (concat ms) = Ret [LSlices (cores M) (cores M); LCount (length ms)]).
Proof.
  intros M ms len FS V NE EL ML Hn. pose proof (C100_pieces ms len (cores M) V EL ML Hn) as E.
  assert (PL : 20 <= len) by (destruct ms as [|m ms]; [contradiction|]; inversion V as [|x y (_ & H & _) _]; subst x y; inversion EL; subst; lia).
  assert (SL : list_sum (shares len (length ms) (cores M)) <= length ms).
  { destruct (C100_bounds len (length ms) (cores M) PL Hn) as [B1 B2]. destruct (Nat.lt_ge_cases (length ms) (cores M)) as [L|L]; [rewrite B1 by exact L; cbn; lia|].
    now destruct (B2 L) as (_ & _ & _ & ?). }
  assert (G : run_command M "par_count" (concat ms) =
    Ret [LSlices (cores M) (length (shares len (length ms) (cores M))); LCount (list_sum (shares len (length ms) (cores M)))]).
  { set (sh := shares len (length ms) (cores M)) in *.
    destruct (C64_parallel_counts M (concat ms) _ "count"%string "par_count"%string FS E ltac:(left; reflexivity)) as [C _].
    assert (LE : length (map (@concat byte) (cut_at sh ms)) = length sh) by (rewrite <- (f_equal (@length nat) (cut_lengths sh ms SL)), !map_length; reflexivity).
    rewrite (C sh); [rewrite <- LE; reflexivity|]. clear C LE E. assert (CA := cut_all valid_message sh ms V). pose proof (cut_lengths sh ms SL) as CL.
    generalize dependent (cut_at sh ms). intros cs CA CL. rewrite <- CL. clear CL.
    induction CA as [|c cs Vc CA IH]; [constructor|]. cbn [map]. constructor; [|exact IH].
    rewrite (C59_count M (concat c) (map entry_of c) (dltit_concat c Vc)). now rewrite map_length. }
  split; [exact G|]. intros q Eq. rewrite G, Eq. assert (0 < q) by (destruct q; [destruct ms; [contradiction|discriminate]|lia]).
  rewrite C100_even by assumption. rewrite repeat_length. assert (SR : list_sum (repeat q (cores M)) = q * cores M); [|now rewrite SR].
  rewrite Nat.mul_comm. generalize (cores M) as k. induction k as [|k IH]; [reflexivity|]. cbn [repeat Nat.mul]. change (list_sum (q :: repeat q k)) with (q + list_sum (repeat q k)). lia.
Qed.
Print Assumptions C100_par_count.

(** Files written by one run of dd_dlt are such files. *)
Theorem C100_recorded : forall v A mode r out num, rec_ok r -> recorded v A mode r out -> (rec_size r <= 65502)%N -> 0 < num ->
  exists ms, out = concat ms /\ length ms = messages r /\ Forall (fun m => length m = 34 + N.to_nat (rec_size r)) ms /\
    partition_from DLT out num = Ret (map (@concat byte) (cut_at (shares (34 + N.to_nat (rec_size r)) (messages r) num) ms)).
Proof.
  intros v A mode r out num OK R HS Hn. pose proof OK as (SZ & Hp & F & LR & FL & B).
  destruct (wires_valid v A (rec_ecu r) (rec_app r) (rec_size r) (rec_chunks r) ltac:(lia) F FL 0) as [V L].
  set (ms := wires v A (rec_ecu r) (rec_app r) (18 + rec_size r) 0 (rec_chunks r)) in *.
  assert (E : out = concat ms).
  { apply (recorded_unique v A mode r); [exact R|]. intros fuel Hf.
    apply (run_spec v A mode _ _ (rec_size r) (rec_arg r) [] _ _ fuel (18 + rec_size r)); try assumption; try lia.
    - apply checked_len. lia.
    - unfold in_budget, messages in *. destruct mode; [exact B|]. apply (N.le_lt_trans _ 42949673); [exact B|reflexivity]. }
  exists ms. split; [exact E|]. assert (N : length ms = messages r) by apply wires_length. split; [exact N|]. split; [exact L|].
  rewrite E, <- N. apply C100_pieces; try assumption. lia.
Qed.
Print Assumptions C100_recorded.

Lemma cut_repeat len c k : forall ms : list bytes, Forall (fun m => length m = len) ms -> length ms = c * k ->
  map (@length byte) (map (@concat byte) (cut_at (repeat c k) ms)) = repeat (c * len) k.
Proof.
  induction k as [|k IH]; intros ms EL LM; [reflexivity|]. cbn [repeat cut_at map].
  rewrite <- (firstn_skipn c ms) in EL. apply Forall_app in EL. destruct EL as [E1 E2].
  rewrite (concat_length_eq _ len E1), firstn_length. f_equal; [nia|]. apply IH; try assumption. rewrite skipn_length. nia.
Qed.
(** The test partition_nasty_count: 50000 equal messages in 500 pieces of 100. *)
Example C100_example : shares 45 8 3 = [2; 2; 2] /\ shares 45 16 9 = repeat 1 15 /\ shares 45 9 2 = [4; 5] /\
  (forall (ms : list bytes), Forall valid_message ms -> Forall (fun m => length m = 192) ms -> length ms = 100 * 500 ->
     exists l, partition_from DLT (concat ms) 500 = Ret l /\ map (@length byte) l = repeat (100 * 192) 500).
Proof.
  split; [reflexivity|]. split; [reflexivity|]. split; [reflexivity|]. intros ms V EL LM. eexists. split.
  - apply (C100_pieces ms 192 500 V EL); lia.
  - rewrite LM, (C100_even 192 100 500) by lia. now apply cut_repeat.
Qed.
