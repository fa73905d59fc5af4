(** Property theorems C119 and C120: signals that interrupt write(2) (SigModel.v, vocabulary in SigSpec.v).
    [f] is the number of rounds each loop that repeats interrupted calls is given. *)
From Coq Require Import String ConstructiveEpsilon.
From Verif Require Import Base DltModel MatchModel GenModel ToolsModel Spec DdModel MainModel PrintModel DdOs OsSpec RipOs SigModel SigSpec Samples BaseFacts DltFacts CodecFacts ParseFacts
  FindFacts IterFacts DltIterFacts DdFacts DdOsFacts DdAnyFacts SigFacts SigPlain P_DD P_DdOs.
From Verif Require P_Read P_Print.
Import P_Print(desk).
From Coq Require Import ZifyBool ZifyNat ZifyN.
Ltac Zify.zify_post_hook ::= idtac.

Lemma follows_without h o k : without_signals h o -> keeps_to o 0 (answers h 0 k).
Proof.
  intros H i a E. cbn [Nat.add]. assert (L : i < length (answers h 0 k)) by (apply nth_error_Some; congruence). specialize (H k i L). congruence.
Qed.
Lemma answers_many h : fair h -> forall n c, exists k, n <= length (answers h c k).
Proof.
  intros FA. induction n as [|n IH]; intros c; [exists 0; lia|]. destruct (next_answer h FA c) as (k & a & E & I). pose proof (answers_next h c k a E I) as AN.
  destruct (IH (c + (k + 1))) as [k2 H]. exists (k + 1 + k2). rewrite answers_app, AN. cbn [app length]. lia.
Qed.
(** What is left of a history without its signals. *)
Theorem C119_exists : forall h, fair h -> exists o, without_signals h o.
Proof.
  intros h FA.
  assert (X : forall i, {k | i < length (answers h 0 k)}).
  { intros i. apply constructive_indefinite_ground_description_nat; [intros k; apply lt_dec|]. destruct (answers_many h FA (S i) 0) as [k H]. now exists k. }
  exists (fun i => nth i (answers h 0 (proj1_sig (X i))) TakesAll). intros k i Hi. destruct (X i) as [k0 H0]. cbn [proj1_sig].
  destruct (Nat.le_ge_cases k k0) as [L|L].
  - replace k0 with (k + (k0 - k)) in * by lia. rewrite answers_app, app_nth1 by exact Hi. now apply nth_error_nth'.
  - replace k with (k0 + (k - k0)) in * by lia. rewrite answers_app, nth_error_app1 by exact H0. now apply nth_error_nth'.
Qed.
Print Assumptions C119_exists.

(** * C119: ripdlt *)
Theorem C119_ripdlt : forall h o frag later C prog args, fair h -> without_signals h o ->
  exists f0, forall f, f0 <= f -> ripdlt_sig f h frag later C prog args = Ret (ripdlt_os o frag later C prog args).
Proof.
  intros h o frag later C prog args FA WO. unfold ripdlt_sig, ripdlt_os.
  destruct (perform_ends h FA frag later (ripdlt_script C prog args) stdout_new) as (l & a & [k ->] & [f0 F] & G). exists f0. intros f Hf. rewrite F by exact Hf. f_equal.
  symmetry. apply G; [now split|]. now apply follows_without.
Qed.
Print Assumptions C119_ripdlt.
(** Two signals before the first call succeeds, then one before every other. *)
Definition pestered : past := fun i => match i with 0 | 1 => Interrupted | _ => if Nat.even i then Answered TakesAll else Interrupted end.
Example C119_example : fair pestered /\ without_signals pestered (fun _ => TakesAll) /\
  ripdlt_sig 9 pestered (fun l => [l]) (fun l => l) (desk m1) "ripdlt" [] =
  Ret (lit "usage: ripdlt <file_access_method> <test_name> <filename.dlt>" ++ [x0a] ++ lit "  runs ripdlt tests with different implementations" ++ [x0a], RipEnd Finished).
Proof.
  split; [|split].
  - intros i. exists (2 * (i + 1)), TakesAll. split; [lia|]. unfold pestered. destruct (2 * (i + 1)) as [|[|k]] eqn:E; [lia|lia|]. rewrite <- E.
    rewrite Nat.even_mul. reflexivity.
  - intros k i Hi. assert (X : forall k c a, In a (answers pestered c k) -> a = TakesAll).
    { clear. induction k as [|k IH]; intros c a I; [destruct I|]. cbn [answers] in I. unfold pestered at 1 in I.
      destruct c as [|[|c]]; [now apply IH in I|now apply IH in I|]. destruct (Nat.even (S (S c))); [|now apply IH in I]. destruct I as [<-|I]; [reflexivity|now apply IH in I]. }
    destruct (nth_error (answers pestered 0 k) i) as [a|] eqn:E; [|apply nth_error_None in E; lia]. f_equal. eapply X, nth_error_In, E.
  - vm_compute. reflexivity.
Qed.

(** * C120: dd_dlt *)
Lemma answers_in h : forall k c a, In a (answers h c k) -> exists j, h j = Answered a.
Proof.
  induction k as [|k IH]; intros c a I; [destruct I|]. cbn [answers] in I. destruct (h c) as [|b] eqn:E; [now apply IH in I|].
  destruct I as [<-|I]; [now exists c|now apply IH in I].
Qed.
Lemma dd_heard v A mode args stdin fuel h : fair h -> exists l res, heard_dd h stdout_new l res /\
  (exists f0, forall f, f0 <= f -> dd_dlt_sig v fuel f h A mode args stdin = res) /\
  forall o, keeps_to o 0 l -> dd_dlt_os v fuel o A mode args stdin = res.
Proof.
  intros FA. unfold dd_dlt_sig, dd_dlt_os.
  assert (T : forall x : outcome (bytes * os_end), exists l res, heard_dd h stdout_new l res /\ (exists f0, forall f : nat, f0 <= f -> x = res) /\ forall o, keeps_to o 0 l -> x = res).
  { intros x. exists [], x. split; [left; now exists 0|]. split; [now exists 0|reflexivity]. }
  destruct args as [|e [|a [|size more]]]; try apply T. destruct (parse_u16 size) as [p|]; [|apply T].
  destruct (loop_ends h FA v A mode e a p fuel 0%N stdin stdout_new) as (l & res & H & F & G). exists l, res. split; [exact H|]. split; [exact F|].
  intros o FO. apply G; [now split|exact FO].
Qed.
(** An interrupted call that is not repeated has the same effect as one that fails. *)
Theorem C120_failure_partial : forall v A mode args stdin fuel h, fair h ->
  exists o f0, (forall i, o i = Fails \/ exists j, h j = Answered (o i)) /\
    forall f, f0 <= f -> dd_dlt_sig v fuel f h A mode args stdin = dd_dlt_os v fuel o A mode args stdin.
Proof.
  intros v A mode args stdin fuel h FA. destruct (dd_heard v A mode args stdin fuel h FA) as (l & res & H & [f0 F] & G).
  exists (fun i => nth i l Fails), f0. split.
  - intros i. assert (X : forall a, In a l -> a = Fails \/ exists j, h j = Answered a).
    { intros a I. destruct H as [[k ->]|(ws' & l1 & l2 & out & (c & l0 & -> & _ & _ & _ & ->) & [k ->] & -> & _)]; [right; now apply (answers_in h k _ a I)|].
      apply in_app_or in I. destruct I as [I|I]; [|right; now apply (answers_in h _ _ a I)]. apply in_app_or in I. destruct I as [I|[<-|[]]]; [right; now apply (answers_in h _ _ a I)|now left]. }
    destruct (nth_in_or_default i l Fails) as [I|E]; [now apply X|now left].
  - intros f Hf. rewrite F by exact Hf. symmetry. apply G. intros i a E. cbn [Nat.add]. now apply nth_error_nth.
Qed.
Print Assumptions C120_failure_partial.
(** Either the signals have no effect, or dd_dlt ends with an error. *)
Theorem C120_no_effect_partial : forall v A mode args stdin fuel h o, fair h -> without_signals h o ->
  exists res f0, (forall f, f0 <= f -> dd_dlt_sig v fuel f h A mode args stdin = res) /\
    (res = dd_dlt_os v fuel o A mode args stdin \/ exists out, res = Ret (out, OsError)).
Proof.
  intros v A mode args stdin fuel h o FA WO. destruct (dd_heard v A mode args stdin fuel h FA) as (l & res & H & [f0 F] & G). exists res, f0. split; [exact F|].
  destruct H as [[k ->]|(ws' & l1 & l2 & out & _ & _ & _ & E)]; [left; symmetry; apply G; now apply follows_without|right; now exists out].
Qed.
Print Assumptions C120_no_effect_partial.
(** If every call that is not interrupted takes all bytes, a beginning of the output arrives, and all of it if there is no error
    ([out0] and [e0]: what dd_dlt writes without signals and how it ends). *)
Theorem C120_beginning_partial : forall v A mode args stdin fuel out0 e0 h, fair h -> (forall i, h i = Interrupted \/ h i = Answered TakesAll) ->
  dd_dlt v fuel A mode args stdin = Ret (out0, e0) ->
  exists out e missing f0, (forall f, f0 <= f -> dd_dlt_sig v fuel f h A mode args stdin = Ret (out, e)) /\ out0 = out ++ missing /\
    (e = OsError \/ same_end e e0 /\ missing = []).
Proof.
  intros v A mode args stdin fuel out0 e0 h FA TA H.
  destruct (C120_failure_partial v A mode args stdin fuel h FA) as (o & f1 & IO & F1).
  assert (RO : in_order o).
  { intros i. destruct (IO i) as [E|[j E]]; [auto|]. destruct (TA j) as [T|T]; rewrite T in E; [discriminate|]. injection E as <-. now left. }
  destruct (C85_beginning_partial v A mode args stdin fuel out0 e0 o RO H) as (out & e & missing & E & EO & R).
  assert (WO : without_signals h (fun _ => TakesAll)).
  { intros k i Hi. destruct (nth_error (answers h 0 k) i) as [a|] eqn:Q; [|apply nth_error_None in Q; lia]. apply nth_error_In, answers_in in Q. destruct Q as [j Q].
    destruct (TA j) as [T|T]; rewrite T in Q; [discriminate|]. now injection Q as <-. }
  destruct (C120_no_effect_partial v A mode args stdin fuel h (fun _ => TakesAll) FA WO) as (res & f2 & F2 & D).
  assert (RES : res = Ret (out, e)) by (rewrite <- (F2 (Nat.max f1 f2)), F1 by lia; exact E).
  exists out, e, missing, f1. split; [intros f Hf; now rewrite F1|]. split; [exact EO|].
  destruct D as [D|[out1 D]]; [|left; congruence].
  destruct (C86_all_taken_partial v A mode args stdin fuel out0 e0 (fun _ => TakesAll) (fun _ => eq_refl) H) as (e1 & E1 & S1).
  assert (X : out = out0 /\ e = e1) by (split; congruence). destruct X as [-> ->]. right. split; [exact S1|].
  apply (f_equal (@length byte)) in EO. rewrite app_length in EO. destruct missing; [reflexivity|cbn [length] in EO; lia].
Qed.
Print Assumptions C120_beginning_partial.
(** If payloads have less than 1024 bytes and no newline is written, signals have no effect at all. *)
Theorem C120_plain_partial : forall v A mode (e a : quad) psize size more chunks rest fuel h o out0 e0, fair h -> without_signals h o ->
  says size psize -> (1 <= psize < 1024)%N ->
  Forall (fun c => N.of_nat (length c) = psize) chunks -> (N.of_nat (length rest) < psize)%N ->
  in_budget mode (length chunks) -> length chunks < fuel ->
  dd_dlt v fuel A mode (quad_bytes e :: quad_bytes a :: size :: more) (concat chunks ++ rest) = Ret (out0, e0) -> ~ In x0a out0 ->
  exists f0, forall f, f0 <= f -> dd_dlt_sig v fuel f h A mode (quad_bytes e :: quad_bytes a :: size :: more) (concat chunks ++ rest) =
    dd_dlt_os v fuel o A mode (quad_bytes e :: quad_bytes a :: size :: more) (concat chunks ++ rest).
Proof.
  intros v A mode e a psize size more chunks rest fuel h o out0 e0 FA WO SZ Hp F LR B Hf H NI.
  pose proof (checked_len mode psize ltac:(lia)) as CL.
  rewrite (run_spec v A mode e a psize size more chunks rest fuel _ SZ ltac:(lia) CL LR F B Hf) in H.
  injection H as <- <-. unfold dd_dlt_os, dd_dlt_sig. rewrite (P_Read.says_parse size psize SZ ltac:(lia)).
  assert (F' : Forall (fun x => length x = N.to_nat psize) chunks) by (eapply Forall_impl; [|exact F]; cbn; intros c; lia).
  destruct (loop_plain h FA v A mode e a psize _ rest CL LR chunks 0%N stdout_new fuel F) as (l & res & [k ->] & [f0 FF] & G).
  - unfold in_budget in B. destruct mode; [right; unfold u32_mod; lia|now left].
  - unfold in_budget, u32_mod in *. destruct mode; lia.
  - exact Hf.
  - apply (plain_parts A e a _ (N.to_nat psize)); [lia|exact F'|]. intros I. apply NI. clear - I F' Hp.
    revert I. generalize 0%N as c. induction F' as [|x cs Hx F' IH]; intros c I; [destruct I|]. cbn [all_parts wires concat] in *. rewrite concat_app in I. apply in_app_or in I.
    assert (AC : accepted v x = x).
    { apply accepted_fits. intros pre post E _. apply (f_equal (@length byte)) in E. rewrite !app_length in E. lia. }
    apply in_or_app. destruct I as [I|I]; [left|right; now apply IH].
    rewrite AC. unfold wire, wire_parts in *. cbn [concat] in I. rewrite app_nil_r in I. rewrite <- !app_assoc in *. exact I.
  - exists f0. intros f Hf'. rewrite FF by exact Hf'. symmetry. apply G; [now split|now apply follows_without].
Qed.
Print Assumptions C120_plain_partial.
Example C120_plain_example : exists out0,
  dd_dlt TakesSome 4 addrs Debug [quad_bytes quad_ECU1; quad_bytes quad_ECU1; ten] (concat [lit "abcdefghij"; lit "klmnopqrst"] ++ lit "uvw") = Ret (out0, DdDone 2) /\
  length out0 = 88 /\ ~ In x0a out0 /\ in_budget Debug 2 /\ says ten 10 /\
  dd_dlt_sig TakesSome 4 9 pestered addrs Debug [quad_bytes quad_ECU1; quad_bytes quad_ECU1; ten] (concat [lit "abcdefghij"; lit "klmnopqrst"] ++ lit "uvw") = Ret (out0, OsDone 2).
Proof.
  eexists. split; [vm_compute; reflexivity|]. split; [vm_compute; reflexivity|]. split; [|split; [unfold in_budget; lia|split; [|vm_compute; reflexivity]]].
  - intros I. vm_compute in I. intuition discriminate.
  - exists [1%N; 0%N]; split; [discriminate|]; split; [repeat constructor|]; split; reflexivity.
Qed.
(** False in general: one signal, and of three messages with a newline in the payload one and a half arrive. *)
Definition one_signal : past := fun i => if i =? 3 then Interrupted else Answered TakesAll.
Definition nl_payload : bytes := lit "before" ++ [x0a] ++ lit "and".
Theorem C120_refuted : forall v, fair one_signal /\ without_signals one_signal (fun _ => TakesAll) /\ exists stdin out0 out,
  dd_dlt v 9 addrs Debug [quad_bytes quad_ECU1; quad_bytes quad_ECU1; ten] stdin = Ret (out0, DdDone 3) /\ length out0 = 132 /\
  (forall f, dd_dlt_sig v 9 (9 + f) one_signal addrs Debug [quad_bytes quad_ECU1; quad_bytes quad_ECU1; ten] stdin = Ret (out, OsError)) /\ length out = 78.
Proof.
  intros v. split; [|split].
  - intros i. exists (i + 4), TakesAll. split; [lia|]. unfold one_signal. destruct (i + 4 =? 3) eqn:E; [lia|reflexivity].
  - intros k i Hi. assert (X : forall k c a, In a (answers one_signal c k) -> a = TakesAll).
    { clear. induction k as [|k IH]; intros c a I; [destruct I|]. cbn [answers] in I. unfold one_signal at 1 in I.
      destruct (c =? 3); [now apply IH in I|]. destruct I as [<-|I]; [reflexivity|now apply IH in I]. }
    destruct (nth_error (answers one_signal 0 k) i) as [a|] eqn:E; [|apply nth_error_None in E; lia]. f_equal. eapply X, nth_error_In, E.
  - exists (nl_payload ++ nl_payload ++ nl_payload).
    destruct v; eexists; eexists; (split; [vm_compute; reflexivity|]); (split; [vm_compute; reflexivity|]); (split; [intros f; vm_compute; reflexivity|]); vm_compute; reflexivity.
Qed.
Print Assumptions C120_refuted.
