(** Property theorems C128: dd_dlt while its input is open ([dd_dlt_live] of DdLive.v: what has arrived when it has read
    what there is and waits for more). *)
From Coq Require Import String.
From Verif Require Import Base DltModel MatchModel GenModel ToolsModel DdModel DdLive Spec Samples BaseFacts DltFacts CodecFacts ParseFacts FindFacts IterFacts DltIterFacts
  DdFacts DdLiveFacts P_DD.
From Coq Require Import Lia ZifyBool ZifyNat ZifyN.
Ltac Zify.zify_post_hook ::= idtac.

(** Whatever follows, what has arrived is a beginning of what arrives later and of the output in the end. *)
Theorem C128_beginning : forall v A mode args input more fuel fuel' arrived,
  dd_dlt_live v fuel A mode args input = Ret (Waiting arrived) ->
  (forall out e, dd_dlt v fuel' A mode args (input ++ more) = Ret (out, e) -> exists d, out = arrived ++ d) /\
  (forall arrived', dd_dlt_live v fuel' A mode args (input ++ more) = Ret (Waiting arrived') -> exists d, arrived' = arrived ++ d) /\
  (forall out e, dd_dlt_live v fuel' A mode args (input ++ more) = Ret (Over out e) -> exists d, out = arrived ++ d).
Proof.
  intros v A mode args input more fuel fuel' arrived H. unfold dd_dlt_live, dd_dlt in *. destruct args as [|e [|a [|size r]]]; try discriminate.
  destruct (parse_u16 size) as [psize|]; [|discriminate]. pose proof (loop_more v A mode e a psize more fuel fuel' 0 input lw_new) as L. rewrite H in L. exact L.
Qed.
Print Assumptions C128_beginning.
(** If the input ended now, at most 1024 bytes would follow.  (Or dd_dlt has ended already.) *)
Theorem C128_delay : forall v A mode args input fuel out e, dd_dlt v fuel A mode args input = Ret (out, e) ->
  (exists arrived held, dd_dlt_live v fuel A mode args input = Ret (Waiting arrived) /\ out = arrived ++ held /\ length held <= 1024) \/
  (dd_dlt_live v fuel A mode args input = Ret (Over out e) /\ (e = DdPanic \/ length args < 3) /\
     forall more fuel', fuel <= fuel' -> dd_dlt v fuel' A mode args (input ++ more) = Ret (out, e)).
Proof.
  intros v A mode args input fuel out en H. unfold dd_dlt_live, dd_dlt in *.
  assert (SMALL : length args < 3 -> Ret ([], DdDone 0) = Ret (out, en) -> (en = DdPanic \/ length args < 3)) by (intros; now right).
  destruct args as [|e [|a [|size r]]]; [injection H as <- <-; right; split; [reflexivity|]; split; [right; cbn; lia|reflexivity]..|].
  destruct (parse_u16 size) as [psize|]; [|injection H as <- <-; right; split; [reflexivity|]; split; [now left|reflexivity]].
  assert (OK : lw_ok lw_new) by (unfold lw_ok; cbn [lw_new pending length]; lia).
  pose proof (loop_ends v A mode e a psize fuel 0 input lw_new OK) as L. destruct (live_loop v fuel A mode e a psize 0 input lw_new) as [[x|x en']| |] eqn:E.
  - destruct L as (held & n & L & C). rewrite L in H. injection H as <- _. left. exists x, held. split; [reflexivity|]. split; [reflexivity|]. unfold lw_capacity in C. lia.
  - rewrite L in H. injection H as <- <-. right. split; [reflexivity|]. split.
    + left. clear L SMALL. revert E. generalize 0%N input lw_new. clear. induction fuel as [|f IH]; intros count input w E; [discriminate|]. cbn [live_loop] in E.
      destruct (_ <? _); [discriminate|]. destruct (dd_message _ _ _ _ _ _ _ _ _) as [w' [c'|]]; [exact (IH _ _ _ E)|now injection E].
    + intros more fuel' Hf. pose proof (loop_more v A mode e a psize more fuel fuel' 0 input lw_new) as M. rewrite E in M. now apply M.
  - destruct L.
  - rewrite L in H. discriminate.
Qed.
Print Assumptions C128_delay.
(** Everything generated has arrived if the last payload ends with a line feed, or has 1024 bytes or more and no line feed. *)
Theorem C128_prompt : forall v A mode (e a : quad) psize size more chunks c rest fuel out n, says size psize -> (psize < 65536)%N ->
  Forall (fun c => N.of_nat (length c) = psize) (chunks ++ [c]) -> (N.of_nat (length rest) < psize)%N ->
  (exists line, c = line ++ [x0a]) \/ (1024 <= length c /\ ~ In x0a c) ->
  dd_dlt v fuel A mode (quad_bytes e :: quad_bytes a :: size :: more) (concat (chunks ++ [c]) ++ rest) = Ret (out, DdDone n) ->
  dd_dlt_live v fuel A mode (quad_bytes e :: quad_bytes a :: size :: more) (concat (chunks ++ [c]) ++ rest) = Ret (Waiting out).
Proof.
  intros v A mode e a psize size more chunks c rest fuel out n (ds & H1 & H2 & H3 & H4) Hp F LR FL H. unfold dd_dlt, dd_dlt_live in *.
  assert (P : parse_u16 size = Some psize).
  { apply parse_u16_exact. exists ds. split; [exact H1|]. split; [exact H2|]. split; [now left|]. split; [exact H4|exact Hp]. }
  rewrite P in *. eapply loop_flushes; [exact LR| |exact F|exact FL|exact H]. unfold lw_ok. cbn [lw_new pending length]. lia.
Qed.
Print Assumptions C128_prompt.
(** What a reader of the other end sees: the complete messages of what has arrived, with their payloads, and at most 1024 bytes' worth of messages
    less than payloads were read. *)
Theorem C128_reader : forall v A mode (e a : quad) psize size more chunks rest fuel, says size psize -> (1 <= psize <= 65517)%N ->
  Forall (fun c => N.of_nat (length c) = psize) chunks -> (N.of_nat (length rest) < psize)%N ->
  Forall line_fits chunks -> in_budget mode (length chunks) -> length chunks < fuel ->
  exists arrived l, dd_dlt_live v fuel A mode (quad_bytes e :: quad_bytes a :: size :: more) (concat chunks ++ rest) = Ret (Waiting arrived) /\
    dltit_offset arrived = Ret l /\ length l <= length chunks <= length l + 1024 / (34 + N.to_nat psize) + 1 /\
    forall i c, i < length l -> nth_error chunks i = Some c ->
      exists x, nth_error l i = Some (i * (34 + N.to_nat psize), x) /\ payload (dlt x) = Ret (Some c).
Proof.
  intros v A mode e a psize size more chunks rest fuel SZ Hp F LR FL B Hf. set (args := quad_bytes e :: quad_bytes a :: size :: more).
  pose proof (run_spec v A mode e a psize size more chunks rest fuel _ SZ ltac:(lia) (checked_len mode psize ltac:(lia)) LR F B Hf) as R.
  destruct (wires_valid v A e a psize chunks ltac:(lia) F FL 0) as [_ LW]. set (ms := wires v A e a (18 + psize) 0 chunks) in *.
  assert (LO : length (concat ms) = length chunks * (34 + N.to_nat psize)).
  { assert (WL : length chunks = length ms) by (symmetry; exact (wires_length v A e a (18 + psize) chunks 0)). rewrite WL. clear - LW. induction LW as [|m ms Hm _ IH]; [reflexivity|]. cbn [concat length]. rewrite app_length, Hm, IH. lia. }
  destruct (C128_delay v A mode args (concat chunks ++ rest) fuel _ _ R) as [(arrived & held & E & O & Lh)|(_ & [?|Ls] & _)]; [|discriminate|unfold args in Ls; cbn [length] in Ls; lia].
  destruct (C55_killed v A mode e a psize size more chunks rest fuel _ _ (length arrived) SZ Hp F LR FL B Hf R) as (l & D & LL & X).
  rewrite O, firstn_app, firstn_all, Nat.sub_diag in D. cbn [firstn] in D. rewrite app_nil_r in D. exists arrived, l. split; [exact E|]. split; [exact D|]. split; [|exact X].
  rewrite O, app_length in LO. set (sz := 34 + N.to_nat psize) in *. assert (sz <> 0) by (unfold sz; lia).
  pose proof (Nat.div_mod (length arrived) sz ltac:(assumption)). pose proof (Nat.mod_upper_bound (length arrived) sz ltac:(assumption)).
  pose proof (Nat.div_mod 1024 sz ltac:(assumption)). pose proof (Nat.mod_upper_bound 1024 sz ltac:(assumption)). split; [rewrite LL; apply Nat.le_min_l|].
  destruct (Nat.min_spec (length chunks) (length arrived / sz)) as [[? M]|[? M]]; rewrite M in LL; rewrite LL; [apply Nat.le_trans with (length chunks + 1024 / sz); [apply Nat.le_add_r|apply Nat.le_add_r]|].
  assert (FIN : forall A h c sz q1 r1 q2 r2 : nat, A + h = c * sz -> h <= 1024 -> A = sz * q1 + r1 -> r1 < sz -> 1024 = sz * q2 + r2 -> r2 < sz -> c <= q1 + q2 + 1).
  { clear. intros A h c sz q1 r1 q2 r2 LO Lh E1 B1 E2 B2. destruct (le_lt_dec c (q1 + q2 + 1)) as [|K]; [assumption|exfalso].
    assert (M : (q1 + q2 + 2) * sz <= c * sz) by (apply Nat.mul_le_mono_r; lia). rewrite !Nat.mul_add_distr_r in M. rewrite (Nat.mul_comm sz q1) in E1. rewrite (Nat.mul_comm sz q2) in E2. lia. }
  eapply FIN; [exact LO|exact Lh|eassumption..].
Qed.
Print Assumptions C128_reader.
(** An endless input: a release build goes on for ever, and what arrives exceeds every bound. *)
Theorem C128_endless : forall v A (e a : quad) psize size more (stream : nat -> byte), says size psize -> (1 <= psize < 65536)%N ->
  forall bound, exists k, forall j fuel, k <= j -> j < fuel ->
    exists arrived, dd_dlt_live v fuel A Release (quad_bytes e :: quad_bytes a :: size :: more) (map stream (seq 0 j)) = Ret (Waiting arrived) /\ bound <= length arrived.
Proof.
  intros v A e a psize size more stream (ds & H1 & H2 & H3 & H4) Hp bound. exists ((bound + 1024) * N.to_nat psize). intros j fuel Hj Hf. unfold dd_dlt_live.
  assert (P : parse_u16 size = Some psize).
  { apply parse_u16_exact. exists ds. split; [exact H1|]. split; [exact H2|]. split; [now left|]. split; [exact H4|lia]. }
  rewrite P. destruct (release_loop v A e a psize ltac:(lia) fuel 0 (map stream (seq 0 j)) lw_new) as (x & E & L).
  - unfold lw_ok. cbn [lw_new pending length]. lia.
  - rewrite map_length, seq_length. exact Hf.
  - exists x. split; [exact E|]. rewrite map_length, seq_length in L. cbn [lw_new at_exit sent pending app length] in L. unfold lw_capacity in L.
    assert (Q : bound + 1024 <= j / N.to_nat psize) by (apply Nat.div_le_lower_bound; lia). lia.
Qed.
Print Assumptions C128_endless.

(** Payloads of ten bytes without line feeds: nothing has arrived after nine of them. *)
Definition ten_letters : bytes := repeat x61 10.
Example C128_withheld : forall v, exists out,
  dd_dlt v 20 addrs Debug [quad_bytes quad_ECU1; quad_bytes quad_ECU1; ten] (concat (repeat ten_letters 9)) = Ret (out, DdDone 9) /\ length out = 396 /\
  dd_dlt_live v 20 addrs Debug [quad_bytes quad_ECU1; quad_bytes quad_ECU1; ten] (concat (repeat ten_letters 9)) = Ret (Waiting []).
Proof. intros [|]; eexists; (split; [vm_compute; reflexivity|]); split; vm_compute; reflexivity. Qed.
(** The hypotheses of C128_prompt, and of C128_reader and C128_endless. *)
Example C128_example : says ten 10 /\ Forall (fun c => N.of_nat (length c) = 10%N) ([ten_letters] ++ [repeat x61 9 ++ [x0a]]) /\ Forall line_fits (repeat ten_letters 9) /\
  forall v, exists out, dd_dlt v 20 addrs Debug [quad_bytes quad_ECU1; quad_bytes quad_ECU1; ten] (concat ([ten_letters] ++ [repeat x61 9 ++ [x0a]]) ++ [x61]) = Ret (out, DdDone 2) /\ length out = 88.
Proof.
  split; [exists [1%N; 0%N]; split; [discriminate|]; split; [repeat constructor|]; split; reflexivity|]. split; [repeat constructor|].
  split; [rewrite Forall_forall; intros c J; apply repeat_spec in J; subst c; apply short_fits; cbn [ten_letters repeat length]; lia|].
  intros [|]; eexists; split; vm_compute; reflexivity.
Qed.
