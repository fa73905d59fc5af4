(** Property theorems C97-C99: reading, piece by piece (vocabulary in InSpec.v). *)
From Coq Require Import String.
From Verif Require Import Base DltModel MatchModel GenModel ToolsModel DdModel MainModel DdOs OsSpec InModel InSpec Spec CommandSpec PrintModel PrintSpec
  Samples BaseFacts DltFacts Utf8Facts PrintFacts DdFacts InFacts P_DD P_DdOs.
From Coq Require Import ZifyBool ZifyNat ZifyN.

(** C97: dd_dlt depends on the bytes that its standard input delivers, not on the pieces, the signals
    or the way it ends, whatever happens to its output. *)
Theorem C97_input : forall v fuel A mode args evs b, delivers evs b ->
  (forall o : os, dd_dlt_in v fuel o A mode args evs = dd_dlt_os v fuel o A mode args b) /\
  (forall (o : os) out e, (forall i, o i = TakesAll) -> dd_dlt v fuel A mode args b = Ret (out, e) ->
     exists e', dd_dlt_in v fuel o A mode args evs = Ret (out, e') /\ same_end e' e).
Proof.
  intros v fuel A mode args evs b D. split; [intros o; now apply dd_in_os|]. intros o out e H R. rewrite (dd_in_os _ _ _ _ _ _ _ _ D).
  exact (C86_all_taken_partial v A mode args b fuel out e o H R).
Qed.
Print Assumptions C97_input.
Theorem C97_pieces : forall v fuel (o : os) A mode args evs evs', same_bytes evs evs' ->
  dd_dlt_in v fuel o A mode args evs = dd_dlt_in v fuel o A mode args evs'.
Proof. intros v fuel o A mode args evs evs' (b & D & D'). now rewrite (dd_in_os _ _ _ _ _ _ _ _ D), (dd_in_os _ _ _ _ _ _ _ _ D'). Qed.
Print Assumptions C97_pieces.
(** Every history of standard input delivers some bytes. *)
Theorem C97_total : forall evs, exists! b, delivers evs b.
Proof. intros evs. destruct (delivers_total evs) as [b H]. exists b. split; [exact H|]. intros b' H'. exact (delivers_fun _ _ _ H H'). Qed.
Print Assumptions C97_total.

(** A pipe that delivers 25 bytes in pieces, with signals in between, and then an error. *)
Definition pipe : list event :=
  [Delivers (repeat x61 3); Interrupted; Delivers (repeat x62 12); Delivers (repeat x63 5); Interrupted; Interrupted; Delivers (repeat x64 5); ReadFails; Delivers [x65]].
Example C97_example : delivers pipe (repeat x61 3 ++ repeat x62 12 ++ repeat x63 5 ++ repeat x64 5) /\
  same_bytes pipe [Delivers (repeat x61 3 ++ repeat x62 12 ++ repeat x63 5 ++ repeat x64 5)] /\
  exists out, dd_dlt_in TakesSome 9 (fun _ => TakesAll) addrs Debug [quad_bytes quad_ECU1; quad_bytes quad_ECU1; ten] pipe = Ret (out, OsDone 2) /\ length out = 88.
Proof.
  assert (D : delivers pipe (repeat x61 3 ++ repeat x62 12 ++ repeat x63 5 ++ repeat x64 5)).
  { unfold pipe. constructor; [discriminate|]. constructor. constructor; [discriminate|]. constructor; [discriminate|]. constructor. constructor.
    rewrite <- (app_nil_r (repeat x64 5)) at 2. constructor; [discriminate|]. constructor. }
  split; [exact D|]. split; [|eexists; split; vm_compute; reflexivity]. eexists. split; [exact D|].
  rewrite <- (app_nil_r (_ ++ _ ++ _ ++ _)) at 2. constructor; [discriminate|constructor].
Qed.

(** C98: reading a file takes the bytes that are delivered, however std chooses the sizes of its reads;
    ToolsModel.v's [read_file] is this. *)
Theorem C98_read_file : forall sizes evs b, (forall i, 0 < sizes i) -> delivers evs b ->
  read_file_in true sizes evs = Ret IoErr /\
  read_file_in false sizes evs = Ret (IoOk (BufRead b)) /\
  forall f, b = match file_read_err f with None => file_content f | Some n => firstn n (file_content f) end ->
    read_file_in (file_open_err f) sizes evs = Ret (read_file f).
Proof.
  intros sizes evs b HS D. split; [reflexivity|].
  assert (R : read_file_in false sizes evs = Ret (IoOk (BufRead b))).
  { unfold read_file_in. rewrite (read_to_end_ok sizes HS _ 0 evs b [] (Nat.lt_succ_diag_r _) D). reflexivity. }
  split; [exact R|]. intros f ->. unfold read_file. destruct (file_open_err f); [reflexivity|exact R].
Qed.
Print Assumptions C98_read_file.
(** The same file in two ways: pieces and signals, or at once. *)
Example C98_example : exists d, read_file_in false (fun i => 32 + i) [Interrupted; Delivers (firstn 40 m1); Interrupted; Delivers (skipn 40 m1 ++ m1)] = Ret (IoOk d) /\
  read_file_in false (fun _ => 7) [Delivers (m1 ++ m1)] = Ret (IoOk d) /\ as_slice d = m1 ++ m1 /\ length (m1 ++ m1) = 90.
Proof. exists (BufRead (m1 ++ m1)). repeat split; vm_compute; reflexivity. Qed.

(** C99: exit status and standard error of dd_dlt. *)
Lemma all_text argv : forallb from_utf8_ok argv = true <-> Forall utf8_text argv.
Proof.
  rewrite forallb_forall, Forall_forall. split; intros H x I; specialize (H x I); now apply from_utf8_exact.
Qed.
Theorem C99_report : forall v fuel (o : os) A mode argv evs b, delivers evs b ->
  (* not even a program name, or an argument that is not text *)
  (argv = [] \/ ~ Forall utf8_text argv -> dd_process v fuel o A mode argv evs = Ret ([], 101, RuntimeMessage)) /\
  (* too few arguments *)
  (forall program args, argv = program :: args -> Forall utf8_text argv -> length args < 3 ->
     dd_process v fuel o A mode argv evs =
       Ret ([], 0, Text (ascii "usage: " ++ program ++ ascii " <ecu_id> <app_id> <payload_size>" ++ [x0a] ++
                         ascii "  reads input form stdin and write valid DLT output with the input as payload to stdout." ++ [x0a]))) /\
  (* otherwise *)
  (forall program ecuid appid size more, argv = program :: ecuid :: appid :: size :: more -> Forall utf8_text argv ->
     (dd_process v fuel o A mode argv evs = Fuel <-> dd_dlt_os v fuel o A mode (ecuid :: appid :: size :: more) b = Fuel) /\
     forall out status err, dd_process v fuel o A mode argv evs = Ret (out, status, err) ->
       (exists e, dd_dlt_os v fuel o A mode (ecuid :: appid :: size :: more) b = Ret (out, e) /\
          match e with OsDone _ => status = 0 | OsError => status = 1 | OsPanic => status = 101 end) /\
       (status <> 0 -> err = RuntimeMessage) /\
       (status = 0 -> exists psize t, (says size psize \/ exists size', size = x2b :: size' /\ says size' psize) /\ (1 <= psize < 65536)%N /\
          err = Text t /\ reports ((N.of_nat (length b) / psize) mod 2 ^ 32) psize t /\
          (mode = Debug -> (N.of_nat (length b) / psize < 2 ^ 32)%N))).
Proof.
  intros v fuel o A mode argv evs b D. split; [|split].
  - intros [-> | NT]; [reflexivity|]. unfold dd_process. destruct (forallb from_utf8_ok argv) eqn:F; [|reflexivity].
    exfalso. apply NT. now apply all_text.
  - intros program args -> T L. apply all_text in T. unfold dd_process. rewrite T. cbn [negb].
    destruct (Nat.ltb_spec (length (program :: args)) 4) as [_|Q]; [reflexivity|cbn [length] in Q; lia].
  - intros program ecuid appid size more -> T. apply all_text in T. unfold dd_process. rewrite T. cbn [negb].
    destruct (Nat.ltb_spec (length (program :: ecuid :: appid :: size :: more)) 4) as [Q|_]; [cbn [length] in Q; lia|].
    rewrite (dd_in_os _ _ _ _ _ _ _ _ D). set (args := ecuid :: appid :: size :: more) in *.
    destruct (dd_dlt_os v fuel o A mode args b) as [[out e]| |] eqn:R; cbn [obind].
    + split; [split; discriminate|]. intros out' status err E. injection E as <- <- <-. split; [exists e; split; [reflexivity|now destruct e]|].
      unfold args in *. cbn [dd_dlt_os] in R. destruct (parse_u16 size) as [psize|] eqn:P.
      * split; [destruct e; [congruence|reflexivity|reflexivity]|]. destruct e as [n| |]; try discriminate. intros _.
        destruct (os_loop_count v o A mode ecuid appid psize fuel 0%N b stdout_new out n ltac:(reflexivity) R) as (P1 & P2 & P3).
        apply parse_u16_exact in P. destruct P as (ds & NE & F & Z & Dc & L). exists psize. eexists. split; [|split; [|split; [reflexivity|split]]].
        -- destruct Z as [-> | ->]; [left|right; exists (numeral ds); split; [reflexivity|]]; exists ds; repeat split; assumption.
        -- lia.
        -- rewrite P2. unfold report_text. exists (dec ((N.of_nat (length b) / psize) mod 2 ^ 32)), (dec psize). split; [apply dec_numeral|].
           split; [apply dec_numeral|]. rewrite N.add_0_l. reflexivity.
        -- intros M. specialize (P3 M). rewrite N.add_0_l in P3. exact P3.
      * injection R as <- <-. split; [reflexivity|discriminate].
    + split; [split; discriminate|]. discriminate.
    + split; [split; reflexivity|]. discriminate.
Qed.
Print Assumptions C99_report.
Example C99_example : exists out, dd_process TakesSome 9 (fun _ => TakesAll) addrs Debug [list_byte_of_string "dd_dlt"; quad_bytes quad_ECU1; quad_bytes quad_ECU1; ten] pipe =
    Ret (out, 0, Text (list_byte_of_string "wrote 2 DLT messages with payload size=10b" ++ [x0a])) /\ length out = 88.
Proof. eexists. split; vm_compute; reflexivity. Qed.
