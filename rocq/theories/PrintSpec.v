(** Vocabulary for C80-C83: the characters of what ripdlt prints.  Nothing here refers to the
    functions of the model; [line] is the list of the kinds of lines (MainModel.v). *)
From Coq Require Import String Permutation.
From Verif Require Import Base DltModel GenModel ToolsModel MainModel Spec.

Definition ascii (s : string) : bytes := list_byte_of_string s.

(** The usual decimal numeral of a number: no leading zeros. *)
Definition numeral_of (n : N) (t : bytes) : Prop :=
  exists ds, Forall (fun d => (d < 10)%N) ds /\ t = numeral ds /\ decimal ds = n /\
             (ds = [0%N] \/ exists d ds', ds = d :: ds' /\ d <> 0%N).
Definition numeral_of_nat (n : nat) (t : bytes) : Prop := numeral_of (N.of_nat n) t.

(** "k: v, k: v, k: v" *)
Inductive entries_text : list (N * nat) -> bytes -> Prop :=
| no_entries : entries_text [] []
| one_entry k v tk tv : numeral_of k tk -> numeral_of_nat v tv -> entries_text [(k, v)] (tk ++ ascii ": " ++ tv)
| more_entries k v tk tv m t : numeral_of k tk -> numeral_of_nat v tv -> m <> [] -> entries_text m t ->
    entries_text ((k, v) :: m) (tk ++ ascii ": " ++ tv ++ ascii ", " ++ t).

(** The names of message types. *)
Definition log_name (i : log_info) : string :=
  match i with LogFatal => "DltLogFatal" | LogError => "DltLogDltError" | LogWarn => "DltLogWarn"
             | LogInfo => "DltLogInfo" | LogDebug => "DltLogDebug" | LogVerbose => "DltLogVerbose" end.
Definition trace_name (i : trace_info) : string :=
  match i with TraceVariable => "DltTraceVariable" | TraceFunctionIn => "DltTraceFunctionIn"
             | TraceFunctionOut => "DltTraceFunctionOut" | TraceState => "DltTraceState" | TraceVfb => "DltTraceVfb" end.
Definition nw_name (i : nw_info) : string :=
  match i with NwIpc => "DltNwTraceIpc" | NwCan => "DltNwTraceCan" | NwFlexray => "DltNwTraceFlexray"
             | NwMost => "DltNwTraceMost" | NwEthernet => "DltNwTraceEthernet" | NwSomeip => "DltNwTraceSomeip" end.
Definition ctl_name (i : ctl_info) : string :=
  match i with CtlRequest => "DltControlRequest" | CtlResponse => "DltControlResponse" end.
Definition type_name (t : option msg_type) : string :=
  match t with
  | None => "None"
  | Some (TypeLog i) => "Some(DltTypeLog(" ++ log_name i ++ "))"
  | Some (TypeAppTrace i) => "Some(DltTypeAppTrace(" ++ trace_name i ++ "))"
  | Some (TypeNwTrace i) => "Some(DltTypeNwTrace(" ++ nw_name i ++ "))"
  | Some (TypeControl i) => "Some(DltTypeControl(" ++ ctl_name i ++ "))"
  end.

(** What a count counts, and what a total is the total of, by command. *)
Definition counted (cmd : string) : string :=
  if ((cmd =? "count") || (cmd =? "par_count"))%string then " messages"
  else if (cmd =? "count_hello_world_raw")%string then " raw hello world matches"
  else " hello world messages".
Definition totalled (cmd : string) : string :=
  if (cmd =? "histogram_payload_size")%string then "Payload in total: " else "DLT messages in total: ".

(** [appears cmd l t]: the line [l] of the command [cmd] is the text [t]. *)
Inductive appears (cmd : string) : line -> bytes -> Prop :=
| appears_heading text : appears cmd (LHeading text) (ascii text)
| appears_slices num k tn tk : numeral_of_nat num tn -> numeral_of_nat k tk ->
    appears cmd (LSlices num k) (ascii "available parallelism = " ++ tn ++ ascii ", slices = " ++ tk)
| appears_bucket lo hi n tl th tn : numeral_of lo tl -> numeral_of hi th -> numeral_of_nat n tn ->
    appears cmd (LBucket lo hi n) (tl ++ ascii "-" ++ th ++ ascii " secs: " ++ tn)
| appears_ecu ecu m n tm tn : entries_text m tm -> numeral_of_nat n tn ->
    appears cmd (LEcu ecu (m, n)) (ecu ++ ascii " #lifecycles: ({" ++ tm ++ ascii "}, " ++ tn ++ ascii ")")
| appears_type (verbose : bool) t n tn : numeral_of_nat n tn ->
    appears cmd (LType (verbose, t) n)
      (ascii (if verbose then "(true, " else "(false, ") ++ ascii (type_name t) ++ ascii "): " ++ tn)
| appears_size size n kb ts tn tk : numeral_of size ts -> numeral_of_nat n tn -> numeral_of kb tk ->
    appears cmd (LSize size n kb) (ts ++ ascii "b: " ++ tn ++ ascii ", overall: " ++ tk ++ ascii " kB")
| appears_total kb tk : numeral_of kb tk -> appears cmd (LTotal kb) (ascii (totalled cmd) ++ tk ++ ascii " kB")
| appears_count n tn : numeral_of_nat n tn -> appears cmd (LCount n) (tn ++ ascii (counted cmd))
| appears_long n tn : numeral_of_nat n tn -> appears cmd (LLong n) (tn ++ ascii " lifecycles >= 1800s")
| appears_offset lo hi n tl th tn : numeral_of lo tl -> numeral_of hi th -> numeral_of_nat n tn ->
    appears cmd (LOffset lo hi n) (ascii "Offset " ++ tl ++ ascii "M-" ++ th ++ ascii "M: " ++ tn).

(** Lines of text, each ended by a line feed. *)
Definition lines_text (ts : list bytes) : bytes := concat (map (fun t => t ++ [x0a]) ts).

(** The lines of parallel workers: all of them in any order if all workers succeed, otherwise some
    of those that succeed. *)
Definition succeeded (os : list (outcome nat)) : list nat :=
  flat_map (fun o => match o with Ret n => [n] | _ => [] end) os.
Definition fair_arrival (arrive : list (outcome nat) -> list nat) : Prop :=
  (forall rs, Permutation (arrive (map Ret rs)) rs) /\
  forall os, exists lost, Permutation (arrive os ++ lost) (succeeded os).

(** The lines of the workers of par_iter may be printed in any order, after the first line. *)
Definition same_lines (cmd : string) (ls ls' : list line) : Prop :=
  ls' = ls \/
  cmd = "par_iter"%string /\ exists first rest rest', ls = first :: rest /\ ls' = first :: rest' /\ Permutation rest rest'.

(** The line with which a command begins, if any. *)
Definition heading (cmd : string) : list string :=
  if existsb (String.eqb cmd) ["histogram_lifecycles"; "split_lifecycles"]%string then ["Distribution of lifecycle durations:"%string]
  else if existsb (String.eqb cmd) ["split_timestamp"; "par_split_timestamp"; "histogram_timestamp"; "par_histogram_timestamp"]%string
    then ["Durations of periods where DLT storage header timestamps are continuous:"%string]
  else if (cmd =? "histogram_message_type")%string then ["(verbose, message type): # dlt messages"%string]
  else if (cmd =? "histogram_payload_size")%string then ["Distribution of payload length:"%string]
  else if (cmd =? "histogram_message_size")%string then ["Distribution of DLT message length:"%string]
  else if (cmd =? "histogram_hello_world")%string then ["Distribution of 'Hello World' matches:"%string]
  else [].

(** The commands that tell into how many slices the file was cut. *)
Definition with_slices (cmd : string) : bool :=
  existsb (String.eqb cmd) ["par_split_timestamp"; "par_histogram_timestamp"; "par_count"; "par_count_hello_world";
                            "par_count_hello_world_raw"; "par_count_hello_world_grepit"; "par_iter"]%string.
(** The texts with which a command begins: the heading, then the number of cores and slices. *)
Definition opening (cmd : string) (num slices : nat) (ts : list bytes) : Prop :=
  exists us, ts = map ascii (heading cmd) ++ us /\
    if with_slices cmd then exists t, us = [t] /\ appears cmd (LSlices num slices) t else us = [].

(** Every argument is Unicode text. *)
Definition text_args (args : list string) : Prop := forall a, In a args -> utf8_text (ascii a).
