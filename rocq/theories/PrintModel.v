(** Model of [main] in ripdlt/src/main.rs once more, now with the characters that appear on
    standard output and with what has appeared when the program panics (MainModel.v has the numbers
    that are printed, and forgets them at a panic). *)
From Coq Require Import String.
From Verif Require Import Base DltModel MatchModel GenModel ToolsModel MainModel.

(** A run: the text on standard output and how the program ended. *)
Inductive ending := Finished | Crashed | Endless.
(** Standard output and the end. *)
Record run := { out : bytes; how : ending }.

(** A Rust string literal as UTF-8 bytes (all literals of main.rs are ASCII). *)
Definition lit (s : string) : bytes := list_byte_of_string s.

(** [println!] of a line; stdout is flushed at exit, also after a panic, so what was printed
    arrives in any case.  (Simplification: writing to stdout does not fail.) *)
Definition println (l : bytes) (next : run) : run :=
  {| out := l ++ [x0a] ++ out next; how := how next |}.
(** The end of [main]. *)
Definition finished : run := {| out := []; how := Finished |}.
(** A computation without output, then the rest of the program. *)
Definition compute {A : Type} (o : outcome A) (next : A -> run) : run :=
  match o with
  | Ret a => next a
  | Panic => {| out := []; how := Crashed |}
  | Fuel => {| out := []; how := Endless |}
  end.
(** [for x in l { println!(..) }] *)
Fixpoint println_all (ls : list bytes) (next : run) : run :=
  match ls with
  | [] => next
  | l :: ls' => println l (println_all ls' next)
  end.

(** [Display] (and [Debug]) of unsigned integers, core/src/fmt/num.rs: the digits from the last to
    the first.  ([fuel] bounds the number of digits; [S (N.size_nat n)] is enough.) *)
Fixpoint dec_loop (fuel : nat) (n : N) (acc : bytes) : bytes :=
  match fuel with
  | O => acc
  | S f =>
      let acc := u8 (48 + n mod 10) :: acc in
      if (n <? 10)%N then acc else dec_loop f (n / 10)%N acc
  end.
(** [Display] of an integer. *)
Definition dec (n : N) : bytes := dec_loop (S (N.size_nat n)) n [].
(** [Display] of [usize]. *)
Definition dec_nat (n : nat) : bytes := dec (N.of_nat n).

(** [Debug] of [BTreeMap<u32, usize>]: {k: v, k: v} *)
Fixpoint debug_entries (m : list (N * nat)) : bytes :=
  match m with
  | [] => []
  | [(k, v)] => dec k ++ lit ": " ++ dec_nat v
  | (k, v) :: m' => dec k ++ lit ": " ++ dec_nat v ++ lit ", " ++ debug_entries m'
  end.
(** [Debug] of [(BTreeMap<u32, usize>, usize)] *)
Definition debug_row (x : list (N * nat) * nat) : bytes :=
  lit "({" ++ debug_entries (fst x) ++ lit "}, " ++ dec_nat (snd x) ++ lit ")".

(** Derived [Debug] of dlt_v1.rs:147-201. *)
Definition debug_log (i : log_info) : string :=
  match i with LogFatal => "DltLogFatal" | LogError => "DltLogDltError" | LogWarn => "DltLogWarn"
             | LogInfo => "DltLogInfo" | LogDebug => "DltLogDebug" | LogVerbose => "DltLogVerbose" end.
(** dlt_v1.rs:171 derived [Debug]. *)
Definition debug_trace (i : trace_info) : string :=
  match i with TraceVariable => "DltTraceVariable" | TraceFunctionIn => "DltTraceFunctionIn"
             | TraceFunctionOut => "DltTraceFunctionOut" | TraceState => "DltTraceState" | TraceVfb => "DltTraceVfb" end.
(** dlt_v1.rs:182 derived [Debug]. *)
Definition debug_nw (i : nw_info) : string :=
  match i with NwIpc => "DltNwTraceIpc" | NwCan => "DltNwTraceCan" | NwFlexray => "DltNwTraceFlexray"
             | NwMost => "DltNwTraceMost" | NwEthernet => "DltNwTraceEthernet" | NwSomeip => "DltNwTraceSomeip" end.
(** dlt_v1.rs:195 derived [Debug]. *)
Definition debug_ctl (i : ctl_info) : string :=
  match i with CtlRequest => "DltControlRequest" | CtlResponse => "DltControlResponse" end.
(** dlt_v1.rs:147 derived [Debug]. *)
Definition debug_type (t : msg_type) : bytes :=
  match t with
  | TypeLog i => lit "DltTypeLog(" ++ lit (debug_log i) ++ lit ")"
  | TypeAppTrace i => lit "DltTypeAppTrace(" ++ lit (debug_trace i) ++ lit ")"
  | TypeNwTrace i => lit "DltTypeNwTrace(" ++ lit (debug_nw i) ++ lit ")"
  | TypeControl i => lit "DltTypeControl(" ++ lit (debug_ctl i) ++ lit ")"
  end.
(** [Debug] of [(bool, Option<DltMessageType>)] *)
Definition debug_info (x : bool * option msg_type) : bytes :=
  lit "(" ++ lit (if fst x then "true" else "false") ++ lit ", " ++
  match snd x with None => lit "None" | Some t => lit "Some(" ++ debug_type t ++ lit ")" end ++ lit ")".

(** [args.join(" ")] *)
Fixpoint join_args (l : list string) : bytes :=
  match l with
  | [] => []
  | [s] => lit s
  | s :: l' => lit s ++ lit " " ++ join_args l'
  end.

(** What the program runs on: as in MainModel.v, and in which order the lines of the workers of
    [par_iter] arrive, given their results ([println!] holds a lock for a whole line). *)
Record console := {
  computer :> machine;
  arrival : list (outcome nat) -> list nat
}.

(** main.rs:318, :342, :348: "{:?}-{:?} secs: {:?}" *)
Definition bucket_text (kv : N * nat) : bytes :=
  dec (fst kv) ++ lit "-" ++ dec (fst kv + 1) ++ lit " secs: " ++ dec_nat (snd kv).
(** main.rs:324, :330, :336: the [for] loop over ECUs, "{} #lifecycles: {:?}"; [from_utf8] is
    unwrapped for each line. *)
Fixpoint println_ecus (m : list (quad * (list (N * nat) * nat))) (next : run) : run :=
  match m with
  | [] => next
  | (k, v) :: m' =>
      compute (if from_utf8_ok (quad_bytes k) then Ret tt else Panic) (fun _ =>
        println (quad_bytes k ++ lit " #lifecycles: " ++ debug_row v) (println_ecus m' next))
  end.
(** main.rs:361-363, :371-373: "{}b: {}, overall: {} kB" *)
Definition size_text (kv : N * nat) : bytes :=
  dec (fst kv) ++ lit "b: " ++ dec_nat (snd kv) ++ lit ", overall: " ++
  dec (fst kv * N.of_nat (snd kv) / 1024) ++ lit " kB".
(** main.rs:391: "Offset {:?}M-{:?}M: {:?}" *)
Definition offset_text (kv : N * nat) : bytes :=
  lit "Offset " ++ dec (fst kv * idx_bucket_size / 1000000) ++ lit "M-" ++
  dec ((fst kv + 1) * idx_bucket_size / 1000000) ++ lit "M: " ++ dec_nat (snd kv).
(** main.rs:354: "{:?}: {:?}" *)
Definition type_text (kv : (bool * option msg_type) * nat) : bytes :=
  debug_info (fst kv) ++ lit ": " ++ dec_nat (snd kv).
(** main.rs:273, :290: "{:?} lifecycles >= {}s" *)
Definition long_text (r : nat) : bytes :=
  dec_nat r ++ lit " lifecycles >= " ++ dec (min_time_dms / 10000) ++ lit "s".
(** main.rs:23, :48, :74: "available parallelism = {}, slices = {}" *)
Definition slices_text (num slices : nat) : bytes :=
  lit "available parallelism = " ++ dec_nat num ++ lit ", slices = " ++ dec_nat slices.

(** main.rs:20-37, :44-63, :70-93: partition, print the numbers, work on each slice. *)
Definition parallel {A : Type} (C : console) (f : bytes -> outcome A) (buf : bytes) (next : list A -> run) : run :=
  compute (partition_from DLT buf (cores C)) (fun slices =>
    println (slices_text (cores C) (length slices)) (
      compute (mapM f slices) next)).
(** [multithreaded] with a counting function that does not print. *)
Definition multithreaded_text (C : console) (f : bytes -> outcome nat) (buf : bytes) (next : nat -> run) : run :=
  parallel C f buf (fun rs => next (reduce_tree 0 Nat.add (sched C nat rs))).

(** main.rs:314-422, one entry per [match] arm. *)
Definition command_text (C : console) (name : string) (buf : bytes) : run :=
  let lifecycles := lit "Distribution of lifecycle durations:" in
  let durations := lit "Durations of periods where DLT storage header timestamps are continuous:" in
  if (name =? "histogram_lifecycles")%string then
    println lifecycles (compute (lifecycle_histogram buf) (fun h =>
      println_all (map bucket_text h) finished))
  else if (name =? "split_lifecycles")%string then
    println lifecycles (compute (lifecycle_splitit (finalize_fuel buf) buf) (fun m =>
      println_ecus m finished))
  else if (name =? "split_timestamp")%string then
    println durations (compute (timestamp_splitit (finalize_fuel buf) buf) (fun m =>
      println_ecus m finished))
  else if (name =? "par_split_timestamp")%string then
    println durations (parallel C (timestamp_splitit (finalize_fuel buf)) buf (fun rs =>
      println_ecus (reduce_tree [] split_merge (sched C _ rs)) finished))
  else if (name =? "histogram_timestamp")%string then
    println durations (compute (continuous_timestamp_histogram buf) (fun h =>
      println_all (map bucket_text h) finished))
  else if (name =? "par_histogram_timestamp")%string then
    println durations (parallel C continuous_timestamp_histogram buf (fun rs =>
      println_all (map bucket_text (reduce_tree [] (hist_merge N.compare) (sched C _ rs))) finished))
  else if (name =? "histogram_message_type")%string then
    println (lit "(verbose, message type): # dlt messages") (compute (mstp_info_histogram buf) (fun h =>
      println_all (map type_text h) finished))
  else if (name =? "histogram_payload_size")%string then
    println (lit "Distribution of payload length:") (compute (histogram_payload buf) (fun h =>
      println_all (map size_text h) (
        println (lit "Payload in total: " ++ dec (hist_total h / 1024) ++ lit " kB") finished)))
  else if (name =? "histogram_message_size")%string then
    println (lit "Distribution of DLT message length:") (compute (histogram_message buf) (fun h =>
      println_all (map size_text h) (
        println (lit "DLT messages in total: " ++ dec (hist_total h / 1024) ++ lit " kB") finished)))
  else if (name =? "count")%string then
    compute (count buf) (fun r => println (dec_nat r ++ lit " messages") finished)
  else if (name =? "par_count")%string then
    multithreaded_text C count buf (fun r => println (dec_nat r ++ lit " messages") finished)
  else if (name =? "histogram_hello_world")%string then
    println (lit "Distribution of 'Hello World' matches:") (compute (histogram_hello_world (find_at C) buf) (fun h =>
      println_all (map offset_text h) finished))
  else if (name =? "count_hello_world")%string then
    compute (count_hello_world buf) (fun r => println (dec_nat r ++ lit " hello world messages") finished)
  else if (name =? "count_hello_world_raw")%string then
    compute (count_hello_world_raw buf) (fun r => println (dec_nat r ++ lit " raw hello world matches") finished)
  else if (name =? "count_hello_world_grepit")%string then
    compute (count_hello_world_grepit (find_at C) buf) (fun r => println (dec_nat r ++ lit " hello world messages") finished)
  else if (name =? "par_count_hello_world")%string then
    multithreaded_text C count_hello_world buf (fun r => println (dec_nat r ++ lit " hello world messages") finished)
  else if (name =? "par_count_hello_world_raw")%string then
    multithreaded_text C count_hello_world_raw buf (fun r => println (dec_nat r ++ lit " hello world messages") finished)
  else if (name =? "par_count_hello_world_grepit")%string then
    multithreaded_text C (count_hello_world_grepit (find_at C)) buf (fun r => println (dec_nat r ++ lit " hello world messages") finished)
  else if (name =? "par_iter")%string then
    (* the workers print (main.rs:273); the sum is not printed *)
    compute (partition_from DLT buf (cores C)) (fun slices =>
      println (slices_text (cores C) (length slices)) (
        println_all (map long_text (arrival C (map lifecycle_iter slices))) (
          compute (mapM lifecycle_iter slices) (fun _ => finished))))
  else if (name =? "iter")%string then
    compute (lifecycle_iter buf) (fun r => println (long_text r) finished)
  else if (name =? "itertools")%string then
    compute (lifecycle_itertools buf) (fun r => println (long_text r) finished)
  else {| out := []; how := Crashed |}.

(** main.rs:296-423; [prog] is [args[0]], [args] the other arguments.  [env::args()] panics if an
    argument is not valid Unicode (:297). *)
Definition ripdlt_run (C : console) (prog : string) (args : list string) : run :=
  compute (if forallb (fun a => from_utf8_ok (lit a)) (prog :: args) then Ret tt else Panic) (fun _ =>
  match args with
  | method :: command :: name :: _ =>
      println (join_args (prog :: args)) (
        compute (load C method name) (fun d => command_text C command (as_slice d)))
  | _ =>
      println (lit "usage: " ++ lit prog ++ lit " <file_access_method> <test_name> <filename.dlt>") (
        println (lit "  runs ripdlt tests with different implementations") finished)
  end).
