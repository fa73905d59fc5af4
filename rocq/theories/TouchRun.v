(** Model of [main] (ripdlt/src/main.rs) with the method "mmap", if the mapped file is changed or truncated while ripdlt runs: what appears
    on standard output (the text is that of PrintModel.v), with the commands of TouchCmd.v.  As there, [Fuel] is a process that is killed by
    SIGBUS, so [Endless] is how a run ends that is killed ([fin] bounds the [while] loops of the generator, MappedCmd.v).
    Standard output is line buffered, so a line that has been printed has left the process before it is killed.
    The time is that of the thread: each part has a world and reads of its own ([Ws], [Ps]), as in TouchCmd.v. *)
From Coq Require Import String.
From Verif Require Import Base DltModel MatchModel GenModel ToolsModel MainModel PrintModel MappedModel MappedCmd TouchModel TouchMore TouchCmd.

(** The result of a thread, without the time. *)
Definition result {A} (o : outcome (A * nat)) : outcome A := match o with Ret (a, _) => Ret a | Panic => Panic | Fuel => Fuel end.
(** Whether the thread ran into a byte that kills the process. *)
Definition stuck {A} (o : outcome A) : bool := match o with Fuel => true | _ => false end.
(** What all threads computed: if one is killed, all are; a panic of one is passed on. *)
Definition together {A} (os : list (outcome A)) : outcome (list A) := if existsb stuck os then Fuel else mapM (fun o => o) os.

Section Run.
  Variable C : console.
  Variable W : world.
  Variable V : cells.
  Variable n : nat.
  Variable P : reading.
  Variable Ws : nat * nat -> world * cells.
  Variable Ps : nat * nat -> reading.
  Variable fin : nat.

  (** The main thread's computation, then what it prints. *)
  Definition first_part {A} (x : act A) (next : A -> run) : run := compute (result (x 0)) next.
  (** One worker: part [p] of the file. *)
  Definition worker {A} (f : world -> cells -> nat -> reading -> act A) (p : nat * nat) : outcome A :=
    result (f (fst (Ws p)) (snd (Ws p)) (snd p - fst p) (Ps p) 0).
  (** main.rs:20-37, :44-63, :70-93: partition, print the numbers, work on each slice. *)
  Definition mapped_parallel {A} (f : world -> cells -> nat -> reading -> act A) (next : list A -> run) : run :=
    first_part (alive (t_partition W n (reads P) (reach P) (cores C))) (fun parts =>
      println (slices_text (cores C) (length parts)) (compute (together (map (worker f) parts)) next)).
  (** main.rs:16-38 *)
  Definition mapped_multithreaded (f : world -> cells -> nat -> reading -> act nat) (next : nat -> run) : run :=
    mapped_parallel f (fun rs => next (reduce_tree 0 Nat.add (sched C nat rs))).

  (** main.rs:314-422, one entry per [match] arm. *)
  Definition mapped_command (name : string) : run :=
    let lifecycles := lit "Distribution of lifecycle durations:" in
    let durations := lit "Durations of periods where DLT storage header timestamps are continuous:" in
    if (name =? "histogram_lifecycles")%string then
      println lifecycles (first_part (c_lifecycle_histogram W V n P) (fun h => println_all (map bucket_text h) finished))
    else if (name =? "split_lifecycles")%string then
      println lifecycles (first_part (c_lifecycle_splitit W V n P fin) (fun m => println_ecus m finished))
    else if (name =? "split_timestamp")%string then
      println durations (first_part (c_timestamp_splitit W V n P fin) (fun m => println_ecus m finished))
    else if (name =? "par_split_timestamp")%string then
      println durations (mapped_parallel (fun W V n P => c_timestamp_splitit W V n P fin) (fun rs =>
        println_ecus (reduce_tree [] split_merge (sched C _ rs)) finished))
    else if (name =? "histogram_timestamp")%string then
      println durations (first_part (c_continuous_timestamp_histogram W V n P) (fun h => println_all (map bucket_text h) finished))
    else if (name =? "par_histogram_timestamp")%string then
      println durations (mapped_parallel c_continuous_timestamp_histogram (fun rs =>
        println_all (map bucket_text (reduce_tree [] (hist_merge N.compare) (sched C _ rs))) finished))
    else if (name =? "histogram_message_type")%string then
      println (lit "(verbose, message type): # dlt messages") (first_part (c_mstp_info_histogram W V n P) (fun h =>
        println_all (map type_text h) finished))
    else if (name =? "histogram_payload_size")%string then
      println (lit "Distribution of payload length:") (first_part (c_histogram_payload W n P) (fun h =>
        println_all (map size_text h) (println (lit "Payload in total: " ++ dec (hist_total h / 1024) ++ lit " kB") finished)))
    else if (name =? "histogram_message_size")%string then
      println (lit "Distribution of DLT message length:") (first_part (c_histogram_message W n P) (fun h =>
        println_all (map size_text h) (println (lit "DLT messages in total: " ++ dec (hist_total h / 1024) ++ lit " kB") finished)))
    else if (name =? "count")%string then
      first_part (c_count W n P) (fun r => println (dec_nat r ++ lit " messages") finished)
    else if (name =? "par_count")%string then
      mapped_multithreaded (fun W _ n P => c_count W n P) (fun r => println (dec_nat r ++ lit " messages") finished)
    else if (name =? "histogram_hello_world")%string then
      println (lit "Distribution of 'Hello World' matches:") (first_part (c_histogram_hello_world W n P) (fun h =>
        println_all (map offset_text h) finished))
    else if (name =? "count_hello_world")%string then
      first_part (c_count_hello_world W V n P) (fun r => println (dec_nat r ++ lit " hello world messages") finished)
    else if (name =? "count_hello_world_raw")%string then
      first_part (c_count_hello_world_raw V n P) (fun r => println (dec_nat r ++ lit " raw hello world matches") finished)
    else if (name =? "count_hello_world_grepit")%string then
      first_part (c_count_hello_world_grepit W n P) (fun r => println (dec_nat r ++ lit " hello world messages") finished)
    else if (name =? "par_count_hello_world")%string then
      mapped_multithreaded c_count_hello_world (fun r => println (dec_nat r ++ lit " hello world messages") finished)
    else if (name =? "par_count_hello_world_raw")%string then
      mapped_multithreaded (fun _ V n P => c_count_hello_world_raw V n P) (fun r => println (dec_nat r ++ lit " hello world messages") finished)
    else if (name =? "par_count_hello_world_grepit")%string then
      mapped_multithreaded (fun W _ n P => c_count_hello_world_grepit W n P) (fun r => println (dec_nat r ++ lit " hello world messages") finished)
    else if (name =? "par_iter")%string then
      (* the workers print (main.rs:273), as long as none is killed; the sum is not printed *)
      first_part (alive (t_partition W n (reads P) (reach P) (cores C))) (fun parts =>
        println (slices_text (cores C) (length parts)) (
          println_all (map long_text (arrival C (map (worker c_lifecycle_iter) parts))) (
            compute (together (map (worker c_lifecycle_iter) parts)) (fun _ => finished))))
    else if (name =? "iter")%string then
      first_part (c_lifecycle_iter W V n P) (fun r => println (long_text r) finished)
    else if (name =? "itertools")%string then
      first_part (c_lifecycle_itertools W V n P) (fun r => println (long_text r) finished)
    else {| out := []; how := Crashed |}.
End Run.

(** main.rs:296-423; a file that is read (and not mapped) is in memory, so nothing happens to it any more. *)
Definition ripdlt_mapped (C : console) (W : world) (V : cells) (P : reading) (Ws : nat * nat -> world * cells) (Ps : nat * nat -> reading) (fin : nat)
  (prog : string) (args : list string) : run :=
  compute (if forallb (fun a => from_utf8_ok (lit a)) (prog :: args) then Ret tt else Panic) (fun _ =>
  match args with
  | method :: command :: name :: _ =>
      println (join_args (prog :: args)) (
        compute (load C method name) (fun d =>
          if (method =? "mmap")%string then mapped_command C W V (length (as_slice d)) P Ws Ps fin command
          else command_text C command (as_slice d)))
  | _ =>
      println (lit "usage: " ++ lit prog ++ lit " <file_access_method> <test_name> <filename.dlt>") (
        println (lit "  runs ripdlt tests with different implementations") finished)
  end).
