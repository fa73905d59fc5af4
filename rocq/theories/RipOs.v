(** Model of [main] in ripdlt/src/main.rs once more, now as a program that prints line by line to an
    operating system that may take only a part of what it is given, or nothing (PrintModel.v: it takes
    everything).  [script_run] below relates the two. *)
From Coq Require Import String.
From Verif Require Import Base DltModel MatchModel GenModel ToolsModel MainModel PrintModel DdModel DdOs.

(** A program that prints: [Say l s] prints the line [l] ([println!]) and goes on with [s]; [Gather ls s]
    has parallel workers print the lines [ls] in this order, and goes on with [s] when all workers have
    ended; [Stop h] ends. *)
Inductive script := Say (l : bytes) (next : script) | Gather (ls : list bytes) (next : script) | Stop (h : ending).
(** A computation without output, then the rest of the program. *)
Definition calc {A : Type} (o : outcome A) (next : A -> script) : script :=
  match o with Ret a => next a | Panic => Stop Crashed | Fuel => Stop Endless end.
(** [for x in l { println!(..) }] *)
Fixpoint say_all (ls : list bytes) (next : script) : script :=
  match ls with [] => next | l :: ls' => Say l (say_all ls' next) end.

(** main.rs:324, :330, :336: the [for] loop over ECUs, "{} #lifecycles: {:?}"; [from_utf8] is
    unwrapped for each line. *)
Fixpoint say_ecus (m : list (quad * (list (N * nat) * nat))) (next : script) : script :=
  match m with
  | [] => next
  | (k, v) :: m' =>
      calc (if from_utf8_ok (quad_bytes k) then Ret tt else Panic) (fun _ =>
        Say (quad_bytes k ++ lit " #lifecycles: " ++ debug_row v) (say_ecus m' next))
  end.
(** main.rs:20-37, :44-63, :70-93: partition, print the numbers, work on each slice. *)
Definition parallel_script {A : Type} (C : console) (f : bytes -> outcome A) (buf : bytes) (next : list A -> script) : script :=
  calc (partition_from DLT buf (cores C)) (fun slices =>
    Say (slices_text (cores C) (length slices)) (
      calc (mapM f slices) next)).
(** [multithreaded] with a counting function that does not print. *)
Definition multithreaded_script (C : console) (f : bytes -> outcome nat) (buf : bytes) (next : nat -> script) : script :=
  parallel_script C f buf (fun rs => next (reduce_tree 0 Nat.add (sched C nat rs))).

(** main.rs:314-422, one entry per [match] arm. *)
Definition command_script (C : console) (name : string) (buf : bytes) : script :=
  let lifecycles := lit "Distribution of lifecycle durations:" in
  let durations := lit "Durations of periods where DLT storage header timestamps are continuous:" in
  if (name =? "histogram_lifecycles")%string then
    Say lifecycles (calc (lifecycle_histogram buf) (fun h =>
      say_all (map bucket_text h) (Stop Finished)))
  else if (name =? "split_lifecycles")%string then
    Say lifecycles (calc (lifecycle_splitit (finalize_fuel buf) buf) (fun m =>
      say_ecus m (Stop Finished)))
  else if (name =? "split_timestamp")%string then
    Say durations (calc (timestamp_splitit (finalize_fuel buf) buf) (fun m =>
      say_ecus m (Stop Finished)))
  else if (name =? "par_split_timestamp")%string then
    Say durations (parallel_script C (timestamp_splitit (finalize_fuel buf)) buf (fun rs =>
      say_ecus (reduce_tree [] split_merge (sched C _ rs)) (Stop Finished)))
  else if (name =? "histogram_timestamp")%string then
    Say durations (calc (continuous_timestamp_histogram buf) (fun h =>
      say_all (map bucket_text h) (Stop Finished)))
  else if (name =? "par_histogram_timestamp")%string then
    Say durations (parallel_script C continuous_timestamp_histogram buf (fun rs =>
      say_all (map bucket_text (reduce_tree [] (hist_merge N.compare) (sched C _ rs))) (Stop Finished)))
  else if (name =? "histogram_message_type")%string then
    Say (lit "(verbose, message type): # dlt messages") (calc (mstp_info_histogram buf) (fun h =>
      say_all (map type_text h) (Stop Finished)))
  else if (name =? "histogram_payload_size")%string then
    Say (lit "Distribution of payload length:") (calc (histogram_payload buf) (fun h =>
      say_all (map size_text h) (
        Say (lit "Payload in total: " ++ dec (hist_total h / 1024) ++ lit " kB") (Stop Finished))))
  else if (name =? "histogram_message_size")%string then
    Say (lit "Distribution of DLT message length:") (calc (histogram_message buf) (fun h =>
      say_all (map size_text h) (
        Say (lit "DLT messages in total: " ++ dec (hist_total h / 1024) ++ lit " kB") (Stop Finished))))
  else if (name =? "count")%string then
    calc (count buf) (fun r => Say (dec_nat r ++ lit " messages") (Stop Finished))
  else if (name =? "par_count")%string then
    multithreaded_script C count buf (fun r => Say (dec_nat r ++ lit " messages") (Stop Finished))
  else if (name =? "histogram_hello_world")%string then
    Say (lit "Distribution of 'Hello World' matches:") (calc (histogram_hello_world (find_at C) buf) (fun h =>
      say_all (map offset_text h) (Stop Finished)))
  else if (name =? "count_hello_world")%string then
    calc (count_hello_world buf) (fun r => Say (dec_nat r ++ lit " hello world messages") (Stop Finished))
  else if (name =? "count_hello_world_raw")%string then
    calc (count_hello_world_raw buf) (fun r => Say (dec_nat r ++ lit " raw hello world matches") (Stop Finished))
  else if (name =? "count_hello_world_grepit")%string then
    calc (count_hello_world_grepit (find_at C) buf) (fun r => Say (dec_nat r ++ lit " hello world messages") (Stop Finished))
  else if (name =? "par_count_hello_world")%string then
    multithreaded_script C count_hello_world buf (fun r => Say (dec_nat r ++ lit " hello world messages") (Stop Finished))
  else if (name =? "par_count_hello_world_raw")%string then
    multithreaded_script C count_hello_world_raw buf (fun r => Say (dec_nat r ++ lit " hello world messages") (Stop Finished))
  else if (name =? "par_count_hello_world_grepit")%string then
    multithreaded_script C (count_hello_world_grepit (find_at C)) buf (fun r => Say (dec_nat r ++ lit " hello world messages") (Stop Finished))
  else if (name =? "par_iter")%string then
    (* the workers print (main.rs:273); the sum is not printed *)
    calc (partition_from DLT buf (cores C)) (fun slices =>
      Say (slices_text (cores C) (length slices)) (
        Gather (map long_text (arrival C (map lifecycle_iter slices))) (
          calc (mapM lifecycle_iter slices) (fun _ => (Stop Finished)))))
  else if (name =? "iter")%string then
    calc (lifecycle_iter buf) (fun r => Say (long_text r) (Stop Finished))
  else if (name =? "itertools")%string then
    calc (lifecycle_itertools buf) (fun r => Say (long_text r) (Stop Finished))
  else Stop Crashed.

(** main.rs:296-423; [prog] is [args[0]], [args] the other arguments.  [env::args()] panics if an
    argument is not valid Unicode (:297). *)
Definition ripdlt_script (C : console) (prog : string) (args : list string) : script :=
  calc (if forallb (fun a => from_utf8_ok (lit a)) (prog :: args) then Ret tt else Panic) (fun _ =>
  match args with
  | method :: command :: name :: _ =>
      Say (join_args (prog :: args)) (
        calc (load C method name) (fun d => command_script C command (as_slice d)))
  | _ =>
      Say (lit "usage: " ++ lit prog ++ lit " <file_access_method> <test_name> <filename.dlt>") (
        Say (lit "  runs ripdlt tests with different implementations") (Stop Finished))
  end).

(** The same program if everything is taken. *)
Fixpoint script_run (s : script) : run :=
  match s with
  | Say l s' => println l (script_run s')
  | Gather ls s' => println_all ls (script_run s')
  | Stop h => {| out := []; how := h |}
  end.

(** std/src/io/mod.rs [Write::write_all] on standard output (stdio.rs [StdoutRaw::write_all]): write until
    nothing is left; taking nothing is an error; a descriptor that is not open swallows everything.
    Every round but the last writes at least one byte. *)
Fixpoint raw_rounds (rounds : nat) (o : os) (w : stdout) (buf : bytes) : stdout * bool :=
  match buf, rounds with
  | [], _ => (w, true)
  | _, 0 => (w, false)
  | _, S r =>
      match raw_write o w buf with
      | (w', Some (S n)) => raw_rounds r o w' (skipn (S n) buf)
      | (w', _) => (w', false)
      end
  end.
(** [Write::write_all] on the file descriptor. *)
Definition raw_write_all (o : os) (w : stdout) (buf : bytes) : stdout * bool := raw_rounds (length buf) o w buf.

(** bufwriter.rs [BufWriter::write_all] and [write_all_cold]. *)
Definition buf_write_all (o : os) (w : stdout) (buf : bytes) : stdout * bool :=
  let spare := lw_capacity - length (buffered w) in
  if length buf <? spare then (set_buffered w (buffered w ++ buf), true)
  else
    let '(w, ok) := if spare <? length buf then flush_out o w else (w, true) in
    if negb ok then (w, false)
    else if lw_capacity <=? length buf then raw_write_all o w buf
    else (set_buffered w (buffered w ++ buf), true).

(** linewritershim.rs [LineWriterShim::write_all]. *)
Definition line_write_all (o : os) (w : stdout) (buf : bytes) : stdout * bool :=
  match rfind [x0a] buf with
  | None =>
      let '(w, ok) := match rev (buffered w) with
                      | c :: _ => if byte_eqb c x0a then flush_out o w else (w, true)
                      | [] => (w, true)
                      end in
      if negb ok then (w, false) else buf_write_all o w buf
  | Some i =>
      let lines := firstn (i + 1) buf in
      let '(w, ok) :=
        match buffered w with
        | [] => raw_write_all o w lines
        | _ => let '(w, ok) := buf_write_all o w lines in if ok then flush_out o w else (w, false)
        end in
      if ok then buf_write_all o w (skipn (i + 1) buf) else (w, false)
  end.

(** [println!] formats a line in fragments and writes one after the other; the first error makes it panic
    (stdio.rs [print_to]).  How lines are cut into fragments is left open ([frag]). *)
Fixpoint write_fragments (o : os) (w : stdout) (fs : list bytes) : stdout * bool :=
  match fs with
  | [] => (w, true)
  | f :: fs' => let '(w, ok) := line_write_all o w f in if ok then write_fragments o w fs' else (w, false)
  end.
(** [println!]: one call of [write_all] for each fragment of the formatted line. *)
Definition os_println (o : os) (frag : bytes -> list bytes) (w : stdout) (l : bytes) : stdout * bool :=
  write_fragments o w (frag (l ++ [x0a])).

(** How a run ends: as the program says, or because it could not print. *)
Inductive rip_end := RipEnd (h : ending) | RipUnprinted.

(** Parallel workers: a worker that cannot print panics; which lines other workers still try to print then
    is left open ([later], given the lines that were not tried yet). *)
Fixpoint print_lines (o : os) (frag : bytes -> list bytes) (w : stdout) (ls : list bytes) : stdout * option (list bytes) :=
  match ls with
  | [] => (w, None)
  | l :: ls' => let '(w, ok) := os_println o frag w l in if ok then print_lines o frag w ls' else (w, Some ls')
  end.
(** Lines printed by other workers after one has panicked. *)
Fixpoint try_lines (o : os) (frag : bytes -> list bytes) (w : stdout) (ls : list bytes) : stdout :=
  match ls with
  | [] => w
  | l :: ls' => try_lines o frag (fst (os_println o frag w l)) ls'
  end.

(** A script run to its end. *)
Fixpoint perform (o : os) (frag : bytes -> list bytes) (later : list bytes -> list bytes) (s : script) (w : stdout) : bytes * rip_end :=
  match s with
  | Say l s' => let '(w, ok) := os_println o frag w l in if ok then perform o frag later s' w else (all_arrived o w, RipUnprinted)
  | Gather ls s' =>
      match print_lines o frag w ls with
      | (w, None) => perform o frag later s' w
      | (w, Some untried) => (all_arrived o (try_lines o frag w (later untried)), RipUnprinted)
      end
  | Stop h => (all_arrived o w, RipEnd h)
  end.

(** What has arrived when the process has ended, and how it ended. *)
Definition ripdlt_os (o : os) (frag : bytes -> list bytes) (later : list bytes -> list bytes) (C : console) (prog : string) (args : list string)
  : bytes * rip_end :=
  perform o frag later (ripdlt_script C prog args) stdout_new.
