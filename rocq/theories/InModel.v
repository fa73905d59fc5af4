(** Model of the reading side: what the operating system delivers piece by piece, std's [BufReader],
    [read_exact] and [read_to_end], and dd_dlt and [DltBuffer::read_file] on top of them.
    (DdModel.v, DdOs.v and ToolsModel.v: a list of bytes.) *)
From Coq Require Import String.
From Verif Require Import Base DltModel MatchModel GenModel ToolsModel MainModel DdModel DdOs PrintModel.

(** * read(2) *)
(** What the successive calls of read(2) find: bytes (no bytes: the end), a signal (EINTR), an error,
    or a descriptor that is not open (EBADF).  Behind the last event is the end. *)
Inductive event := Delivers (d : bytes) | Interrupted | ReadFails | ReadNotOpen.
(** The answer to one call. *)
Inductive answer_in := Got (d : bytes) | Retry | Failed.
(** A call with room for [n] bytes: if more is there, the rest stays for the next call. *)
Definition os_read (n : nat) (evs : list event) : answer_in * list event :=
  match evs with
  | [] => (Got [], [])
  | Delivers d :: r => (Got (firstn n d), match skipn n d with [] => r | d' => Delivers d' :: r end)
  | Interrupted :: r => (Retry, r)
  | ReadFails :: r => (Failed, r)
  | ReadNotOpen :: r => (Failed, r)
  end.
(** std/src/io/stdio.rs [StdinRaw::read]: a standard input that is not open is empty ([handle_ebadf]). *)
Definition stdin_raw_read (n : nat) (evs : list event) : answer_in * list event :=
  match evs with
  | ReadNotOpen :: r => (Got [], r)
  | _ => os_read n evs
  end.

(** * std/src/io/buffered/bufreader.rs around standard input *)
(** std/src/sys_common/io.rs, std/src/io/stdio.rs: DEFAULT_BUF_SIZE = STDIN_BUF_SIZE = 8 * 1024 *)
Definition in_capacity : nat := Pos.to_nat 8192.
(** std/src/io/buffered/bufreader.rs [BufReader]: the unread part of its buffer, and what is behind it. *)
Record reader := {
  unread : bytes;            (* in the buffer, between [pos] and [filled] *)
  source : list event
}.
(** [BufReader::new]; main.rs:28 creates it with the first [stdin()]. *)
Definition reader_new (evs : list event) : reader := {| unread := []; source := evs |}.
(** [BufReader::read] with room for [n] bytes: a large request with an empty buffer goes to the
    operating system directly, otherwise [fill_buf] fills an empty buffer and bytes are copied from it. *)
Definition buf_read (n : nat) (r : reader) : answer_in * reader :=
  match unread r with
  | [] =>
      if in_capacity <=? n then
        let '(a, s) := stdin_raw_read n (source r) in (a, {| unread := []; source := s |})
      else
        match stdin_raw_read in_capacity (source r) with
        | (Got d, s) => (Got (firstn n d), {| unread := skipn n d; source := s |})
        | (a, s) => (a, {| unread := []; source := s |})
        end
  | b => (Got (firstn n b), {| unread := skipn n b; source := source r |})
  end.
(** std/src/io/mod.rs [default_read_exact]: read until [n] bytes are there; an interrupted call is
    repeated, the end or an error is a failure ([None]).  Every round needs an event or delivers a
    byte, so [n + length (source r)] rounds are enough. *)
Fixpoint read_exact_rounds (rounds n : nat) (r : reader) (got : bytes) : outcome (option bytes * reader) :=
  match n with
  | O => Ret (Some got, r)
  | _ =>
      match rounds with
      | O => Fuel
      | S k =>
          match buf_read n r with
          | (Got [], r') => Ret (None, r')
          | (Got d, r') => read_exact_rounds k (n - length d) r' (got ++ d)
          | (Retry, r') => read_exact_rounds k n r' got
          | (Failed, r') => Ret (None, r')
          end
      end
  end.
(** [BufReader::read_exact]: from the buffer if it holds enough. *)
Definition read_exact (n : nat) (r : reader) : outcome (option bytes * reader) :=
  if n <=? length (unread r) then
    Ret (Some (firstn n (unread r)), {| unread := skipn n (unread r); source := source r |})
  else read_exact_rounds (n + length (source r)) n r [].

(** * dd_dlt/src/main.rs on such an input *)
(** main.rs:27-60: [read_exact] fails, the loop ends ([_ => break]). *)
Fixpoint in_loop (v : std_version) (fuel : nat) (o : os) (A : ctor_addrs) (m : build_mode) (ecuid appid : bytes)
  (payload_size count : N) (r : reader) (w : stdout) : outcome (bytes * os_end) :=
  match fuel with
  | O => Fuel
  | S f =>
      match read_exact (N.to_nat payload_size) r with
      | Ret (None, _) => Ret (all_arrived o w, OsDone count)
      | Ret (Some buf, r') =>
          match os_message v o A m ecuid appid payload_size count buf w with
          | (w', inl count') => in_loop v f o A m ecuid appid payload_size count' r' w'
          | (w', inr e) => Ret (all_arrived o w', e)
          end
      | _ => Fuel
      end
  end.
(** main.rs:7-61; [args]: the arguments behind the program name *)
Definition dd_dlt_in (v : std_version) (fuel : nat) (o : os) (A : ctor_addrs) (m : build_mode) (args : list bytes)
  (evs : list event) : outcome (bytes * os_end) :=
  match args with
  | ecuid :: appid :: size :: _ =>
      match parse_u16 size with
      | Some payload_size => in_loop v fuel o A m ecuid appid payload_size 0 (reader_new evs) stdout_new
      | None => Ret ([], OsPanic)
      end
  | _ => Ret ([], OsDone 0)
  end.

(** * The process: arguments as the system passes them, exit status, standard error *)
(** What appears on standard error: the texts of main.rs:10-11 and :59, or the message of a panic or
    of an error result.  (Simplification: those messages of the runtime are not modelled further;
    writes to standard error succeed.) *)
Inductive err_text := Text (t : bytes) | RuntimeMessage.
(** dd_dlt/src/main.rs:10-11. *)
Definition usage_text (program : bytes) : bytes :=
  lit "usage: " ++ program ++ lit " <ecu_id> <app_id> <payload_size>" ++ [x0a] ++
  lit "  reads input form stdin and write valid DLT output with the input as payload to stdout." ++ [x0a].
(** dd_dlt/src/main.rs:59. *)
Definition report_text (count payload_size : N) : bytes :=
  lit "wrote " ++ dec count ++ lit " DLT messages with payload size=" ++ dec payload_size ++ lit "b" ++ [x0a].
(** Standard output, exit status, standard error.  [argv] as passed to the process: [env::args()]
    panics if one is not Unicode, [args[0]] if there is none.  A panic ends with status 101, [Err]
    with 1 (std's [Termination]). *)
Definition dd_process (v : std_version) (fuel : nat) (o : os) (A : ctor_addrs) (m : build_mode) (argv : list bytes)
  (evs : list event) : outcome (bytes * nat * err_text) :=
  if negb (forallb from_utf8_ok argv) then Ret ([], 101, RuntimeMessage)
  else
    match argv with
    | [] => Ret ([], 101, RuntimeMessage)
    | program :: args =>
        if length argv <? 4 then Ret ([], 0, Text (usage_text program))
        else
          let* (out, e) := dd_dlt_in v fuel o A m args evs in
          Ret (out,
               match e with OsDone _ => 0 | OsError => 1 | OsPanic => 101 end,
               match e, args with
               | OsDone count, _ :: _ :: size :: _ =>
                   match parse_u16 size with Some payload_size => Text (report_text count payload_size) | None => RuntimeMessage end
               | _, _ => RuntimeMessage
               end)
    end.

(** * rapiddlt/src/dltbuffer.rs:16-22: [read_file] *)
(** std's [read_to_end] on the (fresh) [BufReader] of the file: calls of read(2) with room for
    [sizes 0], [sizes 1], ... bytes (std chooses them, never 0) until the end; an interrupted call is
    repeated; after an error what has been read stays in the vector.  The second result is [false]
    for an error.  (Simplification: there is always enough memory.) *)
Fixpoint read_to_end (rounds : nat) (sizes : nat -> nat) (i : nat) (evs : list event) (buf : bytes) : outcome (bytes * bool) :=
  match rounds with
  | O => Fuel
  | S k =>
      match os_read (sizes i) evs with
      | (Got [], _) => Ret (buf, true)
      | (Got d, evs') => read_to_end k sizes (S i) evs' (buf ++ d)
      | (Retry, evs') => read_to_end k sizes (S i) evs' buf
      | (Failed, _) => Ret (buf, false)
      end
  end.
(** The number of bytes all events deliver. *)
Fixpoint volume (evs : list event) : nat :=
  match evs with
  | [] => 0
  | Delivers d :: r => S (length d) + volume r
  | _ :: r => S (volume r)
  end.
(** dltbuffer.rs:16-22: the result of [read_to_end] is dropped ([let _]). *)
Definition read_file_in (open_err : bool) (sizes : nat -> nat) (evs : list event) : outcome (io_result dlt_buffer) :=
  if open_err then Ret IoErr
  else
    let* (buf, _) := read_to_end (S (volume evs)) sizes 0 evs [] in
    Ret (IoOk (BufRead buf)).
