(** Model of dd_dlt as a process between an input that may still be open (InModel.v has inputs that end) and an output of
    which calls may be interrupted, taken in part or fail (SigModel.v has all of its input at once). *)
From Verif Require Import Base DltModel MatchModel GenModel ToolsModel MainModel DdModel DdOs PrintModel InModel SigModel.

(** * read(2) on an input that is open: behind the last event it waits *)
(** std/src/io/stdio.rs [StdinRaw::read]; [None]: waiting.  (The end of the input is the event [Delivers []].) *)
Definition open_read (n : nat) (evs : list InModel.event) : option (answer_in * list InModel.event) :=
  match evs with [] => None | _ => Some (stdin_raw_read n evs) end.
(** [BufReader::read], cf. [buf_read]; behind main.rs:28. *)
Definition open_buf_read (n : nat) (r : reader) : option (answer_in * reader) :=
  match unread r with
  | [] =>
      if in_capacity <=? n then
        match open_read n (source r) with
        | None => None
        | Some (a, s) => Some (a, {| unread := []; source := s |})
        end
      else
        match open_read in_capacity (source r) with
        | None => None
        | Some (Got d, s) => Some (Got (firstn n d), {| unread := skipn n d; source := s |})
        | Some (a, s) => Some (a, {| unread := []; source := s |})
        end
  | b => Some (Got (firstn n b), {| unread := skipn n b; source := source r |})
  end.
(** [read_exact]: waiting for more, all bytes, or a failure. *)
Inductive exact := Waits | Fills (buf : bytes) (r : reader) | Ends.
(** std/src/io/mod.rs [default_read_exact], cf. [read_exact_rounds]. *)
Fixpoint open_exact_rounds (rounds n : nat) (r : reader) (got : bytes) : outcome exact :=
  match n with
  | O => Ret (Fills got r)
  | _ =>
      match rounds with
      | O => Fuel
      | S k =>
          match open_buf_read n r with
          | None => Ret Waits
          | Some (Got [], _) => Ret Ends
          | Some (Got d, r') => open_exact_rounds k (n - length d) r' (got ++ d)
          | Some (Retry, r') => open_exact_rounds k n r' got
          | Some (Failed, _) => Ret Ends
          end
      end
  end.
(** [BufReader::read_exact], cf. [read_exact]; dd_dlt/src/main.rs:28. *)
Definition open_exact (n : nat) (r : reader) : outcome exact :=
  if n <=? length (unread r) then
    Ret (Fills (firstn n (unread r)) {| unread := skipn n (unread r); source := source r |})
  else open_exact_rounds (n + length (source r)) n r [].

(** * The process *)
Inductive run :=
| StillRunning (out : bytes)             (* waiting for input; [out]: what the operating system has taken so far *)
| HasEnded (out : bytes) (e : os_end).
(** dd_dlt/src/main.rs:27-60; [patience] as in SigModel.v. *)
Fixpoint run_loop (v : std_version) (fuel patience : nat) (h : past) (A : ctor_addrs) (m : build_mode) (ecuid appid : bytes)
  (payload_size count : N) (r : reader) (w : stdout) : outcome run :=
  match fuel with
  | O => Fuel
  | S f =>
      let* x := open_exact (N.to_nat payload_size) r in
      match x with
      | Waits => Ret (StillRunning (arrived w))
      | Ends => let* out := sig_arrived patience h w in Ret (HasEnded out (OsDone count))
      | Fills buf r' =>
          let* (w', q) := sig_message v patience h A m ecuid appid payload_size count buf w in
          match q with
          | inl count' => run_loop v f patience h A m ecuid appid payload_size count' r' w'
          | inr e => let* out := sig_arrived patience h w' in Ret (HasEnded out e)
          end
      end
  end.
(** main.rs:7-61; [args]: the arguments behind the program name *)
Definition dd_dlt_run (v : std_version) (fuel patience : nat) (h : past) (A : ctor_addrs) (m : build_mode) (args : list bytes)
  (evs : list InModel.event) : outcome run :=
  match args with
  | ecuid :: appid :: size :: _ =>
      match parse_u16 size with
      | Some payload_size => run_loop v fuel patience h A m ecuid appid payload_size 0 (reader_new evs) stdout_new
      | None => Ret (HasEnded [] OsPanic)
      end
  | _ => Ret (HasEnded [] (OsDone 0))
  end.
