(** Model of dd_dlt/src/main.rs once more, now with an operating system that may take only a part of
    what it is given, or nothing (DdModel.v: it takes every byte). *)
From Verif Require Import Base DltModel MatchModel DdModel.

(** What one call of write(2) on standard output answers: all bytes are taken, or at most [k], or an
    error is reported, or the descriptor is not open (EBADF).
    (Simplification: calls interrupted by a signal are not modelled; dd_dlt installs no handler.) *)
Inductive answer := TakesAll | Takes (k : nat) | Fails | NotOpen.
(** The operating system: its answer to the first, second, ... call. *)
Definition os := nat -> answer.

(** The process's standard output: calls so far, what has arrived, and the buffer. *)
Record stdout := {
  calls : nat;          (* calls of write(2) made so far *)
  arrived : bytes;      (* what the operating system has taken *)
  buffered : bytes      (* what is in the buffer of the line writer *)
}.
(** Nothing written yet. *)
Definition stdout_new : stdout := {| calls := 0; arrived := []; buffered := [] |}.

(** std/src/io/stdio.rs [StdoutRaw::write]: a descriptor that is not open swallows everything
    ([handle_ebadf]).  [None]: an error. *)
Definition raw_write (o : os) (w : stdout) (buf : bytes) : stdout * option nat :=
  let after taken := {| calls := calls w + 1; arrived := arrived w ++ taken; buffered := buffered w |} in
  match o (calls w) with
  | TakesAll => (after buf, Some (length buf))
  | Takes k => let n := Nat.min k (length buf) in (after (firstn n buf), Some n)
  | Fails => (after [], None)
  | NotOpen => (after [], Some (length buf))
  end.

(** Update of the buffer. *)
Definition set_buffered (w : stdout) (b : bytes) : stdout :=
  {| calls := calls w; arrived := arrived w; buffered := b |}.

(** bufwriter.rs [BufWriter::flush_buf]: write until the buffer is empty; taking nothing is an error
    (WriteZero).  The bytes taken are removed from the buffer also if an error follows.  Every round
    but the last removes at least one byte, so [length (buffered w)] rounds are enough.  The result
    says whether it succeeded. *)
Fixpoint flush_rounds (rounds : nat) (o : os) (w : stdout) : stdout * bool :=
  match buffered w, rounds with
  | [], _ => (w, true)
  | _, 0 => (w, false)
  | _, S r =>
      match raw_write o w (buffered w) with
      | (w', Some (S n)) => flush_rounds r o (set_buffered w' (skipn (S n) (buffered w)))
      | (w', _) => (w', false)
      end
  end.
(** [BufWriter::flush_buf] with as many rounds as it can need. *)
Definition flush_out (o : os) (w : stdout) : stdout * bool := flush_rounds (length (buffered w)) o w.

(** bufwriter.rs [BufWriter::write_to_buf]: as much as there is room for. *)
Definition write_to_buf (w : stdout) (b : bytes) : stdout * nat :=
  let n := Nat.min (lw_capacity - length (buffered w)) (length b) in
  (set_buffered w (buffered w ++ firstn n b), n).

(** bufwriter.rs [BufWriter::write] and [write_cold]. *)
Definition buf_write (o : os) (w : stdout) (buf : bytes) : stdout * option nat :=
  let spare := lw_capacity - length (buffered w) in
  if length buf <? spare then (set_buffered w (buffered w ++ buf), Some (length buf))
  else
    let '(w, ok) := if spare <? length buf then flush_out o w else (w, true) in
    if negb ok then (w, None)
    else if lw_capacity <=? length buf then raw_write o w buf
    else (set_buffered w (buffered w ++ buf), Some (length buf)).

(** linewritershim.rs [LineWriterShim::write]. *)
Definition line_write (v : std_version) (o : os) (w : stdout) (buf : bytes) : stdout * option nat :=
  match rfind [x0a] buf with
  | None =>
      (* flush_if_completed_line *)
      let '(w, ok) := match rev (buffered w) with
                      | c :: _ => if byte_eqb c x0a then flush_out o w else (w, true)
                      | [] => (w, true)
                      end in
      if negb ok then (w, None) else buf_write o w buf
  | Some i =>
      let '(w, ok) := flush_out o w in
      if negb ok then (w, None)
      else
        let n := i + 1 in
        match raw_write o w (firstn n buf) with
        | (w, None) => (w, None)
        | (w, Some 0) => (w, Some 0)
        | (w, Some flushed) =>
            if (n <=? flushed)
               && match v with TakesSome => false | TakesNone => lw_capacity <=? length (skipn flushed buf) end
            then (w, Some flushed)
            else
              let tail :=
                if n <=? flushed then skipn flushed buf
                else if n - flushed <=? lw_capacity then skipn flushed (firstn n buf)
                else
                  let scan := firstn lw_capacity (skipn flushed buf) in
                  match rfind [x0a] scan with Some j => firstn (j + 1) scan | None => scan end in
              let '(w, m) := write_to_buf w tail in (w, Some (flushed + m))
        end
  end.

(** What has arrived when the process has ended: the runtime drops the line writer, which tries to
    flush it once more and ignores errors (also after a panic or an error result of [main]). *)
Definition all_arrived (o : os) (w : stdout) : bytes := arrived (fst (flush_out o w)).

(** How the program ends: [Ok(())] after the line "wrote [count] DLT messages", [Err(..)] because a
    write failed (the [?] in main.rs:51-56), or a panic. *)
Inductive os_end := OsDone (count : N) | OsError | OsPanic.

(** main.rs:33-57 with the [?] behind each write. *)
Definition os_message (v : std_version) (o : os) (A : ctor_addrs) (m : build_mode) (ecuid appid : bytes)
  (payload_size count : N) (buf : bytes) (w : stdout) : stdout * (N + os_end) :=
  match
    (let* e := quad_of_slice ecuid in
     let sh := storage_header_new (Quad x44 x4c x54 x01) (count / 100)%N
                 (Z.of_N (count mod 100) * 10000)%Z e in
     let* len := checked m u16_mod (4 + 10 + 4 + payload_size)%N in
     let htyp := htyp_new true false false false true x01 in
     let h := std_header_new htyp (u8 count) len in
     let* a := quad_of_slice appid in
     let eh := ext_header_new (create_message_type A true (TypeLog LogInfo)) x00 a a in
     Ret (sh, h, eh))
  with
  | Ret (sh, h, eh) =>
      match line_write v o w (storage_header_as_bytes sh) with
      | (w, None) => (w, inr OsError)
      | (w, Some _) =>
      match line_write v o w (std_header_as_bytes h) with
      | (w, None) => (w, inr OsError)
      | (w, Some _) =>
      match checked m u32_mod (count * 100)%N with
      | Ret ts =>
          match line_write v o w (be32_bytes ts) with
          | (w, None) => (w, inr OsError)
          | (w, Some _) =>
          match line_write v o w (ext_header_as_bytes eh) with
          | (w, None) => (w, inr OsError)
          | (w, Some _) =>
          match line_write v o w buf with
          | (w, None) => (w, inr OsError)
          | (w, Some _) =>
              match checked m u32_mod (count + 1)%N with
              | Ret count' => (w, inl count')
              | _ => (w, inr OsPanic)
              end
          end end end
      | _ => (w, inr OsPanic)
      end end end
  | _ => (w, inr OsPanic)
  end.

(** main.rs:27-60.  [stdin]: the bytes delivered before the end of standard input or its first
    error: [read_exact] fails in both cases and the loop ends regularly. *)
Fixpoint os_loop (v : std_version) (fuel : nat) (o : os) (A : ctor_addrs) (m : build_mode) (ecuid appid : bytes)
  (payload_size count : N) (stdin : bytes) (w : stdout) : outcome (bytes * os_end) :=
  match fuel with
  | O => Fuel
  | S f =>
      let n := N.to_nat payload_size in
      if length stdin <? n then Ret (all_arrived o w, OsDone count)
      else
        match os_message v o A m ecuid appid payload_size count (firstn n stdin) w with
        | (w', inl count') => os_loop v f o A m ecuid appid payload_size count' (skipn n stdin) w'
        | (w', inr e) => Ret (all_arrived o w', e)
        end
  end.

(** main.rs:7-61 *)
Definition dd_dlt_os (v : std_version) (fuel : nat) (o : os) (A : ctor_addrs) (m : build_mode) (args : list bytes)
  (stdin : bytes) : outcome (bytes * os_end) :=
  match args with
  | ecuid :: appid :: size :: _ =>
      match parse_u16 size with
      | Some payload_size => os_loop v fuel o A m ecuid appid payload_size 0 stdin stdout_new
      | None => Ret ([], OsPanic)
      end
  | _ => Ret ([], OsDone 0)
  end.
