(** Model of dd_dlt/src/main.rs, including the standard output it writes to. *)
From Verif Require Import Base DltModel MatchModel.

(** * std::io::Stdout: a [LineWriter] with a buffer of 1024 bytes around the file descriptor
      (std/src/io/stdio.rs, std/src/io/buffered/{linewriter,linewritershim,bufwriter}.rs).
      (Simplification: the operating system takes every byte it is given; errors of write(2)
      and short writes of write(2) are not modelled.) *)
Definition lw_capacity : nat := Pos.to_nat 1024.
Record line_writer := {
  sent : bytes;        (* given to the operating system *)
  pending : bytes      (* in the buffer *)
}.
(** [LineWriter::new]. *)
Definition lw_new : line_writer := {| sent := []; pending := [] |}.
(** BufWriter::flush_buf *)
Definition flush_buf (w : line_writer) : line_writer :=
  {| sent := sent w ++ pending w; pending := [] |}.
(** BufWriter::write and write_cold.  Result: the new state and the number of bytes taken. *)
Definition bw_write (w : line_writer) (buf : bytes) : line_writer * nat :=
  let spare := lw_capacity - length (pending w) in
  if length buf <? spare then
    ({| sent := sent w; pending := pending w ++ buf |}, length buf)
  else
    let w := if spare <? length buf then flush_buf w else w in
    if lw_capacity <=? length buf then
      ({| sent := sent w ++ buf; pending := pending w |}, length buf)
    else ({| sent := sent w; pending := pending w ++ buf |}, length buf).
(** LineWriterShim::flush_if_completed_line *)
Definition flush_if_completed_line (w : line_writer) : line_writer :=
  match rev (pending w) with
  | c :: _ => if byte_eqb c x0a then flush_buf w else w
  | [] => w
  end.
(** Two versions of the standard library: until Rust 1.81 (so when the modelled commit was made)
    [LineWriterShim::write] buffers as many of the bytes behind the last line feed as fit; newer
    versions take none of them if they do not all fit (strictly) into the buffer. *)
Inductive std_version := TakesSome | TakesNone.
(** LineWriterShim::write: the bytes up to the last line feed go to the operating system, of the
    rest as many bytes as fit go to the (now empty) buffer ([write_to_buf]). *)
Definition lw_write (v : std_version) (w : line_writer) (buf : bytes) : line_writer * nat :=
  match rfind [x0a] buf with
  | None => bw_write (flush_if_completed_line w) buf
  | Some i =>
      let w := flush_buf w in
      let lines := firstn (i + 1) buf in
      let tail := skipn (i + 1) buf in
      let buffered :=
        match v with
        | TakesSome => Nat.min (lw_capacity - length (pending w)) (length tail)
        | TakesNone => if lw_capacity <=? length tail then 0
                       else Nat.min (lw_capacity - length (pending w)) (length tail)
        end in
      ({| sent := sent w ++ lines; pending := pending w ++ firstn buffered tail |},
       length lines + buffered)
  end.
(** What has arrived when the process has ended: the runtime flushes stdout at exit. *)
Definition at_exit (w : line_writer) : bytes := sent w ++ pending w.

(** * The program *)

(** Overflow checks on (debug build) or off (release build). *)
Inductive build_mode := Debug | Release.
(** Arithmetic that panics or wraps. *)
Definition checked (m : build_mode) (modulus n : N) : outcome N :=
  if (n <? modulus)%N then Ret n
  else match m with Debug => Panic | Release => Ret (n mod modulus)%N end.

(** [<[u8;4]>::try_from(slice).expect(..)], main.rs:38,46,47. *)
Definition quad_of_slice (b : bytes) : outcome quad :=
  match b with [a; b; c; d] => Ret (Quad a b c d) | _ => Panic end.

(** u16 arithmetic, main.rs:40. *)
Definition u16_mod : N := 65536.
(** u32 arithmetic, main.rs:36, 53 and 57. *)
Definition u32_mod : N := 4294967296.

(** How the loop, and the program, ends: regularly after writing [n] messages, or with a panic. *)
Inductive dd_end := DdDone (count : N) | DdPanic.

(** main.rs:51-56: five writes, whose results (the numbers of bytes taken) are dropped. *)
Definition write_ (v : std_version) (w : line_writer) (buf : bytes) : line_writer := fst (lw_write v w buf).

(** main.rs:33-57: one message.  Result: the state of stdout and the new counter, or [None] if
    the code panicked. *)
Definition dd_message (v : std_version) (A : ctor_addrs) (m : build_mode) (ecuid appid : bytes)
  (payload_size count : N) (buf : bytes) (w : line_writer) : line_writer * option N :=
  match
    (let* e := quad_of_slice ecuid in
     let sh := storage_header_new (Quad x44 x4c x54 x01) (count / 100)%N
                 (Z.of_N (count mod 100) * 10000)%Z e in
     let* len := checked m u16_mod (4 + 10 + 4 + payload_size)%N in
     let htyp := htyp_new true false false false true x01 in
     let h := std_header_new htyp (u8 count) len in
     let* a := quad_of_slice appid in
     let eh := ext_header_new (create_message_type A true (TypeLog LogInfo)) x00 a a in
     Ret (sh, h, eh))
  with
  | Ret (sh, h, eh) =>
      let w := write_ v w (storage_header_as_bytes sh) in
      let w := write_ v w (std_header_as_bytes h) in
      match checked m u32_mod (count * 100)%N with
      | Ret ts =>
          let w := write_ v w (be32_bytes ts) in
          let w := write_ v w (ext_header_as_bytes eh) in
          let w := write_ v w buf in
          match checked m u32_mod (count + 1)%N with
          | Ret count' => (w, Some count')
          | _ => (w, None)
          end
      | _ => (w, None)
      end
  | _ => (w, None)
  end.

(** main.rs:27-60: the loop over stdin; [read_exact] succeeds iff enough bytes are left.
    (Simplification: reading from stdin does not fail before its end.) *)
Fixpoint dd_loop (v : std_version) (fuel : nat) (A : ctor_addrs) (m : build_mode) (ecuid appid : bytes)
  (payload_size count : N) (stdin : bytes) (w : line_writer) : outcome (bytes * dd_end) :=
  match fuel with
  | O => Fuel
  | S f =>
      let n := N.to_nat payload_size in
      if length stdin <? n then Ret (at_exit w, DdDone count)
      else
        match dd_message v A m ecuid appid payload_size count (firstn n stdin) w with
        | (w', Some count') => dd_loop v f A m ecuid appid payload_size count' (skipn n stdin) w'
        | (w', None) => Ret (at_exit w', DdPanic)
        end
  end.

(** [str::parse::<u16>()], core/src/num/mod.rs [from_str_radix] with radix 10: an optional
    plus sign, then at least one digit; [None] on overflow. *)
Definition digit (c : byte) : option N :=
  if (48 <=? bN c)%N && (bN c <=? 57)%N then Some (bN c - 48)%N else None.
(** The digits one by one, with [checked_mul] and [checked_add]. *)
Fixpoint digits (b : bytes) (acc : N) : option N :=
  match b with
  | [] => Some acc
  | c :: r =>
      match digit c with
      | Some d => let n := (acc * 10 + d)%N in if (n <? u16_mod)%N then digits r n else None
      | None => None
      end
  end.
(** main.rs:19. *)
Definition parse_u16 (b : bytes) : option N :=
  match b with
  | [] => None
  | [x2b] => None                             (* "+" *)
  | x2b :: r => digits r 0
  | _ => digits b 0
  end.

(** main.rs:7-61.  [args]: [env::args()] without the program name (as UTF-8 bytes).  The result
    is the standard output and the way the program ends; messages to stderr are not modelled. *)
Definition dd_dlt (v : std_version) (fuel : nat) (A : ctor_addrs) (m : build_mode) (args : list bytes) (stdin : bytes)
  : outcome (bytes * dd_end) :=
  match args with
  | ecuid :: appid :: size :: _ =>
      match parse_u16 size with
      | Some payload_size => dd_loop v fuel A m ecuid appid payload_size 0 stdin lw_new
      | None => Ret ([], DdPanic)
      end
  | _ => Ret ([], DdDone 0)
  end.
