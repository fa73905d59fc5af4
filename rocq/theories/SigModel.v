(** Model of writing to standard output once more (DdOs.v, RipOs.v), now with signals: a call of write(2)
    may also be interrupted (EINTR) before it has taken anything.  std repeats interrupted calls in
    [BufWriter::flush_buf] and [Write::write_all], but not in [Write::write]. *)
From Coq Require Import String.
From Verif Require Import Base DltModel MatchModel DdModel DdOs ToolsModel MainModel PrintModel RipOs.

(** What one call of write(2) answers. *)
Inductive event := Interrupted | Answered (a : answer).
(** The answers to the first, second, ... call. *)
Definition past := nat -> event.

(** [None]: interrupted.  Otherwise as [raw_write] in DdOs.v, std/src/io/stdio.rs [StdoutRaw::write]. *)
Definition sig_raw_write (h : past) (w : stdout) (buf : bytes) : stdout * option (option nat) :=
  match h (calls w) with
  | Interrupted => ({| calls := calls w + 1; arrived := arrived w; buffered := buffered w |}, None)
  | Answered a => let '(w', r) := raw_write (fun _ => a) w buf in (w', Some r)
  end.

(** bufwriter.rs [BufWriter::flush_buf]; [Err(ref e) if e.is_interrupted() => {}] goes round the loop.
    The fuel bounds the rounds; nothing bounds the number of signals. *)
Fixpoint sig_flush (fuel : nat) (h : past) (w : stdout) : outcome (stdout * bool) :=
  match buffered w with
  | [] => Ret (w, true)
  | _ =>
      match fuel with
      | O => Fuel
      | S f =>
          match sig_raw_write h w (buffered w) with
          | (w', None) => sig_flush f h w'
          | (w', Some (Some (S n))) => sig_flush f h (set_buffered w' (skipn (S n) (buffered w)))
          | (w', Some _) => Ret (w', false)
          end
      end
  end.
(** std/src/io/mod.rs [Write::write_all] on standard output. *)
Fixpoint sig_raw_all (fuel : nat) (h : past) (w : stdout) (buf : bytes) : outcome (stdout * bool) :=
  match buf with
  | [] => Ret (w, true)
  | _ =>
      match fuel with
      | O => Fuel
      | S f =>
          match sig_raw_write h w buf with
          | (w', None) => sig_raw_all f h w' buf
          | (w', Some (Some (S n))) => sig_raw_all f h w' (skipn (S n) buf)
          | (w', Some _) => Ret (w', false)
          end
      end
  end.

(** * dd_dlt *)
(** A single call; interrupted, it is an error like another. *)
Definition sig_once (h : past) (w : stdout) (buf : bytes) : stdout * option nat :=
  match sig_raw_write h w buf with
  | (w', None) => (w', None)
  | (w', Some r) => (w', r)
  end.
(** bufwriter.rs [BufWriter::write] and [write_cold]. *)
Definition sig_buf_write (fuel : nat) (h : past) (w : stdout) (buf : bytes) : outcome (stdout * option nat) :=
  let spare := lw_capacity - length (buffered w) in
  if length buf <? spare then Ret (set_buffered w (buffered w ++ buf), Some (length buf))
  else
    let* (w, ok) := if spare <? length buf then sig_flush fuel h w else Ret (w, true) in
    if negb ok then Ret (w, None)
    else if lw_capacity <=? length buf then Ret (sig_once h w buf)
    else Ret (set_buffered w (buffered w ++ buf), Some (length buf)).
(** [flush_if_completed_line] in linewritershim.rs. *)
Definition sig_completed (fuel : nat) (h : past) (w : stdout) : outcome (stdout * bool) :=
  match rev (buffered w) with
  | c :: _ => if byte_eqb c x0a then sig_flush fuel h w else Ret (w, true)
  | [] => Ret (w, true)
  end.
(** linewritershim.rs [LineWriterShim::write]. *)
Definition sig_write (v : std_version) (fuel : nat) (h : past) (w : stdout) (buf : bytes) : outcome (stdout * option nat) :=
  match rfind [x0a] buf with
  | None =>
      let* (w, ok) := sig_completed fuel h w in
      if negb ok then Ret (w, None) else sig_buf_write fuel h w buf
  | Some i =>
      let* (w, ok) := sig_flush fuel h w in
      if negb ok then Ret (w, None)
      else
        let n := i + 1 in
        match sig_once h w (firstn n buf) with
        | (w, None) => Ret (w, None)
        | (w, Some 0) => Ret (w, Some 0)
        | (w, Some flushed) =>
            if (n <=? flushed)
               && match v with TakesSome => false | TakesNone => lw_capacity <=? length (skipn flushed buf) end
            then Ret (w, Some flushed)
            else
              let tail :=
                if n <=? flushed then skipn flushed buf
                else if n - flushed <=? lw_capacity then skipn flushed (firstn n buf)
                else
                  let scan := firstn lw_capacity (skipn flushed buf) in
                  match rfind [x0a] scan with Some j => firstn (j + 1) scan | None => scan end in
              let '(w, m) := write_to_buf w tail in Ret (w, Some (flushed + m))
        end
  end.
(** At the end of the process. *)
Definition sig_arrived (fuel : nat) (h : past) (w : stdout) : outcome bytes :=
  let* (w, _) := sig_flush fuel h w in Ret (arrived w).

(** dd_dlt/src/main.rs:33-57. *)
Definition sig_message (v : std_version) (fuel : nat) (h : past) (A : ctor_addrs) (m : build_mode) (ecuid appid : bytes)
  (payload_size count : N) (buf : bytes) (w : stdout) : outcome (stdout * (N + os_end)) :=
  match
    (let* e := quad_of_slice ecuid in
     let sh := storage_header_new (Quad x44 x4c x54 x01) (count / 100)%N
                 (Z.of_N (count mod 100) * 10000)%Z e in
     let* len := checked m u16_mod (4 + 10 + 4 + payload_size)%N in
     let htyp := htyp_new true false false false true x01 in
     let hd := std_header_new htyp (u8 count) len in
     let* a := quad_of_slice appid in
     let eh := ext_header_new (create_message_type A true (TypeLog LogInfo)) x00 a a in
     Ret (sh, hd, eh))
  with
  | Ret (sh, hd, eh) =>
      let* (w, r) := sig_write v fuel h w (storage_header_as_bytes sh) in
      match r with
      | None => Ret (w, inr OsError)
      | Some _ =>
      let* (w, r) := sig_write v fuel h w (std_header_as_bytes hd) in
      match r with
      | None => Ret (w, inr OsError)
      | Some _ =>
      match checked m u32_mod (count * 100)%N with
      | Ret ts =>
          let* (w, r) := sig_write v fuel h w (be32_bytes ts) in
          match r with
          | None => Ret (w, inr OsError)
          | Some _ =>
          let* (w, r) := sig_write v fuel h w (ext_header_as_bytes eh) in
          match r with
          | None => Ret (w, inr OsError)
          | Some _ =>
          let* (w, r) := sig_write v fuel h w buf in
          match r with
          | None => Ret (w, inr OsError)
          | Some _ =>
              match checked m u32_mod (count + 1)%N with
              | Ret count' => Ret (w, inl count')
              | _ => Ret (w, inr OsPanic)
              end
          end end end
      | _ => Ret (w, inr OsPanic)
      end end end
  | _ => Ret (w, inr OsPanic)
  end.
(** main.rs:27-60; [patience] bounds the rounds of each loop that repeats interrupted calls. *)
Fixpoint sig_loop (v : std_version) (fuel patience : nat) (h : past) (A : ctor_addrs) (m : build_mode) (ecuid appid : bytes)
  (payload_size count : N) (stdin : bytes) (w : stdout) : outcome (bytes * os_end) :=
  match fuel with
  | O => Fuel
  | S f =>
      let n := N.to_nat payload_size in
      if length stdin <? n then let* out := sig_arrived patience h w in Ret (out, OsDone count)
      else
        let* (w', r) := sig_message v patience h A m ecuid appid payload_size count (firstn n stdin) w in
        match r with
        | inl count' => sig_loop v f patience h A m ecuid appid payload_size count' (skipn n stdin) w'
        | inr e => let* out := sig_arrived patience h w' in Ret (out, e)
        end
  end.
(** main.rs:7-61 *)
Definition dd_dlt_sig (v : std_version) (fuel patience : nat) (h : past) (A : ctor_addrs) (m : build_mode) (args : list bytes)
  (stdin : bytes) : outcome (bytes * os_end) :=
  match args with
  | ecuid :: appid :: size :: _ =>
      match parse_u16 size with
      | Some payload_size => sig_loop v fuel patience h A m ecuid appid payload_size 0 stdin stdout_new
      | None => Ret ([], OsPanic)
      end
  | _ => Ret ([], OsDone 0)
  end.

(** * ripdlt *)
(** bufwriter.rs [BufWriter::write_all] and [write_all_cold]. *)
Definition sig_buf_all (fuel : nat) (h : past) (w : stdout) (buf : bytes) : outcome (stdout * bool) :=
  let spare := lw_capacity - length (buffered w) in
  if length buf <? spare then Ret (set_buffered w (buffered w ++ buf), true)
  else
    let* (w, ok) := if spare <? length buf then sig_flush fuel h w else Ret (w, true) in
    if negb ok then Ret (w, false)
    else if lw_capacity <=? length buf then sig_raw_all fuel h w buf
    else Ret (set_buffered w (buffered w ++ buf), true).
(** linewritershim.rs [LineWriterShim::write_all]. *)
Definition sig_line_all (fuel : nat) (h : past) (w : stdout) (buf : bytes) : outcome (stdout * bool) :=
  match rfind [x0a] buf with
  | None =>
      let* (w, ok) := sig_completed fuel h w in
      if negb ok then Ret (w, false) else sig_buf_all fuel h w buf
  | Some i =>
      let lines := firstn (i + 1) buf in
      let* (w, ok) :=
        match buffered w with
        | [] => sig_raw_all fuel h w lines
        | _ => let* (w, ok) := sig_buf_all fuel h w lines in if ok : bool then sig_flush fuel h w else Ret (w, false)
        end in
      if ok : bool then sig_buf_all fuel h w (skipn (i + 1) buf) else Ret (w, false)
  end.
(** [println!] as in RipOs.v. *)
Fixpoint sig_fragments (fuel : nat) (h : past) (w : stdout) (fs : list bytes) : outcome (stdout * bool) :=
  match fs with
  | [] => Ret (w, true)
  | f :: fs' => let* (w, ok) := sig_line_all fuel h w f in if ok : bool then sig_fragments fuel h w fs' else Ret (w, false)
  end.
(** [println!], as [os_println] of RipOs.v. *)
Definition sig_println (fuel : nat) (h : past) (frag : bytes -> list bytes) (w : stdout) (l : bytes) : outcome (stdout * bool) :=
  sig_fragments fuel h w (frag (l ++ [x0a])).
(** The workers of par_iter, as in RipOs.v. *)
Fixpoint sig_lines (fuel : nat) (h : past) (frag : bytes -> list bytes) (w : stdout) (ls : list bytes) : outcome (stdout * option (list bytes)) :=
  match ls with
  | [] => Ret (w, None)
  | l :: ls' => let* (w, ok) := sig_println fuel h frag w l in if ok : bool then sig_lines fuel h frag w ls' else Ret (w, Some ls')
  end.
(** As [try_lines] of RipOs.v. *)
Fixpoint sig_try_lines (fuel : nat) (h : past) (frag : bytes -> list bytes) (w : stdout) (ls : list bytes) : outcome stdout :=
  match ls with
  | [] => Ret w
  | l :: ls' => let* (w, _) := sig_println fuel h frag w l in sig_try_lines fuel h frag w ls'
  end.
(** As [perform] of RipOs.v. *)
Fixpoint sig_perform (fuel : nat) (h : past) (frag : bytes -> list bytes) (later : list bytes -> list bytes) (s : script) (w : stdout)
  : outcome (bytes * rip_end) :=
  match s with
  | Say l s' =>
      let* (w, ok) := sig_println fuel h frag w l in
      if ok : bool then sig_perform fuel h frag later s' w else let* out := sig_arrived fuel h w in Ret (out, RipUnprinted)
  | Gather ls s' =>
      let* (w, r) := sig_lines fuel h frag w ls in
      match r with
      | None => sig_perform fuel h frag later s' w
      | Some untried => let* w := sig_try_lines fuel h frag w (later untried) in let* out := sig_arrived fuel h w in Ret (out, RipUnprinted)
      end
  | Stop e => let* out := sig_arrived fuel h w in Ret (out, RipEnd e)
  end.
(** ripdlt/src/main.rs with signals; [fuel] bounds the rounds of each loop that repeats interrupted calls. *)
Definition ripdlt_sig (fuel : nat) (h : past) (frag : bytes -> list bytes) (later : list bytes -> list bytes) (C : console) (prog : string) (args : list string)
  : outcome (bytes * rip_end) :=
  sig_perform fuel h frag later (ripdlt_script C prog args) stdout_new.
