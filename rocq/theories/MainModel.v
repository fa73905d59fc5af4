(** Model of [main] in ripdlt/src/main.rs: arguments, loading, dispatch and printing. *)
From Coq Require Import String.
From Verif Require Import Base DltModel MatchModel GenModel ToolsModel.

(** [String::from_utf8(bytes).is_ok()]: core/src/str/validations.rs, [run_utf8_validation].
    First byte, then the ranges of the continuation bytes (table "UTF8_CHAR_WIDTH" and the
    [match] of that function). *)
Definition in_range (lo hi : N) (c : byte) : bool := ((lo <=? bN c) && (bN c <=? hi))%N.
(** Bytes 0x80 to 0xBF. *)
Definition continuation : byte -> bool := in_range 128 191.
(** core/src/str/validations.rs [run_utf8_validation], called through [from_utf8] in main.rs:324, 330 and 336. *)
Fixpoint from_utf8_ok (b : bytes) : bool :=
  match b with
  | [] => true
  | c0 :: r0 =>
      if in_range 0 127 c0 then from_utf8_ok r0
      else if in_range 194 223 c0 then
        match r0 with c1 :: r1 => continuation c1 && from_utf8_ok r1 | _ => false end
      else if in_range 224 239 c0 then
        match r0 with
        | c1 :: c2 :: r2 =>
            (if (bN c0 =? 224)%N then in_range 160 191 c1
             else if (bN c0 =? 237)%N then in_range 128 159 c1
             else continuation c1) && continuation c2 && from_utf8_ok r2
        | _ => false end
      else if in_range 240 244 c0 then
        match r0 with
        | c1 :: c2 :: c3 :: r3 =>
            (if (bN c0 =? 240)%N then in_range 144 191 c1
             else if (bN c0 =? 244)%N then in_range 128 143 c1
             else continuation c1) && continuation c2 && continuation c3 && from_utf8_ok r3
        | _ => false end
      else false
  end.

(** What is printed: one constructor per [println!] of main.rs.  (Simplification: the numbers
    and texts put into a line, not their decimal rendering.) *)
Inductive line :=
| LUsage                                             (* :299-300 *)
| LArgs (args : list string)                         (* :304 *)
| LHeading (text : string)
| LSlices (num slices : nat)                         (* :23, :48, :74 *)
| LBucket (lo hi : N) (n : nat)                      (* :318, :342, :348 *)
| LEcu (ecu : bytes) (x : list (N * nat) * nat)      (* :324, :330, :336 *)
| LType (t : bool * option msg_type) (n : nat)       (* :354 *)
| LSize (size : N) (n : nat) (kb : N)                (* :363, :373 *)
| LTotal (kb : N)                                    (* :366, :376 *)
| LCount (n : nat)                                   (* :381 and the other counts *)
| LLong (n : nat)                                    (* :273, :290 *)
| LOffset (lo hi : N) (n : nat).                     (* :391 *)

(** main.rs:318, :342, :348.  [k] is a [usize] that came from a [u32], [k + 1] fits. *)
Definition print_buckets (h : list (N * nat)) : list line :=
  map (fun kv => LBucket (fst kv) (fst kv + 1) (snd kv)) h.
(** main.rs:323-325, :329-331, :335-337: [String::from_utf8(k.to_vec()).unwrap()]. *)
Definition print_ecus (m : list (quad * (list (N * nat) * nat))) : outcome (list line) :=
  mapM (fun kv => if from_utf8_ok (quad_bytes (fst kv)) then Ret (LEcu (quad_bytes (fst kv)) (snd kv)) else Panic) m.
(** main.rs:360-366, :370-376.  (Simplification: unbounded products and sums; with overflow in
    ToolsWord.v, the same by C94.) *)
Definition print_sizes (h : list (N * nat)) : list line :=
  map (fun kv => LSize (fst kv) (snd kv) (fst kv * N.of_nat (snd kv) / 1024)%N) h ++
  [LTotal (hist_total h / 1024)%N].
(** main.rs:390-392 *)
Definition print_offsets (h : list (N * nat)) : list line :=
  map (fun kv => LOffset (fst kv * idx_bucket_size / 1000000)%N ((fst kv + 1) * idx_bucket_size / 1000000)%N (snd kv)) h.

(** What the program runs on: [args] is [env::args()] without the program name, [fs] the
    answers of the operating system per file name, [cores] [available_parallelism()] (not 0),
    [sched] rayon's reductions, [find_at] the compiled regex "H.* World". *)
Record machine := {
  fs : string -> file;
  cores : nat;
  sched : scheduler;
  find_at : bytes -> nat -> option (nat * nat)
}.

(** The budget of the [while] loops inside [finalize]. *)
Definition finalize_fuel (buf : bytes) : nat := length buf + 5.

(** The slices line of the parallel commands (main.rs:23, :48, :74). *)
Definition slices_line (M : machine) (buf : bytes) : outcome line :=
  let* l := partition_from DLT buf (cores M) in Ret (LSlices (cores M) (length l)).

(** main.rs:314-422, one entry per [match] arm. *)
Definition run_command (M : machine) (name : string) (buf : bytes) : outcome (list line) :=
  let par (f : bytes -> outcome nat) :=
    let* s := slices_line M buf in
    let* r := multithreaded (sched M) (cores M) f buf in
    Ret [s; LCount r] in
  if (name =? "histogram_lifecycles")%string then
    let* h := lifecycle_histogram buf in
    Ret (LHeading "Distribution of lifecycle durations:" :: print_buckets h)
  else if (name =? "split_lifecycles")%string then
    let* m := lifecycle_splitit (finalize_fuel buf) buf in
    let* ls := print_ecus m in
    Ret (LHeading "Distribution of lifecycle durations:" :: ls)
  else if (name =? "split_timestamp")%string then
    let* m := timestamp_splitit (finalize_fuel buf) buf in
    let* ls := print_ecus m in
    Ret (LHeading "Durations of periods where DLT storage header timestamps are continuous:" :: ls)
  else if (name =? "par_split_timestamp")%string then
    let* s := slices_line M buf in
    let* m := par_timestamp_splitit (finalize_fuel buf) (sched M) (cores M) buf in
    let* ls := print_ecus m in
    Ret (LHeading "Durations of periods where DLT storage header timestamps are continuous:" :: s :: ls)
  else if (name =? "histogram_timestamp")%string then
    let* h := continuous_timestamp_histogram buf in
    Ret (LHeading "Durations of periods where DLT storage header timestamps are continuous:" :: print_buckets h)
  else if (name =? "par_histogram_timestamp")%string then
    let* s := slices_line M buf in
    let* h := par_continuous_timestamp_histogram (sched M) (cores M) buf in
    Ret (LHeading "Durations of periods where DLT storage header timestamps are continuous:" :: s :: print_buckets h)
  else if (name =? "histogram_message_type")%string then
    let* h := mstp_info_histogram buf in
    Ret (LHeading "(verbose, message type): # dlt messages" :: map (fun kv => LType (fst kv) (snd kv)) h)
  else if (name =? "histogram_payload_size")%string then
    let* h := histogram_payload buf in
    Ret (LHeading "Distribution of payload length:" :: print_sizes h)
  else if (name =? "histogram_message_size")%string then
    let* h := histogram_message buf in
    Ret (LHeading "Distribution of DLT message length:" :: print_sizes h)
  else if (name =? "count")%string then
    let* r := count buf in Ret [LCount r]
  else if (name =? "par_count")%string then par count
  else if (name =? "histogram_hello_world")%string then
    let* h := histogram_hello_world (find_at M) buf in
    Ret (LHeading "Distribution of 'Hello World' matches:" :: print_offsets h)
  else if (name =? "count_hello_world")%string then
    let* r := count_hello_world buf in Ret [LCount r]
  else if (name =? "count_hello_world_raw")%string then
    let* r := count_hello_world_raw buf in Ret [LCount r]
  else if (name =? "count_hello_world_grepit")%string then
    let* r := count_hello_world_grepit (find_at M) buf in Ret [LCount r]
  else if (name =? "par_count_hello_world")%string then par count_hello_world
  else if (name =? "par_count_hello_world_raw")%string then par count_hello_world_raw
  else if (name =? "par_count_hello_world_grepit")%string then par (count_hello_world_grepit (find_at M))
  else if (name =? "par_iter")%string then
    (* Simplification: the lines of the workers in slice order; the sum is not printed. *)
    let* s := slices_line M buf in
    let* slices := partition_from DLT buf (cores M) in
    let* rs := mapM lifecycle_iter slices in
    Ret (s :: map LLong rs)
  else if (name =? "iter")%string then
    let* r := lifecycle_iter buf in Ret [LLong r]
  else if (name =? "itertools")%string then
    let* r := lifecycle_itertools buf in Ret [LLong r]
  else Panic.

(** main.rs:308-312: [expect] on the result of loading. *)
Definition load (M : machine) (method name : string) : outcome dlt_buffer :=
  if (method =? "mmap")%string then
    match mmap_file (fs M name) with IoOk d => Ret d | IoErr => Panic end
  else if (method =? "read")%string then
    match read_file (fs M name) with IoOk d => Ret d | IoErr => Panic end
  else Panic.

(** main.rs:296-423.  (Simplification: a panic discards the lines printed before it.) *)
Definition ripdlt_main (M : machine) (args : list string) : outcome (list line) :=
  match args with
  | method :: command :: name :: _ =>
      let* d := load M method name in
      let* ls := run_command M command (as_slice d) in
      Ret (LArgs args :: ls)
  | _ => Ret [LUsage]
  end.
