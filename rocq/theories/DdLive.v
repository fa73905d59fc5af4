(** dd_dlt while its standard input is still open: what it has given to the operating system when it has
    read what there is and waits for more.  (DdModel.v: what it has written when it ends.) *)
From Verif Require Import Base DltModel MatchModel DdModel.

(** dd_dlt waiting for input, or ended. *)
Inductive live :=
| Waiting (arrived : bytes)             (* waiting for input in [read_exact]; [arrived]: written to the descriptor so far *)
| Over (out : bytes) (e : dd_end).      (* the process has ended *)

(** dd_dlt/src/main.rs:27-60, cf. [dd_loop]: if less than a payload is there [read_exact] waits, and the bytes in
    the buffer of standard output stay there.  (Simplification as in DdModel.v: every write succeeds.) *)
Fixpoint live_loop (v : std_version) (fuel : nat) (A : ctor_addrs) (m : build_mode) (ecuid appid : bytes)
  (payload_size count : N) (input : bytes) (w : line_writer) : outcome live :=
  match fuel with
  | O => Fuel
  | S f =>
      let n := N.to_nat payload_size in
      if length input <? n then Ret (Waiting (sent w))
      else
        match dd_message v A m ecuid appid payload_size count (firstn n input) w with
        | (w', Some count') => live_loop v f A m ecuid appid payload_size count' (skipn n input) w'
        | (w', None) => Ret (Over (at_exit w') DdPanic)
        end
  end.

(** main.rs:7-61, cf. [dd_dlt]; [input]: what has been written to standard input so far. *)
Definition dd_dlt_live (v : std_version) (fuel : nat) (A : ctor_addrs) (m : build_mode) (args : list bytes) (input : bytes)
  : outcome live :=
  match args with
  | ecuid :: appid :: size :: _ =>
      match parse_u16 size with
      | Some payload_size => live_loop v fuel A m ecuid appid payload_size 0 input lw_new
      | None => Ret (Over [] DdPanic)
      end
  | _ => Ret (Over [] (DdDone 0))
  end.
