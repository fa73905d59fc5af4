(** Vocabulary for C85 and C86: operating systems (the answers to the successive calls of write(2))
    and endings of dd_dlt. *)
From Verif Require Import Base DdModel DdOs.

(** Every call takes all bytes or fails, except that the last call that takes something may take a
    part only: a disk that becomes full, a pipe whose reader goes away, quota, I/O errors that pass. *)
Definition in_order (o : os) : Prop := forall i,
  o i = TakesAll \/ o i = Fails \/ exists k, o i = Takes k /\ forall j, i < j -> o j = Fails.

(** The run ends like the run in which every byte is taken. *)
Definition same_end (e : os_end) (e0 : dd_end) : Prop :=
  match e, e0 with
  | OsDone n, DdDone n0 => n = n0
  | OsPanic, DdPanic => True
  | _, _ => False
  end.

(** Vocabulary for C105: the five parts in which dd_dlt writes each of the first [n] messages of
    [b], if the payload has [p] bytes: storage header, standard header, timestamp, extended header,
    payload. *)
Fixpoint written_parts (p n : nat) (b : bytes) : list bytes :=
  match n with
  | 0 => []
  | S n => [firstn 16 b; firstn 4 (skipn 16 b); firstn 4 (skipn 20 b); firstn 10 (skipn 24 b); firstn p (skipn 34 b)]
             ++ written_parts p n (skipn (34 + p) b)
  end.
(** [out] consists of a beginning of each part, perhaps empty or complete, in the same order. *)
Definition shortened (parts : list bytes) (out : bytes) : Prop :=
  exists kept, Forall2 (fun k part => exists missing, part = k ++ missing) kept parts /\ out = concat kept.

(** The operating system never fails and takes at least one byte of each write. *)
Definition patient (o : os) : Prop := forall i, o i = TakesAll \/ exists k, o i = Takes k /\ 1 <= k.
(** Nothing is missing from parts of less than 1024 bytes without the byte 10 (a newline), and from
    parts of up to 1024 bytes at most what follows the last newline.  What arrives of a larger part
    with a newline is all of it, or ends with a newline, or with 1024 bytes without one. *)
Definition mostly_kept (k part : bytes) : Prop := exists missing, part = k ++ missing /\
  (length part <= 1024 -> ~ In x0a missing) /\ (length part < 1024 -> ~ In x0a part -> missing = []) /\
  (In x0a part -> missing = [] \/ (exists line, k = line ++ [x0a]) \/
     exists line rest, k = line ++ rest /\ length rest = 1024 /\ ~ In x0a rest).
