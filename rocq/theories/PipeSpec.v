(** Vocabulary for pipelines of dd_dlt and ripdlt as in test/test_gen.sh: several runs appended to
    one file (C95), and output of dd_dlt used as its input again (C96). *)
From Coq Require Import Sorted.
From Verif Require Import Base DltModel Spec CommandSpec.

(** * Several runs, one file *)
(** A run: ids, size argument (text and value), the complete chunks and the incomplete rest of its input. *)
Record recording := {
  rec_ecu : quad; rec_app : quad; rec_arg : bytes; rec_size : N;
  rec_chunks : list bytes; rec_rest : bytes
}.
Definition rec_input (r : recording) : bytes := concat (rec_chunks r) ++ rec_rest r.
Definition messages (r : recording) : nat := length (rec_chunks r).
(** Sizes for which dd_dlt works, and few enough messages that time stamps (100 per message, 32 bits) do
    not start over. *)
Definition rec_ok (r : recording) : Prop :=
  (exists ds, ds <> [] /\ Forall (fun d => (d < 10)%N) ds /\ rec_arg r = numeral ds /\ decimal ds = rec_size r) /\
  (1 <= rec_size r <= 65517)%N /\
  Forall (fun c => N.of_nat (length c) = rec_size r) (rec_chunks r) /\ (N.of_nat (length (rec_rest r)) < rec_size r)%N /\
  Forall line_fits (rec_chunks r) /\ (N.of_nat (messages r) <= 42949673)%N.
(** dd_dlt counts a hundredth of a second per message: the whole seconds from the first to the last one. *)
Definition seconds (r : recording) : N := ((N.of_nat (messages r) - 1) / 100)%N.
Definition largest (l : list N) : N := fold_right N.max 0%N l.
Definition same_quad (p q : quad) : bool := if quad_dec p q then true else false.
(** The runs of one ECU that wrote something. *)
Definition runs_of (k : quad) (rs : list recording) : list recording :=
  filter (fun r => same_quad (rec_ecu r) k && (1 <=? messages r)) rs.
(** One row per ECU with messages, in ascending order. *)
Definition recorded_rows (rs : list recording) (row : list recording -> list (N * nat) * nat -> Prop)
  (m : list (quad * (list (N * nat) * nat))) : Prop :=
  StronglySorted (fun a b => bytes_before (quad_bytes a) (quad_bytes b)) (map fst m) /\
  (forall k, In k (map fst m) <-> exists r, In r rs /\ rec_ecu r = k /\ 1 <= messages r) /\
  forall k x, In (k, x) m -> row (runs_of k rs) x.

(** * Packing several times *)
Record level := { lvl_ecu : quad; lvl_app : quad; lvl_arg : bytes; lvl_size : N }.
(** [len] bytes go through the levels, innermost first: sizes up to 1024, and at each level at most
    [most] messages. *)
Fixpoint packable (most : N) (ls : list level) (len : nat) : Prop :=
  match ls with
  | [] => True
  | l :: ls =>
      (exists ds, ds <> [] /\ Forall (fun d => (d < 10)%N) ds /\ lvl_arg l = numeral ds /\ decimal ds = lvl_size l) /\
      (1 <= lvl_size l <= 1024)%N /\ (N.of_nat (len / N.to_nat (lvl_size l)) <= most)%N /\
      packable most ls (len / N.to_nat (lvl_size l) * (34 + N.to_nat (lvl_size l)))
  end.
(** How much of [len] bytes is found after unpacking again: at every level only complete chunks are
    packed, and only complete messages are unpacked. *)
Fixpoint kept (ls : list level) (len : nat) : nat :=
  match ls with
  | [] => len
  | l :: ls =>
      let s := N.to_nat (lvl_size l) in
      kept ls (len / s * (34 + s)) / (34 + s) * s
  end.
(** Every level is fed a whole number of chunks. *)
Fixpoint no_rest (ls : list level) (len : nat) : Prop :=
  match ls with
  | [] => True
  | l :: ls => let s := N.to_nat (lvl_size l) in len mod s = 0 /\ no_rest ls (len / s * (34 + s))
  end.

(** * Files of equal messages *)
(** How many of [n] messages of [len] bytes go into each of the pieces if [num] pieces are asked for:
    [n / num] into each, as long as there are enough; what is then left ([rest], at most that many) goes
    into the last piece if it has at most a quarter of the size of a piece, forms a piece of its own if it
    is exactly as large as the others, and is lost otherwise (also if it is a single message, unless the cut
    was planned right in front of its last byte). *)
Definition shares (len n num : nat) : list nat :=
  let share := n / num in
  let size := n * len / num in
  if share =? 0 then []
  else
    let rest := (n - 1) mod share + 1 in
    let full := (n - rest) / share in
    if (rest =? share) && (size mod len =? 0) then repeat share full ++ [rest]
    else if (rest * len <=? size / 4) || ((rest =? 1) && (size mod len =? len - 1)) then repeat share (full - 1) ++ [share + rest]
    else repeat share full.
(** The first [n] elements, the next [n'], ... *)
Fixpoint cut_at {A : Type} (ns : list nat) (l : list A) : list (list A) :=
  match ns with
  | [] => []
  | n :: ns => firstn n l :: cut_at ns (skipn n l)
  end.
