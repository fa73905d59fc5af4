(** Model of how much work the contiguous and the capturing iterator do, as CostModel.v. *)
From Verif Require Import Base DltModel MatchModel CostModel.

Section Iterators.
  Context {T : Type}.
  Variable R : Readable T.

  (** readit.rs:43-57, cf. [readit_next]. *)
  Definition readit_work (b : bytes) (off : nat) : work (nat * option (nat * T)) :=
    do* _ := call in free (readit_next R b off).
  (** grepit.rs:103-128 and :138-146, cf. [capture], [capture_next]. The work of the regular expression engine is
      not counted. *)
  Section Capture.
    Variable captures_at : bytes -> nat -> option ((nat * nat) * option (nat * nat)).
    (** grepit.rs:103-128. *)
    Fixpoint capture_work (fuel : nat) (b : bytes) (off : nat) : work (option (nat * (nat * nat))) :=
      match fuel with
      | O => Fuel
      | S f =>
          do* _ := call in
          if length b <=? off then done None
          else
            match captures_at b off with
            | None => done None
            | Some ((s, e), g1) =>
                do* r := rev_search_work R b (N.of_nat s) in
                match r with
                | Some (o, v) =>
                    if (o <? s) && (o + len_of R v <? e) then capture_work f b e
                    else match g1 with
                         | None => done None
                         | Some g => done (Some (o, g))
                         end
                | None =>
                    if length b <=? e then done None
                    else capture_work f b e
                end
            end
      end.
    (** grepit.rs:138-146. *)
    Definition capture_next_work (fuel : nat) (b : bytes) (off : nat) : work (nat * option (nat * (nat * nat))) :=
      do* r := capture_work fuel b off in
      match r with
      | None => done (off, None)
      | Some (o, v) => done (o + snd v, Some (o, v))
      end.
  End Capture.
End Iterators.

(** Both driven to their end from the start of the slice. *)
Definition contiguous_work (b : bytes) : work (list (nat * storage_entry)) := collect_work (readit_work DLT b) (S (length b)) 0.
(** Capturing, driven to its end. *)
Definition capturing_work (captures_at : bytes -> nat -> option ((nat * nat) * option (nat * nat))) (b : bytes) : work (list (nat * (nat * nat))) :=
  collect_work (capture_next_work DLT captures_at (S (length b)) b) (S (length b)) 0.
