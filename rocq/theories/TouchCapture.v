(** Model of the capturing iterator on a memory mapped file of which some bytes cannot be read (as TouchMore.v).  Which
    bytes the regular expression engine looks at is left open ([looks_at]). *)
From Verif Require Import Base DltModel MatchModel MappedModel TouchModel TouchMore.

Section TouchCapture.
  Variable W : world.
  Variable n : nat.
  Variable reads : nat -> nat -> bool.
  Variable rreach : nat -> nat -> nat.            (* as in TouchMore.v *)
  Variable looks_at : nat -> nat -> nat -> bool.  (* as in TouchMore.v *)
  Variable sees_groups : nat -> nat -> option ((nat * nat) * option (nat * nat)).

  (** [Regex::captures_read_at(bytes, a)] *)
  Definition t_groups (a : nat) : peek (option ((nat * nat) * option (nat * nat))) :=
    fun t =>
      if forallb (fun p => negb (looks_at t a p) || reads t p) (seq 0 n)
      then Back (match sees_groups t a with
                 | Some ((s, e), g) =>
                     if (a <=? s) && (s <=? e) && (e <=? n)
                        && match g with Some (gs, ge) => (s <=? gs) && (gs <=? ge) && (ge <=? e) | None => true end
                     then Some ((s, e), g) else None
                 | None => None
                 end, S t)
      else Killed.
  (** grepit.rs:103-128 [RegExMatcherIterator::capture]. *)
  Fixpoint t_capture (fuel : nat) (off : nat) : peek (option (nat * (nat * nat))) :=
    match fuel with
    | O => fun _ => Undecided
    | S f =>
        if n <=? off then back None
        else
          get r <- t_groups off;
          match r with
          | None => back None
          | Some ((s, e), g) =>
              let result v := match g with Some g => back (Some (fst v, g)) | None => back None end in
              get r <- t_rev_search W n reads rreach (N.of_nat s);
              match r with
              | Some v =>
                  if fst v <? s then
                    get l <- t_len W reads v;
                    if fst v + l <? e then t_capture f e else result v
                  else result v
              | None => if n <=? e then back None else t_capture f e
              end
          end
    end.
  (** grepit.rs:138-146 [RegExMatcherIterator::next]. *)
  Definition t_capture_next (fuel : nat) (off : nat) : peek (nat * option (nat * (nat * nat))) :=
    get r <- t_capture fuel off;
    match r with
    | None => back (off, None)
    | Some (o, g) => back (o + snd g, Some (o, g))
    end.
End TouchCapture.
