(** Model of searching backwards, grepping and partitioning a memory mapped file of which some bytes cannot be read (as
    TouchModel.v).  How far [memmem::rfind] looks in front of the marker it finds and which bytes the regular expression
    engine looks at is left open ([rreach], [looks_at]); all are bytes of the slice they are given. *)
From Verif Require Import Base DltModel MatchModel MappedModel TouchModel.

Section TouchMore.
  Variable W : world.
  Variable n : nat.
  Variable reads : nat -> nat -> bool.
  Variable reach : nat -> nat -> nat.             (* as in TouchModel.v *)
  Variable rreach : nat -> nat -> nat.            (* the read number, the end of the slice: where rfind stops looking *)
  Variable looks_at : nat -> nat -> nat -> bool.  (* the read number, the start of the search, a position *)

  (** searchable/mod.rs:23-28 and [FinderRev::rfind] on [&bytes[..z]]; if there is no marker it looks at everything. *)
  Definition t_rfind (z : nat) : peek (option nat) :=
    fun t =>
      let r := match sees_last W t z with
               | Some p => if p + 4 <=? z then Some p else None
               | None => None
               end in
      let a := match r with Some p => Nat.min p (rreach t z) | None => 0 end in
      look reads a z (fun _ => r) t.
  (** [Regex::find_at(bytes, a)] *)
  Definition t_match (a : nat) : peek (option (nat * nat)) :=
    fun t =>
      if forallb (fun p => negb (looks_at t a p) || reads t p) (seq 0 n)
      then Back (match sees_match W t a with
                 | Some (s, e) => if (a <=? s) && (s <=? e) && (e <=? n) then Some (s, e) else None
                 | None => None
                 end, S t)
      else Killed.

  (** searchit.rs:83-91 [RevSearchIterator::search]. *)
  Definition t_rev_search (off : N) : peek (option item) :=
    if ((N.of_nat n <? off) || (off =? usize_max))%N then back None
    else
      get _ <- t_slice n 0 (N.to_nat off);
      get r <- t_rfind (N.to_nat off);
      match r with
      | None => back None
      | Some c =>
          get _ <- t_from n c;
          get q <- t_read W n reads c;
          match q with
          | None => back None
          | Some (_, v) => back (Some v)
          end
      end.
  (** searchit.rs:109-126 [RevSearchIterator::next]. *)
  Fixpoint t_rev_next (fuel : nat) (off : N) : peek (N * option item) :=
    match fuel with
    | O => fun _ => Undecided
    | S f =>
        get r <- t_rev_search off;
        match r with
        | Some v => back (N.of_nat (fst v), Some v)
        | None =>
            let off' := (if 4 <=? off then off - 4 else usize_max)%N in
            if (off' =? usize_max)%N then back (off', None)
            else t_rev_next f off'
        end
    end.

  (** grepit.rs:34-57 [GrepIterator::search]. *)
  Fixpoint t_grep_search (fuel : nat) (off : nat) : peek (option item) :=
    match fuel with
    | O => fun _ => Undecided
    | S f =>
        if n <=? off then back None
        else
          get r <- t_match off;
          match r with
          | None => back None
          | Some (s, e) =>
              get q <- t_rev_search (N.of_nat s);
              match q with
              | Some v =>
                  if fst v <? s then
                    get l <- t_len W reads v;
                    if fst v + l <? e then t_grep_search f e else back (Some v)
                  else back (Some v)
              | None =>
                  if n <=? e then back None else t_grep_search f e
              end
          end
    end.
  (** grepit.rs:66-74 [GrepIterator::next]. *)
  Definition t_grep_next (fuel : nat) (off : nat) : peek (nat * option item) :=
    get r <- t_grep_search fuel off;
    match r with
    | None => back (off, None)
    | Some v => get l <- t_len W reads v; back (fst v + l, Some v)
    end.

  (** lib.rs:77-108 [ContainedBySearch::contained_by]. *)
  Section Scan.
    Variable recurse : nat -> nat -> peek (option item).
    Variables p0 p1 : nat.
    (** lib.rs:91-107. *)
    Fixpoint t_scan (fuel : nat) (pos : nat) : peek (option item) :=
      match fuel with
      | O => fun _ => Undecided
      | S f =>
          get r <- t_find W n reads reach pos;
          match r with
          | None => back None
          | Some c =>
              if p0 <=? c then back None
              else
                get _ <- t_from n c;
                get q <- t_try_read W n reads c;
                match q with
                | None => t_scan f (c + 4)
                | Some (_, v) =>
                    get l <- t_len W reads v;
                    if p1 <=? c + l then
                      get inner <- recurse c (c + 4);
                      match inner with
                      | Some _ => t_scan f (c + 4)
                      | None => back (Some v)
                      end
                    else t_scan f (c + 4)
                end
          end
      end.
  End Scan.
  (** lib.rs:77-108. *)
  Fixpoint t_contained_by (fuel : nat) (p0 p1 : nat) : peek (option item) :=
    match fuel with
    | O => fun _ => Undecided
    | S f =>
        if (n <=? p0) || (n <=? p1) || (p1 <=? p0) || (p1 =? 0) then back None
        else
          let start := p0 - dlt_max_len in
          get _ <- t_from n start;
          t_scan (t_contained_by f) p0 p1 (S n) start
    end.
  (** lib.rs:114-155 [partition_from]. *)
  Fixpoint t_partition_loop (fuel : nat) (size c0 c1 : nat) : peek (list (nat * nat)) :=
    match fuel with
    | O => fun _ => Undecided
    | S f =>
        if (n <? c0) || (n <? c1) then back []
        else
          get r <- t_contained_by (S c1) c1 (c1 + 1);
          let c1 := match r with Some v => fst v | None => c1 end in
          if c1 <=? c0 then back []
          else if n <=? c1 + size / 4 then
            get _ <- t_from n c0; back [(c0, n)]
          else
            get _ <- t_slice n c0 c1;
            get rest <- t_partition_loop f size c1 (c1 + size);
            back ((c0, c1) :: rest)
    end.
  (** lib.rs:114-155. *)
  Definition t_partition (num : nat) : peek (list (nat * nat)) :=
    if num =? 0 then fun _ => Panics else t_partition_loop (S n) (n / num) 0 (n / num).
End TouchMore.
