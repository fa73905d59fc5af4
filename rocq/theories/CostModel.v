(** Model of how much work the functions of matchit do: the functions of MatchModel.v, each with the number
    of steps it takes (calls of the function itself), and the number of bytes its marker searches pass over.
    Everything else these functions do (comparing four bytes, reading a header, slicing) takes constant time.
    [memmem] is taken to look at every byte up to the end of the match, or at all bytes if there is none. *)
From Verif Require Import Base DltModel MatchModel.

(** Steps, and bytes that searches pass over. *)
Record cost := { steps : nat; scanned : nat }.
(** Nothing spent. *)
Definition no_cost : cost := {| steps := 0; scanned := 0 |}.
(** The sum of two costs. *)
Definition cost_add (c d : cost) : cost := {| steps := steps c + steps d; scanned := scanned c + scanned d |}.
(** A computation and its cost. *)
Definition work (A : Type) := outcome (A * cost).
(** A result without cost. *)
Definition done {A : Type} (a : A) : work A := Ret (a, no_cost).
(** Code that costs nothing. *)
Definition free {A : Type} (x : outcome A) : work A := let* a := x in done a.
(** Sequencing; costs add up. *)
Definition wbind {A B : Type} (x : work A) (k : A -> work B) : work B :=
  let* (a, c) := x in let* (b, d) := k a in Ret (b, cost_add c d).
Notation "'do*' x ':=' a 'in' b" := (wbind a (fun x => b))
  (at level 200, x pattern, a at level 100, b at level 200, right associativity).
(** One call; a search over [n] bytes. *)
Definition call : work unit := Ret (tt, {| steps := 1; scanned := 0 |}).
(** A search that passes over [n] bytes. *)
Definition look (n : nat) : work unit := Ret (tt, {| steps := 0; scanned := n |}).

(** memmem::Finder::find and FinderRev::rfind with what they look at. *)
Definition find_work (m b : bytes) : work (option nat) :=
  do* _ := look (match find m b with Some k => k + length m | None => length b end) in done (find m b).
(** searchable/mod.rs:23-28 with its cost. *)
Definition rfind_work (m b : bytes) : work (option nat) :=
  do* _ := look (match rfind m b with Some k => length b - k | None => length b end) in done (rfind m b).

(** Base.v [collect]. *)
Section Drive.
  Context {S Item : Type}.
  Variable next : S -> work (S * option Item).
  (** As [collect] of Base.v, with costs. *)
  Fixpoint collect_work (fuel : nat) (s : S) : work (list Item) :=
    match fuel with
    | O => Fuel
    | Datatypes.S f =>
        do* (s', o) := next s in
        match o with
        | None => done []
        | Some x => do* xs := collect_work f s' in done (x :: xs)
        end
    end.
End Drive.

Section Iterators.
  Context {T : Type}.
  Variable R : Readable T.
  Let mlen := length (marker R).

  (** readfallbackit.rs:47-81, cf. [fallback_next]. *)
  Fixpoint fallback_work (fuel : nat) (b : bytes) (off : nat) : work (nat * option (nat * T)) :=
    match fuel with
    | O => Fuel
    | S f =>
        do* _ := call in
        if length b <=? off + mlen then done (off, None)
        else
          do* s := free (slice b off (off + mlen)) in
          if bytes_eqb s (marker R) then
            do* t := free (slice_from b off) in
            do* r := free (try_read_valid R t) in
            match r with
            | Some (n, v) => done (off + n, Some (off, v))
            | None => done (off, None)
            end
          else
            do* t := free (slice_from b off) in
            do* p := find_work (marker R) t in
            match p with
            | Some position =>
                if position =? 0 then done (off, None)
                else fallback_work f b (off + position)
            | None => done (off, None)
            end
    end.

  (** searchit.rs:33-42, cf. [search_search]. *)
  Definition search_search_work (b : bytes) (off : nat) : work (option (nat * T)) :=
    if length b <=? off then done None
    else
      do* s := free (slice_from b off) in
      do* p := find_work (marker R) s in
      match p with
      | None => done None
      | Some c =>
          let candidate := c + off in
          do* s := free (slice_from b candidate) in
          do* r := free (try_read_valid R s) in
          match r with
          | None => done None
          | Some (_, t) => done (Some (candidate, t))
          end
      end.

  (** searchit.rs:53-67, cf. [search_next]. *)
  Fixpoint search_work (fuel : nat) (b : bytes) (off : nat) : work (nat * option (nat * T)) :=
    match fuel with
    | O => Fuel
    | S f =>
        do* _ := call in
        do* r := search_search_work b off in
        match r with
        | Some (c, t) => done (c + len_of R t, Some (c, t))
        | None =>
            let off' := off + mlen in
            if length b <=? off' then done (off', None)
            else search_work f b off'
        end
    end.

  (** searchit.rs:83-91, cf. [rev_search]. *)
  Definition rev_search_work (b : bytes) (off : N) : work (option (nat * T)) :=
    if ((N.of_nat (length b) <? off) || (off =? usize_max))%N then done None
    else
      do* s := free (slice_to b (N.to_nat off)) in
      do* p := rfind_work (marker R) s in
      match p with
      | None => done None
      | Some c =>
          do* s := free (slice_from b c) in
          do* r := free (try_read_valid R s) in
          match r with
          | None => done None
          | Some (_, t) => done (Some (c, t))
          end
      end.

  (** searchit.rs:109-126, cf. [rev_next]. *)
  Fixpoint rev_work (fuel : nat) (b : bytes) (off : N) : work (N * option (nat * T)) :=
    match fuel with
    | O => Fuel
    | S f =>
        do* _ := call in
        do* r := rev_search_work b off in
        match r with
        | Some (c, t) => done (N.of_nat c, Some (c, t))
        | None =>
            let off' := (if N.of_nat mlen <=? off then off - N.of_nat mlen else usize_max)%N in
            if (off' =? usize_max)%N then done (off', None)
            else rev_work f b off'
        end
    end.

  (** grepit.rs:34-57 and :66-74, cf. [grep_search], [grep_next]. The work of the regular expression engine is
      not counted. *)
  Section Grep.
    Variable find_at : bytes -> nat -> option (nat * nat).
    (** grepit.rs:34-57. *)
    Fixpoint grep_search_work (fuel : nat) (b : bytes) (off : nat) : work (option (nat * T)) :=
      match fuel with
      | O => Fuel
      | S f =>
          do* _ := call in
          if length b <=? off then done None
          else
            match find_at b off with
            | None => done None
            | Some (s, e) =>
                do* r := rev_search_work b (N.of_nat s) in
                match r with
                | Some (o, v) =>
                    if (o <? s) && (o + len_of R v <? e) then grep_search_work f b e
                    else done (Some (o, v))
                | None =>
                    if length b <=? e then done None
                    else grep_search_work f b e
                end
            end
      end.
    (** grepit.rs:66-74. *)
    Definition grep_work (fuel : nat) (b : bytes) (off : nat) : work (nat * option (nat * T)) :=
      do* r := grep_search_work fuel b off in
      match r with
      | None => done (off, None)
      | Some (o, v) => done (o + len_of R v, Some (o, v))
      end.
  End Grep.

  (** lib.rs:77-108, cf. [scan] and [contained_by]. [find_iter] is lazy: leaving the loop at a candidate, only
      the bytes up to the end of the candidate have been looked at. *)
  Section Scan.
    Variable recurse : nat -> nat -> work (option (nat * T)).
    Variable b : bytes.
    Variables back p0 p1 : nat.
    (** lib.rs:91-107. *)
    Fixpoint scan_work (cands : list nat) : work (option (nat * T)) :=
      match cands with
      | [] => do* _ := look (length b - back) in done None
      | x :: cs =>
          let candidate_idx := x + back in
          if p0 <=? candidate_idx then do* _ := look (x + mlen) in done None
          else
            do* s := free (slice_from b candidate_idx) in
            do* r := free (try_read R s) in
            match r with
            | None => scan_work cs
            | Some (_, container) =>
                if p1 <=? candidate_idx + len_of R container then
                  do* inner := recurse candidate_idx (candidate_idx + mlen) in
                  match inner with
                  | Some _ => scan_work cs
                  | None => do* _ := look (x + mlen) in done (Some (candidate_idx, container))
                  end
                else scan_work cs
            end
      end.
  End Scan.

  (** lib.rs:77-108. *)
  Fixpoint contained_work (fuel : nat) (b : bytes) (p0 p1 : nat) : work (option (nat * T)) :=
    match fuel with
    | O => Fuel
    | S f =>
        do* _ := call in
        if (length b <=? p0) || (length b <=? p1) || (p1 <=? p0) || (p1 =? 0) then done None
        else
          let back := p0 - max_len R in
          do* s := free (slice_from b back) in
          scan_work (contained_work f b) b back p0 p1 (find_iter (marker R) s)
    end.

  (** lib.rs:114-155, cf. [partition_loop], [partition_from]. *)
  Fixpoint partition_loop_work (fuel : nat) (b : bytes) (size c0 c1 : nat) : work (list bytes) :=
    match fuel with
    | O => Fuel
    | S f =>
        if (length b <? c0) || (length b <? c1) then done []
        else
          do* r := contained_work (S c1) b c1 (c1 + 1) in
          let c1 := match r with Some (container, _) => container | None => c1 end in
          if c1 <=? c0 then done []
          else if length b <=? c1 + size / 4 then
            do* s := free (slice_from b c0) in done [s]
          else
            do* s := free (slice b c0 c1) in
            do* rest := partition_loop_work f b size c1 (c1 + size) in
            done (s :: rest)
    end.
  (** lib.rs:114-155. *)
  Definition partition_work (b : bytes) (num : nat) : work (list bytes) :=
    if num =? 0 then Panic
    else
      let size := length b / num in
      partition_loop_work (S (length b)) b size 0 size.
End Iterators.

(** dlt_v1.rs:440-442 [dltit_offset] driven to its end; the searching iterator and, from the end of the slice,
    the backward one likewise. *)
Definition reading_work (b : bytes) : work (list (nat * storage_entry)) :=
  collect_work (fun off => fallback_work DLT 2 b off) (S (length b)) 0.
(** searchit.rs, driven to its end. *)
Definition searching_work (b : bytes) : work (list (nat * storage_entry)) :=
  collect_work (search_work DLT (S (length b)) b) (S (length b)) 0.
(** searchit.rs [RevSearchIterator], driven to its end. *)
Definition backward_work (b : bytes) : work (list (nat * storage_entry)) :=
  collect_work (rev_work DLT (S (length b)) b) (S (length b)) (N.of_nat (length b)).
(** ripdlt.rs:64 [DltGrep::new(..)] driven to its end, cf. [grep_collect]. *)
Definition grepping_work (find_at : bytes -> nat -> option (nat * nat)) (b : bytes) : work (list (nat * storage_entry)) :=
  collect_work (grep_work DLT find_at (S (length b)) b) (S (length b)) 0.
