(** Model of matchit/src/lib.rs, matchit/src/readit.rs and matchit/src/searchable/*.rs. *)
From Verif Require Import Base DltModel.

(** * Substring search: memchr::memmem

    The crate's [Finder::find] / [FinderRev::rfind] / [Finder::find_iter] are modelled by
    their documented meaning (first occurrence, last occurrence, successive
    non-overlapping occurrences); the SIMD implementation is not modelled. *)

(** Specification of memmem (see above): [m] is a prefix of [b]. *)
Fixpoint is_prefix (m b : bytes) : bool :=
  match m, b with
  | [], _ => true
  | x :: m', y :: b' => byte_eqb x y && is_prefix m' b'
  | _ :: _, [] => false
  end.

(** memmem::Finder::find *)
Fixpoint find (m b : bytes) : option nat :=
  if is_prefix m b then Some 0
  else match b with
       | [] => None
       | _ :: b' => option_map S (find m b')
       end.

(** memmem::FinderRev::rfind *)
Fixpoint rfind (m b : bytes) : option nat :=
  match b with
  | [] => if is_prefix m b then Some 0 else None
  | _ :: b' =>
      match rfind m b' with
      | Some k => Some (S k)
      | None => if is_prefix m b then Some 0 else None
      end
  end.

(** memmem::Finder::find_iter: after a match the search goes on [max 1 |needle|] bytes
    further.  [pos] is the index of the head of [b], [skip] the bytes still to pass over. *)
Fixpoint find_iter_from (m b : bytes) (pos skip : nat) : list nat :=
  match skip with
  | S k => match b with [] => [] | _ :: b' => find_iter_from m b' (S pos) k end
  | O =>
      if is_prefix m b then
        pos :: match b with
               | [] => []
               | _ :: b' => find_iter_from m b' (S pos) (length m - 1)
               end
      else match b with [] => [] | _ :: b' => find_iter_from m b' (S pos) 0 end
  end.
(** [memmem::Finder::find_iter], from the start. *)
Definition find_iter (m b : bytes) : list nat := find_iter_from m b 0 0.

(** * Traits: lib.rs:42-55 [FromBytesReadableTrait], searchable/mod.rs:9-14
      [SearchableMarkerTrait], as a record of functions of the implementing type. *)
Record Readable (T : Type) := {
  marker : bytes;
  max_len : nat;
  try_read : bytes -> outcome (option (nat * T));
  try_read_valid : bytes -> outcome (option (nat * T));
  len_of : T -> nat
}.
Arguments marker {T} r.
Arguments max_len {T} r.
Arguments try_read {T} r b.
Arguments try_read_valid {T} r b.
Arguments len_of {T} r t.

(** The implementation for [DltStorageEntry], dlt_v1.rs:303-336. *)
Definition DLT : Readable storage_entry := {|
  marker := dlt_marker;
  max_len := dlt_max_len;
  try_read := storage_try_read;
  try_read_valid := storage_try_read_valid;
  len_of := storage_len
|}.

(** searchable/mod.rs:17-21 [search_marker]; :23-28 [search_last_marker]. *)
Definition search_marker {T} (R : Readable T) (b : bytes) : option nat := find (marker R) b.
(** searchable/mod.rs:23-28. *)
Definition search_last_marker {T} (R : Readable T) (b : bytes) : option nat := rfind (marker R) b.

Section Iterators.
  Context {T : Type}.
  Variable R : Readable T.
  Let mlen := length (marker R).

  (** * readit.rs:43-57 [ReadIterator::next]; the state is [offset]. *)
  Definition readit_next (b : bytes) (off : nat) : outcome (nat * option (nat * T)) :=
    if length b <=? off then Ret (off, None)
    else let* s := slice_from b off in
         let* r := try_read R s in
         match r with
         | Some (n, v) => Ret (off + n, Some (off, v))
         | None => Ret (off, None)
         end.

  (** * readfallbackit.rs:47-81 [ReadFallbackIterator::next]; the state is [offset].
        The recursive call at :73 consumes fuel. *)
  Fixpoint fallback_next (fuel : nat) (b : bytes) (off : nat)
    : outcome (nat * option (nat * T)) :=
    match fuel with
    | O => Fuel
    | S f =>
        if length b <=? off + mlen then Ret (off, None)
        else
          let* s := slice b off (off + mlen) in
          if bytes_eqb s (marker R) then
            let* t := slice_from b off in
            let* r := try_read_valid R t in
            match r with
            | Some (n, v) => Ret (off + n, Some (off, v))
            | None => Ret (off, None)
            end
          else
            let* t := slice_from b off in
            match search_marker R t with
            | Some position =>
                if position =? 0 then Ret (off, None)
                else fallback_next f b (off + position)
            | None => Ret (off, None)
            end
    end.

  (** * searchit.rs:33-42 [SearchIterator::search]. *)
  Definition search_search (b : bytes) (off : nat) : outcome (option (nat * T)) :=
    if length b <=? off then Ret None
    else
      let* s := slice_from b off in
      match find (marker R) s with
      | None => Ret None
      | Some c =>
          let candidate := c + off in
          let* s := slice_from b candidate in
          let* r := try_read_valid R s in
          match r with
          | None => Ret None
          | Some (_, t) => Ret (Some (candidate, t))
          end
      end.

  (** searchit.rs:53-67 [SearchIterator::next]; recursion at :64 consumes fuel. *)
  Fixpoint search_next (fuel : nat) (b : bytes) (off : nat)
    : outcome (nat * option (nat * T)) :=
    match fuel with
    | O => Fuel
    | S f =>
        let* r := search_search b off in
        match r with
        | Some (c, t) => Ret (c + len_of R t, Some (c, t))
        | None =>
            let off' := off + mlen in
            if length b <=? off' then Ret (off', None)
            else search_next f b off'
        end
    end.

  (** * searchit.rs:83-91 [RevSearchIterator::search].  Offsets are 64-bit [usize]. *)
  Definition rev_search (b : bytes) (off : N) : outcome (option (nat * T)) :=
    if ((N.of_nat (length b) <? off) || (off =? usize_max))%N then Ret None
    else
      let* s := slice_to b (N.to_nat off) in
      match rfind (marker R) s with
      | None => Ret None
      | Some c =>
          let* s := slice_from b c in
          let* r := try_read_valid R s in
          match r with
          | None => Ret None
          | Some (_, t) => Ret (Some (c, t))
          end
      end.

  (** searchit.rs:109-126 [RevSearchIterator::next]; recursion at :123 consumes fuel. *)
  Fixpoint rev_next (fuel : nat) (b : bytes) (off : N)
    : outcome (N * option (nat * T)) :=
    match fuel with
    | O => Fuel
    | S f =>
        let* r := rev_search b off in
        match r with
        | Some (c, t) => Ret (N.of_nat c, Some (c, t))
        | None =>
            let off' := (if N.of_nat mlen <=? off then off - N.of_nat mlen else usize_max)%N in
            if (off' =? usize_max)%N then Ret (off', None)
            else rev_next f b off'
        end
    end.

  (** * grepit.rs.  The regex engine is an oracle: [find_at b off] is
        [Regex::find_at(bytes, offset)] giving the byte range of the match. *)
  Section Grep.
    Variable find_at : bytes -> nat -> option (nat * nat).

    (** grepit.rs:34-57 [GrepIterator::search]; recursion at :44, :53 consumes fuel. *)
    Fixpoint grep_search (fuel : nat) (b : bytes) (off : nat)
      : outcome (option (nat * T)) :=
      match fuel with
      | O => Fuel
      | S f =>
          if length b <=? off then Ret None
          else
            match find_at b off with
            | None => Ret None
            | Some (s, e) =>
                let* r := rev_search b (N.of_nat s) in
                match r with
                | Some (o, v) =>
                    if (o <? s) && (o + len_of R v <? e) then grep_search f b e
                    else Ret (Some (o, v))
                | None =>
                    if length b <=? e then Ret None
                    else grep_search f b e
                end
            end
      end.

    (** grepit.rs:66-74 [GrepIterator::next]; the state is [offset]. *)
    Definition grep_next (fuel : nat) (b : bytes) (off : nat)
      : outcome (nat * option (nat * T)) :=
      let* r := grep_search fuel b off in
      match r with
      | None => Ret (off, None)
      | Some (o, v) => Ret (o + len_of R v, Some (o, v))
      end.
  End Grep.

  Section Capture.
    (** [Regex::captures_read_at]: range of the overall match and [locs.get(1)]. *)
    Variable captures_at : bytes -> nat -> option ((nat * nat) * option (nat * nat)).

    (** grepit.rs:103-128 [RegExMatcherIterator::capture]. *)
    Fixpoint capture (fuel : nat) (b : bytes) (off : nat)
      : outcome (option (nat * (nat * nat))) :=
      match fuel with
      | O => Fuel
      | S f =>
          if length b <=? off then Ret None
          else
            match captures_at b off with
            | None => Ret None
            | Some ((s, e), g1) =>
                let* r := rev_search b (N.of_nat s) in
                match r with
                | Some (o, v) =>
                    if (o <? s) && (o + len_of R v <? e) then capture f b e
                    else match g1 with
                         | None => Ret None
                         | Some g => Ret (Some (o, g))
                         end
                | None =>
                    if length b <=? e then Ret None
                    else capture f b e
                end
            end
      end.

    (** grepit.rs:138-146 [RegExMatcherIterator::next]. *)
    Definition capture_next (fuel : nat) (b : bytes) (off : nat)
      : outcome (nat * option (nat * (nat * nat))) :=
      let* r := capture fuel b off in
      match r with
      | None => Ret (off, None)
      | Some (o, v) => Ret (o + snd v, Some (o, v))
      end.
  End Capture.

  (** * lib.rs:77-108 [ContainedBySearch::contained_by].  [payload] is [(p0, p1)];
        the recursive call at :100 consumes fuel, the [for] loop at :91 is [scan]. *)
  Section Scan.
    Variable recurse : nat -> nat -> outcome (option (nat * T)).
    Variable b : bytes.
    Variables back p0 p1 : nat.
    (** lib.rs:91-107, the [for] loop. *)
    Fixpoint scan (cands : list nat) : outcome (option (nat * T)) :=
      match cands with
      | [] => Ret None
      | x :: cs =>
          let candidate_idx := x + back in
          if p0 <=? candidate_idx then Ret None
          else
            let* s := slice_from b candidate_idx in
            let* r := try_read R s in
            match r with
            | None => scan cs
            | Some (_, container) =>
                if p1 <=? candidate_idx + len_of R container then
                  let* inner := recurse candidate_idx (candidate_idx + mlen) in
                  match inner with
                  | Some _ => scan cs
                  | None => Ret (Some (candidate_idx, container))
                  end
                else scan cs
            end
      end.
  End Scan.

  (** lib.rs:77-108. *)
  Fixpoint contained_by (fuel : nat) (b : bytes) (p0 p1 : nat)
    : outcome (option (nat * T)) :=
    match fuel with
    | O => Fuel
    | S f =>
        if (length b <=? p0) || (length b <=? p1) || (p1 <=? p0) || (p1 =? 0) then Ret None
        else
          let back := p0 - max_len R in
          let* s := slice_from b back in
          scan (contained_by f b) b back p0 p1 (find_iter (marker R) s)
    end.

  (** * lib.rs:121-151, the loop of [partition_from]. *)
  Fixpoint partition_loop (fuel : nat) (b : bytes) (size c0 c1 : nat)
    : outcome (list bytes) :=
    match fuel with
    | O => Fuel
    | S f =>
        if (length b <? c0) || (length b <? c1) then Ret []
        else
          let* r := contained_by (S c1) b c1 (c1 + 1) in
          let c1 := match r with Some (container, _) => container | None => c1 end in
          if c1 <=? c0 then Ret []
          else if length b <=? c1 + size / 4 then
            let* s := slice_from b c0 in Ret [s]
          else
            let* s := slice b c0 c1 in
            let* rest := partition_loop f b size c1 (c1 + size) in
            Ret (s :: rest)
    end.

  (** lib.rs:114-155 [partition_from]; [bytes.len() / num] panics for [num = 0]. *)
  Definition partition_from (b : bytes) (num : nat) : outcome (list bytes) :=
    if num =? 0 then Panic
    else
      let size := length b / num in
      partition_loop (S (length b)) b size 0 size.
End Iterators.

(** dlt_v1.rs:440-442 [dltit_offset], driven to exhaustion. Inner recursion of [next] gets
    fuel 2, the driving loop one step per byte and one more (both proved sufficient). *)
Definition dltit_offset (b : bytes) : outcome (list (nat * storage_entry)) :=
  collect (fun off => fallback_next DLT 2 b off) (S (length b)) 0.

(** dlt_v1.rs:444-446 [dltit] and lib.rs:31-34 [NoOffsetIterator::next]: the state is the
    inner iterator's. *)
Definition no_offset {S A : Type} (next : S -> outcome (S * option (nat * A)))
  (s : S) : outcome (S * option A) :=
  let* (s', o) := next s in
  match o with None => Ret (s', None) | Some (_, x) => Ret (s', Some x) end.

(** dlt_v1.rs:444-446. *)
Definition dltit (b : bytes) : outcome (list storage_entry) :=
  collect (no_offset (fun off => fallback_next DLT 2 b off)) (S (length b)) 0.
