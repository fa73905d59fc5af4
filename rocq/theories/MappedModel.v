(** Model of the iterators, of the partitioner and of the accessors over a memory mapped file
    (rapiddlt/src/dltbuffer.rs:9-13) that other processes overwrite while it is being read.  The length of
    the mapping does not change (a file that is truncated raises SIGBUS: TouchModel.v).

    Nothing is assumed about what a read returns: a [world] answers every single read, and two reads of the
    same place may get different answers.  Searches ([memmem], the regular expression engine) read much,
    and their answers need not fit to any state the memory ever had; all that is assumed is that they
    report positions within the slice they are given.  Reads happen as often and in the order in which they
    are written in the source.

    The functions are those of MatchModel.v and DltModel.v, line by line; the only difference is that the bytes
    are asked for when the code reads them, in particular that a [DltStorageEntry] refers to the mapping
    and [len()] reads the length field again. *)
From Verif Require Import Base DltModel MatchModel.

(** The answers; the first number counts the reads. *)
Record world := {
  sees_marker : nat -> nat -> bool;                   (* do the four bytes at this position equal the marker? *)
  sees_length : nat -> nat -> nat;                    (* length field of the standard header at this position *)
  sees_type : nat -> nat -> N;                        (* its header type byte *)
  sees_first : nat -> nat -> option nat;              (* memmem find from this position on: absolute position *)
  sees_last : nat -> nat -> option nat;               (* memmem rfind in front of this position *)
  sees_match : nat -> nat -> option (nat * nat)       (* regex find_at from this position on *)
}.

(** A computation that reads the mapping: it is given the number of reads before and returns their number after. *)
Definition act (A : Type) : Type := nat -> outcome (A * nat).
(** A result without a read. *)
Definition done {A} (a : A) : act A := fun t => Ret (a, t).
(** A panic. *)
Definition crash {A} : act A := fun _ => Panic.
(** Fuel ran out. *)
Definition unknown {A} : act A := fun _ => Fuel.
(** Sequencing. *)
Definition follow {A B} (x : act A) (f : A -> act B) : act B :=
  fun t => match x t with Ret (a, t') => f a t' | Panic => Panic | Fuel => Fuel end.
Notation "'see' x <- a ; b" := (follow a (fun x => b)) (at level 200, x pattern, a at level 100, b at level 200).
(** One read. *)
Definition ask {A} (f : nat -> A) : act A := fun t => Ret (f t, S t).

(** A message in the mapping: where it starts and how long it was when it was read.  dlt_v1.rs:288-292,
    338-342: [storage_header] is at its start, [header] 16 bytes further, [tail] is the rest. *)
Definition item : Type := (nat * nat)%type.

Section Mapped.
  Variable W : world.
  Variable n : nat. (* length of the mapping *)

  (** [&bytes[a..]] panics if [a > bytes.len()]. *)
  Definition m_from (a : nat) : act unit := if n <? a then crash else done tt.
  (** [&bytes[a..z]] *)
  Definition m_slice (a z : nat) : act unit := if (z <? a) || (n <? z) then crash else done tt.

  (** searchable/mod.rs:17-21 and [Finder::find] on [&bytes[a..]]. *)
  Definition m_find (a : nat) : act (option nat) :=
    see r <- ask (fun t => sees_first W t a);
    match r with
    | Some p => if (a <=? p) && (p + 4 <=? n) then done (Some p) else done None
    | None => done None
    end.
  (** [FinderRev::rfind] on [&bytes[..z]]. *)
  Definition m_rfind (z : nat) : act (option nat) :=
    see r <- ask (fun t => sees_last W t z);
    match r with
    | Some p => if p + 4 <=? z then done (Some p) else done None
    | None => done None
    end.
  (** [Regex::find_at(bytes, a)]. *)
  Definition m_match (a : nat) : act (option (nat * nat)) :=
    see r <- ask (fun t => sees_match W t a);
    match r with
    | Some (s, e) => if (a <=? s) && (s <=? e) && (e <=? n) then done (Some (s, e)) else done None
    | None => done None
    end.
  (** dlt_v1.rs:104-106 [DltStandardHeader::length], a [u16]. *)
  Definition m_length (a : nat) : act nat :=
    see l <- ask (fun t => sees_length W t (a + 16)); done (N.to_nat (N.of_nat l mod 65536)).

  (** dlt_v1.rs:295-301 [try_read] and :417-426 [DltEntry::try_read] on [&bytes[a..]]: the length field is
      read once. *)
  Definition m_read (a : nat) : act (option (nat * item)) :=
    if n - a <? 16 then done None
    else if n - a - 16 <? 4 then done None
    else see size2 <- m_length a;
         if (size2 <? 4) || (n - a - 16 <? size2) then done None
         else done (Some (16 + size2, (a, 16 + size2))).
  (** dlt_v1.rs:318-326 [DltStorageEntry::try_read]. *)
  Definition m_try_read (a : nat) : act (option (nat * item)) :=
    if n - a <? 4 then done None
    else see mk <- ask (fun t => sees_marker W t a);
         if mk then m_read a else done None.
  (** dlt_v1.rs:329-331 [DltStorageEntry::len] reads the length field again. *)
  Definition m_len (v : item) : act nat :=
    see l <- m_length (fst v); done (l + 16).

  (** readit.rs:43-57 [ReadIterator::next]. *)
  Definition m_readit_next (off : nat) : act (nat * option item) :=
    if n <=? off then done (off, None)
    else see _ <- m_from off;
         see r <- m_try_read off;
         match r with
         | Some (k, v) => done (off + k, Some v)
         | None => done (off, None)
         end.

  (** readfallbackit.rs:47-81 [ReadFallbackIterator::next]. *)
  Fixpoint m_fallback_next (fuel : nat) (off : nat) : act (nat * option item) :=
    match fuel with
    | O => unknown
    | S f =>
        if n <=? off + 4 then done (off, None)
        else
          see _ <- m_slice off (off + 4);
          see mk <- ask (fun t => sees_marker W t off);
          if mk then
            see _ <- m_from off;
            see r <- m_read off;
            match r with
            | Some (k, v) => done (off + k, Some v)
            | None => done (off, None)
            end
          else
            see _ <- m_from off;
            see r <- m_find off;
            match r with
            | Some p =>
                if p - off =? 0 then done (off, None)
                else m_fallback_next f (off + (p - off))
            | None => done (off, None)
            end
    end.

  (** searchit.rs:33-42 [SearchIterator::search]. *)
  Definition m_search (off : nat) : act (option item) :=
    if n <=? off then done None
    else
      see _ <- m_from off;
      see r <- m_find off;
      match r with
      | None => done None
      | Some c =>
          see _ <- m_from c;
          see r <- m_read c;
          match r with
          | None => done None
          | Some (_, v) => done (Some v)
          end
      end.
  (** searchit.rs:53-67 [SearchIterator::next]; [t.len()] at :56 reads the length field again. *)
  Fixpoint m_search_next (fuel : nat) (off : nat) : act (nat * option item) :=
    match fuel with
    | O => unknown
    | S f =>
        see r <- m_search off;
        match r with
        | Some v => see l <- m_len v; done (fst v + l, Some v)
        | None =>
            if n <=? off + 4 then done (off + 4, None)
            else m_search_next f (off + 4)
        end
    end.

  (** searchit.rs:83-91 [RevSearchIterator::search]. *)
  Definition m_rev_search (off : N) : act (option item) :=
    if ((N.of_nat n <? off) || (off =? usize_max))%N then done None
    else
      see _ <- m_slice 0 (N.to_nat off);
      see r <- m_rfind (N.to_nat off);
      match r with
      | None => done None
      | Some c =>
          see _ <- m_from c;
          see r <- m_read c;
          match r with
          | None => done None
          | Some (_, v) => done (Some v)
          end
      end.
  (** searchit.rs:109-126 [RevSearchIterator::next]. *)
  Fixpoint m_rev_next (fuel : nat) (off : N) : act (N * option item) :=
    match fuel with
    | O => unknown
    | S f =>
        see r <- m_rev_search off;
        match r with
        | Some v => done (N.of_nat (fst v), Some v)
        | None =>
            let off' := (if 4 <=? off then off - 4 else usize_max)%N in
            if (off' =? usize_max)%N then done (off', None)
            else m_rev_next f off'
        end
    end.

  (** grepit.rs:34-57 [GrepIterator::search]; [val.len()] at :42 reads the length field again, but only if
      the first condition holds. *)
  Fixpoint m_grep_search (fuel : nat) (off : nat) : act (option item) :=
    match fuel with
    | O => unknown
    | S f =>
        if n <=? off then done None
        else
          see r <- m_match off;
          match r with
          | None => done None
          | Some (s, e) =>
              see r <- m_rev_search (N.of_nat s);
              match r with
              | Some v =>
                  if fst v <? s then
                    see l <- m_len v;
                    if fst v + l <? e then m_grep_search f e else done (Some v)
                  else done (Some v)
              | None =>
                  if n <=? e then done None else m_grep_search f e
              end
          end
    end.
  (** grepit.rs:66-74 [GrepIterator::next]; [val.len()] at :71 reads it once more. *)
  Definition m_grep_next (fuel : nat) (off : nat) : act (nat * option item) :=
    see r <- m_grep_search fuel off;
    match r with
    | None => done (off, None)
    | Some v => see l <- m_len v; done (fst v + l, Some v)
    end.

  (** [Regex::captures_read_at(bytes, a)]: the match and group 1, which lies within it. *)
  Section Groups.
    Variable sees_groups : nat -> nat -> option ((nat * nat) * option (nat * nat)).
    (** grepit.rs:108, 110 and 118: match and first group. *)
    Definition m_groups (a : nat) : act (option ((nat * nat) * option (nat * nat))) :=
      see r <- ask (fun t => sees_groups t a);
      match r with
      | Some ((s, e), g) =>
          if (a <=? s) && (s <=? e) && (e <=? n)
             && match g with Some (gs, ge) => (s <=? gs) && (gs <=? ge) && (ge <=? e) | None => true end
          then done (Some ((s, e), g)) else done None
      | None => done None
      end.
    (** grepit.rs:103-128 [RegExMatcherIterator::capture]; [val.len()] reads the length field again, but only if
        the first condition holds.  The result: where the message starts, and group 1. *)
    Fixpoint m_capture (fuel : nat) (off : nat) : act (option (nat * (nat * nat))) :=
      match fuel with
      | O => unknown
      | S f =>
          if n <=? off then done None
          else
            see r <- m_groups off;
            match r with
            | None => done None
            | Some ((s, e), g) =>
                let result v := match g with Some g => done (Some (fst v, g)) | None => done None end in
                see r <- m_rev_search (N.of_nat s);
                match r with
                | Some v =>
                    if fst v <? s then
                      see l <- m_len v;
                      if fst v + l <? e then m_capture f e else result v
                    else result v
                | None => if n <=? e then done None else m_capture f e
                end
            end
      end.
    (** grepit.rs:138-146 [RegExMatcherIterator::next]. *)
    Definition m_capture_next (fuel : nat) (off : nat) : act (nat * option (nat * (nat * nat))) :=
      see r <- m_capture fuel off;
      match r with
      | None => done (off, None)
      | Some (o, g) => done (o + snd g, Some (o, g))
      end.
  End Groups.

  (** lib.rs:77-108 [ContainedBySearch::contained_by]: the [for] loop at :91 takes the next candidate from
      [find_iter], which goes on four bytes behind the previous one; [container.len()] at :98 reads the length
      field again. *)
  Section Scan.
    Variable recurse : nat -> nat -> act (option item).
    Variables p0 p1 : nat.
    (** lib.rs:91-107. *)
    Fixpoint m_scan (fuel : nat) (pos : nat) : act (option item) :=
      match fuel with
      | O => unknown
      | S f =>
          see r <- m_find pos;
          match r with
          | None => done None
          | Some c =>
              if p0 <=? c then done None
              else
                see _ <- m_from c;
                see r <- m_try_read c;
                match r with
                | None => m_scan f (c + 4)
                | Some (_, v) =>
                    see l <- m_len v;
                    if p1 <=? c + l then
                      see inner <- recurse c (c + 4);
                      match inner with
                      | Some _ => m_scan f (c + 4)
                      | None => done (Some v)
                      end
                    else m_scan f (c + 4)
                end
          end
      end.
  End Scan.
  (** lib.rs:77-108. *)
  Fixpoint m_contained_by (fuel : nat) (p0 p1 : nat) : act (option item) :=
    match fuel with
    | O => unknown
    | S f =>
        if (n <=? p0) || (n <=? p1) || (p1 <=? p0) || (p1 =? 0) then done None
        else
          let back := p0 - dlt_max_len in
          see _ <- m_from back;
          m_scan (m_contained_by f) p0 p1 (S n) back
    end.
  (** lib.rs:114-155 [partition_from]; a part is where it starts and where it ends. *)
  Fixpoint m_partition_loop (fuel : nat) (size c0 c1 : nat) : act (list (nat * nat)) :=
    match fuel with
    | O => unknown
    | S f =>
        if (n <? c0) || (n <? c1) then done []
        else
          see r <- m_contained_by (S c1) c1 (c1 + 1);
          let c1 := match r with Some v => fst v | None => c1 end in
          if c1 <=? c0 then done []
          else if n <=? c1 + size / 4 then
            see _ <- m_from c0; done [(c0, n)]
          else
            see _ <- m_slice c0 c1;
            see rest <- m_partition_loop f size c1 (c1 + size);
            done ((c0, c1) :: rest)
    end.
  (** lib.rs:114-155. *)
  Definition m_partition (num : nat) : act (list (nat * nat)) :=
    if num =? 0 then crash else m_partition_loop (S n) (n / num) 0 (n / num).

  (** dlt_v1.rs:49-67: every test of a flag reads the header type byte. *)
  Definition m_flag (v : item) (mask : N) : act bool :=
    see h <- ask (fun t => sees_type W t (fst v + 16)); done (0 <? N.land h mask)%N.
  (** Length of [tail]. *)
  Definition m_tail (v : item) : nat := snd v - 20.
  (** [&self.tail[k..]] *)
  Definition m_tail_from (v : item) (k : nat) : act unit := if m_tail v <? k then crash else done tt.
  (** The place (start, length) of what an accessor returns a reference to or decodes. *)
  Definition m_place (v : item) (k len : nat) : option (nat * nat) :=
    if m_tail v - k <? len then None else Some (fst v + 20 + k, len).
  (** dlt_v1.rs:346-352 [ecu_id] *)
  Definition m_ecu_id (v : item) : act (option (nat * nat)) :=
    see w <- m_flag v 4;
    if w then (if m_tail v <? 4 then crash else done (m_place v 0 4)) else done None.
  (** dlt_v1.rs:355-370 [timestamp] *)
  Definition m_timestamp (v : item) : act (option (nat * nat)) :=
    see w <- m_flag v 16;
    if w then
      see e <- m_flag v 4;
      see s <- m_flag v 8;
      let offset := (if e then 4 else 0) + (if s then 4 else 0) in
      if m_tail v <? offset then done None
      else see _ <- m_tail_from v offset; done (m_place v offset 4)
    else done None.
  (** dlt_v1.rs:373-389 [extended_header] *)
  Definition m_extended_header (v : item) : act (option (nat * nat)) :=
    see x <- m_flag v 1;
    if x then
      see e <- m_flag v 4;
      see s <- m_flag v 8;
      see w <- m_flag v 16;
      let offset := (if e then 4 else 0) + (if s then 4 else 0) + (if w then 4 else 0) in
      see _ <- m_tail_from v offset; done (m_place v offset 10)
    else done None.
  (** dlt_v1.rs:392-413 [payload] *)
  Definition m_payload (v : item) : act (option (nat * nat)) :=
    see e <- m_flag v 4;
    see s <- m_flag v 8;
    see w <- m_flag v 16;
    see x <- m_flag v 1;
    let offset := (if e then 4 else 0) + (if s then 4 else 0) + (if w then 4 else 0) in
    if x then
      see _ <- m_tail_from v offset;
      match m_place v offset 10 with
      | None => done None
      | Some _ =>
          if m_tail v <? offset + 10 then done None
          else done (Some (fst v + 20 + (offset + 10), m_tail v - (offset + 10)))
      end
    else
      if m_tail v <? offset then done None
      else done (Some (fst v + 20 + offset, m_tail v - offset)).
End Mapped.

(** Driving an iterator to its end: what it delivers until it first says [None]. *)
Fixpoint m_collect {S A : Type} (next : S -> act (S * option A)) (fuel : nat) (s : S) : act (list A) :=
  match fuel with
  | O => unknown
  | Datatypes.S f =>
      see (s', o) <- next s;
      match o with
      | None => done []
      | Some v => see rest <- m_collect next f s'; done (v :: rest)
      end
  end.
(** dlt_v1.rs:440-442 [dltit_offset]. *)
Definition m_dltit (W : world) (n : nat) : act (list item) :=
  m_collect (m_fallback_next W n (S (S n))) (S n) 0.
