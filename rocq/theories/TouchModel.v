(** Model of reading a memory mapped file of which some bytes cannot be read: a process that reads a page behind the end of a
    file that was truncated meanwhile, or one whose disk block is broken, gets SIGBUS and is killed.

    The functions are those of MappedModel.v with, for every read, the bytes that are read.  [reads t p] says
    whether byte [p] can be read by the read number [t].  A slice is made and a header is referred to without reading anything;
    [==] on the marker reads four bytes, [length()] two.  How far [memmem] looks behind the marker it finds
    is left open ([reach]); if there is none it looks at everything. *)
From Verif Require Import Base DltModel MatchModel MappedModel.

(** [Killed]: SIGBUS.  The others as in [outcome]. *)
Inductive fate (A : Type) : Type :=
| Back (a : A)
| Panics
| Undecided
| Killed.
Arguments Back {A} a.
Arguments Panics {A}.
Arguments Undecided {A}.
Arguments Killed {A}.

(** A computation that reads the mapping, or is killed doing so. *)
Definition peek (A : Type) : Type := nat -> fate (A * nat).
(** A result without a read. *)
Definition back {A} (a : A) : peek A := fun t => Back (a, t).
(** Sequencing. *)
Definition next_peek {A B} (x : peek A) (f : A -> peek B) : peek B :=
  fun t => match x t with Back (a, t') => f a t' | Panics => Panics | Undecided => Undecided | Killed => Killed end.
Notation "'get' x <- a ; b" := (next_peek a (fun x => b)) (at level 200, x pattern, a at level 100, b at level 200).

Section Touch.
  Variable W : world.
  Variable n : nat.
  Variable reads : nat -> nat -> bool.
  Variable reach : nat -> nat -> nat.

  (** One read of bytes [a], ..., [z - 1]. *)
  Definition look {A} (a z : nat) (f : nat -> A) : peek A :=
    fun t => if forallb (reads t) (seq a (z - a)) then Back (f t, S t) else Killed.
  (** As in MappedModel.v. *)
  Definition t_from (a : nat) : peek unit := if n <? a then fun _ => Panics else back tt.
  (** [&bytes[a..z]]. *)
  Definition t_slice (a z : nat) : peek unit := if (z <? a) || (n <? z) then fun _ => Panics else back tt.

  (** searchable/mod.rs:17-21 and [Finder::find] on [&bytes[a..]]. *)
  Definition t_find (a : nat) : peek (option nat) :=
    fun t =>
      let r := match sees_first W t a with
               | Some p => if (a <=? p) && (p + 4 <=? n) then Some p else None
               | None => None
               end in
      let z := match r with Some p => Nat.max (p + 4) (Nat.min n (reach t a)) | None => n end in
      look a z (fun _ => r) t.
  (** dlt_v1.rs:104-106, two bytes of the standard header, which is 16 bytes behind [a]. *)
  Definition t_length (a : nat) : peek nat :=
    get l <- look (a + 18) (a + 20) (fun t => sees_length W t (a + 16)); back (N.to_nat (N.of_nat l mod 65536)).
  (** dlt_v1.rs:295-301 and :417-426. *)
  Definition t_read (a : nat) : peek (option (nat * item)) :=
    if n - a <? 16 then back None
    else if n - a - 16 <? 4 then back None
    else get size2 <- t_length a;
         if (size2 <? 4) || (n - a - 16 <? size2) then back None
         else back (Some (16 + size2, (a, 16 + size2))).
  (** dlt_v1.rs:318-326. *)
  Definition t_try_read (a : nat) : peek (option (nat * item)) :=
    if n - a <? 4 then back None
    else get mk <- look a (a + 4) (fun t => sees_marker W t a);
         if mk then t_read a else back None.
  (** dlt_v1.rs:329-331. *)
  Definition t_len (v : item) : peek nat :=
    get l <- t_length (fst v); back (l + 16).

  (** readit.rs:43-57 [ReadIterator::next]. *)
  Definition t_readit_next (off : nat) : peek (nat * option item) :=
    if n <=? off then back (off, None)
    else get _ <- t_from off;
         get r <- t_try_read off;
         match r with
         | Some (k, v) => back (off + k, Some v)
         | None => back (off, None)
         end.

  (** readfallbackit.rs:47-81 [ReadFallbackIterator::next]. *)
  Fixpoint t_fallback_next (fuel : nat) (off : nat) : peek (nat * option item) :=
    match fuel with
    | O => fun _ => Undecided
    | S f =>
        if n <=? off + 4 then back (off, None)
        else
          get _ <- t_slice off (off + 4);
          get mk <- look off (off + 4) (fun t => sees_marker W t off);
          if mk then
            get _ <- t_from off;
            get r <- t_read off;
            match r with
            | Some (k, v) => back (off + k, Some v)
            | None => back (off, None)
            end
          else
            get _ <- t_from off;
            get r <- t_find off;
            match r with
            | Some p =>
                if p - off =? 0 then back (off, None)
                else t_fallback_next f (off + (p - off))
            | None => back (off, None)
            end
    end.

  (** searchit.rs:33-42 [SearchIterator::search]. *)
  Definition t_search (off : nat) : peek (option item) :=
    if n <=? off then back None
    else
      get _ <- t_from off;
      get r <- t_find off;
      match r with
      | None => back None
      | Some c =>
          get _ <- t_from c;
          get q <- t_read c;
          match q with
          | None => back None
          | Some (_, v) => back (Some v)
          end
      end.
  (** searchit.rs:53-67 [SearchIterator::next]. *)
  Fixpoint t_search_next (fuel : nat) (off : nat) : peek (nat * option item) :=
    match fuel with
    | O => fun _ => Undecided
    | S f =>
        get r <- t_search off;
        match r with
        | Some v => get l <- t_len v; back (fst v + l, Some v)
        | None =>
            let off' := off + 4 in
            if n <=? off' then back (off', None) else t_search_next f off'
        end
    end.

  (** dlt_v1.rs:49-67: each test of a flag reads the header type byte. *)
  Definition t_flag (v : item) (mask : N) : peek bool :=
    look (fst v + 16) (fst v + 17) (fun t => (0 <? N.land (sees_type W t (fst v + 16)) mask)%N).
  (** [&self.tail[k..]], dlt_v1.rs:346-415. *)
  Definition t_tail_from (v : item) (k : nat) : peek unit := if m_tail v <? k then fun _ => Panics else back tt.
  (** [U32::ref_from_prefix(..)?.get()] reads the four bytes; the result says which, their values are not modelled (and
      this read is not counted). *)
  Definition t_get (p : option (nat * nat)) : peek (option (nat * nat)) :=
    fun t => match p with
             | Some (a, k) => if forallb (reads t) (seq a k) then Back (p, t) else Killed
             | None => Back (None, t)
             end.
  (** dlt_v1.rs:346-352 [ecu_id] *)
  Definition t_ecu_id (v : item) : peek (option (nat * nat)) :=
    get w <- t_flag v 4;
    if w then (if m_tail v <? 4 then fun _ => Panics else t_get (m_place v 0 4)) else back None.
  (** dlt_v1.rs:355-370 [timestamp] *)
  Definition t_timestamp (v : item) : peek (option (nat * nat)) :=
    get w <- t_flag v 16;
    if w then
      get e <- t_flag v 4;
      get s <- t_flag v 8;
      let offset := (if e then 4 else 0) + (if s then 4 else 0) in
      if m_tail v <? offset then back None
      else get _ <- t_tail_from v offset; t_get (m_place v offset 4)
    else back None.
  (** dlt_v1.rs:373-389 [extended_header]: a reference. *)
  Definition t_extended_header (v : item) : peek (option (nat * nat)) :=
    get x <- t_flag v 1;
    if x then
      get e <- t_flag v 4;
      get s <- t_flag v 8;
      get w <- t_flag v 16;
      let offset := (if e then 4 else 0) + (if s then 4 else 0) + (if w then 4 else 0) in
      get _ <- t_tail_from v offset; back (m_place v offset 10)
    else back None.
  (** dlt_v1.rs:392-413 [payload]: a reference. *)
  Definition t_payload (v : item) : peek (option (nat * nat)) :=
    get e <- t_flag v 4;
    get s <- t_flag v 8;
    get w <- t_flag v 16;
    get x <- t_flag v 1;
    let offset := (if e then 4 else 0) + (if s then 4 else 0) + (if w then 4 else 0) in
    if x then
      get _ <- t_tail_from v offset;
      match m_place v offset 10 with
      | None => back None
      | Some _ =>
          if m_tail v <? offset + 10 then back None
          else back (Some (fst v + 20 + (offset + 10), m_tail v - (offset + 10)))
      end
    else
      if m_tail v <? offset then back None
      else back (Some (fst v + 20 + offset, m_tail v - offset)).
End Touch.

(** Driving an iterator: what it delivers until it says [None] or the process ends otherwise, and how it ends. *)
Fixpoint t_collect {S A : Type} (next : S -> peek (S * option A)) (fuel : nat) (s : S) (t : nat) : list A * fate unit :=
  match fuel with
  | O => ([], Undecided)
  | Datatypes.S f =>
      match next s t with
      | Back ((s', None), _) => ([], Back tt)
      | Back ((s', Some v), t') => let '(l, e) := t_collect next f s' t' in (v :: l, e)
      | Panics => ([], Panics)
      | Undecided => ([], Undecided)
      | Killed => ([], Killed)
      end
  end.
(** dlt_v1.rs:440-442 [dltit_offset]. *)
Definition t_dltit (W : world) (n : nat) (reads : nat -> nat -> bool) (reach : nat -> nat -> nat) : list item * fate unit :=
  t_collect (t_fallback_next W n reads reach (S (S n))) (S n) 0 0.
