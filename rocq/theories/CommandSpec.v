(** What each ripdlt command is meant to print, in terms of the entries found in the file.
    Vocabulary only (as Spec.v): no function of the model is used. *)
From Coq Require Import Sorted.
From Verif Require Import Base DltModel Spec.

(** The header type byte of an entry. *)
Definition htype (e : storage_entry) : byte := header_type (header (dlt e)).

(** * Message timestamps *)

(** The entry announces a timestamp ... *)
Definition stamped (e : storage_entry) : bool := flag (htype e) 4.
(** ... which follows the ECU id and the session id, if there is room for it. *)
Definition stamp_pos (h : byte) : nat := (if flag h 2 then 4 else 0) + (if flag h 3 then 4 else 0).
Definition stamp (e : storage_entry) : option N :=
  if stamped e && (stamp_pos (htype e) + 4 <=? length (tail (dlt e)))
  then Some (u32be_at (tail (dlt e)) (stamp_pos (htype e)))
  else None.
Definition stamp_value (e : storage_entry) : N := match stamp e with Some t => t | None => 0%N end.
(** The entry announces a timestamp and has none. *)
Definition stampless (e : storage_entry) : Prop := stamped e = true /\ stamp e = None.

(** The ECU id of the standard header. *)
Definition std_ecu (e : storage_entry) : option N :=
  if flag (htype e) 2 then Some (u32be_at (tail (dlt e)) 0) else None.
Definition same_ecu (a b : storage_entry) : bool :=
  match std_ecu a, std_ecu b with
  | Some x, Some y => (x =? y)%N
  | None, None => true
  | _, _ => false
  end.

(** Lifecycles are runs of these relations. *)
Definition not_earlier (a b : storage_entry) : bool := (stamp_value a <=? stamp_value b)%N.
Definition same_cycle (a b : storage_entry) : bool := same_ecu a b && not_earlier a b.
(** Continuous periods of the storage header's seconds are runs of this one. *)
Definition continuous (a b : storage_entry) : bool := (secs_of a <=? secs_of b)%N.

(** Last minus first value of a run. *)
Definition span {A : Type} (f : A -> N) (g : list A) : N :=
  match g with [] => 0%N | x :: g' => (f (last g' x) - f x)%N end.

(** Half an hour in tenths of milliseconds. *)
Definition half_an_hour : N := 18000000.

(** * Tables *)

(** [h] lists the different values of [vals] in ascending order, each with the number of its
    occurrences. *)
Definition table {K : Type} (dec : forall a b : K, {a = b} + {a <> b}) (before : K -> K -> Prop)
  (vals : list K) (h : list (K * nat)) : Prop :=
  StronglySorted before (map fst h) /\
  forall k n, In (k, n) h <-> In k vals /\ n = count_occ dec vals k.
Definition number_table : list N -> list (N * nat) -> Prop := table N.eq_dec N.lt.

(** * Payloads *)

(** Size of the extended header. *)
Definition ext_size (h : byte) : nat := if flag h 0 then 10 else 0.
(** All announced header fields are there. *)
Definition whole (e : storage_entry) : Prop := announced (htype e) + ext_size (htype e) <= length (tail (dlt e)).
(** What follows the headers (nothing if they are not all there). *)
Definition body (e : storage_entry) : bytes := skipn (announced (htype e) + ext_size (htype e)) (tail (dlt e)).
(** An extended header is announced, but the message ends even before its position. *)
Definition stunted (e : storage_entry) : Prop :=
  flag (htype e) 0 = true /\ length (tail (dlt e)) < announced (htype e).
(** The whole stored message. *)
Definition size_of (e : storage_entry) : nat := 16 + N.to_nat (std_length (header (dlt e))).
(** The message info byte, the first byte of the extended header. *)
Definition info_byte (e : storage_entry) : byte := nth (announced (htype e)) (tail (dlt e)) x00.

(** "Hello World". *)
Definition hello : bytes := [x48; x65; x6c; x6c; x6f; x20; x57; x6f; x72; x6c; x64].

(** * Merging of periods *)
Definition meets (p q : N * N) : bool := ((fst p <=? snd q) && (fst q <=? snd p))%N.
Definition hull (p q : N * N) : N * N := (N.min (fst p) (fst q), N.max (snd p) (snd q)).
(** Periods in the order of their starts; a new one is joined with the first one it meets,
    and only with that one. *)
Fixpoint file_period (p : N * N) (l : list (N * N)) : list (N * N) :=
  match l with
  | [] => [p]
  | q :: l' => if (fst p <? fst q)%N then p :: l else q :: file_period p l'
  end.
Fixpoint join (p : N * N) (l : list (N * N)) : option ((N * N) * list (N * N)) :=
  match l with
  | [] => None
  | q :: l' => if meets q p then Some (hull q p, l')
               else match join p l' with Some (r, l'') => Some (r, q :: l'') | None => None end
  end.
Definition add_period (l : list (N * N)) (p : N * N) : list (N * N) :=
  match join p l with Some (r, l') => file_period r l' | None => file_period p l end.
Definition joined (ps : list (N * N)) : list (N * N) := fold_left add_period ps [].
(** First and last value of a run. *)
Definition extent {A : Type} (f : A -> N) (g : list A) : N * N :=
  match g with [] => (0, 0)%N | x :: g' => (f x, f (last g' x)) end.

(** The entries of one ECU. *)
Definition from_ecu (k : quad) (es : list storage_entry) : list storage_entry :=
  filter (fun e => if quad_dec (ecu_of e) k then true else false) es.
(** Byte-wise order of ECU ids. *)
Fixpoint bytes_before (a b : bytes) : Prop :=
  match a, b with
  | [], [] => False
  | [], _ :: _ => True
  | _ :: _, [] => False
  | x :: a', y :: b' => (bN x < bN y)%N \/ x = y /\ bytes_before a' b'
  end.
(** One row per ECU of [es], in ascending order of ECU ids, satisfying [row]. *)
Definition ecu_rows (es : list storage_entry) (row : list storage_entry -> list (N * nat) * nat -> Prop)
  (m : list (quad * (list (N * nat) * nat))) : Prop :=
  StronglySorted (fun a b => bytes_before (quad_bytes a) (quad_bytes b)) (map fst m) /\
  (forall k, In k (map fst m) <-> In k (map ecu_of es)) /\
  forall k x, In (k, x) m -> row (from_ecu k es) x.
(** Every printed ECU is text. *)
Definition ecus_text (es : list storage_entry) : Prop := forall e, In e es -> utf8_text (quad_bytes (ecu_of e)).

(** * Rows and tables printed by the commands *)
(** Some entry announces a timestamp and has none; every entry that announces one has it. *)
Definition unstamped (es : list storage_entry) : Prop := exists e, In e es /\ stampless e.
Definition all_stamped (es : list storage_entry) : Prop := forall e, In e es -> stamped e = true -> stamp e <> None.
(** Pairs of successive elements. *)
Definition neighbours {A} (l : list A) : list (A * A) := combine l (List.tl l).
(** A row of split_lifecycles: the number of entries, and the durations of its lifecycles in
    seconds. *)
Definition cycles_row (es : list storage_entry) (x : list (N * nat) * nat) : Prop :=
  snd x = length es /\
  exists runs, maximal_runs not_earlier es runs /\ number_table (map (fun g => span stamp_value g / 10000)%N runs) (fst x).
(** A row of split_timestamp: the number of entries, and the lengths of its continuous periods
    after joining. *)
Definition periods_row (es : list storage_entry) (x : list (N * nat) * nat) : Prop :=
  snd x = length es /\
  exists runs, maximal_runs continuous es runs /\ number_table (map (fun p => snd p - fst p)%N (joined (map (extent secs_of) runs))) (fst x).
(** The entry has an extended header. *)
Definition extended (e : storage_entry) : bool := flag (htype e) 0.
(** Verbose flag and message type, compared for equality and in the order of the standard's numbers
    (not verbose first, unknown types first). *)
Definition type_dec (p q : bool * option msg_type) : {p = q} + {p <> q}.
Proof. repeat decide equality. Defined.
Definition type_before (p q : bool * option msg_type) : Prop :=
  (fst p = false /\ fst q = true) \/
  fst p = fst q /\
  match snd p, snd q with
  | None, Some _ => True
  | Some t, Some u => (fst (numbers t) < fst (numbers u) \/ fst (numbers t) = fst (numbers u) /\ snd (numbers t) < snd (numbers u))%N
  | _, None => False
  end.
(** Verbose flag and message type given by an info byte: bit 0, and the standard's type of the byte in
    which bits 0 to 4 and 6 were kept. (The library loses bits 5 and 7 of the message type info.) *)
Definition shown_type (b : byte) : bool * option msg_type :=
  (flag b 0, standard_type (bN b mod 32 + 64 * ((bN b / 64) mod 2))%N).
