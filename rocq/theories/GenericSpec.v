(** Vocabulary for C76-C79: matchit used with any type [T] that implements its traits
    ([R : Readable T] holds the implementation of FromBytesReadableTrait and SearchableMarkerTrait). *)
From Verif Require Import Base MatchModel Spec.
From Coq Require Import Sorted.

(** What a sensible implementation promises. *)
Record implements_well {T : Type} (R : Readable T) : Prop := {
  (** The marker is not empty, and no proper suffix of it is one of its prefixes. *)
  iw_nonempty : marker R <> [];
  iw_no_overlap : forall x y z, x <> [] -> y <> [] -> marker R = x ++ y -> marker R <> y ++ z;
  (** Reading at a marker does not panic. *)
  iw_total : forall rest, exists r, try_read_valid R (marker R ++ rest) = Ret r;
  (** What is read is longer than the marker, fits into the slice, and knows its own length. *)
  iw_fits : forall rest n v, try_read_valid R (marker R ++ rest) = Ret (Some (n, v)) ->
              len_of R v = n /\ length (marker R) < n /\ n <= length (marker R ++ rest)
}.
(** For partition_from: both read functions agree at a marker. *)
Definition reads_agree {T : Type} (R : Readable T) : Prop :=
  forall rest, try_read R (marker R ++ rest) = try_read_valid R (marker R ++ rest).

Section Generic.
  Context {T : Type}.
  Variable R : Readable T.
  Notation mlen := (length (marker R)).

  (** At [k] there is a marker and a value [v] of [n] bytes can be read. *)
  Definition reads (b : bytes) (k n : nat) (v : T) : Prop :=
    occurs_at (marker R) b k /\ try_read_valid R (skipn k b) = Ret (Some (n, v)).

  (** Reading one by one: always at the next marker, until there is none or the read fails. *)
  Definition next_marker (b : bytes) (off k : nat) : Prop :=
    off <= k /\ occurs_at (marker R) b k /\ forall j, off <= j < k -> ~ occurs_at (marker R) b j.
  Inductive one_by_one (b : bytes) : nat -> list (nat * T) -> Prop :=
  | no_more off : (forall j, off <= j -> ~ occurs_at (marker R) b j) -> one_by_one b off []
  | broken off k : next_marker b off k -> (forall n v, ~ reads b k n v) -> one_by_one b off []
  | one_more off k n v l : next_marker b off k -> reads b k n v -> one_by_one b (k + n) l ->
      one_by_one b off ((k, v) :: l).

  (** Greedy selection from the left of everything that can be read. *)
  Definition greedy_items (b : bytes) (off : nat) (l : list (nat * T)) : Prop :=
    (forall k v, In (k, v) l -> off <= k /\ exists n, reads b k n v) /\
    StronglySorted (fun p q => fst p + len_of R (snd p) <= fst q) l /\
    forall k n v, reads b k n v -> off <= k ->
      In (k, v) l \/ exists k' v', In (k', v') l /\ k' < k < k' + len_of R v'.

  (** Everything that can be read and whose marker lies before [off], from right to left. *)
  Definition backwards (b : bytes) (off : nat) (l : list (nat * T)) : Prop :=
    StronglySorted (fun p q => fst q < fst p) l /\
    forall k v, In (k, v) l <-> exists n, reads b k n v /\ k + mlen <= off.

  (** The last marker entirely before [s]. *)
  Definition last_marker (b : bytes) (s k : nat) : Prop :=
    occurs_at (marker R) b k /\ k + mlen <= s /\
    forall j, occurs_at (marker R) b j -> j + mlen <= s -> j <= k.
  (** One step of grepping (see ReadSpec.v). *)
  Inductive finds (find : bytes -> nat -> option (nat * nat)) (b : bytes) : nat -> option (nat * T) -> Prop :=
  | finds_end off : length b <= off -> finds find b off None
  | finds_nothing off : find b off = None -> finds find b off None
  | finds_owner off s e k n v : off < length b -> find b off = Some (s, e) ->
      last_marker b s k -> reads b k n v -> e <= k + n -> finds find b off (Some (k, v))
  | finds_later off s e r : off < length b -> find b off = Some (s, e) ->
      (forall k n v, last_marker b s k -> reads b k n v -> k + n < e) ->
      finds find b e r -> finds find b off r.

  (** Partitions (see ReadSpec.v); [max_len] is what the type reports as its maximum length. *)
  Definition outermost_items (b : bytes) (outermost : nat -> Prop) : Prop :=
    forall i, outermost i <->
      (exists n v, reads b i n v) /\
      forall j n v, outermost j -> reads b j n v -> j < i -> i <= j + max_len R -> j + n < i + mlen.
  Definition holds (b : bytes) (outermost : nat -> Prop) (p j : nat) : Prop :=
    outermost j /\ j < p /\ p <= j + max_len R /\ exists n v, reads b j n v /\ p + 1 <= j + n.
  Definition cut_point (b : bytes) (outermost : nat -> Prop) (p c : nat) : Prop :=
    (p + 1 < length b /\ holds b outermost p c /\ forall j, j < c -> ~ holds b outermost p j) \/
    (c = p /\ (length b <= p + 1 \/ forall j, ~ holds b outermost p j)).
  Inductive parts_from (b : bytes) (outermost : nat -> Prop) (size : nat) : nat -> nat -> list bytes -> Prop :=
  | parts_past start p : length b < p -> parts_from b outermost size start p []
  | parts_stuck start p c : p <= length b -> cut_point b outermost p c -> c <= start ->
      parts_from b outermost size start p []
  | parts_last start p c : p <= length b -> cut_point b outermost p c -> start < c ->
      length b <= c + size / 4 -> parts_from b outermost size start p [skipn start b]
  | parts_next start p c l : p <= length b -> cut_point b outermost p c -> start < c ->
      c + size / 4 < length b -> parts_from b outermost size c (c + size) l ->
      parts_from b outermost size start p (firstn (c - start) (skipn start b) :: l).
End Generic.
