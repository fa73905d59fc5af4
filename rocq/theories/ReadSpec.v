(** Vocabulary for the exact behaviour of the iterators on arbitrary slices (C65 and later).
    Like Spec.v, nothing here refers to the model's functions. *)
From Verif Require Import Base DltModel MatchModel GenModel ToolsModel Spec.
From Coq Require Import Sorted.

(** No message starts at the beginning of [b]. *)
Definition unreadable (b : bytes) : Prop := forall m rest, b = m ++ rest -> ~ valid_message m.

(** [b] splits into pattern-free garbage and messages, up to the end or up to the first pattern
    outside of these messages behind which no message can be read. *)
Definition read_split (b : bytes) (parts : list (bytes * bytes)) (last : bytes) : Prop :=
  b = layout parts last /\ parts_ok parts /\
  (~ occurs_in the_pattern last \/
   exists x rest, last = x ++ rest /\ ~ occurs_in the_pattern x /\ firstn 4 rest = the_pattern /\ unreadable rest).

(** Greedy selection of the messages of [b] from [off] on, from left to right: each selected message
    starts behind the previous one, and a message of [b] is left out only if it starts before [off]
    or inside a selected message that starts before it. *)
Definition greedy (b : bytes) (off : nat) (ms : list (nat * bytes)) : Prop :=
  (forall k m, In (k, m) ms -> off <= k /\ message_at b k m) /\
  StronglySorted (fun p q => fst p + length (snd p) <= fst q) ms /\
  forall k m, message_at b k m -> off <= k ->
    In (k, m) ms \/ exists k' m', In (k', m') ms /\ k' < k < k' + length m'.

(** [k] is the last position at which the pattern occurs entirely before [s]. *)
Definition owner (b : bytes) (s k : nat) : Prop :=
  occurs_at the_pattern b k /\ k + 4 <= s /\
  forall j, occurs_at the_pattern b j -> j + 4 <= s -> j <= k.

(** One step of grepping from [off] with the leftmost-match function [find]: the first match whose
    owner is a message that reaches at least to the end of the match; a match without such an owner
    is passed over, and the search goes on at the end of that match. *)
Inductive grep_step (find : bytes -> nat -> option (nat * nat)) (b : bytes)
  : nat -> option (nat * bytes) -> Prop :=
| grep_end off : length b <= off -> grep_step find b off None
| grep_no_match off : find b off = None -> grep_step find b off None
| grep_hit off s e k m : off < length b -> find b off = Some (s, e) ->
    owner b s k -> message_at b k m -> e <= k + length m -> grep_step find b off (Some (k, m))
| grep_skip off s e r : off < length b -> find b off = Some (s, e) ->
    (forall k m, owner b s k -> message_at b k m -> k + length m < e) ->
    grep_step find b e r -> grep_step find b off r.

(** The same for the capture iterator, whose items are the owner and the span of group 1; if group 1
    took no part in the match, the iterator reports the end. *)
Inductive capture_step (find : bytes -> nat -> option ((nat * nat) * option (nat * nat))) (b : bytes)
  : nat -> option (nat * (nat * nat)) -> Prop :=
| capture_end off : length b <= off -> capture_step find b off None
| capture_no_match off : find b off = None -> capture_step find b off None
| capture_hit off s e g k m : off < length b -> find b off = Some ((s, e), Some g) ->
    owner b s k -> message_at b k m -> e <= k + length m -> capture_step find b off (Some (k, g))
| capture_absent off s e k m : off < length b -> find b off = Some ((s, e), None) ->
    owner b s k -> message_at b k m -> e <= k + length m -> capture_step find b off None
| capture_skip off s e g r : off < length b -> find b off = Some ((s, e), g) ->
    (forall k m, owner b s k -> message_at b k m -> k + length m < e) ->
    capture_step find b e r -> capture_step find b off r.

(** groupby for an arbitrary relation: runs are delivered as in [maximal_runs] except that a single
    element is a run only if it is related to itself; a single element that is not keeps waiting for
    an element related to it, and the others are dropped meanwhile. *)
Inductive runs_of {A : Type} (rel : A -> A -> bool) : list A -> list (A * A) -> Prop :=
| runs_nil : runs_of rel [] []
| runs_run x ys rest out :
    linked rel (x :: ys) -> (ys <> [] \/ rel x x = true) ->
    (forall d z zs, rest = z :: zs -> rel (last (x :: ys) d) z = false) ->
    runs_of rel rest out ->
    runs_of rel (x :: ys ++ rest) ((x, last (x :: ys) x) :: out)
| runs_wait x y rest out :
    rel x x = false -> rel x y = false -> runs_of rel (x :: rest) out -> runs_of rel (x :: y :: rest) out
| runs_lost x : rel x x = false -> runs_of rel [x] [].

(** ** Partitions *)
(** A message is outermost if no outermost message that starts before it, by at most 65535 bytes,
    reaches over its marker. *)
Definition outermost_law (b : bytes) (outermost : nat -> Prop) : Prop :=
  forall i, outermost i <->
    (exists m, message_at b i m) /\
    forall j m, outermost j -> message_at b j m -> j < i -> (N.of_nat i <= N.of_nat j + 65535)%N ->
      j + length m < i + 4.
(** The outermost message at [j] starts at most 65535 bytes before position [p] and holds the byte
    at [p]. *)
Definition holds_byte (b : bytes) (outermost : nat -> Prop) (p j : nat) : Prop :=
  outermost j /\ j < p /\ (N.of_nat p <= N.of_nat j + 65535)%N /\
  exists m, message_at b j m /\ p + 1 <= j + length m.
(** Where a cut near [p] is made: at the start of the first message that holds the byte at [p], or at
    [p] itself if there is none or if [p] is one of the last two positions. *)
Definition cut_at (b : bytes) (outermost : nat -> Prop) (p c : nat) : Prop :=
  (p + 1 < length b /\ holds_byte b outermost p c /\ forall j, j < c -> ~ holds_byte b outermost p j) \/
  (c = p /\ (length b <= p + 1 \/ forall j, ~ holds_byte b outermost p j)).
(** The pieces from [start] on, the next cut being planned at [p].  The pieces stop without reaching
    the end of [b] when a planned cut is beyond the end or falls back to [start]. *)
Inductive pieces (b : bytes) (outermost : nat -> Prop) (size : nat) : nat -> nat -> list bytes -> Prop :=
| pieces_past start p : length b < p -> pieces b outermost size start p []
| pieces_stuck start p c : p <= length b -> cut_at b outermost p c -> c <= start ->
    pieces b outermost size start p []
| pieces_last start p c : p <= length b -> cut_at b outermost p c -> start < c ->
    length b <= c + size / 4 -> pieces b outermost size start p [skipn start b]
| pieces_next start p c l : p <= length b -> cut_at b outermost p c -> start < c ->
    c + size / 4 < length b -> pieces b outermost size c (c + size) l ->
    pieces b outermost size start p (firstn (c - start) (skipn start b) :: l).

(** ** merge *)
(** Storing [v] among the items [l], kept in the order of their keys: [v] replaces an item with the
    same key. *)
Definition stored {K I : Type} (cmp : K -> K -> comparison) (key : I -> K) (l : list I) (v : I) (l' : list I) : Prop :=
  ascending cmp (map key l') /\ forall x, In x l' <-> x = v \/ (In x l /\ key x <> key v).
(** One more input [x]: it is merged with the first stored item that accepts it, which is replaced by
    the result; if there is none, [x] itself is stored. *)
Definition merge_step {K I : Type} (cmp : K -> K -> comparison) (f : I -> I -> option I) (key : I -> K)
  (l : list I) (x : I) (l' : list I) : Prop :=
  (exists l1 p l2 v, l = l1 ++ p :: l2 /\ Forall (fun q => f q x = None) l1 /\ f p x = Some v /\
     stored cmp key (l1 ++ l2) v l') \/
  (Forall (fun q => f q x = None) l /\ stored cmp key l x l').
Inductive merge_run {K I : Type} (cmp : K -> K -> comparison) (f : I -> I -> option I) (key : I -> K)
  : list I -> list I -> list I -> Prop :=
| merge_done l : merge_run cmp f key l [] l
| merge_more l x l1 xs l2 : merge_step cmp f key l x l1 -> merge_run cmp f key l1 xs l2 ->
    merge_run cmp f key l (x :: xs) l2.

(** ** Accessors *)
(** Four bytes at [k]. *)
Definition quad_at (m : bytes) (k : nat) : quad := Quad (nth k m x00) (nth (k + 1) m x00) (nth (k + 2) m x00) (nth (k + 3) m x00).

(** ** dd_dlt *)
(** What arrives of the chunk [c] in the file: everything up to the last line feed, and of the rest
    as much as the standard library's buffer takes. *)
Definition arrives (takes : bytes -> bytes) (c out : bytes) : Prop :=
  (~ In x0a c /\ out = c) \/
  exists pre post, c = pre ++ [x0a] ++ post /\ ~ In x0a post /\ out = pre ++ [x0a] ++ takes post.
(** Message number [i] with the info byte [info] and the payload [p]. *)
Definition dd_wire (e a : quad) (info : byte) (psize : N) (i : nat) (p m : bytes) : Prop :=
  let c := (N.of_nat i mod 2 ^ 32)%N in
  length m = 34 + length p /\ firstn 4 m = the_pattern /\
  u32le_at m 4 = (c / 100)%N /\ u32le_at m 8 = (c mod 100 * 10000)%N /\ quad_at m 12 = e /\
  nth 16 m x00 = x31 /\ byte_at m 17 = (c mod 256)%N /\ u16_at m 18 = ((18 + psize) mod 65536)%N /\
  u32be_at m 20 = (c * 100 mod 2 ^ 32)%N /\ nth 24 m x00 = info /\ nth 25 m x00 = x00 /\
  quad_at m 26 = a /\ quad_at m 30 = a /\ skipn 34 m = p.

(** Grepping until the end: every step starts behind the message found before. *)
Inductive grep_run (find : bytes -> nat -> option (nat * nat)) (b : bytes) : nat -> list (nat * bytes) -> Prop :=
| grep_run_end off : grep_step find b off None -> grep_run find b off []
| grep_run_hit off k m ms : grep_step find b off (Some (k, m)) -> grep_run find b (k + length m) ms ->
    grep_run find b off ((k, m) :: ms).
