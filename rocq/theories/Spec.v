(** Vocabulary in which the properties are stated.  Nothing here refers to the model's
    functions; the only model types used are the result records of the API
    ([storage_entry] and its parts), in [denotes], and the shape of a parallel reduction
    ([scheduler], [leaves]), in [fair_sched]. *)
From Verif Require Import Base DltModel MatchModel GenModel ToolsModel.
From Coq Require Import Sorted Permutation.

(** [m] occurs in [b] starting at index [k]. *)
Definition occurs_at (m b : bytes) (k : nat) : Prop :=
  exists pre post, b = pre ++ m ++ post /\ length pre = k.

Definition occurs_in (m b : bytes) : Prop := exists k, occurs_at m b k.

(** The DLT storage pattern: 'D' 'L' 'T' 0x01. *)
Definition the_pattern : bytes := [x44; x4c; x54; x01].

(** Byte [k] of [b] as a number (only used where [k < length b]). *)
Definition byte_at (b : bytes) (k : nat) : N := Strings.Byte.to_N (nth k b x00).

(** 16-bit big-endian, 32-bit big-endian and 32-bit little-endian numbers at [k]. *)
Definition u16_at (b : bytes) (k : nat) : N := (256 * byte_at b k + byte_at b (k + 1))%N.
Definition u32be_at (b : bytes) (k : nat) : N :=
  (16777216 * byte_at b k + 65536 * byte_at b (k + 1) + 256 * byte_at b (k + 2) + byte_at b (k + 3))%N.
Definition u32le_at (b : bytes) (k : nat) : N :=
  (byte_at b k + 256 * byte_at b (k + 1) + 65536 * byte_at b (k + 2) + 16777216 * byte_at b (k + 3))%N.

(** A byte string that is exactly one valid stored DLT message: the pattern, at least the
    16-byte storage header and the 4-byte standard header, and a length field (bytes 18-19)
    that counts everything after the storage header. *)
Definition valid_message (m : bytes) : Prop :=
  firstn 4 m = the_pattern /\ 20 <= length m /\ u16_at m 18 = N.of_nat (length m - 16).

(** Message [m] lies in [b] at offset [k]. *)
Definition message_at (b : bytes) (k : nat) (m : bytes) : Prop :=
  valid_message m /\ occurs_at m b k.

(** The entry returned by the API shows the content of the message bytes [m]. *)
Definition denotes (e : storage_entry) (m : bytes) : Prop :=
  quad_bytes (pattern (sheader e)) = firstn 4 m /\
  secs (sheader e) = u32le_at m 4 /\
  (msecs (sheader e) mod 4294967296 = Z.of_N (u32le_at m 8))%Z /\
  (-2147483648 <= msecs (sheader e) < 2147483648)%Z /\
  quad_bytes (ecu (sheader e)) = firstn 4 (skipn 12 m) /\
  header_type (header (dlt e)) = nth 16 m x00 /\
  message_counter (header (dlt e)) = nth 17 m x00 /\
  std_length (header (dlt e)) = u16_at m 18 /\
  tail (dlt e) = skipn 20 m.

(** A list of chunks with the offset at which each starts. *)
Fixpoint with_offsets {A : Type} (size : A -> nat) (k : nat) (l : list A) : list (nat * A) :=
  match l with
  | [] => []
  | x :: l' => (k, x) :: with_offsets size (k + size x) l'
  end.

(** Items [(offset, entry)] show the messages [(offset, bytes)], one to one and in order. *)
Definition shows (items : list (nat * storage_entry)) (ms : list (nat * bytes)) : Prop :=
  Forall2 (fun i m => fst i = fst m /\ denotes (snd i) (snd m)) items ms.

(** A file: pairs of garbage and a message, one after the other, then trailing garbage. *)
Fixpoint layout (parts : list (bytes * bytes)) (last : bytes) : bytes :=
  match parts with
  | [] => last
  | (j, m) :: ps => j ++ m ++ layout ps last
  end.
(** The messages of such a file with their offsets ([k] bytes in front of it). *)
Fixpoint placed (k : nat) (parts : list (bytes * bytes)) : list (nat * bytes) :=
  match parts with
  | [] => []
  | (j, m) :: ps => (k + length j, m) :: placed (k + length j + length m) ps
  end.
(** The messages are valid and the garbage in front of each contains no pattern. *)
Definition parts_ok (parts : list (bytes * bytes)) : Prop :=
  Forall (fun p => ~ occurs_in the_pattern (fst p) /\ valid_message (snd p)) parts.

(** What [n] successive calls of an iterator's [next] return. *)
Fixpoint calls {S A : Type} (next : S -> outcome (S * option A)) (n : nat) (s : S)
  : outcome (list (option A)) :=
  match n with
  | O => Ret []
  | Datatypes.S n' =>
      match next s with
      | Ret (s', o) => match calls next n' s' with Ret os => Ret (o :: os) | Panic => Panic | Fuel => Fuel end
      | Panic => Panic
      | Fuel => Fuel
      end
  end.

(** Bit [k] of a byte. *)
Definition flag (h : byte) (k : N) : bool := N.testbit (Strings.Byte.to_N h) k.

(** Standard DLT header type bits: 0 extended header, 1 MSB first, 2 ECU id, 3 session id,
    4 timestamp.  Size of the optional standard header fields announced by [h]. *)
Definition announced (h : byte) : nat :=
  (if flag h 2 then 4 else 0) + (if flag h 3 then 4 else 0) + (if flag h 4 then 4 else 0).

Definition present {A : Type} (o : option A) : bool := match o with Some _ => true | None => false end.
Definition opt_bytes (o : option bytes) : bytes := match o with Some b => b | None => [] end.
(** An absent field, or one of exactly four bytes. *)
Definition field4 (o : option bytes) : Prop := forall b, o = Some b -> length b = 4.
(** Ten bytes of extended header: info, number of arguments, application id, context id. *)
Definition ext_bytes (o : option ext_header) : bytes :=
  match o with
  | Some x => [msin x; noar x] ++ quad_bytes (apid x) ++ quad_bytes (ctid x)
  | None => []
  end.

(** The message info byte according to the DLT standard: bits 1-3 message type, bits 4-7
    message type info (numbered from 1). *)
Definition from_one {A : Type} (l : list A) (n : N) : option A :=
  if (n =? 0)%N then None else nth_error l (N.to_nat n - 1).
Definition standard_type (msin : N) : option msg_type :=
  let mstp := ((msin / 2) mod 8)%N in
  let mtin := (msin / 16)%N in
  if (mstp =? 0)%N then
    option_map TypeLog (from_one [LogFatal; LogError; LogWarn; LogInfo; LogDebug; LogVerbose] mtin)
  else if (mstp =? 1)%N then
    option_map TypeAppTrace (from_one [TraceVariable; TraceFunctionIn; TraceFunctionOut; TraceState; TraceVfb] mtin)
  else if (mstp =? 2)%N then
    option_map TypeNwTrace (from_one [NwIpc; NwCan; NwFlexray; NwMost; NwEthernet; NwSomeip] mtin)
  else if (mstp =? 3)%N then
    option_map TypeControl (from_one [CtlRequest; CtlResponse] mtin)
  else None.

(** (message type number, message type info number) of the standard. *)
Definition numbers (t : msg_type) : N * N :=
  match t with
  | TypeLog LogFatal => (0, 1) | TypeLog LogError => (0, 2) | TypeLog LogWarn => (0, 3)
  | TypeLog LogInfo => (0, 4) | TypeLog LogDebug => (0, 5) | TypeLog LogVerbose => (0, 6)
  | TypeAppTrace TraceVariable => (1, 1) | TypeAppTrace TraceFunctionIn => (1, 2)
  | TypeAppTrace TraceFunctionOut => (1, 3) | TypeAppTrace TraceState => (1, 4)
  | TypeAppTrace TraceVfb => (1, 5)
  | TypeNwTrace NwIpc => (2, 1) | TypeNwTrace NwCan => (2, 2) | TypeNwTrace NwFlexray => (2, 3)
  | TypeNwTrace NwMost => (2, 4) | TypeNwTrace NwEthernet => (2, 5) | TypeNwTrace NwSomeip => (2, 6)
  | TypeControl CtlRequest => (3, 1) | TypeControl CtlResponse => (3, 2)
  end%N.
(** The low byte of the address of the constructor function of [t]'s message type. *)
Definition addr_of (A : ctor_addrs) (t : msg_type) : byte :=
  match t with TypeLog _ => addr_log A | TypeAppTrace _ => addr_app A
             | TypeNwTrace _ => addr_nw A | TypeControl _ => addr_ctl A end.

(** * Patterns *)

(** [M b s e]: the pattern matches [b] between [s] and [e] (it may look at all of [b]). *)
Definition matcher : Type := bytes -> nat -> nat -> Prop.

(** What a regular expression library promises for "find from offset": a leftmost match. *)
Definition leftmost (M : matcher) (find_at : bytes -> nat -> option (nat * nat)) : Prop :=
  forall b off, off <= length b ->
  match find_at b off with
  | Some (s, e) => off <= s /\ s <= e /\ e <= length b /\ M b s e /\
                   forall s' e', off <= s' < s -> ~ M b s' e'
  | None => forall s' e', off <= s' -> ~ M b s' e'
  end.
(** The same with the span of capture group 1, which lies inside the match if it took part. *)
Definition leftmost_capture (M : matcher)
  (captures_at : bytes -> nat -> option ((nat * nat) * option (nat * nat))) : Prop :=
  leftmost M (fun b off => option_map fst (captures_at b off)) /\
  forall b off s e gs ge, captures_at b off = Some ((s, e), Some (gs, ge)) -> s <= gs /\ gs <= ge /\ ge <= e.

Definition literal (needle : bytes) : matcher :=
  fun b s e => occurs_at needle b s /\ e = s + length needle.
(** The pattern has no empty match in [b]. *)
Definition never_empty (M : matcher) (b : bytes) : Prop := forall s e, M b s e -> s < e.

(** The bytes [s..e] lie inside the message [p] (offset and bytes), behind its marker. *)
Definition inside (p : nat * bytes) (s e : nat) : Prop :=
  fst p + 4 <= s /\ e <= fst p + length (snd p).
Definition apart (p : nat * bytes) (s e : nat) : Prop :=
  e <= fst p \/ fst p + length (snd p) <= s.
(** Every match lies inside one message or apart from all of them. *)
Definition no_crossing (M : matcher) (b : bytes) (ms : list (nat * bytes)) : Prop :=
  forall s e, M b s e -> (exists p, In p ms /\ inside p s e) \/ (forall p, In p ms -> apart p s e).

(** A file whose markers are exactly the starts of its messages. *)
Definition clean (parts : list (bytes * bytes)) (last : bytes) : Prop :=
  Forall (fun p => valid_message (snd p)) parts /\
  forall k, occurs_at the_pattern (layout parts last) k -> exists m, In (k, m) (placed 0 parts).

(** The pattern H.* World of ripdlt; [dotstar] is the set of byte strings that .* matches. *)
Definition h_star_world (dotstar : bytes -> Prop) : matcher :=
  fun b s e => exists mid, dotstar mid /\
    occurs_at ([x48] ++ mid ++ [x20; x57; x6f; x72; x6c; x64]) b s /\ e = s + 7 + length mid.

(** The pattern (?m)$: the empty string before a line feed and at the end. *)
Definition end_of_line : matcher :=
  fun b s e => s = e /\ (s = length b \/ occurs_at [x0a] b s).

(** A file in which every occurrence of the pattern lies inside one of its messages (payloads
    may contain anything, garbage between the messages contains no pattern, not even one that
    a message end completes). *)
Definition enclosed (parts : list (bytes * bytes)) (last : bytes) : Prop :=
  Forall (fun p => valid_message (snd p)) parts /\
  forall k, occurs_at the_pattern (layout parts last) k ->
    exists k' m, In (k', m) (placed 0 parts) /\ k' <= k /\ k + 4 <= k' + length m.
(** All messages have at most [max] bytes. *)
Definition at_most (max : N) (parts : list (bytes * bytes)) : Prop :=
  Forall (fun p => (N.of_nat (length (snd p)) <= max)%N) parts.
(** Position [c] is not strictly inside one of the messages. *)
Definition between (ms : list (nat * bytes)) (c : nat) : Prop :=
  forall k m, In (k, m) ms -> c <= k \/ k + length m <= c.

(** * Adapters and reducers *)

(** Rust's contract for [Ord::cmp], with [Eq] only for identical values. *)
Record total_order {K : Type} (cmp : K -> K -> comparison) : Prop := {
  order_eq : forall a b, cmp a b = Eq <-> a = b;
  order_sym : forall a b, cmp b a = CompOpp (cmp a b);
  order_trans : forall a b c, cmp a b = Lt -> cmp b c = Lt -> cmp a c = Lt
}.
(** Strictly ascending in the order [cmp]. *)
Definition ascending {K : Type} (cmp : K -> K -> comparison) (l : list K) : Prop :=
  StronglySorted (fun a b => cmp a b = Lt) l.

(** Every element of [l] is related to its successor. *)
Fixpoint linked {A : Type} (rel : A -> A -> bool) (l : list A) : Prop :=
  match l with
  | x :: ((y :: _) as l') => rel x y = true /\ linked rel l'
  | _ => True
  end.
(** [groups] are the maximal runs of [rel] in [xs]: non-empty pieces in which each element is
    related to its successor, while the last element of a piece is not related to the first
    element of the next one. *)
Fixpoint broken {A : Type} (rel : A -> A -> bool) (groups : list (list A)) : Prop :=
  match groups with
  | g :: ((h :: _) as gs) =>
      (forall d, rel (last g d) (hd d h) = false) /\ broken rel gs
  | _ => True
  end.
Definition maximal_runs {A : Type} (rel : A -> A -> bool) (xs : list A) (groups : list (list A)) : Prop :=
  concat groups = xs /\ Forall (fun g => g <> []) groups /\ Forall (linked rel) groups /\ broken rel groups.
(** [p] is the first and the last element of [g]. *)
Definition ends {A : Type} (g : list A) (p : A * A) : Prop :=
  hd_error g = Some (fst p) /\ forall d, last g d = snd p.

(** The message holds all the header fields that its header type announces. *)
Definition complete (m : bytes) : Prop :=
  20 + announced (nth 16 m x00) + (if flag (nth 16 m x00) 0 then 10 else 0) <= length m.

(** * Files and commands *)

(** Every message that lies anywhere in the file is complete. *)
Definition all_complete (b : bytes) : Prop := forall k m, message_at b k m -> complete m.

(** UTF-8 (RFC 3629): scalar values and their encodings. *)
Definition scalar (c : N) : Prop := (c < 55296 \/ 57344 <= c < 1114112)%N.
Definition utf8_char (c : N) : bytes :=
  (if c <? 128 then [u8 c]
   else if c <? 2048 then [u8 (192 + c / 64); u8 (128 + c mod 64)]
   else if c <? 65536 then [u8 (224 + c / 4096); u8 (128 + c / 64 mod 64); u8 (128 + c mod 64)]
   else [u8 (240 + c / 262144); u8 (128 + c / 4096 mod 64); u8 (128 + c / 64 mod 64); u8 (128 + c mod 64)])%N.
Definition utf8_text (b : bytes) : Prop := exists cs, Forall scalar cs /\ b = concat (map utf8_char cs).
(** The storage header's ECU id (bytes 12-15) of every message in the file is text. *)
Definition all_ecu_text (b : bytes) : Prop :=
  forall k m, message_at b k m -> utf8_text (firstn 4 (skipn 12 m)).

(** What a table records under key [k] (the sum over its entries with that key). *)
Definition under {K : Type} (dec : forall a b : K, {a = b} + {a <> b}) (k : K) (h : list (K * nat)) : nat :=
  list_sum (map snd (filter (fun kv => if dec (fst kv) k then true else false) h)).
Definition quad_dec (p q : quad) : {p = q} + {p <> q}.
Proof. decide equality; apply Strings.Byte.byte_eq_dec. Defined.
(** All counts of a table. *)
Definition counts {K : Type} (h : list (K * nat)) : nat := list_sum (map snd h).

(** A reduction that uses every partial result exactly once, in whatever order, nesting and with
    however many identities. *)
Definition fair_sched (s : scheduler) : Prop := forall (A : Type) (l : list A), Permutation (leaves (s A l)) l.

(** The ECU, and the seconds of the storage header, of an entry. *)
Definition ecu_of (e : storage_entry) : quad := ecu (sheader e).
Definition secs_of (e : storage_entry) : N := secs (sheader e).

(** * dd_dlt *)

(** Fewer than 1024 bytes follow the last line feed, if there is one. *)
Definition line_fits (buf : bytes) : Prop :=
  forall pre post, buf = pre ++ [x0a] ++ post -> ~ In x0a post -> length post < 1024.
(** A decimal numeral (most significant digit first) and its value. *)
Definition numeral (ds : list N) : bytes := map (fun d => u8 (48 + d)) ds.
Definition decimal (ds : list N) : N := fold_left (fun n d => (10 * n + d)%N) ds 0%N.
