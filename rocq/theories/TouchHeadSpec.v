(** Vocabulary for C136: which bytes of a mapped file ripdlt's commands need. *)
From Verif Require Import Base DltModel MatchModel MappedModel TouchModel TouchCmd Spec.

(** [x] needs the bytes in [set]: if all of them can be read it does what [y] does, if one of them cannot it is killed. *)
Definition needs {A} (P : reading) (set : nat -> Prop) (x y : act A) : Prop :=
  forall t, ((forall p, set p -> reads P 0 p = true) -> x t = y t) /\ (forall p, set p -> reads P 0 p = false -> x t = Fuel).
(** Whether a byte can be read does not change. *)
Definition lasting (P : reading) : Prop := forall t p, reads P t p = reads P 0 p.

(** The message at position [o] of the file [b]: the bits of its header type (the byte behind the storage header of 16 bytes), and
    where its extended header would begin and end: behind the 16 + 4 bytes that every message has and four bytes for each of ECU id, session id and timestamp. *)
Definition has (b : bytes) (o : nat) (k : N) : bool := flag (nth (o + 16) b x00) k.
Definition four (c : bool) : nat := if c then 4 else 0.
Definition time_at (b : bytes) (o : nat) : nat := o + 20 + four (has b o 2) + four (has b o 3).
Definition extended_at (b : bytes) (o : nat) : nat := time_at b o + four (has b o 4).
Definition headers_end (b : bytes) (o : nat) : nat := extended_at b o + if has b o 0 then 10 else 0.

(** The header type, and the bytes of the field if the message says that it has it and is long enough. *)
Definition time_bytes (b : bytes) (v : nat * nat) (p : nat) : Prop :=
  p = fst v + 16 \/ (has b (fst v) 4 = true /\ time_at b (fst v) + 4 <= fst v + snd v /\ time_at b (fst v) <= p < time_at b (fst v) + 4).
Definition ecu_bytes (b : bytes) (v : nat * nat) (p : nat) : Prop :=
  p = fst v + 16 \/ (has b (fst v) 2 = true /\ 24 <= snd v /\ fst v + 20 <= p < fst v + 24).
Definition info_bytes (b : bytes) (v : nat * nat) (p : nat) : Prop :=
  p = fst v + 16 \/ (has b (fst v) 0 = true /\ extended_at b (fst v) + 10 <= fst v + snd v /\ p = extended_at b (fst v)).
