(** Vocabulary of the properties C101 to C104. *)
From Verif Require Import Base Spec.

(** Twenty bytes that claim to be a message of sixty: behind one another, every one of them begins in the middle
    of the two in front of it. *)
Definition overlap_unit : bytes := [x44; x4c; x54; x01; x00; x00; x00; x00; x00; x00; x00; x00; x00; x00; x00; x00; x00; x00; x00; x2c].
Definition overlapping (n : nat) : bytes := concat (repeat overlap_unit n).

(** Any place is led back to at most [k] messages: those that reach across it, those that reach across the first
    byte of one of these, and so on. *)
Definition led_back (b : bytes) (k : nat) : Prop := forall p, exists chain, length chain <= k /\
  (forall i m, message_at b i m -> i < p < i + length m -> In i chain) /\
  (forall j i m, In j chain -> message_at b i m -> i < j < i + length m -> In i chain).
