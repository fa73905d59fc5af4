(** Vocabulary for C134: ripdlt's commands on a file of which some bytes cannot be read. *)
From Verif Require Import Base DltModel MatchModel MappedModel TouchModel TouchMore TouchCmd.

(** The command is killed, or does exactly what the other does: the same result, or a panic like it. *)
Definition same_or_killed {A} (x y : act A) : Prop := forall t, x t = y t \/ x t = Fuel.
(** They do exactly the same. *)
Definition just_as {A} (x y : act A) : Prop := forall t, x t = y t.
(** If the command returns, it returns [o]'s result; it panics only if [o] panics. *)
Definition reports {A} (x : act A) (o : outcome A) : Prop :=
  forall t, o <> Fuel -> (forall r t', x t = Ret (r, t') -> o = Ret r) /\ (x t = Panic -> o = Panic).
(** Every byte of the mapping of [n] bytes can be read, each time. *)
Definition all_readable (n : nat) (P : reading) : Prop := forall t p, p < n -> reads P t p = true.
(** Two histories of a file of [n] bytes that agree on all bytes that can be read when they can be read; where the regular
    expression engine looks at the same bytes, it gives the same answer. *)
Definition agree_where_readable (mem mem' : nat -> bytes) (F F' : bytes -> nat -> option (nat * nat)) (n : nat) (P : reading) : Prop :=
  (forall t, length (mem t) = n /\ length (mem' t) = n) /\
  (forall t p, reads P t p = true -> nth p (mem t) x00 = nth p (mem' t) x00) /\
  (forall t a, (forall p, p < n -> looks_at P t a p = true -> nth p (mem t) x00 = nth p (mem' t) x00) -> F' (mem' t) a = F (mem t) a).
