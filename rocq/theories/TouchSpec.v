(** Vocabulary for C121 and C122: bytes of a mapped file that cannot be read. *)
From Verif Require Import Base DltModel MatchModel MappedModel TouchModel.

(** The run is killed, or does what it does if everything can be read. *)
Definition killed_or {A} (x : fate A) (y : outcome A) : Prop :=
  x = Killed \/ match y with Ret a => x = Back a | Panic => x = Panics | Fuel => x = Undecided end.
(** The items [l] were delivered when the run ended with [e]; all in all there would be [all]. *)
Definition delivers_of {A} (all : list A) (r : list A * fate unit) : Prop :=
  match r with
  | (l, Back _) => l = all
  | (l, Killed) => exists rest, all = l ++ rest
  | _ => False
  end.
(** The bytes of the marker and of the length field of a message that starts at [o]. *)
Definition key_byte (o p : nat) : Prop := o <= p < o + 4 \/ o + 18 <= p < o + 20.
(** Messages (start, length) one directly behind the other from [pos] on. *)
Fixpoint back_to_back (pos : nat) (l : list (nat * nat)) : Prop :=
  match l with
  | [] => True
  | (a, k) :: l' => a = pos /\ back_to_back (a + k) l'
  end.
