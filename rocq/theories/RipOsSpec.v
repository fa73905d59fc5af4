(** Vocabulary for C93: operating systems on which ripdlt prints. *)
From Verif Require Import Base DdOs.

(** Nothing is taken: an error, or no byte. *)
Definition refuses (a : answer) : Prop := a = Fails \/ a = Takes 0.
(** Standard output is open. *)
Definition is_open (o : os) : Prop := forall i, o i <> NotOpen.
(** Every call takes something. *)
Definition patient (o : os) : Prop := forall i, o i = TakesAll \/ exists k, o i = Takes (S k).
(** After a refusal everything is refused. *)
Definition lasting (o : os) : Prop := forall i j, i < j -> refuses (o i) -> refuses (o j).
