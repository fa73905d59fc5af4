(** Vocabulary for C97-C99: what a sequence of answers of read(2) delivers. *)
From Coq Require Import String.
From Verif Require Import Base InModel CommandSpec PrintSpec.

(** The bytes before the end or the first error; signals do not count. *)
Inductive delivers : list event -> bytes -> Prop :=
| delivers_nothing : delivers [] []
| delivers_end evs : delivers (Delivers [] :: evs) []
| delivers_error evs : delivers (ReadFails :: evs) []
| delivers_not_open evs : delivers (ReadNotOpen :: evs) []
| delivers_signal evs b : delivers evs b -> delivers (Interrupted :: evs) b
| delivers_bytes d evs b : d <> [] -> delivers evs b -> delivers (Delivers d :: evs) (d ++ b).

(** The same bytes in other pieces. *)
Definition same_bytes (evs evs' : list event) : Prop := exists b, delivers evs b /\ delivers evs' b.

(** dd_dlt's report and usage. *)
Definition reports (count size : N) (t : bytes) : Prop :=
  exists tc ts, numeral_of count tc /\ numeral_of size ts /\
    t = ascii "wrote " ++ tc ++ ascii " DLT messages with payload size=" ++ ts ++ ascii "b" ++ [x0a].
