(** Vocabulary for C110 and C111. *)
From Coq Require Import String.
From Verif Require Import Base DltModel MatchModel Spec.
Local Open Scope list_scope.

(** [forward_call b off k e off']: one call of the sequential, the searching, the contiguous or the grep iterator
    over [b], standing at [off], delivers the entry [e] found at [k] and leaves the iterator at [off']. *)
Inductive forward_call (b : bytes) (off k : nat) (e : storage_entry) (off' : nat) : Prop :=
| by_sequential fuel : fallback_next DLT fuel b off = Ret (off', Some (k, e)) -> forward_call b off k e off'
| by_search fuel : search_next DLT fuel b off = Ret (off', Some (k, e)) -> forward_call b off k e off'
| by_contiguous : readit_next DLT b off = Ret (off', Some (k, e)) -> forward_call b off k e off'
| by_grep (M : matcher) find_at fuel : leftmost M find_at -> grep_next DLT find_at fuel b off = Ret (off', Some (k, e)) ->
    forward_call b off k e off'.
(** The same for the backward iterator. *)
Definition backward_call (b : bytes) (off k : nat) (e : storage_entry) : Prop :=
  off <= length b /\ exists fuel off', rev_next DLT fuel b (N.of_nat off) = Ret (off', Some (k, e)).

(** The bytes of an item an iterator over [b] has delivered: as many as the entry says, from its offset on. *)
Definition copy (b : bytes) (item : nat * storage_entry) : bytes :=
  firstn (storage_len (snd item)) (skipn (fst item) b).

(** The commands of ripdlt that read the messages one after the other. *)
Definition sequential_commands : list string :=
  (["count"; "count_hello_world"; "histogram_message_size"; "histogram_payload_size"; "histogram_message_type";
    "histogram_timestamp"; "split_timestamp"; "iter"; "itertools"; "histogram_lifecycles"; "split_lifecycles"])%string.
