(** Vocabulary for C108: reading a file to which other programs append meanwhile. *)
From Verif Require Import Base InModel.

(** [h i]: the content of the file when read(2) is asked for the [i]-th time.  Others only append to it. *)
Definition appended_to (h : nat -> bytes) : Prop := forall i, exists d, h (S i) = h i ++ d.

(** [answers h i p evs e]: from the [i]-th call on, with [p] bytes read, read(2) may answer [evs], the last time
    in call [e]: at each call some bytes from position [p] on that are in the file at that moment (any
    portion of them), or a signal; the end if there are none; or an error ([fine] is then [false]). *)
Inductive answers (h : nat -> bytes) : nat -> nat -> list event -> nat -> bool -> Prop :=
| answers_end i p more : length (h i) <= p -> answers h i p (Delivers [] :: more) i true
| answers_error i p more : answers h i p (ReadFails :: more) i false
| answers_signal i p evs e fine : answers h (S i) p evs e fine -> answers h i p (Interrupted :: evs) e fine
| answers_bytes i p d rest evs e fine : d <> [] -> skipn p (h i) = d ++ rest ->
    answers h (S i) (p + length d) evs e fine -> answers h i p (Delivers d :: evs) e fine.
