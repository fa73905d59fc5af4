(** Vocabulary of the property C114. *)
From Verif Require Import Base Spec ReadSpec.

(** Grepping from [off] passes over exactly [n] matches: it comes to the end, or to a match within a message, after
    [n] matches that are not within the message in front of them. *)
Inductive passes (find : bytes -> nat -> option (nat * nat)) (b : bytes) : nat -> nat -> Prop :=
| passes_end off : length b <= off -> passes find b off 0
| passes_no_match off : find b off = None -> passes find b off 0
| passes_hit off s e k m : find b off = Some (s, e) -> owner b s k -> message_at b k m -> e <= k + length m -> passes find b off 0
| passes_over off s e n : off < length b -> find b off = Some (s, e) ->
    (forall k m, owner b s k -> message_at b k m -> k + length m < e) ->
    passes find b e n -> passes find b off (S n).

(** A text of [n] lines. *)
Definition hello_line : bytes := [x48; x65; x6c; x6c; x6f; x20; x57; x6f; x72; x6c; x64; x0a].
Definition hello_text (n : nat) : bytes := concat (repeat hello_line n).
