(** Vocabulary for edited files: cut ones, and ones whose payloads were overwritten (C89, C90),
    and for adding up printed tables (C91).
    Nothing here refers to the model's functions. *)
From Verif Require Import Base DltModel Spec.
From Coq Require Import Sorted.

(** The messages that end within the first [cut] bytes. *)
Definition within (cut : nat) (ms : list (nat * bytes)) : list (nat * bytes) :=
  filter (fun p => fst p + length (snd p) <=? cut) ms.

(** [b'] has the length of [b] and differs from it at most behind the first 20 bytes (storage header
    and standard header) of the messages [ms]. *)
Definition overwritten (ms : list (nat * bytes)) (b b' : bytes) : Prop :=
  length b' = length b /\
  forall j, (forall k m, In (k, m) ms -> ~ (k + 20 <= j < k + length m)) -> nth_error b' j = nth_error b j.

(** Same place, same length, same first 20 bytes. *)
Definition same_head (p q : nat * bytes) : Prop :=
  fst p = fst q /\ length (snd p) = length (snd q) /\ firstn 20 (snd p) = firstn 20 (snd q).

(** How often a table counts [k]. *)
Definition listed {K : Type} (dec : forall a b : K, {a = b} + {a <> b}) (h : list (K * nat)) (k : K) : nat :=
  list_sum (map snd (filter (fun kn => if dec (fst kn) k then true else false) h)).
(** [h] is the sum of the tables [h1] and [h2]: ascending keys, those of both, and the counts added. *)
Definition added {K : Type} (dec : forall a b : K, {a = b} + {a <> b}) (before : K -> K -> Prop) (h1 h2 h : list (K * nat)) : Prop :=
  StronglySorted before (map fst h) /\
  (forall k, listed dec h k = listed dec h1 k + listed dec h2 k) /\
  (forall k, In k (map fst h) <-> In k (map fst h1) \/ In k (map fst h2)).
(** The sum of all sizes in a table of sizes. *)
Definition weighed (h : list (N * nat)) : N := fold_right N.add 0%N (map (fun kn => (fst kn * N.of_nat (snd kn))%N) h).
