(** Vocabulary for C87-C89: results of iterators whose offsets are machine words. *)
From Verif Require Import Base MatchModel DdModel WordModel.

(** The same result with offsets as machine words. *)
Definition item_word {A : Type} (i : option (nat * A)) : option (N * A) := option_map (fun p => (N.of_nat (fst p), snd p)) i.
Definition in_words {A : Type} (r : outcome (nat * option (nat * A))) : outcome (N * option (N * A)) :=
  match r with Ret (o, i) => Ret (N.of_nat o, item_word i) | Panic => Panic | Fuel => Fuel end.
Definition list_words {A : Type} (r : outcome (list (nat * A))) : outcome (list (N * A)) :=
  match r with Ret l => Ret (map (fun p => (N.of_nat (fst p), snd p)) l) | Panic => Panic | Fuel => Fuel end.

(** The longest slice Rust allows (isize::MAX bytes). *)
Definition slice_max (m : target) : N := 2 ^ (bits m - 1) - 1.

(** What is read fits into the slice it is read from, and so does the length it reports. *)
Definition reads_fit {T : Type} (R : Readable T) : Prop := forall s n v,
  try_read R s = Ret (Some (n, v)) -> n <= length s /\ len_of R v <= length s.

(** The groups a pattern captures end inside the slice. *)
Definition groups_inside (captures_at : bytes -> nat -> option ((nat * nat) * option (nat * nat))) (b : bytes) : Prop :=
  forall o se gs ge, captures_at b o = Some (se, Some (gs, ge)) -> ge <= length b.

(** The offset of a backward iterator that has ended: the largest word of the machine for 2^64 - 1. *)
Definition rev_state (m : target) (off : N) : N := if (off =? 2 ^ 64 - 1)%N then (2 ^ bits m - 1)%N else off.
Definition rev_words {A : Type} (m : target) (r : outcome (N * option (nat * A))) : outcome (N * option (N * A)) :=
  match r with Ret (o, i) => Ret (rev_state m o, item_word i) | Panic => Panic | Fuel => Fuel end.
