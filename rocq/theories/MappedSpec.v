(** Vocabulary for C115-C118: places in a mapping, and files that (in part) do not change. *)
From Verif Require Import Base DltModel MatchModel MappedModel Spec.

(** [l] lists places (start, length) within a mapping of [n] bytes, one behind the other, from [pos] on; each has
    at least the 20 bytes of the two headers. *)
Fixpoint spread (n pos : nat) (l : list (nat * nat)) : Prop :=
  match l with
  | [] => True
  | (a, k) :: l' => pos <= a /\ 20 <= k /\ a + k <= n /\ spread n (a + k) l'
  end.
(** The same, but one place may reach into the next; it starts at least 16 bytes further. *)
Fixpoint advancing (n pos : nat) (l : list (nat * nat)) : Prop :=
  match l with
  | [] => True
  | (a, k) :: l' => pos <= a /\ 20 <= k /\ a + k <= n /\ advancing n (a + 16) l'
  end.
(** The same backwards: each starts at least four bytes in front of the one before. *)
Fixpoint falling (n pos : nat) (l : list (nat * nat)) : Prop :=
  match l with
  | [] => True
  | (a, k) :: l' => a + 4 <= pos /\ 20 <= k /\ a + k <= n /\ falling n a l'
  end.
(** Parts (start, end) that are not empty, each starting where the one before ends. *)
Fixpoint in_line (n pos : nat) (l : list (nat * nat)) : Prop :=
  match l with
  | [] => True
  | (a, z) :: l' => a = pos /\ a < z <= n /\ in_line n z l'
  end.
(** Places that touch, without gaps. *)
Fixpoint touching (n pos : nat) (l : list (nat * nat)) : Prop :=
  match l with
  | [] => True
  | (a, k) :: l' => a = pos /\ 20 <= k /\ a + k <= n /\ touching n (a + k) l'
  end.
(** Captured groups (start of the message, (start, end) of the group): each message starts in front of its group,
    and each group starts behind the one before by at least the start of its message. *)
Fixpoint climbing (n pos : nat) (l : list (nat * (nat * nat))) : Prop :=
  match l with
  | [] => True
  | (o, (gs, ge)) :: l' => o + 20 <= n /\ o + 4 <= gs /\ pos <= gs /\ gs < ge <= n /\ climbing n (o + ge) l'
  end.

(** The length field of a standard header at position [a] of [b]. *)
Definition field_at (b : bytes) (a : nat) : nat := N.to_nat (u16_at b (a + 2)).

(** The first [c] bytes of the mapping are those of [b] and do not change: what lies in them is always read
    as it is; a search from [a] on finds the first marker if it lies in them, and none of them if
    there is none in them.  About everything else nothing is said. *)
Record steady (W : world) (b : bytes) (c : nat) : Prop := {
  steady_marker : forall t a, a + 4 <= c -> (sees_marker W t a = true <-> occurs_at the_pattern b a);
  steady_length : forall t a, a + 4 <= c -> sees_length W t a = field_at b a;
  steady_found : forall t a p, a <= p -> p + 4 <= c -> occurs_at the_pattern b p ->
    (forall q, a <= q < p -> ~ occurs_at the_pattern b q) -> sees_first W t a = Some p;
  steady_beyond : forall t a p, sees_first W t a = Some p -> p + 4 <= c -> occurs_at the_pattern b p
}.
(** What iterating delivers, as places. *)
Definition places (l : list (nat * storage_entry)) : list (nat * nat) := map (fun x => (fst x, storage_len (snd x))) l.

(** The result of a call of [next] (new state and item), with the place of the message for the message. *)
Definition moved {S} (r : S * option (nat * storage_entry)) : S * option (nat * nat) :=
  (fst r, option_map (fun x => (fst x, storage_len (snd x))) (snd r)).

(** A file that does not change at all, [find_at] being the regular expression engine. *)
Definition still (b : bytes) (find_at : bytes -> nat -> option (nat * nat)) : world := {|
  sees_marker := fun _ a => bytes_eqb (firstn 4 (skipn a b)) the_pattern;
  sees_length := fun _ a => field_at b a;
  sees_type := fun _ a => bN (nth a b x00);
  sees_first := fun _ a => option_map (fun p => a + p) (find the_pattern (skipn a b));
  sees_last := fun _ z => rfind the_pattern (firstn z b);
  sees_match := fun _ a => find_at b a
|}.
(** The file has content [mem t] when it is read for the [t]-th time. *)
Definition history (mem : nat -> bytes) (find_at : bytes -> nat -> option (nat * nat)) : world := {|
  sees_marker := fun t a => bytes_eqb (firstn 4 (skipn a (mem t))) the_pattern;
  sees_length := fun t a => field_at (mem t) a;
  sees_type := fun t a => bN (nth a (mem t) x00);
  sees_first := fun t a => option_map (fun p => a + p) (find the_pattern (skipn a (mem t)));
  sees_last := fun t z => rfind the_pattern (firstn z (mem t));
  sees_match := fun t a => find_at (mem t) a
|}.
(** The place lies in the message behind its two headers. *)
Definition within_place (v : nat * nat) (r : option (nat * nat)) : Prop :=
  forall a k, r = Some (a, k) -> fst v + 20 <= a /\ a + k <= fst v + snd v.
(** The computation on the mapping does what the accessor does, [view] being the value at a place. *)
Definition does_as {A} (view : nat * nat -> option A) (o : outcome (option A)) (x : act (option (nat * nat))) : Prop :=
  forall t, match o with
            | Ret r => exists p t', x t = Ret (p, t') /\ match p with Some p => view p | None => None end = r
            | Panic => x t = Panic
            | Fuel => x t = Fuel
            end.
