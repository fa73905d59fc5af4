(** Vocabulary for C123 and C124: ripdlt's commands on a mapped file. *)
From Verif Require Import Base DltModel MatchModel GenModel ToolsModel MappedModel MappedCmd Spec ReadSpec MappedSpec.

(** A file that does not change: what lies at a position. *)
Definition still_cells (b : bytes) : cells := {|
  sees_secs := fun _ a => u32le_at b a;
  sees_quad := fun _ a => quad_at b a;
  sees_word := fun _ a => u32be_at b a;
  sees_byte := fun _ a => nth a b x00;
  sees_hello := fun _ a z => option_map (fun p => a + p) (find hello_world (firstn (z - a) (skipn a b)))
|}.
(** The file has content [mem t] when it is read for the [t]-th time. *)
Definition history_cells (mem : nat -> bytes) : cells := {|
  sees_secs := fun t a => u32le_at (mem t) a;
  sees_quad := fun t a => quad_at (mem t) a;
  sees_word := fun t a => u32be_at (mem t) a;
  sees_byte := fun t a => nth a (mem t) x00;
  sees_hello := fun t a z => option_map (fun p => a + p) (find hello_world (firstn (z - a) (skipn a (mem t))))
|}.
(** The bytes of a part (start, end). *)
Definition part_of (b : bytes) (p : nat * nat) : bytes := firstn (snd p - fst p) (skipn (fst p) b).
(** Run on the mapping, whatever has been read before, the command returns or panics as [o] says. *)
Definition runs_like {A} (x : act A) (o : outcome A) : Prop :=
  forall t, match o with
            | Ret r => exists t', x t = Ret (r, t')
            | Panic => x t = Panic
            | Fuel => True
            end.
(** The command returns, with a result that satisfies [P]. *)
Definition returns {A} (P : A -> Prop) (x : act A) : Prop := forall t, exists r t', x t = Ret (r, t') /\ P r.
(** The command does not panic, and what it returns, if it returns, satisfies [P]. *)
Definition no_panic {A} (P : A -> Prop) (x : act A) : Prop := forall t, x t <> Panic /\ forall r t', x t = Ret (r, t') -> P r.
(** The sum of the counts of a histogram. *)
Fixpoint in_all {K} (h : list (K * nat)) : nat := match h with [] => 0 | kv :: h' => snd kv + in_all h' end.
(** The command comes to an end, with a panic or with a result that satisfies [P]. *)
Definition ends_with {A} (P : A -> Prop) (x : act A) : Prop := forall t, x t <> Fuel /\ forall r t', x t = Ret (r, t') -> P r.
(** There is a file that always holds a log of valid messages, of one length, on each of which the command
    returns; but if it is overwritten while the command runs, the command panics. *)
Definition breaks {A} (alone : bytes -> outcome A) (cmd : world -> cells -> nat -> act A) : Prop :=
  exists (mem : nat -> bytes) (n : nat),
    (forall t, length (mem t) = n /\ (exists ms, Forall valid_message ms /\ mem t = concat ms) /\ exists r, alone (mem t) = Ret r) /\
    forall F, cmd (history mem F) (history_cells mem) n 0 = Panic.
