(** Vocabulary for C135: what ripdlt prints from a mapped file that is truncated or changed meanwhile. *)
From Coq Require Import String.
From Verif Require Import Base DltModel MatchModel GenModel ToolsModel MainModel PrintModel PrintSpec MappedModel MappedCmd TouchModel TouchMore TouchCmd TouchCmdSpec.

(** The process was killed (TouchRun.v). *)
Definition killed (r : run) : Prop := how r = Endless.
(** Everything can be read. *)
Definition everything : reading := {| reads := fun _ _ => true; reach := fun _ _ => 0; rreach := fun _ _ => 0; looks_at := fun _ _ _ => true; hreach := fun _ _ => 0 |}.
(** Before it was killed it printed the arguments, and of the lines with which the command begins (a heading, the number of slices) the
    first ones. *)
Definition killed_early (C : console) (prog : string) (args : list string) (cmd : string) (r : run) : Prop :=
  killed r /\ exists slices ts k, opening cmd (cores C) slices ts /\ out r = lines_text (ascii (String.concat " " (prog :: args)) :: firstn k ts).
(** What was printed is the beginning of what the other prints. *)
Definition prints_less (r r' : run) : Prop := exists rest, out r' = out r ++ rest.
