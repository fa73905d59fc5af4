(** Property theorem C93: ripdlt and an operating system that does not take every byte (vocabulary in
    RipOsSpec.v).  [ripdlt_run C prog args] is the run of PrintModel.v, where everything is taken. *)
From Coq Require Import String.
From Verif Require Import Base DltModel MatchModel GenModel ToolsModel MainModel PrintModel DdModel DdOs RipOs RipOsSpec Samples BaseFacts PrintFacts RipOsFacts.
From Verif Require Import P_Print P_Exact P_Commands.

(** C93.  What has arrived is a beginning of what ripdlt prints; either everything is there and ripdlt
    ends as usual, or it ends with the error "failed printing to stdout".  The lines are cut into
    fragments in any way. *)
Theorem C93_beginning_partial : forall (o : os) frag later (C : console) (prog : string) (args : list string),
  is_open o -> (forall t, concat (frag t) = t) ->
  nth_error args 1 <> Some "par_iter"%string \/ lasting o ->
  exists arr e missing, ripdlt_os o frag later C prog args = (arr, e) /\
    out (ripdlt_run C prog args) = arr ++ missing /\
    (e = RipUnprinted \/ e = RipEnd (how (ripdlt_run C prog args)) /\ missing = []).
Proof.
  intros o frag later C prog args O F Q.
  destruct (perform_open o frag later O F (ripdlt_script C prog args) stdout_new eq_refl) as (arr & e & miss & E & G & R).
  - destruct Q as [Q|Q]; [left; now apply ng_ripdlt|now right].
  - rewrite run_ripdlt in G, R. exists arr, e, miss. split; [exact E|]. split; [exact G|exact R].
Qed.
Print Assumptions C93_beginning_partial.

(** If every write takes something, be it a single byte, everything arrives, in order. *)
Theorem C93_patient : forall (o : os) frag later (C : console) (prog : string) (args : list string),
  patient o -> (forall t, concat (frag t) = t) ->
  ripdlt_os o frag later C prog args = (out (ripdlt_run C prog args), RipEnd (how (ripdlt_run C prog args))).
Proof.
  intros o frag later C prog args P F. unfold ripdlt_os. rewrite (perform_patient o frag later P F) by reflexivity.
  now rewrite run_ripdlt.
Qed.
Print Assumptions C93_patient.

(** A disk without any room is always noticed: ripdlt prints at least one line unless its arguments are
    not text. *)
Theorem C93_full_disk : forall (o : os) frag later (C : console) (prog : string) (args : list string),
  (forall i, refuses (o i)) -> (forall t, concat (frag t) = t) -> out (ripdlt_run C prog args) <> [] ->
  ripdlt_os o frag later C prog args = ([], RipUnprinted).
Proof.
  intros o frag later C prog args R F NE.
  assert (O : is_open o) by (intros i E; destruct (R i) as [X|X]; congruence).
  assert (L : lasting o) by (intros i j _ _; apply R).
  destruct (C93_beginning_partial o frag later C prog args O F (or_intror L)) as (arr & e & miss & E & G & H).
  assert (A : arr = []).
  { change arr with (fst (arr, e)). rewrite <- E. unfold ripdlt_os. apply (perform_refused o frag later _ stdout_new). intros i _. apply R. }
  subst arr. rewrite E. destruct H as [->|[_ ->]]; [reflexivity|]. now destruct (NE G).
Qed.
Print Assumptions C93_full_disk.

(** A disk with room for 42 bytes: the first line and a part of the second arrive.  Lines written in two
    pieces, text and newline. *)
Definition small_disk : os := fun i => match i with 0 => TakesAll | 1 => Takes 10 | _ => Fails end.
Definition two_pieces (t : bytes) : list bytes := [firstn (length t - 1) t; skipn (length t - 1) t].
Example C93_example : is_open small_disk /\ lasting small_disk /\ (forall t, concat (two_pieces t) = t) /\ exists missing,
  ripdlt_os small_disk two_pieces (fun ls => ls) (desk (m1 ++ m2 ++ m1)) "r"%string ["mmap"; "histogram_message_size"; "x"]%string =
    (lit "r mmap histogram_message_size x" ++ [x0a] ++ lit "Distributi", RipUnprinted) /\
  out (ripdlt_run (desk (m1 ++ m2 ++ m1)) "r"%string ["mmap"; "histogram_message_size"; "x"]%string) =
    (lit "r mmap histogram_message_size x" ++ [x0a] ++ lit "Distributi") ++ missing /\ length missing = 98.
Proof.
  split; [intros [|[|i]]; discriminate|]. split; [intros [|[|i]] [|[|j]] L [R|R]; try discriminate; try lia; left; reflexivity|].
  split; [intros t; unfold two_pieces; cbn [concat]; rewrite app_nil_r; apply firstn_skipn|].
  eexists. split; [vm_compute; reflexivity|]. split; vm_compute; reflexivity.
Qed.

(** C93 is false in two cases.  If standard output is not open, ripdlt reports success although nothing
    has been printed ... *)
Theorem C93_not_open_refuted : forall (o : os) frag later (C : console) (prog : string) (args : list string),
  (forall i, o i = NotOpen) -> ripdlt_os o frag later C prog args = ([], RipEnd (how (ripdlt_run C prog args))).
Proof. intros o frag later C prog args H. unfold ripdlt_os. rewrite (perform_closed o H). now rewrite run_ripdlt. Qed.
Print Assumptions C93_not_open_refuted.

(** ... and with par_iter a worker may print after another one could not: what has arrived is not a
    beginning of what ripdlt prints. *)
Definition hiccup : os := fun i => match i with 2 => Fails | _ => TakesAll end.
Theorem C93_par_iter_refuted : exists content arr,
  is_open hiccup /\
  ripdlt_os hiccup (fun t => [t]) (fun ls => ls) (desk content) "r"%string ["mmap"; "par_iter"; "x"]%string = (arr, RipUnprinted) /\
  ~ exists missing, out (ripdlt_run (desk content) "r"%string ["mmap"; "par_iter"; "x"]%string) = arr ++ missing.
Proof.
  exists (cycles_file ++ concat (repeat m1 5)). eexists. split; [intros [|[|[|i]]]; discriminate|].
  split; [vm_compute; reflexivity|]. intros [missing E]. vm_compute in E. discriminate E.
Qed.
Print Assumptions C93_par_iter_refuted.
