(** Property theorems C49, C53, C54: loading a file and the ripdlt program as a whole. *)
From Coq Require Import String.
From Verif Require Import Base DltModel MatchModel GenModel ToolsModel MainModel Spec Samples P_Commands.

(** C49: a buffer obtained by mapping is the file; one obtained by reading is the file if no read
    failed; [len] is the length of the slice. *)
Theorem C49_mmap_is_the_file_partial : forall (f : file) (d : dlt_buffer),
  mmap_file f = IoOk d -> as_slice d = file_content f /\ buffer_len d = length (file_content f) /\ file_content f <> [].
Proof.
  intros f d. unfold mmap_file. destruct (file_open_err f); [discriminate|]. destruct (file_map_err f); [discriminate|]. cbn [orb].
  destruct (Nat.eqb_spec (length (file_content f)) 0) as [Z|Z]; [discriminate|]. intros H. injection H as <-.
  split; [reflexivity|]. split; [reflexivity|]. intros Q. now rewrite Q in Z.
Qed.
Print Assumptions C49_mmap_is_the_file_partial.

Theorem C49_read_is_a_prefix_partial : forall (f : file) (d : dlt_buffer),
  read_file f = IoOk d ->
  buffer_len d = length (as_slice d) /\
  (exists lost, file_content f = as_slice d ++ lost) /\
  (file_read_err f = None -> as_slice d = file_content f).
Proof.
  intros f d. unfold read_file. destruct (file_open_err f); [discriminate|]. intros H. injection H as <-. cbn [as_slice buffer_len].
  split; [reflexivity|]. destruct (file_read_err f) as [n|]; [|split; [exists []; now rewrite app_nil_r|reflexivity]].
  split; [|discriminate]. exists (skipn n (file_content f)). symmetry. apply firstn_skipn.
Qed.
Print Assumptions C49_read_is_a_prefix_partial.

(** In general a failed read is reported as success with whatever was read so far; and an empty
    file can be read but not mapped. *)
Theorem C49_refuted :
  (forall (b : bytes) (n : nat), n < length b ->
     exists d, read_file {| file_content := b; file_open_err := false; file_map_err := false; file_read_err := Some n |} = IoOk d /\
       as_slice d <> b /\ buffer_len d = n) /\
  (exists d, read_file {| file_content := []; file_open_err := false; file_map_err := false; file_read_err := None |} = IoOk d) /\
  mmap_file {| file_content := []; file_open_err := false; file_map_err := false; file_read_err := None |} = IoErr.
Proof.
  split; [|split; [eexists; reflexivity|reflexivity]].
  intros b n Hn. eexists. split; [reflexivity|]. cbn [as_slice buffer_len file_content file_read_err]. split.
  - intros Q. apply (f_equal (@List.length byte)) in Q. rewrite firstn_length in Q. lia.
  - rewrite firstn_length. lia.
Qed.
Print Assumptions C49_refuted.
Example C49_example : forall n, n <= 90 -> exists d,
  read_file {| file_content := concat [m1; m1]; file_open_err := false; file_map_err := false; file_read_err := Some n |} = IoOk d /\ buffer_len d = n.
Proof. intros n Hn. eexists. split; [reflexivity|]. cbn [buffer_len file_content file_read_err]. rewrite firstn_length. change (length (concat [m1; m1])) with 90. lia. Qed.

(** C53: what ripdlt does with its command line. *)
Definition commands : list string :=
  ["histogram_lifecycles"; "split_lifecycles"; "split_timestamp"; "par_split_timestamp"; "histogram_timestamp";
   "par_histogram_timestamp"; "histogram_message_type"; "histogram_payload_size"; "histogram_message_size"; "count";
   "par_count"; "histogram_hello_world"; "count_hello_world"; "count_hello_world_raw"; "count_hello_world_grepit";
   "par_count_hello_world"; "par_count_hello_world_raw"; "par_count_hello_world_grepit"; "par_iter"; "iter"; "itertools"]%string.

Lemma unknown_command M name b : ~ In name commands -> run_command M name b = Panic.
Proof.
  intros N. unfold run_command. cbv zeta.
  repeat match goal with
  | |- (if (name =? ?s)%string then _ else _) = Panic =>
      destruct (String.eqb_spec name s) as [->|_]; [exfalso; apply N; cbn; tauto|]
  end. reflexivity.
Qed.

(** The file can be opened (and, for mapping, mapped: it must not be empty). *)
Definition loads (method : string) (f : file) : Prop :=
  file_open_err f = false /\
  (method = "mmap"%string /\ file_map_err f = false /\ file_content f <> [] \/ method = "read"%string).

Lemma load_ok M method name : loads method (fs M name) -> exists d, load M method name = Ret d.
Proof.
  intros [O [(-> & Mp & NE)| ->]]; unfold load; cbn [String.eqb Ascii.eqb Bool.eqb].
  - unfold mmap_file. rewrite O, Mp. cbn [orb]. destruct (Nat.eqb_spec (length (file_content (fs M name))) 0) as [Z|_]; [|eauto].
    now apply length_zero_iff_nil in Z.
  - unfold read_file. rewrite O. eauto.
Qed.
Lemma load_not M method name : ~ loads method (fs M name) -> load M method name = Panic.
Proof.
  intros N. unfold load. destruct (String.eqb_spec method "mmap") as [->|N1].
  - unfold mmap_file. destruct (file_open_err (fs M name)) eqn:O; [reflexivity|]. destruct (file_map_err (fs M name)) eqn:Mp; [reflexivity|].
    cbn [orb]. destruct (Nat.eqb_spec (length (file_content (fs M name))) 0) as [Z|Z]; [reflexivity|].
    exfalso. apply N. split; [exact O|]. left. split; [reflexivity|]. split; [exact Mp|]. intros Q. now rewrite Q in Z.
  - destruct (String.eqb_spec method "read") as [->|N2]; [|reflexivity].
    unfold read_file. destruct (file_open_err (fs M name)) eqn:O; [reflexivity|]. exfalso. apply N. split; [exact O|now right].
Qed.

Theorem C53_main : forall (M : machine) (args : list string),
  (length args < 3 -> ripdlt_main M args = Ret [LUsage]) /\
  (forall method command name more, args = method :: command :: name :: more ->
     (~ loads method (fs M name) \/ ~ In command commands -> ripdlt_main M args = Panic) /\
     (loads method (fs M name) -> exists d, load M method name = Ret d /\
        ripdlt_main M args =
          match run_command M command (as_slice d) with
          | Ret ls => Ret (LArgs args :: ls)
          | Panic => Panic
          | Fuel => Fuel
          end)).
Proof.
  intros M args. split.
  { destruct args as [|? [|? [|? ?]]]; try reflexivity. cbn [length]. lia. }
  intros method command name more ->. unfold ripdlt_main.
  assert (D : loads method (fs M name) \/ ~ loads method (fs M name)).
  { destruct (load M method name) eqn:E.
    - destruct (string_dec method "mmap") as [->|N1]; [|destruct (string_dec method "read") as [->|N2]].
      + left. unfold load in E. cbn [String.eqb Ascii.eqb Bool.eqb] in E. unfold mmap_file in E.
        destruct (file_open_err (fs M name)) eqn:O; [discriminate|]. destruct (file_map_err (fs M name)) eqn:Mp; [discriminate|]. cbn [orb] in E.
        destruct (Nat.eqb_spec (length (file_content (fs M name))) 0) as [Z|Z]; [discriminate|].
        split; [exact O|]. left. split; [reflexivity|]. split; [exact Mp|]. intros Q. now rewrite Q in Z.
      + left. unfold load in E. cbn [String.eqb Ascii.eqb Bool.eqb] in E. unfold read_file in E.
        destruct (file_open_err (fs M name)) eqn:O; [discriminate|]. split; [exact O|now right].
      + right. intros [_ [(Q & _)|Q]]; contradiction.
    - right. intros L. destruct (load_ok M method name L) as [d Q]. congruence.
    - right. intros L. destruct (load_ok M method name L) as [d Q]. congruence. }
  split.
  - intros [N|N]; [now rewrite (load_not M method name N)|]. destruct D as [L|L]; [|now rewrite (load_not M method name L)].
    destruct (load_ok M method name L) as [d ->]. cbn [obind]. now rewrite (unknown_command M command (as_slice d) N).
  - intros L. destruct (load_ok M method name L) as [d E]. exists d. split; [exact E|]. rewrite E. cbn [obind].
    destruct (run_command M command (as_slice d)); reflexivity.
Qed.
Print Assumptions C53_main.
Example C53_example : forall M : machine,
  ripdlt_main M ["mmap"; "count"]%string = Ret [LUsage] /\
  (fs M "x"%string = {| file_content := m1; file_open_err := false; file_map_err := false; file_read_err := None |} ->
   ripdlt_main M ["mmap"; "count"; "x"]%string = Ret [LArgs ["mmap"; "count"; "x"]%string; LCount 1] /\
   ripdlt_main M ["mmap"; "counts"; "x"]%string = Panic).
Proof.
  intros M. split; [reflexivity|]. intros H. unfold ripdlt_main, load. cbn [String.eqb Ascii.eqb Bool.eqb].
  rewrite H. split; vm_compute; reflexivity.
Qed.

(** C54: both access methods print the same, for a non-empty file that can be opened, mapped and
    read; in general they do not. *)
Theorem C54_same_output_partial : forall (M : machine) command name more,
  let f := fs M name in
  file_open_err f = false -> file_map_err f = false -> file_read_err f = None -> file_content f <> [] ->
  (exists ls, ripdlt_main M ("mmap"%string :: command :: name :: more) = Ret (LArgs ("mmap"%string :: command :: name :: more) :: ls) /\
              ripdlt_main M ("read"%string :: command :: name :: more) = Ret (LArgs ("read"%string :: command :: name :: more) :: ls)) \/
  (ripdlt_main M ("mmap"%string :: command :: name :: more) = Panic /\ ripdlt_main M ("read"%string :: command :: name :: more) = Panic) \/
  (ripdlt_main M ("mmap"%string :: command :: name :: more) = Fuel /\ ripdlt_main M ("read"%string :: command :: name :: more) = Fuel).
Proof.
  intros M command name more f O Mp R NE. unfold ripdlt_main, load. cbn [String.eqb Ascii.eqb Bool.eqb]. fold f.
  unfold mmap_file, read_file. rewrite O, Mp, R. cbn [orb].
  destruct (Nat.eqb_spec (length (file_content f)) 0) as [Z|_]; [now apply length_zero_iff_nil in Z|]. cbn [obind as_slice].
  destruct (run_command M command (file_content f)) as [ls| |]; cbn [obind]; [left; exists ls; split; reflexivity|right; left; split; reflexivity|right; right; split; reflexivity].
Qed.
Print Assumptions C54_same_output_partial.
Theorem C54_refuted :
  (forall M : machine, fs M "empty.dlt"%string = {| file_content := []; file_open_err := false; file_map_err := false; file_read_err := None |} ->
     ripdlt_main M ["mmap"; "count"; "empty.dlt"]%string = Panic /\
     ripdlt_main M ["read"; "count"; "empty.dlt"]%string = Ret [LArgs ["read"; "count"; "empty.dlt"]%string; LCount 0]) /\
  (forall M : machine, fs M "bad.dlt"%string = {| file_content := m1 ++ m1; file_open_err := false; file_map_err := false; file_read_err := Some 50 |} ->
     ripdlt_main M ["mmap"; "count"; "bad.dlt"]%string = Ret [LArgs ["mmap"; "count"; "bad.dlt"]%string; LCount 2] /\
     ripdlt_main M ["read"; "count"; "bad.dlt"]%string = Ret [LArgs ["read"; "count"; "bad.dlt"]%string; LCount 1]).
Proof.
  split; intros M H; unfold ripdlt_main, load; cbn [String.eqb Ascii.eqb Bool.eqb]; rewrite H; split; vm_compute; reflexivity.
Qed.
Print Assumptions C54_refuted.
