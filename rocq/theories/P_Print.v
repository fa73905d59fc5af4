(** Property theorems C80-C83: the characters on ripdlt's standard output. *)
From Coq Require Import String Permutation Sorted.
From Verif Require Import Base BaseFacts DltModel MatchModel GenModel ToolsModel MainModel Spec Samples PartitionFacts ToolFacts CommandFacts Utf8Facts
  CommandSpec ExactFacts HelloRegex PrintModel PrintSpec PrintFacts PrintRead PrintCrash P_Commands P_Main P_Exact.
Local Open Scope string_scope. Local Open Scope list_scope.

Lemma text_ok args : text_args args -> forallb (fun a => from_utf8_ok (lit a)) args = true.
Proof. intros T. apply forallb_forall. intros a I. apply from_utf8_exact. exact (T a I). Qed.
Lemma text_not args : ~ text_args args -> forallb (fun a => from_utf8_ok (lit a)) args = false.
Proof.
  intros N. destruct (forallb _ args) eqn:E; [|reflexivity]. exfalso. apply N. intros a I. apply from_utf8_exact. rewrite forallb_forall in E. exact (E a I).
Qed.
Definition args_line (prog : string) (args : list string) : bytes := ascii (String.concat " " (prog :: args)).
Lemma run_args (C : console) prog method cmd name more : let args := method :: cmd :: name :: more in text_args (prog :: args) ->
  ripdlt_run C prog args = println (args_line prog args) (compute (load C method name) (fun d => command_text C cmd (as_slice d))).
Proof. intros args T. unfold ripdlt_run. rewrite (text_ok _ T). cbn [compute]. unfold args. unfold args_line. now rewrite <- join_ascii. Qed.

(** C80: what ripdlt prints is the text of its lines, after a line with the arguments. *)
Theorem C80_text : forall (C : console) (prog method cmd name : string) (more : list string) ls,
  let args := method :: cmd :: name :: more in
  fair_arrival (arrival C) -> text_args (prog :: args) -> ripdlt_main C args = Ret ls ->
  exists results shown ts, ls = LArgs args :: results /\ same_lines cmd results shown /\ Forall2 (appears cmd) shown ts /\
    ripdlt_run C prog args = {| out := lines_text (ascii (String.concat " " (prog :: args)) :: ts); how := Finished |}.
Proof.
  intros C prog method cmd name more ls args FA T H. subst args. rewrite (run_args C prog method cmd name more T). unfold ripdlt_main in H.
  apply ret_inv in H. destruct H as (d & Ed & H). apply ret_inv in H. destruct H as (results & Er & H). injection H as <-.
  destruct (command_ret C cmd _ _ FA Er) as (shown & S & Hw & ts & E & F). exists results, shown, ts. split; [reflexivity|]. split; [exact S|]. split; [exact F|].
  rewrite Ed. cbn [compute]. unfold println, lines_text. cbn [out how map concat]. rewrite E, Hw. now rewrite <- app_assoc.
Qed.
Print Assumptions C80_text.

Theorem C80_usage : forall (C : console) (prog : string) (args : list string), text_args (prog :: args) -> length args < 3 ->
  ripdlt_run C prog args =
    {| out := lines_text [ascii "usage: " ++ ascii prog ++ ascii " <file_access_method> <test_name> <filename.dlt>";
                          ascii "  runs ripdlt tests with different implementations"]; how := Finished |}.
Proof.
  intros C prog args T L. unfold ripdlt_run. rewrite (text_ok _ T). cbn [compute].
  destruct args as [|a [|a' [|a'' args]]]; [| | |cbn in L; lia];
    (unfold println, lines_text; cbn [out how map concat finished]; rewrite <- !app_assoc; rewrite !app_nil_r; reflexivity).
Qed.
Print Assumptions C80_usage.

(** It ends well exactly if all lines are there. *)
Theorem C80_ending : forall (C : console) (prog : string) (args : list string), fair_arrival (arrival C) -> text_args (prog :: args) -> 0 < cores C ->
  match ripdlt_main C args with
  | Ret _ => how (ripdlt_run C prog args) = Finished
  | Panic => how (ripdlt_run C prog args) = Crashed
  | Fuel => True
  end.
Proof.
  intros C prog args FA T Hc. destruct args as [|method [|cmd [|name more]]].
  1-3: cbn [ripdlt_main]; rewrite (C80_usage C prog _ T); [reflexivity|cbn; lia].
  destruct (ripdlt_main C (method :: cmd :: name :: more)) as [ls| |] eqn:H; [| |exact I].
  - destruct (C80_text C prog method cmd name more ls FA T H) as (? & ? & ? & _ & _ & _ & ->). reflexivity.
  - rewrite (run_args C prog method cmd name more T). cbn [println how]. unfold ripdlt_main in H. apply panic_inv in H. destruct H as [->|(d & -> & H)]; [reflexivity|].
    cbn [compute]. apply panic_inv in H. destruct H as [H|(? & _ & H)]; [|discriminate H].
    destruct (partition_pieces (as_slice d) (cores C) Hc) as (l & rest & El & _).
    destruct (in_dec string_dec cmd commands) as [I|N].
    + destruct (command_panic C cmd _ l El I H) as (begin & rs & _ & -> & _). reflexivity.
    + rewrite (unknown_text C cmd (as_slice d) N). reflexivity.
Qed.
Print Assumptions C80_ending.

(** For instance: the number of entries, then " messages". *)
Theorem C80_count : forall (C : console) (prog name : string) d es, fair_arrival (arrival C) -> text_args [prog; "mmap"; "count"; name] ->
  load C "mmap" name = Ret d -> dltit (as_slice d) = Ret es ->
  exists number, numeral_of_nat (length es) number /\
    ripdlt_run C prog ["mmap"; "count"; name] =
      {| out := lines_text [ascii (prog ++ " mmap count " ++ name); number ++ ascii " messages"]; how := Finished |}.
Proof.
  intros C prog name d es FA T L E.
  assert (R : ripdlt_main C ["mmap"; "count"; name] = Ret [LArgs ["mmap"; "count"; name]; LCount (length es)]).
  { unfold ripdlt_main. rewrite L. cbn [obind]. now rewrite (C59_count C _ es E). }
  destruct (C80_text C prog "mmap" "count" name [] _ FA T R) as (results & shown & ts & Q & S & F & ->). injection Q as <-.
  destruct S as [->|[Q _]]; [|discriminate Q]. inversion F as [|? t ? us A F1]; subst. inversion F1; subst. inversion A as [| | | | | | |n tn Hn Q1 Q2| |]; subst.
  exists tn. split; [exact Hn|reflexivity].
Qed.
Print Assumptions C80_count.

(** A file with three messages on a machine with two cores. *)
Definition desk (content : bytes) : console := {| computer := lab content; arrival := fun os => rev (succeeded os) |}.
Lemma desk_fair content : fair_arrival (arrival (desk content)).
Proof.
  split.
  - intros rs. change (Permutation (rev (succeeded (map Ret rs))) rs). assert (E : succeeded (map Ret rs) = rs) by (induction rs as [|r rs IH]; [reflexivity|]; change (succeeded (map Ret (r :: rs))) with (r :: succeeded (map Ret rs)); now rewrite IH).
    rewrite E. apply Permutation_sym, Permutation_rev.
  - intros os. exists []. rewrite app_nil_r. apply Permutation_sym, Permutation_rev.
Qed.
Example C80_example : out (ripdlt_run (desk (m1 ++ m2 ++ m1)) "ripdlt" ["mmap"; "histogram_message_size"; "x.dlt"]) =
  lines_text (map ascii ["ripdlt mmap histogram_message_size x.dlt"; "Distribution of DLT message length:"; "23b: 1, overall: 0 kB"; "45b: 2, overall: 0 kB"; "DLT messages in total: 0 kB"])
  /\ text_args ["ripdlt"; "mmap"; "histogram_message_size"; "x.dlt"].
Proof.
  split; [vm_compute; reflexivity|]. intros a I. apply from_utf8_exact. repeat (destruct I as [<-|I]; [vm_compute; reflexivity|]). destruct I.
Qed.

(** C81: the same arguments and the same text, the same numbers, whatever the file and the machine. *)
Theorem C81_readable : forall (C C' : console) (prog method cmd name : string) (more : list string) results results',
  let args := method :: cmd :: name :: more in
  fair_arrival (arrival C) -> fair_arrival (arrival C') -> text_args (prog :: args) ->
  ripdlt_main C args = Ret (LArgs args :: results) -> ripdlt_main C' args = Ret (LArgs args :: results') ->
  out (ripdlt_run C prog args) = out (ripdlt_run C' prog args) ->
  (cmd <> "par_iter" -> results = results') /\ Permutation results results'.
Proof.
  intros C C' prog method cmd name more results results' args FA FA' T H H' E. subst args.
  destruct (C80_text C prog method cmd name more _ FA T H) as (rs & shown & ts & Q & S & F & R). injection Q as <-.
  destruct (C80_text C' prog method cmd name more _ FA' T H') as (rs' & shown' & ts' & Q' & S' & F' & R'). injection Q' as <-.
  rewrite R, R' in E. cbn [out] in E. unfold lines_text in E. cbn [map concat] in E. rewrite <- !app_assoc in E. apply app_inv_head in E. apply cons_same in E.
  fold (lines_text ts) (lines_text ts') in E.
  assert (Sh : forall M rs, ripdlt_main M (method :: cmd :: name :: more) = Ret (LArgs (method :: cmd :: name :: more) :: rs) -> shape cmd rs).
  { intros M rs X. unfold ripdlt_main in X. apply ret_inv in X. destruct X as (d & _ & X). apply ret_inv in X. destruct X as (r & Er & X).
    injection X as <-. exact (run_shape M cmd _ _ Er). }
  assert (G : shown = shown').
  { apply (shapes_same cmd shown shown' ts ts'); try assumption.
    - destruct S as [->|(-> & S)]; [exact (Sh C results H)|]. apply (shape_perm results); [right; now split|exact (Sh C results H)].
    - destruct S' as [->|(-> & S')]; [exact (Sh C' results' H')|]. apply (shape_perm results'); [right; now split|exact (Sh C' results' H')]. }
  assert (P : forall a b, same_lines cmd a b -> Permutation a b).
  { intros a b [->|(_ & f & r & r' & -> & -> & P)]; [apply Permutation_refl|now constructor]. }
  split.
  - intros N. destruct S as [->|[Q _]]; [|contradiction]. destruct S' as [->|[Q _]]; [|contradiction]. exact G.
  - apply Permutation_trans with shown; [now apply P|]. rewrite G. apply Permutation_sym. now apply P.
Qed.
Print Assumptions C81_readable.
Example C81_example :
  ripdlt_main (desk (m1 ++ m2 ++ m1)) ["mmap"; "count"; "x"] = Ret [LArgs ["mmap"; "count"; "x"]; LCount 3] /\
  ripdlt_main (desk (m2 ++ m1 ++ m1)) ["mmap"; "count"; "x"] = Ret [LArgs ["mmap"; "count"; "x"]; LCount 3] /\
  out (ripdlt_run (desk (m1 ++ m2 ++ m1)) "r" ["mmap"; "count"; "x"]) = out (ripdlt_run (desk (m2 ++ m1 ++ m1)) "r" ["mmap"; "count"; "x"]).
Proof. repeat split; vm_compute; reflexivity. Qed.

(** C82: what has been printed when ripdlt crashes.  Without valid arguments nothing at all ... *)
Theorem C82_arguments : forall (C : console) (prog : string) (args : list string), ~ text_args (prog :: args) ->
  ripdlt_run C prog args = {| out := []; how := Crashed |}.
Proof. intros C prog args N. unfold ripdlt_run. now rewrite (text_not _ N). Qed.
Print Assumptions C82_arguments.
(** ... without a file or a known command the arguments ... *)
Theorem C82_no_work : forall (C : console) (prog method cmd name : string) (more : list string),
  let args := method :: cmd :: name :: more in text_args (prog :: args) ->
  ~ loads method (fs C name) \/ ~ In cmd commands ->
  ripdlt_run C prog args = {| out := lines_text [ascii (String.concat " " (prog :: args))]; how := Crashed |}.
Proof.
  intros C prog method cmd name more args T H. subst args. rewrite (run_args C prog method cmd name more T). unfold println, lines_text. cbn [map concat]. rewrite app_nil_r.
  destruct (load C method name) as [d| |] eqn:L; cbn [compute].
  - destruct H as [H|H]; [rewrite (load_not C method name H) in L; discriminate L|]. rewrite (unknown_text C cmd (as_slice d) H). reflexivity.
  - reflexivity.
  - unfold load in L. repeat match type of L with context [if ?x then _ else _] => destruct x end; repeat match type of L with context [match ?x with _ => _ end] => destruct x end; discriminate L.
Qed.
Print Assumptions C82_no_work.

Lemma crash_run (C : console) prog method cmd name more d ts : text_args (prog :: method :: cmd :: name :: more) -> load C method name = Ret d ->
  crashed_after (command_text C cmd (as_slice d)) ts ->
  ripdlt_run C prog (method :: cmd :: name :: more) =
    {| out := lines_text (ascii (String.concat " " (prog :: method :: cmd :: name :: more)) :: ts); how := Crashed |}.
Proof.
  intros T L Q. rewrite (run_args C prog method cmd name more T), L. cbn [compute]. rewrite Q. unfold println, lines_text. cbn [out how map concat]. now rewrite <- app_assoc.
Qed.

(** ... then the opening lines, and, but for four commands, nothing else ... *)
Theorem C82_opening : forall (C : console) (prog method cmd name : string) (more : list string) d slices,
  let args := method :: cmd :: name :: more in text_args (prog :: args) -> In cmd commands ->
  load C method name = Ret d -> partition_from DLT (as_slice d) (cores C) = Ret slices ->
  run_command C cmd (as_slice d) = Panic ->
  exists begin rest, opening cmd (cores C) (length slices) begin /\
    (~ In cmd ["split_lifecycles"; "split_timestamp"; "par_split_timestamp"; "par_iter"] -> rest = []) /\
    ripdlt_run C prog args = {| out := lines_text (ascii (String.concat " " (prog :: args)) :: begin ++ rest); how := Crashed |}.
Proof.
  intros C prog method cmd name more d slices args T I L P H. subst args. destruct (command_panic C cmd _ slices P I H) as (begin & rest & O & Q & NP).
  exists begin, rest. split; [exact O|]. split.
  - intros N. apply NP. unfold may_print. destruct (existsb _ _) eqn:X; [|reflexivity]. exfalso. apply N. apply existsb_exists in X. destruct X as (x & Ix & Ex).
    apply String.eqb_eq in Ex. now subst x.
  - now apply crash_run with (1 := T) (2 := L).
Qed.
Print Assumptions C82_opening.

(** ... the rows of the ECUs before the first one whose id is not text ... *)
Definition cut_at_bad_id (m pre : list (quad * (list (N * nat) * nat))) : Prop :=
  exists k x post, m = pre ++ (k, x) :: post /\ ~ utf8_text (quad_bytes k) /\ forall k', In k' (map fst pre) -> utf8_text (quad_bytes k').
Lemma ecus_cut m : print_ecus m = Panic -> exists pre, cut_at_bad_id m pre /\ crashed_after (println_ecus m finished) (map ecu_text pre).
Proof.
  intros H. destruct (ecus_panic m finished H) as (pre & k & x & post & E & T & NT & Q). exists pre. split; [|exact Q].
  exists k, x, post. split; [exact E|]. split.
  - intros U. apply from_utf8_exact in U. congruence.
  - intros k' I. apply from_utf8_exact. now apply T.
Qed.
Theorem C82_split_timestamp : forall (C : console) (prog method name : string) (more : list string) d es,
  let args := method :: "split_timestamp" :: name :: more in text_args (prog :: args) ->
  load C method name = Ret d -> dltit (as_slice d) = Ret es -> (exists e, In e es /\ ~ utf8_text (quad_bytes (ecu_of e))) ->
  exists m pre ts, ecu_rows es periods_row m /\ cut_at_bad_id m pre /\ Forall2 (appears "split_timestamp") (ecu_lines pre) ts /\
    ripdlt_run C prog args = {| out := lines_text (ascii (String.concat " " (prog :: args)) :: ascii continuous_heading :: ts); how := Crashed |}.
Proof.
  intros C prog method name more d es args T L E B. subst args. set (b := as_slice d) in *.
  destruct (timestamp_splitit_exact (finalize_fuel b) b es (le_n _) E) as (m & Em & _ & R). destruct (print_rows es periods_row m R) as [_ P]. specialize (P B).
  destruct (ecus_cut m P) as (pre & CU & Q). exists m, pre, (map ecu_text pre). split; [exact R|]. split; [exact CU|]. split; [apply ecu_appears|].
  apply crash_run with (1 := T) (2 := L). fold b.
  change (command_text C "split_timestamp" b) with (println (lit continuous_heading) (compute (timestamp_splitit (finalize_fuel b) b) (fun m => println_ecus m finished))).
  rewrite Em. cbn [compute]. now apply crashed_line.
Qed.
Print Assumptions C82_split_timestamp.
Theorem C82_split_lifecycles : forall (C : console) (prog method name : string) (more : list string) d es,
  let args := method :: "split_lifecycles" :: name :: more in text_args (prog :: args) ->
  load C method name = Ret d -> dltit (as_slice d) = Ret es ->
  (unstamped es ->
     ripdlt_run C prog args = {| out := lines_text [ascii (String.concat " " (prog :: args)); ascii lifecycle_heading]; how := Crashed |}) /\
  (all_stamped es -> (exists e, In e (filter stamped es) /\ ~ utf8_text (quad_bytes (ecu_of e))) ->
     exists m pre ts, ecu_rows (filter stamped es) cycles_row m /\ cut_at_bad_id m pre /\ Forall2 (appears "split_lifecycles") (ecu_lines pre) ts /\
       ripdlt_run C prog args = {| out := lines_text (ascii (String.concat " " (prog :: args)) :: ascii lifecycle_heading :: ts); how := Crashed |}).
Proof.
  intros C prog method name more d es args T L E. subst args. set (b := as_slice d) in *. assert (F : 5 <= finalize_fuel b) by (unfold finalize_fuel; lia).
  assert (X : command_text C "split_lifecycles" b = println (lit lifecycle_heading) (compute (lifecycle_splitit (finalize_fuel b) b) (fun m => println_ecus m finished))) by reflexivity.
  split.
  - intros U. apply crash_run with (1 := T) (2 := L). fold b. rewrite X. apply crashed_line. apply crashed_now. exact (lifecycle_splitit_panic _ b es F E U).
  - intros S B. destruct (lifecycle_splitit_exact (finalize_fuel b) b es F E S) as (m & Em & R). destruct (print_rows _ _ m R) as [_ P]. specialize (P B).
    destruct (ecus_cut m P) as (pre & CU & Q). exists m, pre, (map ecu_text pre). split; [exact R|]. split; [exact CU|]. split; [apply ecu_appears|].
    apply crash_run with (1 := T) (2 := L). fold b. rewrite X, Em. cbn [compute]. now apply crashed_line.
Qed.
Print Assumptions C82_split_lifecycles.
Theorem C82_par_split_timestamp : forall (C : console) (prog method name : string) (more : list string) d slices ess,
  let args := method :: "par_split_timestamp" :: name :: more in text_args (prog :: args) -> fair_sched (sched C) ->
  load C method name = Ret d -> partition_from DLT (as_slice d) (cores C) = Ret slices -> Forall2 (fun s es => dltit s = Ret es) slices ess ->
  (exists e, In e (concat ess) /\ ~ utf8_text (quad_bytes (ecu_of e))) ->
  exists m pre t ts,
    StronglySorted (fun a z => bytes_before (quad_bytes a) (quad_bytes z)) (map fst m) /\
    (forall k, In k (map fst m) <-> In k (map ecu_of (concat ess))) /\
    (forall k x, In (k, x) m -> parts_row k ess x) /\ cut_at_bad_id m pre /\
    appears "par_split_timestamp" (LSlices (cores C) (length slices)) t /\ Forall2 (appears "par_split_timestamp") (ecu_lines pre) ts /\
    ripdlt_run C prog args = {| out := lines_text (ascii (String.concat " " (prog :: args)) :: ascii continuous_heading :: t :: ts); how := Crashed |}.
Proof.
  intros C prog method name more d slices ess args T FS L P F (e & Ie & NT). subst args. set (b := as_slice d) in *.
  destruct (par_split_map C b slices ess FS P F) as (m & Em & S & K & R). 
  assert (X : print_ecus m = Panic) by (apply (print_ecus_panic m (ecu_of e)); [apply K; now apply in_map|exact NT]).
  destruct (ecus_cut m X) as (pre & CU & Q). exists m, pre, (slices_text (cores C) (length slices)), (map ecu_text pre).
  split; [exact S|]. split; [exact K|]. split; [exact R|]. split; [exact CU|]. split; [apply slices_appear|]. split; [apply ecu_appears|].
  apply crash_run with (1 := T) (2 := L). fold b.
  change (command_text C "par_split_timestamp" b) with (println (lit continuous_heading) (parallel C (timestamp_splitit (finalize_fuel b)) b (fun rs =>
      println_ecus (reduce_tree [] split_merge (sched C _ rs)) finished))).
  unfold par_timestamp_splitit in Em. unfold parallel. rewrite P in *. cbn [obind compute] in *. apply ret_inv in Em. destruct Em as (rs & -> & Em). injection Em as Em. cbn [compute].
  rewrite Em. do 2 apply crashed_line. exact Q.
Qed.
Print Assumptions C82_par_split_timestamp.

(** ... and for par_iter some of the lines of the slices that could be worked on. *)
Theorem C82_par_iter : forall (C : console) (prog method name : string) (more : list string) d slices outcomes,
  let args := method :: "par_iter" :: name :: more in text_args (prog :: args) -> fair_arrival (arrival C) ->
  load C method name = Ret d -> partition_from DLT (as_slice d) (cores C) = Ret slices ->
  Forall2 (fun s o => run_command C "iter" s = let* n := o in Ret [LLong n]) slices outcomes -> In Panic outcomes ->
  exists t ns lost ts, appears "par_iter" (LSlices (cores C) (length slices)) t /\
    Permutation (ns ++ lost) (succeeded outcomes) /\ Forall2 (appears "par_iter") (map LLong ns) ts /\
    ripdlt_run C prog args = {| out := lines_text (ascii (String.concat " " (prog :: args)) :: t :: ts); how := Crashed |}.
Proof.
  intros C prog method name more d slices outcomes args T [_ FA] L P F IP. subst args. set (b := as_slice d) in *.
  assert (Q : map lifecycle_iter slices = outcomes).
  { clear - F. induction F as [|s o slices os H F IH]; [reflexivity|]. cbn [map]. f_equal; [|exact IH].
    change (run_command C "iter" s) with (let* r := lifecycle_iter s in Ret [LLong r]) in H. destruct (lifecycle_iter s), o; cbn [obind] in H; congruence. }
  destruct (FA outcomes) as (lost & PL). exists (slices_text (cores C) (length slices)), (arrival C outcomes), lost, (map long_text (arrival C outcomes)).
  split; [apply slices_appear|]. split; [exact PL|]. split; [apply longs_appear|]. apply crash_run with (1 := T) (2 := L). fold b.
  change (command_text C "par_iter" b) with (compute (partition_from DLT b (cores C)) (fun slices =>
      println (slices_text (cores C) (length slices)) (println_all (map long_text (arrival C (map lifecycle_iter slices))) (
          compute (mapM lifecycle_iter slices) (fun _ => finished))))).
  rewrite P. cbn [compute]. rewrite Q. apply crashed_line. apply crashed_all_end. apply crashed_now. apply mapM_panic.
  - intros s _. apply iter_nofuel.
  - rewrite <- Q in IP. apply in_map_iff in IP. destruct IP as (s & E & I). eauto.
Qed.
Print Assumptions C82_par_iter.
Example C82_example :
  ripdlt_run (desk (m1 ++ m_latin)) "r" ["mmap"; "split_timestamp"; "x"] =
    {| out := lines_text (map ascii ["r mmap split_timestamp x"; "Durations of periods where DLT storage header timestamps are continuous:"; "ECU1 #lifecycles: ({0: 1}, 1)"]); how := Crashed |} /\
  ripdlt_run (desk (m1 ++ m_short)) "r" ["mmap"; "histogram_payload_size"; "x"] =
    {| out := lines_text (map ascii ["r mmap histogram_payload_size x"; "Distribution of payload length:"]); how := Crashed |} /\
  ripdlt_run (desk (m1 ++ m_short)) "r" ["read"; "histogram"; "x"] = {| out := lines_text (map ascii ["r read histogram x"]); how := Crashed |}.
Proof. repeat split; vm_compute; reflexivity. Qed.

(** C83: ripdlt ends on every file and with every command line. *)
Theorem C83_ends : forall (C : console) dotstar (prog : string) (args : list string),
  0 < cores C -> fair_arrival (arrival C) -> leftmost (h_star_world dotstar) (find_at C) ->
  (forall name, N.of_nat (length (file_content (fs C name))) < 2 ^ 64 - 1)%N ->
  how (ripdlt_run C prog args) <> Endless.
Proof.
  intros C ds prog args Hc FA LM SZ.
  destruct (forallb (fun a => from_utf8_ok (lit a)) (prog :: args)) eqn:TB; [|unfold ripdlt_run; rewrite TB; discriminate].
  assert (T : text_args (prog :: args)) by (intros a I; apply from_utf8_exact; rewrite forallb_forall in TB; exact (TB a I)).
  pose proof (C80_ending C prog args FA T Hc) as E. destruct (ripdlt_main C args) as [ls| |] eqn:H; [congruence|congruence|]. exfalso. clear E.
  destruct args as [|method [|cmd [|name more]]]; try discriminate H. unfold ripdlt_main in H. apply fuel_inv in H.
  destruct H as [L|(d & L & H)].
  - unfold load in L. repeat match type of L with context [if ?x then _ else _] => destruct x end; repeat match type of L with context [match ?x with _ => _ end] => destruct x end; discriminate L.
  - apply fuel_inv in H. destruct H as [H|(? & _ & H)]; [|discriminate H]. revert H. apply (robust_nofuel C ds); try assumption.
    assert (Q : length (as_slice d) <= length (file_content (fs C name))).
    { unfold load in L. destruct (method =? "mmap")%string; [|destruct (method =? "read")%string; [|discriminate L]].
      - destruct (mmap_file (fs C name)) as [d'|] eqn:X; [|discriminate L]. injection L as <-. apply C49_mmap_is_the_file_partial in X. destruct X as (-> & _). lia.
      - destruct (read_file (fs C name)) as [d'|] eqn:X; [|discriminate L]. injection L as <-. apply C49_read_is_a_prefix_partial in X. destruct X as (_ & (lost & ->) & _).
        rewrite app_length. lia. }
    specialize (SZ name). lia.
Qed.
Print Assumptions C83_ends.
Example C83_example : 0 < cores (desk m1) /\ fair_arrival (arrival (desk m1)) /\ leftmost (h_star_world one_line) (find_at (desk m1)).
Proof. destruct (lab_machine m1) as (H1 & _ & H3). split; [exact H1|]. split; [apply desk_fair|exact H3]. Qed.
