(** Property theorem C135: what ripdlt prints from a mapped file that is truncated or changed while it runs (model in TouchRun.v, vocabulary
    in TouchRunSpec.v).  [W], [V] answer the reads of the main thread, [Ws] those of the workers; [P] and [Ps] say which bytes can be read. *)
From Coq Require Import String Permutation.
From Verif Require Import Base DltModel MatchModel GenModel ToolsModel MainModel PrintModel PrintSpec MappedModel MappedCmd TouchModel TouchMore TouchCmd TouchRun
  Spec ReadSpec MappedSpec MappedCmdSpec TouchSpec TouchCmdSpec TouchRunSpec BaseFacts DltFacts MappedFacts TouchFacts TouchMoreFacts SimFacts CmdCommands TouchCmdFacts TouchCmdInside
  PartitionFacts Utf8Facts HelloRegex PrintFacts PrintCrash CommandFacts TouchRunFacts P_Mapped P_TouchMore P_MappedCmd P_TouchCmd P_Main P_Print.
From Verif Require Samples.
From Coq Require Import ZifyBool ZifyNat ZifyN.
Import Samples(m1, m2, m3, m1_valid, m2_valid, m3_valid).
Ltac Zify.zify_post_hook ::= idtac.
Local Open Scope string_scope. Local Open Scope list_scope.

Lemma mapped_args (C : console) W V P Ws Ps fin prog cmd name more : let args := "mmap" :: cmd :: name :: more in text_args (prog :: args) ->
  ripdlt_mapped C W V P Ws Ps fin prog args = println (args_line prog args) (compute (load C "mmap" name) (fun d => mapped_command C W V (length (as_slice d)) P Ws Ps fin cmd)).
Proof.
  intros args T. unfold ripdlt_mapped. rewrite (text_ok _ T). unfold args, args_line. cbn [compute]. rewrite <- join_ascii. reflexivity.
Qed.
Ltac each_command cmd := repeat match goal with
  | |- context [if (cmd =? ?s)%string then _ else _] => destruct (String.eqb_spec cmd s) as [->|_]
  end.
Lemma same_count W n P : same_or_killed (c_count W n P) (c_count W n everything).
Proof. exact (to_everything _ _ _ (proj1 (C134_commands W (still_cells []) n P 0)) (proj1 (C134_readable W (still_cells []) n everything 0 (all_everything n)))). Qed.
Lemma same_count_hello_world W V n P : same_or_killed (c_count_hello_world W V n P) (c_count_hello_world W V n everything).
Proof. exact (to_everything _ _ _ (proj1 (proj2 (C134_commands W V n P 0))) (proj1 (proj2 (C134_readable W V n everything 0 (all_everything n))))). Qed.
Lemma same_count_hello_world_raw V n P : same_or_killed (c_count_hello_world_raw V n P) (c_count_hello_world_raw V n everything).
Proof. exact (to_everything _ _ _ (proj1 (proj2 (proj2 (C134_commands nagging V n P 0)))) (proj1 (proj2 (proj2 (C134_readable nagging V n everything 0 (all_everything n)))))). Qed.
Lemma same_count_hello_world_grepit W n P : same_or_killed (c_count_hello_world_grepit W n P) (c_count_hello_world_grepit W n everything).
Proof. exact (to_everything _ _ _ (proj1 (proj2 (proj2 (proj2 (C134_commands W (still_cells []) n P 0))))) (proj1 (proj2 (proj2 (proj2 (C134_readable W (still_cells []) n everything 0 (all_everything n))))))). Qed.
Lemma same_continuous_timestamp_histogram W V n P : same_or_killed (c_continuous_timestamp_histogram W V n P) (c_continuous_timestamp_histogram W V n everything).
Proof. exact (to_everything _ _ _ (proj1 (proj2 (proj2 (proj2 (proj2 (C134_commands W V n P 0)))))) (proj1 (proj2 (proj2 (proj2 (proj2 (C134_readable W V n everything 0 (all_everything n)))))))). Qed.
Lemma same_mstp_info_histogram W V n P : same_or_killed (c_mstp_info_histogram W V n P) (c_mstp_info_histogram W V n everything).
Proof. exact (to_everything _ _ _ (proj1 (proj2 (proj2 (proj2 (proj2 (proj2 (C134_commands W V n P 0))))))) (proj1 (proj2 (proj2 (proj2 (proj2 (proj2 (C134_readable W V n everything 0 (all_everything n))))))))). Qed.
Lemma same_lifecycle_splitit W V n P fin : same_or_killed (c_lifecycle_splitit W V n P fin) (c_lifecycle_splitit W V n everything fin).
Proof. exact (to_everything _ _ _ (proj1 (proj2 (proj2 (proj2 (proj2 (proj2 (proj2 (C134_commands W V n P fin)))))))) (proj1 (proj2 (proj2 (proj2 (proj2 (proj2 (proj2 (C134_readable W V n everything fin (all_everything n)))))))))). Qed.
Lemma same_timestamp_splitit W V n P fin : same_or_killed (c_timestamp_splitit W V n P fin) (c_timestamp_splitit W V n everything fin).
Proof. exact (to_everything _ _ _ (proj1 (proj2 (proj2 (proj2 (proj2 (proj2 (proj2 (proj2 (C134_commands W V n P fin))))))))) (proj1 (proj2 (proj2 (proj2 (proj2 (proj2 (proj2 (proj2 (C134_readable W V n everything fin (all_everything n))))))))))). Qed.
Lemma same_lifecycle_histogram W V n P : same_or_killed (c_lifecycle_histogram W V n P) (c_lifecycle_histogram W V n everything).
Proof. exact (to_everything _ _ _ (proj1 (proj2 (proj2 (proj2 (proj2 (proj2 (proj2 (proj2 (proj2 (C134_commands W V n P 0)))))))))) (proj1 (proj2 (proj2 (proj2 (proj2 (proj2 (proj2 (proj2 (proj2 (C134_readable W V n everything 0 (all_everything n)))))))))))). Qed.
Lemma same_histogram_payload W n P : same_or_killed (c_histogram_payload W n P) (c_histogram_payload W n everything).
Proof. exact (to_everything _ _ _ (proj1 (proj2 (proj2 (proj2 (proj2 (proj2 (proj2 (proj2 (proj2 (proj2 (C134_commands W (still_cells []) n P 0))))))))))) (proj1 (proj2 (proj2 (proj2 (proj2 (proj2 (proj2 (proj2 (proj2 (proj2 (C134_readable W (still_cells []) n everything 0 (all_everything n))))))))))))). Qed.
Lemma same_histogram_message W n P : same_or_killed (c_histogram_message W n P) (c_histogram_message W n everything).
Proof. exact (to_everything _ _ _ (proj1 (proj2 (proj2 (proj2 (proj2 (proj2 (proj2 (proj2 (proj2 (proj2 (proj2 (C134_commands W (still_cells []) n P 0)))))))))))) (proj1 (proj2 (proj2 (proj2 (proj2 (proj2 (proj2 (proj2 (proj2 (proj2 (proj2 (C134_readable W (still_cells []) n everything 0 (all_everything n)))))))))))))). Qed.
Lemma same_histogram_hello_world W n P : same_or_killed (c_histogram_hello_world W n P) (c_histogram_hello_world W n everything).
Proof. exact (to_everything _ _ _ (proj1 (proj2 (proj2 (proj2 (proj2 (proj2 (proj2 (proj2 (proj2 (proj2 (proj2 (proj2 (C134_commands W (still_cells []) n P 0))))))))))))) (proj1 (proj2 (proj2 (proj2 (proj2 (proj2 (proj2 (proj2 (proj2 (proj2 (proj2 (proj2 (C134_readable W (still_cells []) n everything 0 (all_everything n))))))))))))))). Qed.
Lemma same_lifecycle_iter W V n P : same_or_killed (c_lifecycle_iter W V n P) (c_lifecycle_iter W V n everything).
Proof. exact (to_everything _ _ _ (proj1 (proj2 (proj2 (proj2 (proj2 (proj2 (proj2 (proj2 (proj2 (proj2 (proj2 (proj2 (proj2 (C134_commands W V n P 0)))))))))))))) (proj1 (proj2 (proj2 (proj2 (proj2 (proj2 (proj2 (proj2 (proj2 (proj2 (proj2 (proj2 (proj2 (C134_readable W V n everything 0 (all_everything n)))))))))))))))). Qed.
Lemma same_lifecycle_itertools W V n P : same_or_killed (c_lifecycle_itertools W V n P) (c_lifecycle_itertools W V n everything).
Proof. exact (to_everything _ _ _ (proj2 (proj2 (proj2 (proj2 (proj2 (proj2 (proj2 (proj2 (proj2 (proj2 (proj2 (proj2 (proj2 (C134_commands W V n P 0)))))))))))))) (proj2 (proj2 (proj2 (proj2 (proj2 (proj2 (proj2 (proj2 (proj2 (proj2 (proj2 (proj2 (proj2 (C134_readable W V n everything 0 (all_everything n)))))))))))))))). Qed.
Ltac same_command := match goal with
  | |- same_or_killed (c_count _ _ _) _ => apply same_count
  | |- same_or_killed (c_count_hello_world _ _ _ _) _ => apply same_count_hello_world
  | |- same_or_killed (c_count_hello_world_raw _ _ _) _ => apply same_count_hello_world_raw
  | |- same_or_killed (c_count_hello_world_grepit _ _ _) _ => apply same_count_hello_world_grepit
  | |- same_or_killed (c_continuous_timestamp_histogram _ _ _ _) _ => apply same_continuous_timestamp_histogram
  | |- same_or_killed (c_mstp_info_histogram _ _ _ _) _ => apply same_mstp_info_histogram
  | |- same_or_killed (c_lifecycle_splitit _ _ _ _ _) _ => apply same_lifecycle_splitit
  | |- same_or_killed (c_timestamp_splitit _ _ _ _ _) _ => apply same_timestamp_splitit
  | |- same_or_killed (c_lifecycle_histogram _ _ _ _) _ => apply same_lifecycle_histogram
  | |- same_or_killed (c_histogram_payload _ _ _) _ => apply same_histogram_payload
  | |- same_or_killed (c_histogram_message _ _ _) _ => apply same_histogram_message
  | |- same_or_killed (c_histogram_hello_world _ _ _) _ => apply same_histogram_hello_world
  | |- same_or_killed (c_lifecycle_iter _ _ _ _) _ => apply same_lifecycle_iter
  | |- same_or_killed (c_lifecycle_itertools _ _ _ _) _ => apply same_lifecycle_itertools
  end.

(** Whatever happens to the file: it is killed early, or does what it does if everything can be read. *)
Theorem C135_killed : forall (C : console) W V P Ws Ps fin prog cmd name more, 0 < cores C -> text_args (prog :: "mmap" :: cmd :: name :: more) ->
  let args := "mmap" :: cmd :: name :: more in
  let r := ripdlt_mapped C W V P Ws Ps fin prog args in
  r = ripdlt_mapped C W V everything Ws (fun _ => everything) fin prog args \/ (killed r /\ (cmd <> "par_iter" -> killed_early C prog args cmd r /\ prints_less r (ripdlt_mapped C W V everything Ws (fun _ => everything) fin prog args))).
Proof.
  intros C W V P Ws Ps fin prog cmd name more Hc T args r. unfold r, args. rewrite !(mapped_args C W V _ Ws _ fin prog cmd name more T). clear r.
  destruct (load C "mmap" name) as [d| |] eqn:L; cbn [compute]; [|left; reflexivity|left; reflexivity]. set (n := length (as_slice d)).
  set (r := mapped_command C W V n P Ws Ps fin cmd). set (r' := mapped_command C W V n everything Ws (fun _ => everything) fin cmd).
  assert (K : r = r' \/ (how r = Endless /\ (cmd <> "par_iter" -> (exists s k, out r = lines_text (firstn k (first_lines C cmd s))) /\ exists rest, out r' = out r ++ rest))).
  { assert (Q : forall A (x y : act A), same_or_killed x y -> same_or_killed x y) by auto.
    assert (TO : cut (first_lines C cmd) r r' -> r = r' \/ (how r = Endless /\ (cmd <> "par_iter" -> (exists s k, out r = lines_text (firstn k (first_lines C cmd s))) /\ exists rest, out r' = out r ++ rest))) by (intros [E|[E H]]; [now left|right; now split]).
    destruct (String.eqb_spec cmd "par_iter") as [->|NP].
    - unfold r, r', mapped_command. cbn [String.eqb Ascii.eqb Bool.eqb]. cbv zeta. unfold first_part.
      destruct (result_cut _ _ (partition_cut C W n P Hc)) as [E|E]; rewrite E; [|right; split; [reflexivity|intros H; destruct H; reflexivity]].
      match goal with |- context [result ?x] => destruct (result x) as [ps| |] end; cbn [compute]; [|left; reflexivity|left; reflexivity].
      destruct (together_cut (worker Ws Ps c_lifecycle_iter) (worker Ws (fun _ => everything) c_lifecycle_iter) ps) as [M|[M _]].
      + intros p. apply result_cut. same_command.
      + left. rewrite M. reflexivity.
      + right. split; [|intros H; destruct H; reflexivity]. rewrite M. rewrite println_all_out. reflexivity.
    - apply TO. unfold r, r', mapped_command. cbv zeta. each_command cmd; try congruence; unfold first_lines, heading, with_slices; cbn [existsb String.eqb Ascii.eqb Bool.eqb orb map app].
      all: match goal with |- cut _ ?x ?x => apply cut_refl | |- cut (fun s => _ :: _) (println ?l _) (println ?l _) => apply (cut_println l) | _ => idtac end.
      all: unfold mapped_multithreaded; match goal with
           | |- cut _ (first_part ?x ?next) (first_part ?y ?next) => apply (plain_cut x y next); same_command
           | |- cut _ (mapped_parallel ?C ?W ?n ?P ?Ws ?Ps ?f ?next) _ => apply (parallel_cut C W n P Ws Ps f next); [assumption|intros; same_command]
           | _ => idtac end. }
  destruct K as [->|[H K]]; [now left|]. right. split; [exact H|]. intros NP. destruct (K NP) as ((s & k & E) & rest & R). split; [split; [exact H|]|].
  - exists s, (first_lines C cmd s), k. split; [apply first_opening|]. cbn [println out]. rewrite E. unfold lines_text. cbn [map concat]. now rewrite <- app_assoc.
  - exists rest. cbn [println out]. rewrite R. now rewrite <- !app_assoc.
Qed.
Print Assumptions C135_killed.

Lemma both_readable {A} (x y z : act A) : just_as x z -> just_as y z -> x 0 = y 0.
Proof. intros H K. now rewrite H, K. Qed.
Lemma read_count W n P : all_readable n P -> c_count W n P 0 = c_count W n everything 0.
Proof. intros H. exact (both_readable _ _ _ (proj1 (C134_readable W (still_cells []) n P 0 H)) (proj1 (C134_readable W (still_cells []) n everything 0 (all_everything n)))). Qed.
Lemma read_count_hello_world W V n P : all_readable n P -> c_count_hello_world W V n P 0 = c_count_hello_world W V n everything 0.
Proof. intros H. exact (both_readable _ _ _ (proj1 (proj2 (C134_readable W V n P 0 H))) (proj1 (proj2 (C134_readable W V n everything 0 (all_everything n))))). Qed.
Lemma read_count_hello_world_raw V n P : all_readable n P -> c_count_hello_world_raw V n P 0 = c_count_hello_world_raw V n everything 0.
Proof. intros H. exact (both_readable _ _ _ (proj1 (proj2 (proj2 (C134_readable nagging V n P 0 H)))) (proj1 (proj2 (proj2 (C134_readable nagging V n everything 0 (all_everything n)))))). Qed.
Lemma read_count_hello_world_grepit W n P : all_readable n P -> c_count_hello_world_grepit W n P 0 = c_count_hello_world_grepit W n everything 0.
Proof. intros H. exact (both_readable _ _ _ (proj1 (proj2 (proj2 (proj2 (C134_readable W (still_cells []) n P 0 H))))) (proj1 (proj2 (proj2 (proj2 (C134_readable W (still_cells []) n everything 0 (all_everything n))))))). Qed.
Lemma read_continuous_timestamp_histogram W V n P : all_readable n P -> c_continuous_timestamp_histogram W V n P 0 = c_continuous_timestamp_histogram W V n everything 0.
Proof. intros H. exact (both_readable _ _ _ (proj1 (proj2 (proj2 (proj2 (proj2 (C134_readable W V n P 0 H)))))) (proj1 (proj2 (proj2 (proj2 (proj2 (C134_readable W V n everything 0 (all_everything n)))))))). Qed.
Lemma read_mstp_info_histogram W V n P : all_readable n P -> c_mstp_info_histogram W V n P 0 = c_mstp_info_histogram W V n everything 0.
Proof. intros H. exact (both_readable _ _ _ (proj1 (proj2 (proj2 (proj2 (proj2 (proj2 (C134_readable W V n P 0 H))))))) (proj1 (proj2 (proj2 (proj2 (proj2 (proj2 (C134_readable W V n everything 0 (all_everything n))))))))). Qed.
Lemma read_lifecycle_splitit W V n P fin : all_readable n P -> c_lifecycle_splitit W V n P fin 0 = c_lifecycle_splitit W V n everything fin 0.
Proof. intros H. exact (both_readable _ _ _ (proj1 (proj2 (proj2 (proj2 (proj2 (proj2 (proj2 (C134_readable W V n P fin H)))))))) (proj1 (proj2 (proj2 (proj2 (proj2 (proj2 (proj2 (C134_readable W V n everything fin (all_everything n)))))))))). Qed.
Lemma read_timestamp_splitit W V n P fin : all_readable n P -> c_timestamp_splitit W V n P fin 0 = c_timestamp_splitit W V n everything fin 0.
Proof. intros H. exact (both_readable _ _ _ (proj1 (proj2 (proj2 (proj2 (proj2 (proj2 (proj2 (proj2 (C134_readable W V n P fin H))))))))) (proj1 (proj2 (proj2 (proj2 (proj2 (proj2 (proj2 (proj2 (C134_readable W V n everything fin (all_everything n))))))))))). Qed.
Lemma read_lifecycle_histogram W V n P : all_readable n P -> c_lifecycle_histogram W V n P 0 = c_lifecycle_histogram W V n everything 0.
Proof. intros H. exact (both_readable _ _ _ (proj1 (proj2 (proj2 (proj2 (proj2 (proj2 (proj2 (proj2 (proj2 (C134_readable W V n P 0 H)))))))))) (proj1 (proj2 (proj2 (proj2 (proj2 (proj2 (proj2 (proj2 (proj2 (C134_readable W V n everything 0 (all_everything n)))))))))))). Qed.
Lemma read_histogram_payload W n P : all_readable n P -> c_histogram_payload W n P 0 = c_histogram_payload W n everything 0.
Proof. intros H. exact (both_readable _ _ _ (proj1 (proj2 (proj2 (proj2 (proj2 (proj2 (proj2 (proj2 (proj2 (proj2 (C134_readable W (still_cells []) n P 0 H))))))))))) (proj1 (proj2 (proj2 (proj2 (proj2 (proj2 (proj2 (proj2 (proj2 (proj2 (C134_readable W (still_cells []) n everything 0 (all_everything n))))))))))))). Qed.
Lemma read_histogram_message W n P : all_readable n P -> c_histogram_message W n P 0 = c_histogram_message W n everything 0.
Proof. intros H. exact (both_readable _ _ _ (proj1 (proj2 (proj2 (proj2 (proj2 (proj2 (proj2 (proj2 (proj2 (proj2 (proj2 (C134_readable W (still_cells []) n P 0 H)))))))))))) (proj1 (proj2 (proj2 (proj2 (proj2 (proj2 (proj2 (proj2 (proj2 (proj2 (proj2 (C134_readable W (still_cells []) n everything 0 (all_everything n)))))))))))))). Qed.
Lemma read_histogram_hello_world W n P : all_readable n P -> c_histogram_hello_world W n P 0 = c_histogram_hello_world W n everything 0.
Proof. intros H. exact (both_readable _ _ _ (proj1 (proj2 (proj2 (proj2 (proj2 (proj2 (proj2 (proj2 (proj2 (proj2 (proj2 (proj2 (C134_readable W (still_cells []) n P 0 H))))))))))))) (proj1 (proj2 (proj2 (proj2 (proj2 (proj2 (proj2 (proj2 (proj2 (proj2 (proj2 (proj2 (C134_readable W (still_cells []) n everything 0 (all_everything n))))))))))))))). Qed.
Lemma read_lifecycle_iter W V n P : all_readable n P -> c_lifecycle_iter W V n P 0 = c_lifecycle_iter W V n everything 0.
Proof. intros H. exact (both_readable _ _ _ (proj1 (proj2 (proj2 (proj2 (proj2 (proj2 (proj2 (proj2 (proj2 (proj2 (proj2 (proj2 (proj2 (C134_readable W V n P 0 H)))))))))))))) (proj1 (proj2 (proj2 (proj2 (proj2 (proj2 (proj2 (proj2 (proj2 (proj2 (proj2 (proj2 (proj2 (C134_readable W V n everything 0 (all_everything n)))))))))))))))). Qed.
Lemma read_lifecycle_itertools W V n P : all_readable n P -> c_lifecycle_itertools W V n P 0 = c_lifecycle_itertools W V n everything 0.
Proof. intros H. exact (both_readable _ _ _ (proj2 (proj2 (proj2 (proj2 (proj2 (proj2 (proj2 (proj2 (proj2 (proj2 (proj2 (proj2 (proj2 (C134_readable W V n P 0 H)))))))))))))) (proj2 (proj2 (proj2 (proj2 (proj2 (proj2 (proj2 (proj2 (proj2 (proj2 (proj2 (proj2 (proj2 (C134_readable W V n everything 0 (all_everything n)))))))))))))))). Qed.
Ltac read_command := match goal with
  | |- c_count _ _ _ 0 = _ => apply read_count; assumption
  | |- c_count_hello_world _ _ _ _ 0 = _ => apply read_count_hello_world; assumption
  | |- c_count_hello_world_raw _ _ _ 0 = _ => apply read_count_hello_world_raw; assumption
  | |- c_count_hello_world_grepit _ _ _ 0 = _ => apply read_count_hello_world_grepit; assumption
  | |- c_continuous_timestamp_histogram _ _ _ _ 0 = _ => apply read_continuous_timestamp_histogram; assumption
  | |- c_mstp_info_histogram _ _ _ _ 0 = _ => apply read_mstp_info_histogram; assumption
  | |- c_lifecycle_splitit _ _ _ _ _ 0 = _ => apply read_lifecycle_splitit; assumption
  | |- c_timestamp_splitit _ _ _ _ _ 0 = _ => apply read_timestamp_splitit; assumption
  | |- c_lifecycle_histogram _ _ _ _ 0 = _ => apply read_lifecycle_histogram; assumption
  | |- c_histogram_payload _ _ _ 0 = _ => apply read_histogram_payload; assumption
  | |- c_histogram_message _ _ _ 0 = _ => apply read_histogram_message; assumption
  | |- c_histogram_hello_world _ _ _ 0 = _ => apply read_histogram_hello_world; assumption
  | |- c_lifecycle_iter _ _ _ _ 0 = _ => apply read_lifecycle_iter; assumption
  | |- c_lifecycle_itertools _ _ _ _ 0 = _ => apply read_lifecycle_itertools; assumption
  end.
(** If every byte of the file can be read, it is not killed. *)
Theorem C135_readable : forall (C : console) W V P Ws Ps fin prog cmd name more d, 0 < cores C -> text_args (prog :: "mmap" :: cmd :: name :: more) ->
  load C "mmap" name = Ret d -> all_readable (length (as_slice d)) P -> (forall p, all_readable (snd p - fst p) (Ps p)) ->
  let args := "mmap" :: cmd :: name :: more in
  ripdlt_mapped C W V P Ws Ps fin prog args = ripdlt_mapped C W V everything Ws (fun _ => everything) fin prog args.
Proof.
  intros C W V P Ws Ps fin prog cmd name more d Hc T L R RS args. unfold args. rewrite !(mapped_args C W V _ Ws _ fin prog cmd name more T). rewrite L. cbn [compute]. apply (f_equal (println (args_line prog ("mmap" :: cmd :: name :: more)))).
  set (n := length (as_slice d)) in *.
  assert (PL : forall A (x y : act A) next, x 0 = y 0 -> first_part x next = first_part y next) by (intros A x y next E; unfold first_part; now rewrite E).
  assert (PT : alive (t_partition W n (reads P) (reach P) (cores C)) 0 = alive (t_partition W n (reads everything) (reach everything) (cores C)) 0).
  { assert (Q : forall P, all_readable n P -> alive (t_partition W n (reads P) (reach P) (cores C)) 0 = m_partition W n (cores C) 0).
    { intros P' R'. destruct (C131_inside W n (reads P') (reach P') (rreach P') (looks_at P') R') as (_ & _ & I). destruct (I (cores C) 0 Hc) as (parts & u & E).
      destruct (sim_partition W n (reads P') (reach P') (cores C) 0) as [K|K]; [congruence|]. unfold alive. destruct (m_partition W n (cores C) 0) as [[a v]| |]; rewrite K; exact eq_refl. }
    rewrite (Q P R), (Q everything (all_everything n)). exact eq_refl. }
  assert (PW : forall A (f : MappedModel.world -> cells -> nat -> reading -> act A), (forall W V n P, all_readable n P -> f W V n P 0 = f W V n everything 0) -> forall ps,
    map (worker Ws Ps f) ps = map (worker Ws (fun _ => everything) f) ps).
  { intros A f H ps. apply map_ext. intros p. unfold worker. rewrite (H _ _ _ _ (RS p)). reflexivity. }
  assert (PP : forall A (f : MappedModel.world -> cells -> nat -> reading -> act A) next, (forall W V n P, all_readable n P -> f W V n P 0 = f W V n everything 0) ->
    mapped_parallel C W n P Ws Ps f next = mapped_parallel C W n everything Ws (fun _ => everything) f next).
  { intros A f next H. unfold mapped_parallel, first_part. rewrite PT. destruct (result _); cbn [compute]; [|exact eq_refl|exact eq_refl]. rewrite (PW A f H). exact eq_refl. }
  unfold mapped_command. cbv zeta. each_command cmd.
  all: match goal with |- ?x = ?x => exact eq_refl | |- println ?l ?r = println ?l ?r' => apply (f_equal (println l)) | _ => idtac end.
  all: unfold mapped_multithreaded; match goal with
       | |- first_part ?x ?next = first_part ?y ?next => apply (PL _ x y next); read_command
       | |- mapped_parallel ?C ?W ?n ?P ?Ws ?Ps ?f ?next = _ => apply (PP _ f next); intros; read_command
       | _ => idtac end.
  unfold first_part. rewrite PT. match goal with |- context [result ?x] => destruct (result x) end; cbn [compute]; [|exact eq_refl|exact eq_refl].
  rewrite (PW _ c_lifecycle_iter); [exact eq_refl|]. intros; read_command.
Qed.
Print Assumptions C135_readable.

(** On a file that is not changed. *)
Section Whole.
  Variables (C : console) (ds : bytes -> Prop).
  Hypothesis Hc : 0 < cores C.
  Hypothesis LM : leftmost (h_star_world ds) (find_at C).
  Hypothesis HF : forall b a s e, find_at C b a = Some (s, e) -> a <= s /\ s <= e /\ e <= length b.
  Lemma like_everything {A} (x y : act A) o : just_as x y -> runs_like y o -> runs_like x o.
  Proof. intros E H t. rewrite E. exact (H t). Qed.
  Lemma still_count b : runs_like (c_count (still b (find_at C)) (length b) everything) (count b).
  Proof. exact (like_everything _ _ _ (proj1 (C134_readable (still b (find_at C)) (still_cells b) (length b) everything 0 (all_everything (length b)))) (proj1 (C124_unchanged b (find_at C) 0 (HF b)))). Qed.
  Lemma end_count b : (N.of_nat (length b) < 2 ^ 64 - 1)%N -> count b <> Fuel.
  Proof. intros Hb E. apply (robust_nofuel C ds b "count" Hc LM Hb). unfold run_command. cbn [String.eqb Ascii.eqb Bool.eqb]. cbv zeta. rewrite E. exact eq_refl. Qed.
  Lemma still_count_hello_world b : runs_like (c_count_hello_world (still b (find_at C)) (still_cells b) (length b) everything) (count_hello_world b).
  Proof. exact (like_everything _ _ _ (proj1 (proj2 (C134_readable (still b (find_at C)) (still_cells b) (length b) everything 0 (all_everything (length b))))) (proj1 (proj2 (C124_unchanged b (find_at C) 0 (HF b))))). Qed.
  Lemma end_count_hello_world b : (N.of_nat (length b) < 2 ^ 64 - 1)%N -> count_hello_world b <> Fuel.
  Proof. intros Hb E. apply (robust_nofuel C ds b "count_hello_world" Hc LM Hb). unfold run_command. cbn [String.eqb Ascii.eqb Bool.eqb]. cbv zeta. rewrite E. exact eq_refl. Qed.
  Lemma still_count_hello_world_raw b : runs_like (c_count_hello_world_raw (still_cells b) (length b) everything) (count_hello_world_raw b).
  Proof. exact (like_everything _ _ _ (proj1 (proj2 (proj2 (C134_readable (still b (find_at C)) (still_cells b) (length b) everything 0 (all_everything (length b)))))) (proj1 (proj2 (proj2 (C124_unchanged b (find_at C) 0 (HF b)))))). Qed.
  Lemma end_count_hello_world_raw b : (N.of_nat (length b) < 2 ^ 64 - 1)%N -> count_hello_world_raw b <> Fuel.
  Proof. intros Hb E. apply (robust_nofuel C ds b "count_hello_world_raw" Hc LM Hb). unfold run_command. cbn [String.eqb Ascii.eqb Bool.eqb]. cbv zeta. rewrite E. exact eq_refl. Qed.
  Lemma still_count_hello_world_grepit b : runs_like (c_count_hello_world_grepit (still b (find_at C)) (length b) everything) (count_hello_world_grepit (find_at C) b).
  Proof. exact (like_everything _ _ _ (proj1 (proj2 (proj2 (proj2 (C134_readable (still b (find_at C)) (still_cells b) (length b) everything 0 (all_everything (length b))))))) (proj1 (proj2 (proj2 (proj2 (C124_unchanged b (find_at C) 0 (HF b))))))). Qed.
  Lemma end_count_hello_world_grepit b : (N.of_nat (length b) < 2 ^ 64 - 1)%N -> count_hello_world_grepit (find_at C) b <> Fuel.
  Proof. intros Hb E. apply (robust_nofuel C ds b "count_hello_world_grepit" Hc LM Hb). unfold run_command. cbn [String.eqb Ascii.eqb Bool.eqb]. cbv zeta. rewrite E. exact eq_refl. Qed.
  Lemma still_continuous_timestamp_histogram b : runs_like (c_continuous_timestamp_histogram (still b (find_at C)) (still_cells b) (length b) everything) (continuous_timestamp_histogram b).
  Proof. exact (like_everything _ _ _ (proj1 (proj2 (proj2 (proj2 (proj2 (C134_readable (still b (find_at C)) (still_cells b) (length b) everything 0 (all_everything (length b)))))))) (proj1 (proj2 (proj2 (proj2 (proj2 (C124_unchanged b (find_at C) 0 (HF b)))))))). Qed.
  Lemma end_continuous_timestamp_histogram b : (N.of_nat (length b) < 2 ^ 64 - 1)%N -> continuous_timestamp_histogram b <> Fuel.
  Proof. intros Hb E. apply (robust_nofuel C ds b "histogram_timestamp" Hc LM Hb). unfold run_command. cbn [String.eqb Ascii.eqb Bool.eqb]. cbv zeta. rewrite E. exact eq_refl. Qed.
  Lemma still_mstp_info_histogram b : runs_like (c_mstp_info_histogram (still b (find_at C)) (still_cells b) (length b) everything) (mstp_info_histogram b).
  Proof. exact (like_everything _ _ _ (proj1 (proj2 (proj2 (proj2 (proj2 (proj2 (C134_readable (still b (find_at C)) (still_cells b) (length b) everything 0 (all_everything (length b))))))))) (proj1 (proj2 (proj2 (proj2 (proj2 (proj2 (C124_unchanged b (find_at C) 0 (HF b))))))))). Qed.
  Lemma end_mstp_info_histogram b : (N.of_nat (length b) < 2 ^ 64 - 1)%N -> mstp_info_histogram b <> Fuel.
  Proof. intros Hb E. apply (robust_nofuel C ds b "histogram_message_type" Hc LM Hb). unfold run_command. cbn [String.eqb Ascii.eqb Bool.eqb]. cbv zeta. rewrite E. exact eq_refl. Qed.
  Lemma still_lifecycle_splitit b fin : runs_like (c_lifecycle_splitit (still b (find_at C)) (still_cells b) (length b) everything fin) (lifecycle_splitit fin b).
  Proof. exact (like_everything _ _ _ (proj1 (proj2 (proj2 (proj2 (proj2 (proj2 (proj2 (C134_readable (still b (find_at C)) (still_cells b) (length b) everything fin (all_everything (length b)))))))))) (proj1 (proj2 (proj2 (proj2 (proj2 (proj2 (proj2 (C124_unchanged b (find_at C) fin (HF b)))))))))). Qed.
  Lemma end_lifecycle_splitit b : (N.of_nat (length b) < 2 ^ 64 - 1)%N -> lifecycle_splitit (finalize_fuel b) b <> Fuel.
  Proof. intros Hb E. apply (robust_nofuel C ds b "split_lifecycles" Hc LM Hb). unfold run_command. cbn [String.eqb Ascii.eqb Bool.eqb]. cbv zeta. rewrite E. exact eq_refl. Qed.
  Lemma still_timestamp_splitit b fin : runs_like (c_timestamp_splitit (still b (find_at C)) (still_cells b) (length b) everything fin) (timestamp_splitit fin b).
  Proof. exact (like_everything _ _ _ (proj1 (proj2 (proj2 (proj2 (proj2 (proj2 (proj2 (proj2 (C134_readable (still b (find_at C)) (still_cells b) (length b) everything fin (all_everything (length b))))))))))) (proj1 (proj2 (proj2 (proj2 (proj2 (proj2 (proj2 (proj2 (C124_unchanged b (find_at C) fin (HF b))))))))))). Qed.
  Lemma end_timestamp_splitit b : (N.of_nat (length b) < 2 ^ 64 - 1)%N -> timestamp_splitit (finalize_fuel b) b <> Fuel.
  Proof. intros Hb E. apply (robust_nofuel C ds b "split_timestamp" Hc LM Hb). unfold run_command. cbn [String.eqb Ascii.eqb Bool.eqb]. cbv zeta. rewrite E. exact eq_refl. Qed.
  Lemma still_lifecycle_histogram b : runs_like (c_lifecycle_histogram (still b (find_at C)) (still_cells b) (length b) everything) (lifecycle_histogram b).
  Proof. exact (like_everything _ _ _ (proj1 (proj2 (proj2 (proj2 (proj2 (proj2 (proj2 (proj2 (proj2 (C134_readable (still b (find_at C)) (still_cells b) (length b) everything 0 (all_everything (length b)))))))))))) (proj1 (proj2 (proj2 (proj2 (proj2 (proj2 (proj2 (proj2 (proj2 (C124_unchanged b (find_at C) 0 (HF b)))))))))))). Qed.
  Lemma end_lifecycle_histogram b : (N.of_nat (length b) < 2 ^ 64 - 1)%N -> lifecycle_histogram b <> Fuel.
  Proof. intros Hb E. apply (robust_nofuel C ds b "histogram_lifecycles" Hc LM Hb). unfold run_command. cbn [String.eqb Ascii.eqb Bool.eqb]. cbv zeta. rewrite E. exact eq_refl. Qed.
  Lemma still_histogram_payload b : runs_like (c_histogram_payload (still b (find_at C)) (length b) everything) (histogram_payload b).
  Proof. exact (like_everything _ _ _ (proj1 (proj2 (proj2 (proj2 (proj2 (proj2 (proj2 (proj2 (proj2 (proj2 (C134_readable (still b (find_at C)) (still_cells b) (length b) everything 0 (all_everything (length b))))))))))))) (proj1 (proj2 (proj2 (proj2 (proj2 (proj2 (proj2 (proj2 (proj2 (proj2 (C124_unchanged b (find_at C) 0 (HF b))))))))))))). Qed.
  Lemma end_histogram_payload b : (N.of_nat (length b) < 2 ^ 64 - 1)%N -> histogram_payload b <> Fuel.
  Proof. intros Hb E. apply (robust_nofuel C ds b "histogram_payload_size" Hc LM Hb). unfold run_command. cbn [String.eqb Ascii.eqb Bool.eqb]. cbv zeta. rewrite E. exact eq_refl. Qed.
  Lemma still_histogram_message b : runs_like (c_histogram_message (still b (find_at C)) (length b) everything) (histogram_message b).
  Proof. exact (like_everything _ _ _ (proj1 (proj2 (proj2 (proj2 (proj2 (proj2 (proj2 (proj2 (proj2 (proj2 (proj2 (C134_readable (still b (find_at C)) (still_cells b) (length b) everything 0 (all_everything (length b)))))))))))))) (proj1 (proj2 (proj2 (proj2 (proj2 (proj2 (proj2 (proj2 (proj2 (proj2 (proj2 (C124_unchanged b (find_at C) 0 (HF b)))))))))))))). Qed.
  Lemma end_histogram_message b : (N.of_nat (length b) < 2 ^ 64 - 1)%N -> histogram_message b <> Fuel.
  Proof. intros Hb E. apply (robust_nofuel C ds b "histogram_message_size" Hc LM Hb). unfold run_command. cbn [String.eqb Ascii.eqb Bool.eqb]. cbv zeta. rewrite E. exact eq_refl. Qed.
  Lemma still_histogram_hello_world b : runs_like (c_histogram_hello_world (still b (find_at C)) (length b) everything) (histogram_hello_world (find_at C) b).
  Proof. exact (like_everything _ _ _ (proj1 (proj2 (proj2 (proj2 (proj2 (proj2 (proj2 (proj2 (proj2 (proj2 (proj2 (proj2 (C134_readable (still b (find_at C)) (still_cells b) (length b) everything 0 (all_everything (length b))))))))))))))) (proj1 (proj2 (proj2 (proj2 (proj2 (proj2 (proj2 (proj2 (proj2 (proj2 (proj2 (proj2 (C124_unchanged b (find_at C) 0 (HF b))))))))))))))). Qed.
  Lemma end_histogram_hello_world b : (N.of_nat (length b) < 2 ^ 64 - 1)%N -> histogram_hello_world (find_at C) b <> Fuel.
  Proof. intros Hb E. apply (robust_nofuel C ds b "histogram_hello_world" Hc LM Hb). unfold run_command. cbn [String.eqb Ascii.eqb Bool.eqb]. cbv zeta. rewrite E. exact eq_refl. Qed.
  Lemma still_lifecycle_iter b : runs_like (c_lifecycle_iter (still b (find_at C)) (still_cells b) (length b) everything) (lifecycle_iter b).
  Proof. exact (like_everything _ _ _ (proj1 (proj2 (proj2 (proj2 (proj2 (proj2 (proj2 (proj2 (proj2 (proj2 (proj2 (proj2 (proj2 (C134_readable (still b (find_at C)) (still_cells b) (length b) everything 0 (all_everything (length b)))))))))))))))) (proj1 (proj2 (proj2 (proj2 (proj2 (proj2 (proj2 (proj2 (proj2 (proj2 (proj2 (proj2 (proj2 (C124_unchanged b (find_at C) 0 (HF b)))))))))))))))). Qed.
  Lemma end_lifecycle_iter b : (N.of_nat (length b) < 2 ^ 64 - 1)%N -> lifecycle_iter b <> Fuel.
  Proof. intros Hb E. apply (robust_nofuel C ds b "iter" Hc LM Hb). unfold run_command. cbn [String.eqb Ascii.eqb Bool.eqb]. cbv zeta. rewrite E. exact eq_refl. Qed.
  Lemma still_lifecycle_itertools b : runs_like (c_lifecycle_itertools (still b (find_at C)) (still_cells b) (length b) everything) (lifecycle_itertools b).
  Proof. exact (like_everything _ _ _ (proj2 (proj2 (proj2 (proj2 (proj2 (proj2 (proj2 (proj2 (proj2 (proj2 (proj2 (proj2 (proj2 (C134_readable (still b (find_at C)) (still_cells b) (length b) everything 0 (all_everything (length b)))))))))))))))) (proj2 (proj2 (proj2 (proj2 (proj2 (proj2 (proj2 (proj2 (proj2 (proj2 (proj2 (proj2 (proj2 (C124_unchanged b (find_at C) 0 (HF b)))))))))))))))). Qed.
  Lemma end_lifecycle_itertools b : (N.of_nat (length b) < 2 ^ 64 - 1)%N -> lifecycle_itertools b <> Fuel.
  Proof. intros Hb E. apply (robust_nofuel C ds b "itertools" Hc LM Hb). unfold run_command. cbn [String.eqb Ascii.eqb Bool.eqb]. cbv zeta. rewrite E. exact eq_refl. Qed.

  Variable b : bytes.
  Hypothesis Hb : (N.of_nat (length b) < 2 ^ 64 - 1)%N.
  Notation Wp := (fun p => (still (part_of b p) (find_at C), still_cells (part_of b p))).
  Lemma part_nofuel {A} (g : bytes -> outcome A) : (forall b', (N.of_nat (length b') < 2 ^ 64 - 1)%N -> g b' <> Fuel) -> forall b', length b' <= length b -> g b' <> Fuel.
  Proof. intros H b' L. apply H. lia. Qed.
  Lemma command_still cmd : mapped_command C (still b (find_at C)) (still_cells b) (length b) everything Wp (fun _ => everything) (finalize_fuel b) cmd = command_text C cmd b.
  Proof.
    unfold mapped_command, command_text. cbv zeta. each_command cmd.
    all: match goal with |- ?x = ?x => exact eq_refl | |- println ?l ?r = println ?l ?r' => apply (f_equal (println l)) | _ => idtac end.
    all: match goal with
  | |- first_part (c_count _ _ _) _ = _ => apply (plain_still _ _ _ _ (fun _ => @eq_refl _ _) (still_count b) (end_count b Hb))
  | |- first_part (c_count_hello_world _ _ _ _) _ = _ => apply (plain_still _ _ _ _ (fun _ => @eq_refl _ _) (still_count_hello_world b) (end_count_hello_world b Hb))
  | |- first_part (c_count_hello_world_raw _ _ _) _ = _ => apply (plain_still _ _ _ _ (fun _ => @eq_refl _ _) (still_count_hello_world_raw b) (end_count_hello_world_raw b Hb))
  | |- first_part (c_count_hello_world_grepit _ _ _) _ = _ => apply (plain_still _ _ _ _ (fun _ => @eq_refl _ _) (still_count_hello_world_grepit b) (end_count_hello_world_grepit b Hb))
  | |- first_part (c_continuous_timestamp_histogram _ _ _ _) _ = _ => apply (plain_still _ _ _ _ (fun _ => @eq_refl _ _) (still_continuous_timestamp_histogram b) (end_continuous_timestamp_histogram b Hb))
  | |- first_part (c_mstp_info_histogram _ _ _ _) _ = _ => apply (plain_still _ _ _ _ (fun _ => @eq_refl _ _) (still_mstp_info_histogram b) (end_mstp_info_histogram b Hb))
  | |- first_part (c_lifecycle_splitit _ _ _ _ _) _ = _ => apply (plain_still _ _ _ _ (fun _ => @eq_refl _ _) (still_lifecycle_splitit b (finalize_fuel b)) (end_lifecycle_splitit b Hb))
  | |- first_part (c_timestamp_splitit _ _ _ _ _) _ = _ => apply (plain_still _ _ _ _ (fun _ => @eq_refl _ _) (still_timestamp_splitit b (finalize_fuel b)) (end_timestamp_splitit b Hb))
  | |- first_part (c_lifecycle_histogram _ _ _ _) _ = _ => apply (plain_still _ _ _ _ (fun _ => @eq_refl _ _) (still_lifecycle_histogram b) (end_lifecycle_histogram b Hb))
  | |- first_part (c_histogram_payload _ _ _) _ = _ => apply (plain_still _ _ _ _ (fun _ => @eq_refl _ _) (still_histogram_payload b) (end_histogram_payload b Hb))
  | |- first_part (c_histogram_message _ _ _) _ = _ => apply (plain_still _ _ _ _ (fun _ => @eq_refl _ _) (still_histogram_message b) (end_histogram_message b Hb))
  | |- first_part (c_histogram_hello_world _ _ _) _ = _ => apply (plain_still _ _ _ _ (fun _ => @eq_refl _ _) (still_histogram_hello_world b) (end_histogram_hello_world b Hb))
  | |- first_part (c_lifecycle_iter _ _ _ _) _ = _ => apply (plain_still _ _ _ _ (fun _ => @eq_refl _ _) (still_lifecycle_iter b) (end_lifecycle_iter b Hb))
  | |- first_part (c_lifecycle_itertools _ _ _ _) _ = _ => apply (plain_still _ _ _ _ (fun _ => @eq_refl _ _) (still_lifecycle_itertools b) (end_lifecycle_itertools b Hb))
  | _ => idtac end.
    - apply (parallel_still C b HF (fun W V n P => c_timestamp_splitit W V n P (finalize_fuel b)) (timestamp_splitit (finalize_fuel b)) _ Hc).
      + intros b' _. apply still_timestamp_splitit.
      + intros b' L. destruct (tsplit_ret (finalize_fuel b) b') as [m E]; [unfold finalize_fuel; lia|]. rewrite E. discriminate.
    - apply (parallel_still C b HF c_continuous_timestamp_histogram continuous_timestamp_histogram _ Hc); [intros b' _; apply still_continuous_timestamp_histogram|apply part_nofuel, end_continuous_timestamp_histogram].
    - unfold mapped_multithreaded, multithreaded_text. apply (parallel_still C b HF (fun W _ n P => c_count W n P) count _ Hc); [intros b' _; apply still_count|apply part_nofuel, end_count].
    - unfold mapped_multithreaded, multithreaded_text. apply (parallel_still C b HF c_count_hello_world count_hello_world _ Hc); [intros b' _; apply still_count_hello_world|apply part_nofuel, end_count_hello_world].
    - unfold mapped_multithreaded, multithreaded_text. apply (parallel_still C b HF (fun _ V n P => c_count_hello_world_raw V n P) count_hello_world_raw _ Hc); [intros b' _; apply still_count_hello_world_raw|apply part_nofuel, end_count_hello_world_raw].
    - unfold mapped_multithreaded, multithreaded_text. apply (parallel_still C b HF (fun W _ n P => c_count_hello_world_grepit W n P) (count_hello_world_grepit (find_at C)) _ Hc); [intros b' _; apply still_count_hello_world_grepit|apply part_nofuel, end_count_hello_world_grepit].
    - destruct (still_pieces C b Hc) as (ps & t & l & E & El & CUT & IN). unfold first_part. rewrite E, El. cbn [result compute].
      rewrite (workers_still C b HF c_lifecycle_iter lifecycle_iter ps still_lifecycle_iter iter_nofuel IN), CUT, (together_still lifecycle_iter l iter_nofuel). rewrite <- CUT, map_length. exact eq_refl.
  Qed.
End Whole.
Theorem C135_whole : forall (C : console) dotstar prog cmd name more d, 0 < cores C -> text_args (prog :: "mmap" :: cmd :: name :: more) ->
  leftmost (h_star_world dotstar) (find_at C) -> (forall b a s e, find_at C b a = Some (s, e) -> a <= s /\ s <= e /\ e <= length b) ->
  load C "mmap" name = Ret d -> (N.of_nat (length (as_slice d)) < 2 ^ 64 - 1)%N ->
  let args := "mmap" :: cmd :: name :: more in let b := as_slice d in
  ripdlt_mapped C (still b (find_at C)) (still_cells b) everything (fun p => (still (part_of b p) (find_at C), still_cells (part_of b p))) (fun _ => everything)
    (finalize_fuel b) prog args = ripdlt_run C prog args.
Proof.
  intros C ds prog cmd name more d Hc T LM HF L Hb args b. unfold args. rewrite (mapped_args C _ _ _ _ _ _ prog cmd name more T), (run_args C prog "mmap" cmd name more T), L. cbn [compute].
  apply (f_equal (println (args_line prog ("mmap" :: cmd :: name :: more)))). exact (command_still C ds Hc LM HF b Hb cmd).
Qed.
Print Assumptions C135_whole.
(** On a file that is truncated, and not changed otherwise: there is no text but that of the complete file. *)
Theorem C135_report : forall (C : console) dotstar P Ps prog cmd name more d, 0 < cores C -> text_args (prog :: "mmap" :: cmd :: name :: more) ->
  leftmost (h_star_world dotstar) (find_at C) -> (forall b a s e, find_at C b a = Some (s, e) -> a <= s /\ s <= e /\ e <= length b) ->
  load C "mmap" name = Ret d -> (N.of_nat (length (as_slice d)) < 2 ^ 64 - 1)%N ->
  let args := "mmap" :: cmd :: name :: more in let b := as_slice d in
  let r := ripdlt_mapped C (still b (find_at C)) (still_cells b) P (fun p => (still (part_of b p) (find_at C), still_cells (part_of b p))) Ps (finalize_fuel b) prog args in
  r = ripdlt_run C prog args \/ (killed r /\ (cmd <> "par_iter" -> killed_early C prog args cmd r /\ prints_less r (ripdlt_run C prog args))).
Proof.
  intros C ds P Ps prog cmd name more d Hc T LM HF L Hb args b r.
  pose proof (C135_whole C ds prog cmd name more d Hc T LM HF L Hb) as WH. cbv zeta in WH. fold b args in WH. rewrite <- WH.
  exact (C135_killed C (still b (find_at C)) (still_cells b) P (fun p => (still (part_of b p) (find_at C), still_cells (part_of b p))) Ps (finalize_fuel b) prog cmd name more Hc T).
Qed.
Print Assumptions C135_report.

Lemma fewer {B} (w w' : B -> outcome nat) ps : (forall p, w p = w' p \/ w p = Fuel) -> exists lost, Permutation (succeeded (map w ps) ++ lost) (succeeded (map w' ps)).
Proof.
  intros H. induction ps as [|p ps [lost IH]]; [exists []; constructor|]. unfold succeeded in *. cbn [map flat_map]. destruct (H p) as [E|E]; rewrite E.
  - exists lost. rewrite <- app_assoc. now apply Permutation_app_head.
  - exists (match w' p with Ret k => [k] | _ => [] end ++ lost). cbn [app]. rewrite Permutation_app_swap_app. now apply Permutation_app_head.
Qed.
(** par_iter, whose workers print: lines of parts that were complete, as they are on the complete file. *)
Theorem C135_par_iter : forall (C : console) dotstar P Ps prog name more d slices, let args := "mmap" :: "par_iter" :: name :: more in
  0 < cores C -> text_args (prog :: args) -> fair_arrival (arrival C) ->
  leftmost (h_star_world dotstar) (find_at C) -> (forall b a s e, find_at C b a = Some (s, e) -> a <= s /\ s <= e /\ e <= length b) ->
  load C "mmap" name = Ret d -> (N.of_nat (length (as_slice d)) < 2 ^ 64 - 1)%N ->
  let b := as_slice d in partition_from DLT b (cores C) = Ret slices ->
  let r := ripdlt_mapped C (still b (find_at C)) (still_cells b) P (fun p => (still (part_of b p) (find_at C), still_cells (part_of b p))) Ps (finalize_fuel b) prog args in
  r = ripdlt_run C prog args \/
  (killed r /\
   (out r = lines_text [ascii (String.concat " " (prog :: args))] \/
    exists t ns lost ts, appears "par_iter" (LSlices (cores C) (length slices)) t /\ Permutation (ns ++ lost) (succeeded (map lifecycle_iter slices)) /\
      Forall2 (appears "par_iter") (map LLong ns) ts /\ out r = lines_text (ascii (String.concat " " (prog :: args)) :: t :: ts))).
Proof.
  intros C ds P Ps prog name more d slices args Hc T [_ FA] LM HF L Hb b PS r.
  destruct (C135_report C ds P Ps prog "par_iter" name more d Hc T LM HF L Hb) as [E|[K _]]; [left; exact E|right; split; [exact K|]]. clear K.
  unfold r, args. rewrite (mapped_args C _ _ _ _ _ _ prog "par_iter" name more T), L. cbn [compute]. fold b. clear r.
  set (Ws := fun p => (still (part_of b p) (find_at C), still_cells (part_of b p))).
  unfold mapped_command. cbn [String.eqb Ascii.eqb Bool.eqb]. cbv zeta. unfold first_part.
  destruct (still_pieces C b Hc) as (ps & t & l & E & El & CUT & IN). rewrite El in PS. injection PS as <-.
  destruct (result_cut _ _ (partition_cut C (still b (find_at C)) (length b) P Hc)) as [R|R]; rewrite R.
  2: { left. cbn [compute println out]. unfold lines_text. cbn [map concat]. rewrite !app_nil_r. unfold args_line. exact eq_refl. }
  right. rewrite E. cbn [result compute].
  set (os := map (worker Ws Ps c_lifecycle_iter) ps). destruct (FA os) as [lost FO].
  destruct (fewer (worker Ws Ps c_lifecycle_iter) (worker Ws (fun _ => everything) c_lifecycle_iter) ps) as [lost' FW]; [intros p; apply result_cut; same_command|].
  pose proof (workers_still C b HF c_lifecycle_iter lifecycle_iter ps (still_lifecycle_iter C HF) iter_nofuel IN) as WS. fold Ws in WS. rewrite WS, CUT in FW. clear WS. fold os in FW.
  exists (slices_text (cores C) (length ps)), (arrival C os), (lost ++ lost'), (map long_text (arrival C os)).
  split; [rewrite <- CUT, map_length; apply slices_appear|]. split; [rewrite app_assoc, FO; exact FW|]. split; [apply longs_appear|].
  rewrite println_all_out. cbn [println out]. unfold lines_text. cbn [map concat].
  assert (Z : out (compute (together os) (fun _ => finished)) = []) by (destruct (together os); exact eq_refl). rewrite Z, app_nil_r. rewrite <- !app_assoc. unfold args_line. exact eq_refl.
Qed.
Print Assumptions C135_par_iter.
(** A file that is read into memory, or no file at all: nothing to be killed by. *)
Theorem C135_other : forall (C : console) W V P Ws Ps fin prog args, hd_error args <> Some "mmap" \/ length args < 3 ->
  ripdlt_mapped C W V P Ws Ps fin prog args = ripdlt_run C prog args.
Proof.
  intros C W V P Ws Ps fin prog args H. unfold ripdlt_mapped, ripdlt_run. destruct (forallb _ _); cbn [compute]; [|exact eq_refl].
  destruct args as [|method [|cmd [|name more]]]; [exact eq_refl|exact eq_refl|exact eq_refl|]. destruct H as [H|H]; [|cbn in H; lia].
  destruct (String.eqb_spec method "mmap") as [->|_]; [now destruct H|]. exact eq_refl.
Qed.
Print Assumptions C135_other.

(** A log of three messages that was truncated. *)
Lemma find_hw_inside : forall b a s e, find_hw b a = Some (s, e) -> a <= s /\ s <= e /\ e <= length b.
Proof.
  intros b a s e E. destruct (Nat.leb_spec a (length b)) as [L|L].
  - pose proof (find_hw_leftmost b a L) as H. rewrite E in H. tauto.
  - unfold find_hw in E. rewrite skipn_all2 in E by lia. discriminate E.
Qed.
Example C135_example : let b := m1 ++ m2 ++ m3 in let C := desk b in
  let cut k := {| reads := fun _ p => Nat.ltb p k; reach := fun _ _ => 0; rreach := fun _ _ => 0; looks_at := fun _ _ _ => true; hreach := fun _ _ => 0 |} in
  let part k p := cut (k - fst p) in
  let run k cmd := ripdlt_mapped C (still b (find_at C)) (still_cells b) (cut k) (fun p => (still (part_of b p) (find_at C), still_cells (part_of b p))) (part k) (finalize_fuel b)
    "ripdlt" ["mmap"; cmd; "x.dlt"] in
  let headers := List.length m1 + List.length m2 + 20 in
  (load C "mmap" "x.dlt" = Ret (BufMmap b) /\ find_at C = find_hw /\ cores C = 2 /\ text_args ["ripdlt"; "mmap"; "count"; "x.dlt"]) /\
  run headers "count" = {| out := lines_text (map ascii ["ripdlt mmap count x.dlt"; "3 messages"]); how := Finished |} /\
  run (headers - 1) "count" = {| out := lines_text (map ascii ["ripdlt mmap count x.dlt"]); how := Endless |} /\
  run headers "histogram_lifecycles" = {| out := lines_text (map ascii ["ripdlt mmap histogram_lifecycles x.dlt"; "Distribution of lifecycle durations:"]); how := Endless |} /\
  run (List.length m1 + 20) "par_count" = {| out := lines_text (map ascii ["ripdlt mmap par_count x.dlt"]); how := Endless |}.
Proof.
  cbv zeta. split.
  - split; [reflexivity|]. split; [reflexivity|]. split; [reflexivity|]. intros a I. apply from_utf8_exact. repeat (destruct I as [<-|I]; [vm_compute; reflexivity|]). destruct I.
  - vm_compute. repeat split; reflexivity.
Qed.
(** Truncated while the workers run: the part that could be read is on standard output. *)
Example C135_workers : let b := m1 ++ m1 ++ m2 ++ m3 ++ m1 ++ m1 ++ m1 in let C := desk b in
  let part p := {| reads := fun _ x => Nat.ltb x (180 - fst p); reach := fun _ _ => 0; rreach := fun _ _ => 0; looks_at := fun _ _ _ => true; hreach := fun _ _ => 0 |} in
  ripdlt_mapped C (still b (find_at C)) (still_cells b) everything (fun p => (still (part_of b p) (find_at C), still_cells (part_of b p))) part (finalize_fuel b)
    "ripdlt" ["mmap"; "par_iter"; "x.dlt"] =
  {| out := lines_text (map ascii ["ripdlt mmap par_iter x.dlt"; "available parallelism = 2, slices = 2"; "0 lifecycles >= 1800s"]); how := Endless |}.
Proof. vm_compute. reflexivity. Qed.
