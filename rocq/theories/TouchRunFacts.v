(** Facts for C135: the text of a run on a mapped file that is truncated or changed. *)
From Coq Require Import String Permutation.
From Verif Require Import Base DltModel MatchModel GenModel ToolsModel MainModel PrintModel PrintSpec MappedModel MappedCmd TouchModel TouchMore TouchCmd TouchRun
  Spec ReadSpec MappedSpec MappedCmdSpec TouchSpec TouchCmdSpec TouchRunSpec BaseFacts DltFacts MappedFacts TouchFacts TouchMoreFacts SimFacts CmdCommands TouchCmdFacts PartitionFacts
  PrintFacts PrintCrash CommandFacts P_Mapped P_TouchMore P_MappedCmd P_TouchCmd.
From Coq Require Import ZifyBool ZifyNat ZifyN.
Ltac Zify.zify_post_hook ::= idtac.

(** [r] is [r'], or it was killed after some of the lines that [mk] says, for some number of slices. *)
Definition cut (mk : nat -> list bytes) (r r' : run) : Prop := r = r' \/ (how r = Endless /\ (exists s k, out r = lines_text (firstn k (mk s))) /\ exists rest, out r' = out r ++ rest).
Lemma cut_refl mk r : cut mk r r.
Proof. now left. Qed.
Lemma cut_println l mk r r' : cut mk r r' -> cut (fun s => l :: mk s) (println l r) (println l r').
Proof.
  intros [->|(H & (s & k & E) & rest & R)]; [now left|]. right. split; [exact H|]. split.
  - exists s, (S k). cbn [println out firstn]. rewrite E. unfold lines_text. cbn [map concat]. now rewrite <- app_assoc.
  - exists rest. cbn [println out]. rewrite R. now rewrite <- !app_assoc.
Qed.
Lemma cut_compute {A} (x y : outcome A) mk next next' : x = y \/ x = Fuel -> (forall a, x = Ret a -> y = Ret a -> cut mk (next a) (next' a)) -> cut mk (compute x next) (compute y next').
Proof.
  intros [->| ->] H.
  - destruct y; [now apply H|now left|now left].
  - right. split; [reflexivity|]. split; [exists 0, 0; reflexivity|]. eexists. reflexivity.
Qed.
Lemma cut_slices num s r r' : cut (fun _ => []) r r' -> cut (fun s => [slices_text num s]) (println (slices_text num s) r) (println (slices_text num s) r').
Proof.
  intros [->|(H & (s' & k & E) & rest & R)]; [now left|]. right. split; [exact H|]. split; [|exists rest; cbn [println out]; rewrite R; now rewrite <- !app_assoc].
  exists s, 1. cbn [println out firstn]. rewrite E, firstn_nil. unfold lines_text. cbn [map concat]. now rewrite app_nil_r, <- app_assoc.
Qed.
Lemma mapM_stuck {A} (os : list (outcome A)) : existsb stuck os = false -> mapM (fun o => o) os <> Fuel.
Proof.
  induction os as [|o os IH]; [discriminate|]. cbn [existsb mapM]. intros H. apply Bool.orb_false_iff in H. destruct H as [H1 H2]. specialize (IH H2). destruct o; cbn [obind]; try discriminate.
  destruct (mapM (fun o => o) os); cbn [obind]; congruence.
Qed.
Lemma together_cut {A B} (w w' : B -> outcome A) ps : (forall p, w p = w' p \/ w p = Fuel) -> map w ps = map w' ps \/ (together (map w ps) = Fuel /\ existsb stuck (map w ps) = true).
Proof.
  intros H. destruct (existsb stuck (map w ps)) eqn:X; [right; unfold together; now rewrite X|]. left. apply map_ext_in. intros p I. destruct (H p) as [E|E]; [exact E|].
  exfalso. assert (Y : existsb stuck (map w ps) = true) by (apply existsb_exists; exists (w p); split; [now apply in_map|now rewrite E]). congruence.
Qed.
Lemma result_cut {A} (x y : act A) : same_or_killed x y -> result (x 0) = result (y 0) \/ result (x 0) = Fuel.
Proof. intros H. destruct (H 0) as [->| ->]; [now left|now right]. Qed.

(** What a command reads before it prints anything but its first lines. *)
Section Two.
  Variables (C : console) (W : world) (V : cells) (n : nat) (P : reading) (Ws : nat * nat -> world * cells) (Ps : nat * nat -> reading) (fin : nat).
  Notation partition P := (alive (t_partition W n (reads P) (reach P) (cores C))).
  Lemma plain_cut {A} (x y : act A) next : same_or_killed x y -> cut (fun _ => []) (first_part x next) (first_part y next).
  Proof. intros H. apply cut_compute; [now apply result_cut|]. intros; apply cut_refl. Qed.
  Lemma partition_cut : 0 < cores C -> same_or_killed (partition P) (partition everything).
  Proof.
    intros Hc t. destruct (C131_inside W n (reads everything) (reach everything) (rreach everything) (looks_at everything) (fun _ _ _ => eq_refl)) as (_ & _ & I).
    destruct (I (cores C) t Hc) as (parts & u & E). unfold alive. rewrite E.
    destruct (sim_partition W n (reads everything) (reach everything) (cores C) t) as [K|K]; [congruence|]. rewrite E in K.
    destruct (sim_partition W n (reads P) (reach P) (cores C) t) as [Q|Q]; [rewrite Q; now right|]. destruct (m_partition W n (cores C) t) as [[a v]| |]; try discriminate K. injection K as -> ->. rewrite Q. now left.
  Qed.
  Lemma parallel_cut {A} (f : world -> cells -> nat -> reading -> act A) next : 0 < cores C -> (forall W V n P, same_or_killed (f W V n P) (f W V n everything)) ->
    cut (fun s => [slices_text (cores C) s]) (mapped_parallel C W n P Ws Ps f next) (mapped_parallel C W n everything Ws (fun _ => everything) f next).
  Proof.
    intros Hc H. apply cut_compute; [now apply result_cut, partition_cut|]. intros ps _ _. apply cut_slices. apply cut_compute; [|intros; apply cut_refl].
    destruct (together_cut (worker Ws Ps f) (worker Ws (fun _ => everything) f) ps) as [E|[E _]]; [|left; now rewrite E|now right]. intros p. now apply result_cut.
  Qed.
  Lemma to_everything {A} (x y z : act A) : same_or_killed x z -> just_as y z -> same_or_killed x y.
  Proof. intros H E t. rewrite E. apply H. Qed.
  Lemma all_everything k : all_readable k everything.
  Proof. intros t p _. reflexivity. Qed.

  (** The first lines of a command. *)
  Definition first_lines (cmd : string) (s : nat) : list bytes := map ascii (heading cmd) ++ (if with_slices cmd then [slices_text (cores C) s] else []).
  Lemma first_opening cmd s : opening cmd (cores C) s (first_lines cmd s).
  Proof. unfold first_lines. destruct (with_slices cmd) eqn:E; [now apply open_slices|]. rewrite app_nil_r. now apply open_plain. Qed.
End Two.

(** * On a file that does not change otherwise: the text of PrintModel.v *)
Section Still.
  Variables (C : console) (b : bytes).
  Notation F := (find_at C).
  Notation W := (still b F).
  Notation V := (still_cells b).
  Notation n := (length b).
  Hypothesis HF : forall b a s e, F b a = Some (s, e) -> a <= s /\ s <= e /\ e <= length b.
  Lemma still_result {A} (x : act A) (o : outcome A) : runs_like x o -> o <> Fuel -> result (x 0) = o.
  Proof. intros H NF. specialize (H 0). destruct o as [r| |]; [destruct H as [t' ->]|now rewrite H|congruence]; reflexivity. Qed.
  Lemma plain_still {A} (x y : act A) (o : outcome A) next : just_as x y -> runs_like y o -> o <> Fuel -> first_part x next = compute o next.
  Proof. intros E H NF. unfold first_part. rewrite E. now rewrite (still_result y o H NF). Qed.
  Lemma still_pieces : 0 < cores C -> exists ps t l, alive (t_partition W n (reads everything) (reach everything) (cores C)) 0 = Ret (ps, t) /\
    partition_from DLT b (cores C) = Ret l /\ map (part_of b) ps = l /\ (forall p, In p ps -> fst p < snd p <= n).
  Proof.
    intros Hc. destruct (C131_inside W n (reads everything) (reach everything) (rreach everything) (looks_at everything) (fun _ _ _ => eq_refl)) as (_ & _ & I).
    destruct (I (cores C) 0 Hc) as (ps & u & E). destruct (partition_pieces b (cores C) Hc) as (l & rest & El & _).
    destruct (C117_unchanged b F) as (_ & _ & _ & _ & _ & PT). destruct (PT (cores C) l El 0) as (ps' & t' & E' & CUT).
    destruct (sim_partition W n (reads everything) (reach everything) (cores C) 0) as [K|K]; [congruence|]. rewrite E in K. rewrite E' in K. injection K as -> ->.
    exists ps', t', l. unfold alive. rewrite E. split; [reflexivity|]. split; [exact El|]. split; [exact CUT|].
    destruct (C115_partition W n (cores C) 0 Hc) as (ps2 & t2 & EP & IL). rewrite E' in EP. injection EP as <- <-. intros p. now apply in_line_inside with (pos := 0).
  Qed.
  Lemma worker_still {A} (f : world -> cells -> nat -> reading -> act A) (g : bytes -> outcome A) p :
    (forall b', runs_like (f (still b' F) (still_cells b') (length b') everything) (g b')) -> (forall b', g b' <> Fuel) -> fst p < snd p <= n ->
    worker (fun p => (still (part_of b p) F, still_cells (part_of b p))) (fun _ => everything) f p = g (part_of b p).
  Proof.
    intros H NF Hp. unfold worker. cbn [fst snd]. replace (snd p - fst p) with (length (part_of b p)); [now apply still_result|].
    unfold part_of. rewrite firstn_length, skipn_length. lia.
  Qed.
  Lemma together_still {A B} (g : B -> outcome A) l : (forall x, g x <> Fuel) -> together (map g l) = mapM g l.
  Proof.
    intros NF. unfold together. replace (existsb stuck (map g l)) with false.
    - induction l as [|x l IH]; [reflexivity|]. cbn [map mapM]. now rewrite IH.
    - symmetry. induction l as [|x l IH]; [reflexivity|]. cbn [map existsb]. rewrite IH, Bool.orb_false_r. specialize (NF x). destruct (g x); [reflexivity|reflexivity|congruence].
  Qed.
  Notation Wp := (fun p => (still (part_of b p) F, still_cells (part_of b p))).
  Lemma workers_still {A} (f : world -> cells -> nat -> reading -> act A) (g : bytes -> outcome A) ps :
    (forall b', runs_like (f (still b' F) (still_cells b') (length b') everything) (g b')) -> (forall b', g b' <> Fuel) -> (forall p, In p ps -> fst p < snd p <= n) ->
    map (worker Wp (fun _ => everything) f) ps = map g (map (part_of b) ps).
  Proof. intros H NF Hp. rewrite map_map. apply map_ext_in. intros p I. apply worker_still; auto. Qed.
  Lemma parallel_still {A} (f : world -> cells -> nat -> reading -> act A) (g : bytes -> outcome A) next : 0 < cores C ->
    (forall b', length b' <= n -> runs_like (f (still b' F) (still_cells b') (length b') everything) (g b')) -> (forall b', length b' <= n -> g b' <> Fuel) ->
    mapped_parallel C W n everything Wp (fun _ => everything) f next = parallel C g b next.
  Proof.
    intros Hc H NF. destruct (still_pieces Hc) as (ps & t & l & E & El & CUT & IN). unfold mapped_parallel, parallel, first_part. rewrite E, El. cbn [result compute].
    assert (M : map (worker Wp (fun _ => everything) f) ps = map g l).
    { rewrite <- CUT, map_map. apply map_ext_in. intros p I. specialize (IN p I). assert (LP : length (part_of b p) = snd p - fst p) by (unfold part_of; rewrite firstn_length, skipn_length; lia).
      unfold worker. cbn [fst snd]. rewrite <- LP. apply still_result; [apply H; lia|apply NF; lia]. }
    rewrite M. assert (T : together (map g l) = mapM g l).
    { assert (NL : forall s, In s l -> g s <> Fuel). { intros s I. rewrite <- CUT in I. apply in_map_iff in I. destruct I as (p & <- & I). apply NF. specialize (IN p I). unfold part_of. rewrite firstn_length, skipn_length. lia. }
      clear - NL. unfold together. replace (existsb stuck (map g l)) with false.
      - clear NL. induction l as [|x l IH]; [reflexivity|]. cbn [map mapM]. now rewrite IH.
      - symmetry. induction l as [|x l IH]; [reflexivity|]. cbn [map existsb]. rewrite IH by (intros; apply NL; now right). rewrite Bool.orb_false_r. specialize (NL x (or_introl eq_refl)). destruct (g x); [reflexivity|reflexivity|congruence]. }
    rewrite T. rewrite <- CUT, map_length. reflexivity.
  Qed.
End Still.
