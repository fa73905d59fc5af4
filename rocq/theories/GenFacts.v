(** Facts about the adapters and reducers of GenModel. *)
From Verif Require Import Base GenModel Spec BaseFacts.
From Coq Require Import Sorted Permutation.

Definition olist {A : Type} (o : option A) : list A := match o with Some x => [x] | None => [] end.

(** * What an adapter delivers *)
Section Deliver.
  Context {S I Q : Type}.
  Variable a : Adapt S I Q.

  Inductive pushes : S -> list I -> S -> list Q -> Prop :=
  | P_nil s : pushes s [] s []
  | P_cons s x s' o xs s'' out : adapt a s x = Ret (s', Continue o) -> pushes s' xs s'' out ->
      pushes s (x :: xs) s'' (olist o ++ out).

  Inductive drains : nat -> S -> list Q -> Prop :=
  | D_end s s' : finalize a s = Ret (s', Break) -> finalize a s' = Ret (s', Break) -> drains 1 s []
  | D_more n s s' o out : finalize a s = Ret (s', Continue o) -> drains n s' out ->
      drains (Datatypes.S n) s (olist o ++ out).

  Definition delivers (n : nat) (s : S) (xs : list I) (out : list Q) : Prop :=
    exists s' o1 o2, pushes s xs s' o1 /\ drains n s' o2 /\ out = o1 ++ o2.

  Lemma pushes_app s xs s' o1 : pushes s xs s' o1 -> forall ys s'' o2, pushes s' ys s'' o2 ->
    pushes s (xs ++ ys) s'' (o1 ++ o2).
  Proof.
    induction 1 as [|s x s' o xs s1 out E H IH]; intros ys s'' o2 H2; [exact H2|].
    rewrite <- app_assoc. cbn [app]. econstructor; [exact E|now apply IH].
  Qed.
  Lemma pushes_one s x s' o : adapt a s x = Ret (s', Continue o) -> pushes s [x] s' (olist o).
  Proof. intros E. rewrite <- (app_nil_r (olist o)). econstructor; [exact E|constructor]. Qed.
  Lemma drains_pos n s out : drains n s out -> 0 < n.
  Proof. destruct 1; lia. Qed.
End Deliver.

Ltac inv H := inversion H; subst; clear H.

(** * Reducers over adapters *)
Section Over.
  Context {S1 S2 I M R : Type}.
  Variable r : Reduce S1 M R.
  Variable a : Adapt S2 I M.

  Lemma feed_app {S J T} (q : Reduce S J T) xs : forall ys s,
    feed q s (xs ++ ys) = obind (feed q s xs) (fun s' => feed q s' ys).
  Proof.
    induction xs as [|x xs IH]; intros ys s; [reflexivity|]. cbn [feed app].
    destruct (rnext q s x) as [s'| |]; cbn [obind]; [apply IH|reflexivity|reflexivity].
  Qed.

  Lemma feed_over fuel s2 xs s2' out : pushes a s2 xs s2' out -> forall s1,
    feed (ReducerOver r a fuel) (s1, s2) xs = obind (feed r s1 out) (fun s1' => Ret (s1', s2')).
  Proof.
    induction 1 as [s|s x s' o xs s'' out E H IH]; intros s1; [reflexivity|].
    cbn [feed ReducerOver rnext]. rewrite E. cbn [obind].
    destruct o as [o|]; cbn [olist app feed].
    - destruct (rnext r s1 o) as [s1'| |]; cbn [obind]; [apply IH|reflexivity|reflexivity].
    - apply IH.
  Qed.

  Lemma finalize_over n s2 out : drains a n s2 out -> forall fuel s1, n <= fuel ->
    reducer_finalize r a fuel s1 s2 = obind (feed r s1 out) (rfinal r).
  Proof.
    induction 1 as [s s' E E'|n s s' o out E H IH]; intros fuel s1 L; destruct fuel as [|fuel]; try lia.
    - cbn [reducer_finalize]. rewrite E. reflexivity.
    - cbn [reducer_finalize]. rewrite E. cbn [obind]. destruct o as [o|]; cbn [olist app feed].
      + destruct (rnext r s1 o) as [s1'| |]; cbn [obind]; [apply IH; lia|reflexivity|reflexivity].
      + apply IH; lia.
  Qed.

  Lemma run_over n s2 xs out : delivers a n s2 xs out -> forall fuel s1, n <= fuel ->
    run_reduce (ReducerOver r a fuel) (s1, s2) xs = run_reduce r s1 out.
  Proof.
    intros (s' & o1 & o2 & P & D & ->) fuel s1 L. unfold run_reduce.
    rewrite (feed_over fuel _ _ _ _ P), feed_app.
    destruct (feed r s1 o1) as [s1'| |]; cbn [obind]; [|reflexivity|reflexivity].
    cbn [ReducerOver rfinal fst snd]. rewrite (finalize_over _ _ _ D) by exact L. reflexivity.
  Qed.
End Over.

(** * Composition *)
Section Comp.
  Context {S1 S2 I M Q : Type}.
  Variable impl : Adapt S1 M Q.
  Variable inner : Adapt S2 I M.
  Variable fuel : nat.
  Notation A := (Adapter impl inner fuel).

  Lemma pushes_comp s2 xs s2' mid : pushes inner s2 xs s2' mid -> forall s1 s1' out,
    pushes impl s1 mid s1' out -> pushes A (s1, s2) xs (s1', s2') out.
  Proof.
    induction 1 as [s|s x s' o xs s'' out E H IH]; intros s1 s1' out' P.
    - inv P. constructor.
    - destruct o as [o|]; cbn [olist app] in P.
      + inv P. econstructor; [|apply IH; eassumption]. cbn [adapt Adapter]. rewrite E. cbn [obind].
        match goal with H : adapt impl _ _ = _ |- _ => rewrite H end. reflexivity.
      + change out' with (@olist Q None ++ out'). econstructor; [|apply IH; eassumption].
        cbn [adapt Adapter]. rewrite E. reflexivity.
  Qed.

  Lemma pushes_inv s mid1 : forall mid2 s'' out, pushes impl s (mid1 ++ mid2) s'' out ->
    exists s' o1 o2, pushes impl s mid1 s' o1 /\ pushes impl s' mid2 s'' o2 /\ out = o1 ++ o2.
  Proof.
    revert s. induction mid1 as [|x mid1 IH]; intros s mid2 s'' out P.
    - exists s, [], out. repeat split; [constructor|exact P].
    - inv P. match goal with H : pushes impl _ (_ ++ _) _ _ |- _ => apply IH in H; destruct H as (s2 & o1 & o2 & P1 & P2 & ->) end.
      exists s2, (olist o ++ o1), o2. split; [econstructor; eassumption|]. split; [exact P2|apply app_assoc].
  Qed.

  Lemma drains_comp_end n s1 o : drains impl n s1 o -> forall s2, 0 < fuel ->
    finalize inner s2 = Ret (s2, Break) -> drains A n (s1, s2) o.
  Proof.
    induction 1 as [s s' E E'|n s s' o out E H IH]; intros s2 F Q2; destruct fuel as [|f] eqn:Ef; try lia.
    - apply (D_end _ _ (s', s2)); cbn [finalize Adapter fst snd compose_finalize]; rewrite Q2; cbn [obind];
        [rewrite E|rewrite E']; reflexivity.
    - apply (D_more _ _ _ (s', s2)).
      + cbn [finalize Adapter fst snd compose_finalize]. rewrite Q2. cbn [obind]. rewrite E. reflexivity.
      + apply IH; [lia|exact Q2].
  Qed.

  Lemma compose_step n2 s2 mid : drains inner n2 s2 mid ->
    (mid = [] /\ exists q, finalize inner q = Ret (q, Break) /\
       forall k s1, n2 <= k -> compose_finalize impl inner k s1 s2 =
         obind (finalize impl s1) (fun p => Ret ((fst p, q), snd p))) \/
    (exists o rest n' s2', mid = o :: rest /\ n' < n2 /\ drains inner n' s2' rest /\
       forall k s1, n2 <= k -> compose_finalize impl inner k s1 s2 =
         obind (adapt impl s1 o) (fun p => Ret ((fst p, s2'), snd p))).
  Proof.
    induction 1 as [s s' E E'|n s s' o out E H IH].
    - left. split; [reflexivity|]. exists s'. split; [exact E'|]. intros k s1 L. destruct k as [|k]; [lia|].
      cbn [compose_finalize]. rewrite E. cbn [obind].
      destruct (finalize impl s1) as [[? ?]| |]; reflexivity.
    - destruct o as [o|]; cbn [olist app].
      + right. exists o, out, n, s'. split; [reflexivity|]. split; [lia|]. split; [exact H|].
        intros k s1 L. destruct k as [|k]; [lia|]. cbn [compose_finalize]. rewrite E. cbn [obind].
        destruct (adapt impl s1 o) as [[? ?]| |]; reflexivity.
      + destruct IH as [(-> & q & Q1 & Q2)|(o & rest & n' & s2' & -> & L & D & Q2)].
        * left. split; [reflexivity|]. exists q. split; [exact Q1|]. intros k s1 Lk. destruct k as [|k]; [lia|].
          cbn [compose_finalize]. rewrite E. cbn [obind]. apply Q2. lia.
        * right. exists o, rest, n', s2'. split; [reflexivity|]. split; [lia|]. split; [exact D|].
          intros k s1 Lk. destruct k as [|k]; [lia|]. cbn [compose_finalize]. rewrite E. cbn [obind]. apply Q2. lia.
  Qed.

  Lemma drains_comp n2 : n2 <= fuel -> forall s2 mid, drains inner n2 s2 mid -> forall s1 s1' o1 n1 o2,
    pushes impl s1 mid s1' o1 -> drains impl n1 s1' o2 ->
    exists n, n <= n1 + n2 /\ drains A n (s1, s2) (o1 ++ o2).
  Proof.
    induction n2 as [n2 IH] using lt_wf_ind. intros L s2 mid D s1 s1' o1 n1 o2 P D1.
    assert (F : 0 < fuel) by (apply drains_pos in D; lia).
    destruct (compose_step n2 s2 mid D) as [(-> & q & Q1 & Q2)|(o & rest & n' & s2' & -> & L' & D' & Q2)].
    - inv P. exists n1. split; [lia|]. cbn [app]. inv D1.
      + match goal with H : finalize impl s1' = Ret (?x, Break), H' : finalize impl ?x = _ |- _ =>
          apply (D_end _ _ (x, q)); cbn [finalize Adapter fst snd];
          [rewrite Q2 by exact L; rewrite H; reflexivity|];
          destruct fuel as [|f]; [lia|]; cbn [compose_finalize]; rewrite Q1; cbn [obind]; rewrite H'; reflexivity
        end.
      + match goal with H : finalize impl s1' = Ret (?x, Continue _) |- _ =>
          apply (D_more _ _ _ (x, q)); [cbn [finalize Adapter fst snd]; rewrite Q2 by exact L; rewrite H; reflexivity|]
        end.
        now apply drains_comp_end.
    - inv P. match goal with P : pushes impl ?x rest _ _, E : adapt impl s1 o = _ |- _ =>
        destruct (IH n' L' ltac:(lia) s2' rest D' x s1' _ n1 o2 P D1) as (n & Ln & Dn);
        exists (S n); split; [lia|]; rewrite <- app_assoc; apply (D_more _ _ _ (x, s2')); [|exact Dn];
        cbn [finalize Adapter fst snd]; rewrite Q2 by exact L; rewrite E; reflexivity end.
  Qed.

  Lemma delivers_comp n1 n2 s1 s2 xs mid out : delivers inner n2 s2 xs mid -> delivers impl n1 s1 mid out ->
    n2 <= fuel -> exists n, n <= n1 + n2 /\ delivers A n (s1, s2) xs out.
  Proof.
    intros (t2 & m1 & m2 & P2 & D2 & ->) (t1 & o1 & o2 & P1 & D1 & ->) L.
    apply pushes_inv in P1. destruct P1 as (u1 & p1 & p2 & P11 & P12 & ->).
    destruct (drains_comp n2 L t2 m2 D2 u1 t1 p2 n1 o2 P12 D1) as (n & Ln & Dn).
    exists n. split; [exact Ln|]. exists (u1, t2), p1, (p2 ++ o2).
    split; [eapply pushes_comp; eassumption|]. split; [exact Dn|now rewrite app_assoc].
  Qed.
End Comp.

(** * Iterator adapters *)
Section From.
  Context {S I Q : Type}.
  Variable a : Adapt S I Q.

  Lemma from_finalize_step n s out : drains a n s out -> forall k, n <= k ->
    (out = [] /\ exists q, finalize a q = Ret (q, Break) /\ from_finalize a k s = Ret (q, None)) \/
    (exists o rest n' s', out = o :: rest /\ n' < n /\ drains a n' s' rest /\ from_finalize a k s = Ret (s', Some o)).
  Proof.
    induction 1 as [s s' E E'|n s s' o out E H IH]; intros k L; destruct k as [|k]; try lia; cbn [from_finalize]; rewrite E; cbn [obind].
    - left. split; [reflexivity|]. now exists s'.
    - destruct o as [o|]; cbn [olist app].
      + right. exists o, out, n, s'. repeat split; auto.
      + destruct (IH k ltac:(lia)) as [(-> & q & Q1 & Q2)|(o & rest & n' & s2 & -> & L' & D & Q2)].
        * left. split; [reflexivity|]. now exists q.
        * right. exists o, rest, n', s2. repeat split; auto.
  Qed.
  Lemma from_drain fuel n : n <= fuel -> forall s out, drains a n s out -> forall k, length out < k ->
    collect (fun st => from_next a fuel (fst st) (snd st)) k (s, []) = Ret out.
  Proof.
    induction n as [n IH] using lt_wf_ind. intros L s out D k Lk. destruct k as [|k]; [lia|].
    cbn [collect fst snd from_next].
    destruct (from_finalize_step n s out D fuel L) as [(-> & q & Q1 & Q2)|(o & rest & n' & s' & -> & L' & D' & Q2)];
      rewrite Q2; cbn [obind]; [reflexivity|].
    cbn [length] in Lk. rewrite (IH n' L' ltac:(lia) s' rest D' k ltac:(lia)). reflexivity.
  Qed.
  Lemma from_push fuel s xs s' o1 : pushes a s xs s' o1 -> forall n o2, drains a n s' o2 -> n <= fuel ->
    forall k, length (o1 ++ o2) < k ->
    collect (fun st => from_next a fuel (fst st) (snd st)) k (s, xs) = Ret (o1 ++ o2).
  Proof.
    induction 1 as [s|s x s' o xs s'' out E H IH]; intros n o2 D L k Lk.
    - cbn [app] in *. now apply (from_drain fuel n).
    - destruct k as [|k]; [lia|]. destruct o as [o|]; cbn [olist app] in *.
      + cbn [collect fst snd from_next]. rewrite E. cbn [obind length] in *.
        rewrite (IH n o2 D L k) by lia. reflexivity.
      + specialize (IH n o2 D L (Datatypes.S k) Lk). cbn [collect fst snd] in *. cbn [from_next].
        rewrite E. cbn [obind]. exact IH.
  Qed.
  Lemma from_delivers n s xs out : delivers a n s xs out -> forall fuel k, n <= fuel -> length out < k ->
    from_adapt a fuel k s xs = Ret out.
  Proof.
    intros (s' & o1 & o2 & P & D & ->) fuel k L Lk. unfold from_adapt. eapply from_push; eassumption.
  Qed.
End From.

(** * The individual adapters *)
Lemma delivers_nil {I} (xs : list I) : delivers NilAdapter 1 tt xs xs.
Proof.
  exists tt, xs, []. split; [|split; [now apply (D_end _ _ tt)|now rewrite app_nil_r]].
  induction xs as [|x xs IH]; [constructor|]. change (x :: xs) with (olist (Some x) ++ xs) at 2.
  econstructor; [reflexivity|exact IH].
Qed.
Lemma delivers_filter {I} (f : I -> outcome bool) (p : I -> bool) xs : (forall x, In x xs -> f x = Ret (p x)) ->
  delivers (Filter f) 1 tt xs (filter p xs).
Proof.
  intros H. exists tt, (filter p xs), []. split; [|split; [now apply (D_end _ _ tt)|now rewrite app_nil_r]].
  induction xs as [|x xs IH]; [constructor|].
  replace (filter p (x :: xs)) with (olist (if p x then Some x else None) ++ filter p xs) by (cbn; now destruct (p x)).
  econstructor; [|apply IH; intros; apply H; now right]. cbn [adapt Filter]. rewrite H by now left. cbn [obind].
  now destruct (p x).
Qed.
Lemma delivers_map {I Q} (f : I -> outcome Q) (g : I -> Q) xs : (forall x, In x xs -> f x = Ret (g x)) ->
  delivers (MapA f) 1 tt xs (map g xs).
Proof.
  intros H. exists tt, (map g xs), []. split; [|split; [now apply (D_end _ _ tt)|now rewrite app_nil_r]].
  induction xs as [|x xs IH]; [constructor|].
  change (map g (x :: xs)) with (olist (Some (g x)) ++ map g xs).
  econstructor; [|apply IH; intros; apply H; now right]. cbn [adapt MapA]. rewrite H by now left. reflexivity.
Qed.
