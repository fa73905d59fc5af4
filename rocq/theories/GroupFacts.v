(** Facts about groupby. *)
From Verif Require Import Base GenModel Spec BaseFacts GenFacts.
From Coq Require Import Sorted.

Section Group.
  Context {A : Type}.
  Variable rel : A -> A -> bool.

  (** What groupby delivers for any relation.  [lz]: the pending group has at least two
      elements; [s], [e]: its ends. *)
  Fixpoint pend (lz : bool) (s e : A) (xs : list A) : list (A * A) :=
    match xs with
    | [] => if lz then [(s, e)] else if rel e e then [(s, e)] else []
    | x :: xs' =>
        if rel e x then pend true s x xs'
        else if lz then (s, e) :: pend false x x xs'
        else if rel e e then (s, e) :: pend false x x xs'
        else pend false s e xs'
    end.
  Definition grouped (xs : list A) : list (A * A) :=
    match xs with [] => [] | x :: xs' => pend false x x xs' end.

  Definition stands (lz : bool) (s e : A) (st : gstate A) : Prop :=
    if lz then st = GLazy s e else st = GConsumed e /\ s = e.


  Lemma pend_delivers (f : A -> A -> outcome bool) xs : forall lz s e st, stands lz s e st ->
    (forall x y, In x (e :: xs) -> In y (e :: xs) -> f x y = Ret (rel x y)) ->
    exists n, n <= 2 /\ delivers (GroupBy f) n st xs (pend lz s e xs).
  Proof.
    induction xs as [|x xs IH]; intros lz s e st St F.
    - cbn [pend]. destruct lz; cbn [stands] in St.
      + subst st. exists 2. split; [lia|]. exists (GLazy s e), [], [(s, e)]. split; [constructor|]. split; [|reflexivity].
        change [(s, e)] with (olist (Some (s, e)) ++ []). eapply D_more; [reflexivity|]. now apply (D_end _ _ GEmpty).
      + destruct St as [-> ->]. assert (E : f e e = Ret (rel e e)) by (apply F; now left).
        destruct (rel e e).
        * exists 2. split; [lia|]. exists (GConsumed e), [], [(e, e)]. split; [constructor|]. split; [|reflexivity].
          change [(e, e)] with (olist (Some (e, e)) ++ []). eapply D_more; [cbn [finalize GroupBy]; rewrite E; reflexivity|].
          now apply (D_end _ _ GEmpty).
        * exists 1. split; [lia|]. exists (GConsumed e), [], []. split; [constructor|]. split; [|reflexivity].
          apply (D_end _ _ GEmpty); [cbn [finalize GroupBy]; rewrite E; reflexivity|reflexivity].
    - cbn [pend].
      assert (E : f e x = Ret (rel e x)) by (apply F; [now left|right; now left]).
      assert (E0 : f e e = Ret (rel e e)) by (apply F; now left).
      assert (Fx : forall u v, In u (x :: xs) -> In v (x :: xs) -> f u v = Ret (rel u v))
        by (intros; apply F; now right).
      assert (Fe : forall u v, In u (e :: xs) -> In v (e :: xs) -> f u v = Ret (rel u v)).
      { intros u v [->|Hu] [->|Hv]; apply F; cbn; auto. }
      assert (Step : forall st' o rest, adapt (GroupBy f) st x = Ret (st', Continue o) ->
        (exists n, n <= 2 /\ delivers (GroupBy f) n st' xs rest) ->
        exists n, n <= 2 /\ delivers (GroupBy f) n st (x :: xs) (olist o ++ rest)).
      { intros st' o rest H (n & Ln & s' & o1 & o2 & P & D & ->). exists n. split; [exact Ln|].
        exists s', (olist o ++ o1), o2. split; [econstructor; eassumption|]. split; [exact D|apply app_assoc]. }
      destruct lz; cbn [stands] in St.
      + subst st. destruct (rel e x) eqn:R.
        * apply (Step (GLazy s x) None); [cbn [adapt GroupBy]; rewrite E; reflexivity|].
          apply IH; [reflexivity|exact Fx].
        * apply (Step (GConsumed x) (Some (s, e))); [cbn [adapt GroupBy]; rewrite E; reflexivity|].
          apply IH; [split; reflexivity|exact Fx].
      + destruct St as [-> ->]. destruct (rel e x) eqn:R.
        * apply (Step (GLazy e x) None); [cbn [adapt GroupBy]; rewrite E; reflexivity|].
          apply IH; [reflexivity|exact Fx].
        * destruct (rel e e) eqn:R'.
          -- apply (Step (GConsumed x) (Some (e, e))); [cbn [adapt GroupBy]; rewrite E; cbn [obind]; rewrite E0; reflexivity|].
             apply IH; [split; reflexivity|exact Fx].
          -- apply (Step (GConsumed e) None); [cbn [adapt GroupBy]; rewrite E; cbn [obind]; rewrite E0; reflexivity|].
             apply IH; [split; reflexivity|exact Fe].
  Qed.

  Lemma delivers_groupby (f : A -> A -> outcome bool) xs : (forall x y, In x xs -> In y xs -> f x y = Ret (rel x y)) ->
    exists n, n <= 2 /\ delivers (GroupBy f) n GEmpty xs (grouped xs).
  Proof.
    intros F. destruct xs as [|x xs].
    - exists 1. split; [lia|]. exists GEmpty, [], []. split; [constructor|]. split; [now apply (D_end _ _ GEmpty)|reflexivity].
    - destruct (pend_delivers f xs false x x (GConsumed x) (conj eq_refl eq_refl) F) as (n & Ln & s' & o1 & o2 & P & D & E).
      exists n. split; [exact Ln|]. exists s', o1, o2. split; [|split; [exact D|exact E]].
      change o1 with (olist (@None (A * A)) ++ o1). econstructor; [reflexivity|exact P].
  Qed.

  (** For a relation that is reflexive on the elements: the maximal runs. *)
  Lemma last_snoc (l : list A) x d : last (l ++ [x]) d = x.
  Proof. apply last_last. Qed.
  Lemma linked_snoc l x : linked rel l -> (forall d, l <> [] -> rel (last l d) x = true) -> linked rel (l ++ [x]).
  Proof.
    induction l as [|a l IH]; intros L R; [exact I|]. destruct l as [|b l].
    - cbn. split; [|exact I]. apply (R a). discriminate.
    - cbn [app linked] in *. destruct L as [L1 L2]. split; [exact L1|]. apply IH; [exact L2|].
      intros d _. apply (R d). discriminate.
  Qed.

  Lemma pend_runs xs : forall lz cur s e, (forall x, In x (e :: xs) -> rel x x = true) ->
    ends cur (s, e) -> cur <> [] -> linked rel cur ->
    exists groups, maximal_runs rel (cur ++ xs) groups /\ Forall2 ends groups (pend lz s e xs) /\
      (xs = [] -> groups = [cur]) /\ exists g gs, groups = g :: gs /\ hd_error g = Some s.
  Proof.
    induction xs as [|x xs IH]; intros lz cur s e RX En Ne L.
    - exists [cur]. cbn [pend]. rewrite (RX e (or_introl eq_refl)). rewrite app_nil_r.
      split; [repeat split; repeat constructor; cbn; auto; apply app_nil_r|].
      split; [destruct lz; repeat constructor; apply En|]. split; [reflexivity|].
      exists cur, []. split; [reflexivity|apply En].
    - cbn [pend]. rewrite (RX e (or_introl eq_refl)).
      replace (if lz then (s, e) :: pend false x x xs else (s, e) :: pend false x x xs)
        with ((s, e) :: pend false x x xs) by now destruct lz.
      assert (RXx : forall y, In y (x :: xs) -> rel y y = true) by (intros; apply RX; now right).
      destruct (rel e x) eqn:R.
      + destruct (IH true (cur ++ [x]) s x) as (groups & M & F2 & _ & H1); auto.
        * destruct En as [E1 E2]. destruct cur as [|c cur]; [congruence|]. split; [exact E1|intros d; apply last_snoc].
        * now destruct cur.
        * apply linked_snoc; [exact L|]. intros d _. destruct En as [_ E2]. rewrite E2. exact R.
        * exists groups. rewrite <- app_assoc in M. split; [exact M|]. split; [exact F2|]. split; [discriminate|exact H1].
      + destruct (IH false [x] x x) as (groups & M & F2 & _ & (g & gs & -> & Hg)); auto.
        { split; [reflexivity|intros; reflexivity]. } { discriminate. } { exact I. }
        exists (cur :: g :: gs). destruct M as (M1 & M2 & M3 & M4).
        split; [|split; [constructor; [exact En|exact F2]|split; [discriminate|]]].
        * split; [cbn [concat] in *; now rewrite M1|]. split; [constructor; assumption|].
          split; [constructor; assumption|]. cbn [broken]. split; [|exact M4].
          intros d. destruct En as [_ E2]. rewrite E2. destruct g as [|g0 g']; [discriminate|].
          cbn in Hg. injection Hg as ->. exact R.
        * exists cur, (g :: gs). split; [reflexivity|apply En].
  Qed.
  Lemma grouped_runs xs : (forall x, In x xs -> rel x x = true) ->
    exists groups, maximal_runs rel xs groups /\ Forall2 ends groups (grouped xs).
  Proof.
    intros RX. destruct xs as [|x xs].
    - exists []. split; [repeat split; constructor|constructor].
    - destruct (pend_runs xs false [x] x x RX) as (groups & M & F2 & _).
      + split; [reflexivity|intros; reflexivity].
      + discriminate.
      + exact I.
      + exists groups. auto.
  Qed.

  (** The maximal runs are unique. *)
  Lemma runs_unique xs : forall g1 g2, maximal_runs rel xs g1 -> maximal_runs rel xs g2 -> g1 = g2.
  Proof.
    assert (G : forall g1 g2, concat g1 = concat g2 ->
      Forall (fun g => g <> []) g1 -> Forall (fun g => g <> []) g2 ->
      Forall (linked rel) g1 -> Forall (linked rel) g2 -> broken rel g1 -> broken rel g2 -> g1 = g2).
    { assert (W : forall (a b : list A) r1 r2, a ++ r1 = b ++ r2 -> length a < length b ->
        exists y c, b = a ++ y :: c /\ r1 = (y :: c) ++ r2).
      { induction a as [|x a IH]; intros b r1 r2 E L.
        - destruct b as [|y c]; [cbn in L; lia|]. exists y, c. split; [reflexivity|exact E].
        - destruct b as [|y b]; [cbn in L; lia|]. cbn in E, L. injection E as -> E.
          destruct (IH b r1 r2 E ltac:(lia)) as (z & c & -> & ->). now exists z, c. }
      assert (Lk : forall (a : list A) y c, a <> [] -> linked rel (a ++ y :: c) -> forall d, rel (last a d) y = true).
      { induction a as [|x a IH]; intros y c Ne Lk d; [congruence|]. destruct a as [|x' a]; cbn [app linked] in Lk.
        - apply Lk.
        - destruct Lk as [_ Lk]. exact (IH y c ltac:(discriminate) Lk d). }
      assert (Contra : forall a g1 b g2, concat (a :: g1) = concat (b :: g2) ->
        Forall (fun g => g <> []) (a :: g1) -> Forall (linked rel) (b :: g2) -> broken rel (a :: g1) ->
        length a < length b -> False).
      { intros a g1 b g2 E N1 L2 B1 L. cbn [concat] in E.
        destruct (W a b (concat g1) (concat g2) E L) as (y & c & -> & E1).
        inversion N1 as [|? ? Na Ng]; subst. inversion L2 as [|? ? Lb _]; subst.
        destruct g1 as [|h g1]; [discriminate|]. inversion Ng as [|? ? Nh _]; subst.
        destruct h as [|z h]; [congruence|]. cbn [concat app] in E1. injection E1 as -> _.
        cbn [broken] in B1. destruct B1 as [B1 _].
        specialize (B1 y). cbn in B1. rewrite (Lk a y c Na Lb y) in B1. discriminate. }
      induction g1 as [|a g1 IH]; intros g2 E N1 N2 L1 L2 B1 B2.
      - destruct g2 as [|b g2]; [reflexivity|]. inversion N2; subst. destruct b; [congruence|discriminate].
      - destruct g2 as [|b g2]; [inversion N1; subst; destruct a; [congruence|discriminate]|].
        destruct (lt_eq_lt_dec (length a) (length b)) as [[L|L]|L].
        + exfalso. eapply Contra; eassumption.
        + cbn [concat] in E. assert (a = b /\ concat g1 = concat g2) as [-> E'].
          { clear - E L. revert b E L. induction a as [|x a IH]; intros [|y b] E L; try discriminate L.
            - now split.
            - cbn in *. injection E as -> E. destruct (IH b E ltac:(lia)) as [-> ?]. now split. }
          f_equal. inv N1. inv N2. inv L1. inv L2.
          apply IH; auto.
          * destruct g1; [exact I|apply B1].
          * destruct g2; [exact I|apply B2].
        + exfalso. symmetry in E. eapply Contra; eassumption. }
    intros g1 g2 (E1 & N1 & L1 & B1) (E2 & N2 & L2 & B2). apply G; auto. congruence.
  Qed.

  (** Facts that hold for any relation. *)
  Lemma pend_in xs : forall lz s e a b, In (a, b) (pend lz s e xs) -> In a (s :: e :: xs) /\ In b (e :: xs).
  Proof.
    induction xs as [|x xs IH]; intros lz s e a b H; cbn [pend] in H.
    - assert (H' : (s, e) = (a, b)) by (destruct lz; [|destruct (rel e e)]; cbn in H; intuition congruence).
      injection H' as -> ->. cbn; auto.
    - assert (C : In (a, b) (pend true s x xs) \/ (a, b) = (s, e) \/ In (a, b) (pend false x x xs) \/ In (a, b) (pend false s e xs)).
      { destruct (rel e x); [auto|]. destruct lz; [|destruct (rel e e)]; cbn in H; intuition. }
      destruct C as [C|[C|[C|C]]].
      + apply IH in C. cbn in *. intuition.
      + injection C as -> ->. cbn. auto.
      + apply IH in C. cbn in *. intuition.
      + apply IH in C. cbn in *. intuition.
  Qed.
  Lemma grouped_in xs a b : In (a, b) (grouped xs) -> In a xs /\ In b xs.
  Proof.
    destruct xs as [|x xs]; [intros []|]. intros H. apply pend_in in H. cbn in *. intuition.
  Qed.
  (** If [rel] implies a transitive [le], so do the ends of each pair. *)
  Lemma pend_trans (le : A -> A -> Prop) xs : (forall a b c, le a b -> le b c -> le a c) ->
    (forall a b, rel a b = true -> le a b) ->
    forall (lz : bool) (s e : A), (if lz then le s e else s = e) ->
    Forall (fun p => le (fst p) (snd p)) (pend lz s e xs).
  Proof.
    intros T R. induction xs as [|x xs IH]; intros lz s e H; cbn [pend].
    - destruct lz; [now repeat constructor|]. subst s. destruct (rel e e) eqn:E; [|constructor].
      constructor; [now apply R|constructor].
    - destruct (rel e x) eqn:Ex.
      + apply IH. destruct lz; [|subst s]; eauto.
      + destruct lz; [constructor; [exact H|now apply IH]|]. subst s.
        destruct (rel e e) eqn:E; [constructor; [now apply R|now apply IH]|now apply IH].
  Qed.
  Lemma grouped_trans (le : A -> A -> Prop) xs : (forall a b c, le a b -> le b c -> le a c) ->
    (forall a b, rel a b = true -> le a b) ->
    Forall (fun p => le (fst p) (snd p)) (grouped xs).
  Proof. intros T R. destruct xs as [|x xs]; [constructor|]. now apply pend_trans. Qed.
  Lemma pend_len xs : forall lz s e, length (pend lz s e xs) <= S (length xs).
  Proof.
    induction xs as [|x xs IH]; intros lz s e; cbn [pend length].
    - destruct lz; [cbn; lia|]. destruct (rel e e); cbn; lia.
    - destruct (rel e x); [specialize (IH true s x); lia|].
      destruct lz; [specialize (IH false x x); cbn [length]; lia|].
      destruct (rel e e); [specialize (IH false x x)|specialize (IH false s e)]; cbn [length]; lia.
  Qed.
  Lemma grouped_len xs : length (grouped xs) <= length xs.
  Proof. destruct xs as [|x xs]; [cbn; lia|]. apply pend_len. Qed.
End Group.
