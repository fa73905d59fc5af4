(** A reference engine for ripdlt's pattern H.* World (main.rs:85), where [.] is any byte but a
    line feed.  It shows that the hypothesis [leftmost (h_star_world _) _] can be met, and runs
    the examples. *)
From Verif Require Import Base DltModel MatchModel GenModel ToolsModel Spec BaseFacts DltFacts FindFacts.

Definition world : bytes := [x20; x57; x6f; x72; x6c; x64].
Fixpoint to_eol (l : bytes) : bytes :=
  match l with [] => [] | c :: r => if byte_eqb c x0a then [] else c :: to_eol r end.
(** The length of the (greedy) match at the head of [l]. *)
Definition hw_at (l : bytes) : option nat :=
  match l with
  | c :: r => if byte_eqb c x48 then option_map (fun j => 7 + j) (rfind world (to_eol r)) else None
  | [] => None
  end.
Fixpoint hw_scan (l : bytes) (k : nat) : option (nat * nat) :=
  match hw_at l with
  | Some n => Some (k, k + n)
  | None => match l with [] => None | _ :: r => hw_scan r (S k) end
  end.
Definition find_hw (b : bytes) (off : nat) : option (nat * nat) := hw_scan (skipn off b) off.
Definition one_line (mid : bytes) : Prop := ~ In x0a mid.

Lemma to_eol_split l : exists post, l = to_eol l ++ post /\ one_line (to_eol l).
Proof.
  induction l as [|c l (post & E & N)]; [exists []; split; [reflexivity|intros []]|]. cbn [to_eol].
  destruct (byte_eqb_spec c x0a) as [->|NE]; [exists (x0a :: l); split; [reflexivity|intros []]|].
  exists post. split; [cbn; now rewrite <- E|]. intros [I|I]; [congruence|now apply N].
Qed.
Lemma to_eol_app a r : one_line a -> to_eol (a ++ r) = a ++ to_eol r.
Proof.
  induction a as [|c a IH]; intros N; [reflexivity|]. cbn [app to_eol].
  destruct (byte_eqb_spec c x0a) as [->|NE]; [exfalso; apply N; now left|]. f_equal. apply IH. intros I. apply N. now right.
Qed.
Lemma hw_at_some l n : hw_at l = Some n ->
  exists mid post, one_line mid /\ l = [x48] ++ mid ++ world ++ post /\ n = 7 + length mid.
Proof.
  destruct l as [|c r]; [discriminate|]. cbn [hw_at]. destruct (byte_eqb_spec c x48) as [->|]; [|discriminate].
  destruct (rfind world (to_eol r)) as [j|] eqn:F; [|discriminate]. intros [= <-].
  apply rfind_some in F; [|cbn; lia]. destruct F as [O _]. apply is_prefix_app in O. destruct O as [p O].
  destruct (to_eol_split r) as (post & E & N). exists (firstn j (to_eol r)), (p ++ post).
  assert (Q : firstn j (to_eol r) ++ world ++ p = to_eol r) by (rewrite <- O; apply firstn_skipn).
  split; [intros I; apply N; rewrite <- Q; apply in_or_app; now left|]. split.
  - cbn [app]. f_equal. rewrite E at 1. rewrite <- Q at 1. now rewrite <- !app_assoc.
  - f_equal. rewrite firstn_length_le; [reflexivity|]. assert (L : length (skipn j (to_eol r)) = length (world ++ p)) by now rewrite O.
    rewrite skipn_length, app_length in L. cbn [world length] in L. lia.
Qed.
Lemma hw_at_none l : hw_at l = None -> forall mid post, one_line mid -> l <> [x48] ++ mid ++ world ++ post.
Proof.
  intros H mid post N ->. cbn [hw_at app] in H. change (byte_eqb x48 x48) with true in H. cbv iota in H.
  assert (NW : one_line (mid ++ world)).
  { intros I. apply in_app_or in I. destruct I as [I|I]; [now apply N|]. cbn in I. repeat (destruct I as [I|I]; [discriminate|]). exact I. }
  rewrite app_assoc, (to_eol_app _ _ NW) in H.
  destruct (rfind world ((mid ++ world) ++ to_eol post)) as [j|] eqn:F; [discriminate|].
  rewrite rfind_none in F by (cbn; lia). specialize (F (length mid)).
  rewrite <- app_assoc, skipn_app, skipn_all, Nat.sub_diag in F. cbn [app skipn] in F.
  enough (is_prefix world (world ++ to_eol post) = true) by congruence.
  apply is_prefix_app. now eexists.
Qed.
Lemma hw_scan_spec l : forall k,
  match hw_scan l k with
  | Some (s, e) => exists pre mid post, s = k + length pre /\ e = s + 7 + length mid /\ one_line mid /\
      l = pre ++ ([x48] ++ mid ++ world) ++ post /\
      forall pre' mid' post', length pre' < length pre -> one_line mid' -> l <> pre' ++ ([x48] ++ mid' ++ world) ++ post'
  | None => forall pre' mid' post', one_line mid' -> l <> pre' ++ ([x48] ++ mid' ++ world) ++ post'
  end.
Proof.
  induction l as [|c l IH]; intros k; cbn [hw_scan].
  - change (hw_at []) with (@None nat). cbv iota beta. intros [|] mid' post' N E; cbn [app] in E; discriminate E.
  - destruct (hw_at (c :: l)) as [n|] eqn:H.
    + apply hw_at_some in H. destruct H as (mid & post & N & E & ->). exists [], mid, post.
      split; [cbn; lia|]. split; [lia|]. split; [exact N|]. split; [rewrite E; cbn [app]; f_equal; now rewrite <- app_assoc|].
      intros pre' mid' post' L. cbn in L. lia.
    + pose proof (hw_at_none _ H) as HN. specialize (IH (S k)).
      assert (Z : forall mid' post', one_line mid' -> c :: l <> [] ++ ([x48] ++ mid' ++ world) ++ post').
      { intros mid' post' N E. apply (HN mid' post' N). rewrite E. cbn [app]. f_equal. now rewrite <- app_assoc. }
      destruct (hw_scan l (S k)) as [[s e]|].
      * destruct IH as (pre & mid & post & A1 & A2 & A3 & A4 & A5). exists (c :: pre), mid, post.
        split; [cbn; lia|]. split; [exact A2|]. split; [exact A3|]. split; [cbn [app]; f_equal; exact A4|].
        intros [|c' pre'] mid' post' L N E; [now apply (Z mid' post')|]. cbn [app length] in *. injection E as <- E.
        apply (A5 pre' mid' post'); [lia|exact N|exact E].
      * intros [|c' pre'] mid' post' N E; [now apply (Z mid' post')|]. cbn [app] in E. injection E as <- E.
        exact (IH pre' mid' post' N E).
Qed.
Lemma find_hw_leftmost : leftmost (h_star_world one_line) find_hw.
Proof.
  intros b off Ho. unfold find_hw. pose proof (hw_scan_spec (skipn off b) off) as S.
  assert (T : forall s e, off <= s -> h_star_world one_line b s e ->
    exists pre mid post, length pre = s - off /\ one_line mid /\ skipn off b = pre ++ ([x48] ++ mid ++ world) ++ post).
  { intros s e Hs (mid & N & O & _). unfold occurs_at in O. destruct O as (pre & post & E & L).
    exists (skipn off pre), mid, post. split; [rewrite skipn_length; lia|]. split; [exact N|].
    rewrite E, skipn_app. replace (off - length pre) with 0 by lia. reflexivity. }
  destruct (hw_scan (skipn off b) off) as [[s e]|].
  - destruct S as (pre & mid & post & A1 & A2 & A3 & A4 & A5).
    assert (E : b = (firstn off b ++ pre) ++ ([x48] ++ mid ++ world) ++ post)
      by (rewrite <- app_assoc, <- A4; symmetry; apply firstn_skipn).
    assert (L : length b = s + length ([x48] ++ mid ++ world) + length post).
    { rewrite E, !(app_length (firstn off b ++ pre)), (app_length (firstn off b)), firstn_length_le, app_length by exact Ho. lia. }
    rewrite !app_length in L. cbn [length world] in L.
    split; [lia|]. split; [lia|]. split; [lia|]. split.
    + exists mid. split; [exact A3|]. split; [|exact A2]. exists (firstn off b ++ pre), post.
      split; [exact E|rewrite app_length, firstn_length_le; lia].
    + intros s' e' Hs M. destruct (T s' e' (proj1 Hs) M) as (pre' & mid' & post' & B1 & B2 & B3).
      apply (A5 pre' mid' post'); [lia|exact B2|exact B3].
  - intros s' e' Hs M. destruct (T s' e' Hs M) as (pre' & mid' & post' & B1 & B2 & B3). exact (S pre' mid' post' B2 B3).
Qed.
