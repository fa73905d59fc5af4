(** [String::from_utf8] accepts exactly UTF-8 text. *)
From Verif Require Import Base DltModel MatchModel GenModel ToolsModel MainModel Spec BaseFacts.
Ltac Zify.zify_post_hook ::= Z.div_mod_to_equations.

Lemma u8_of n c : (n = bN c)%N -> u8 n = c.
Proof. intros ->. apply u8_bN. Qed.
Lemma in_range_iff lo hi c : in_range lo hi c = true <-> (lo <= bN c <= hi)%N.
Proof. unfold in_range. rewrite andb_true_iff, !N.leb_le. tauto. Qed.
Lemma in_range_false lo hi c : in_range lo hi c = false <-> ~ (lo <= bN c <= hi)%N.
Proof. rewrite <- in_range_iff. destruct (in_range lo hi c); split; congruence. Qed.

Lemma utf8_cons c b : scalar c -> utf8_text b -> utf8_text (utf8_char c ++ b).
Proof. intros S (cs & F & ->). exists (c :: cs). split; [now constructor|reflexivity]. Qed.

Lemma from_utf8_sound : forall n b, length b <= n -> from_utf8_ok b = true -> utf8_text b.
Proof.
  induction n as [|n IH]; intros b L H.
  - destruct b; [|cbn in L; lia]. exists []. split; [constructor|reflexivity].
  - destruct b as [|c0 r0]; [exists []; split; [constructor|reflexivity]|].
    cbn [length] in L. cbn [from_utf8_ok] in H. pose proof (bN_lt c0).
    destruct (in_range 0 127 c0) eqn:R0.
    { apply in_range_iff in R0. change (c0 :: r0) with ([c0] ++ r0).
      replace [c0] with (utf8_char (bN c0)); [apply utf8_cons; [left; lia|apply IH; [lia|exact H]]|].
      unfold utf8_char. destruct (N.ltb_spec (bN c0) 128); [|lia]. f_equal. apply u8_bN. }
    apply in_range_false in R0. destruct (in_range 194 223 c0) eqn:R1.
    { apply in_range_iff in R1. destruct r0 as [|c1 r1]; [discriminate|]. cbn [length] in L.
      apply andb_prop in H. destruct H as [H1 H2]. apply in_range_iff in H1.
      set (c := ((bN c0 - 192) * 64 + (bN c1 - 128))%N).
      change (c0 :: c1 :: r1) with ([c0; c1] ++ r1).
      replace [c0; c1] with (utf8_char c); [apply utf8_cons; [left; unfold c; lia|apply IH; [lia|exact H2]]|].
      unfold utf8_char. destruct (N.ltb_spec c 128); [unfold c in *; lia|]. destruct (N.ltb_spec c 2048); [|unfold c in *; lia].
      f_equal; [|f_equal]; apply u8_of; unfold c; lia. }
    destruct (in_range 224 239 c0) eqn:R2.
    { apply in_range_iff in R2. destruct r0 as [|c1 [|c2 r2]]; try discriminate. cbn [length] in L.
      apply andb_prop in H. destruct H as [H H2]. apply andb_prop in H. destruct H as [H1 H3]. apply in_range_iff in H3.
      assert (B1 : (128 <= bN c1 <= 191)%N /\ (bN c0 = 224 -> 160 <= bN c1)%N /\ (bN c0 = 237 -> bN c1 <= 159)%N).
      { destruct (N.eqb_spec (bN c0) 224); [apply in_range_iff in H1; lia|].
        destruct (N.eqb_spec (bN c0) 237); apply in_range_iff in H1; lia. }
      set (c := ((bN c0 - 224) * 4096 + (bN c1 - 128) * 64 + (bN c2 - 128))%N).
      change (c0 :: c1 :: c2 :: r2) with ([c0; c1; c2] ++ r2).
      assert (Sc : (2048 <= c < 65536 /\ (c < 55296 \/ 57344 <= c))%N) by (unfold c; lia).
      replace [c0; c1; c2] with (utf8_char c); [apply utf8_cons; [unfold scalar; lia|apply IH; [lia|exact H2]]|].
      unfold utf8_char. destruct (N.ltb_spec c 128); [lia|]. destruct (N.ltb_spec c 2048); [lia|].
      destruct (N.ltb_spec c 65536); [|lia]. clear Sc IH R0 H0 H4 H5.
      f_equal; [|f_equal; [|f_equal]]; apply u8_of; unfold c; lia. }
    destruct (in_range 240 244 c0) eqn:R3; [|discriminate].
    apply in_range_iff in R3. destruct r0 as [|c1 [|c2 [|c3 r3]]]; try discriminate. cbn [length] in L.
    apply andb_prop in H. destruct H as [H H2]. apply andb_prop in H. destruct H as [H H4]. apply in_range_iff in H4.
    apply andb_prop in H. destruct H as [H1 H3]. apply in_range_iff in H3.
    assert (B1 : (128 <= bN c1 <= 191)%N /\ (bN c0 = 240 -> 144 <= bN c1)%N /\ (bN c0 = 244 -> bN c1 <= 143)%N).
    { destruct (N.eqb_spec (bN c0) 240); [apply in_range_iff in H1; lia|].
      destruct (N.eqb_spec (bN c0) 244); apply in_range_iff in H1; lia. }
    set (c := ((bN c0 - 240) * 262144 + (bN c1 - 128) * 4096 + (bN c2 - 128) * 64 + (bN c3 - 128))%N).
    change (c0 :: c1 :: c2 :: c3 :: r3) with ([c0; c1; c2; c3] ++ r3).
    assert (Sc : (65536 <= c < 1114112)%N) by (unfold c; lia).
    replace [c0; c1; c2; c3] with (utf8_char c); [apply utf8_cons; [unfold scalar; lia|apply IH; [lia|exact H2]]|].
    unfold utf8_char. destruct (N.ltb_spec c 128); [lia|]. destruct (N.ltb_spec c 2048); [lia|].
    destruct (N.ltb_spec c 65536); [lia|]. clear Sc IH R0 R1 R2.
    f_equal; [|f_equal; [|f_equal; [|f_equal]]]; apply u8_of; unfold c; lia.
Qed.

Lemma in_range_u8 lo hi n : (n < 256)%N -> in_range lo hi (u8 n) = ((lo <=? n) && (n <=? hi))%N.
Proof. intros H. unfold in_range. rewrite bN_u8. rewrite N.mod_small by exact H. reflexivity. Qed.
Ltac decide_all :=
  repeat match goal with
  | |- context [in_range ?lo ?hi (u8 ?n)] => rewrite (in_range_u8 lo hi n) by lia
  | |- context [(?a <=? ?b)%N] => destruct (N.leb_spec a b); try lia
  | |- context [(?a =? ?b)%N] => destruct (N.eqb_spec a b); try lia
  end.
Lemma from_utf8_char c b : scalar c -> from_utf8_ok (utf8_char c ++ b) = from_utf8_ok b.
Proof.
  intros S. unfold scalar in S. unfold utf8_char.
  destruct (N.ltb_spec c 128).
  { cbn [app from_utf8_ok]. rewrite in_range_u8 by lia. destruct (N.leb_spec 0 c); [|lia]. destruct (N.leb_spec c 127); [|lia]. reflexivity. }
  destruct (N.ltb_spec c 2048).
  { cbn [app from_utf8_ok]. unfold continuation.
    assert (A : (194 <= 192 + c / 64 <= 223)%N) by lia.
    assert (B : (128 <= 128 + c mod 64 <= 191)%N) by lia.
    rewrite (proj2 (in_range_false 0 127 _)) by (rewrite bN_u8, N.mod_small by lia; lia).
    rewrite (proj2 (in_range_iff 194 223 _)) by (rewrite bN_u8, N.mod_small by lia; lia).
    rewrite (proj2 (in_range_iff 128 191 _)) by (rewrite bN_u8, N.mod_small by lia; lia). reflexivity. }
  destruct (N.ltb_spec c 65536).
  { cbn [app from_utf8_ok]. unfold continuation.
    assert (A : (224 <= 224 + c / 4096 <= 239)%N) by lia.
    assert (B : (128 <= 128 + c mod 64 <= 191)%N) by lia.
    assert (B1 : (128 <= 128 + c / 64 mod 64 <= 191)%N) by lia.
    assert (B2 : (224 + c / 4096 = 224 -> 160 <= 128 + c / 64 mod 64)%N) by lia.
    assert (B3 : (224 + c / 4096 = 237 -> 128 + c / 64 mod 64 <= 159)%N) by lia.
    revert A B B1 B2 B3. generalize (224 + c / 4096)%N (128 + c / 64 mod 64)%N (128 + c mod 64)%N. intros x y z A B B1 B2 B3.
    rewrite (proj2 (in_range_false 0 127 _)) by (rewrite bN_u8, N.mod_small by lia; lia).
    rewrite (proj2 (in_range_false 194 223 _)) by (rewrite bN_u8, N.mod_small by lia; lia).
    rewrite (proj2 (in_range_iff 224 239 _)) by (rewrite bN_u8, N.mod_small by lia; lia).
    rewrite (proj2 (in_range_iff 128 191 (u8 z))) by (rewrite bN_u8, N.mod_small by lia; lia).
    rewrite bN_u8, N.mod_small by lia.
    destruct (N.eqb_spec x 224); [|destruct (N.eqb_spec x 237)];
      rewrite (proj2 (in_range_iff _ _ (u8 y))) by (rewrite bN_u8, N.mod_small by lia; lia); reflexivity. }
  cbn [app from_utf8_ok]. unfold continuation.
  assert (A : (240 <= 240 + c / 262144 <= 244)%N) by lia.
  assert (B : (128 <= 128 + c mod 64 <= 191)%N) by lia.
  assert (B0 : (128 <= 128 + c / 64 mod 64 <= 191)%N) by lia.
  assert (B1 : (128 <= 128 + c / 4096 mod 64 <= 191)%N) by lia.
  assert (B2 : (240 + c / 262144 = 240 -> 144 <= 128 + c / 4096 mod 64)%N) by lia.
  assert (B3 : (240 + c / 262144 = 244 -> 128 + c / 4096 mod 64 <= 143)%N) by lia.
  revert A B B0 B1 B2 B3. generalize (240 + c / 262144)%N (128 + c / 4096 mod 64)%N (128 + c / 64 mod 64)%N (128 + c mod 64)%N.
  intros x y z w A B B0 B1 B2 B3.
  rewrite (proj2 (in_range_false 0 127 _)) by (rewrite bN_u8, N.mod_small by lia; lia).
  rewrite (proj2 (in_range_false 194 223 _)) by (rewrite bN_u8, N.mod_small by lia; lia).
  rewrite (proj2 (in_range_false 224 239 _)) by (rewrite bN_u8, N.mod_small by lia; lia).
  rewrite (proj2 (in_range_iff 240 244 _)) by (rewrite bN_u8, N.mod_small by lia; lia).
  rewrite (proj2 (in_range_iff 128 191 (u8 z))) by (rewrite bN_u8, N.mod_small by lia; lia).
  rewrite (proj2 (in_range_iff 128 191 (u8 w))) by (rewrite bN_u8, N.mod_small by lia; lia).
  rewrite bN_u8, N.mod_small by lia.
  destruct (N.eqb_spec x 240); [|destruct (N.eqb_spec x 244)];
    rewrite (proj2 (in_range_iff _ _ (u8 y))) by (rewrite bN_u8, N.mod_small by lia; lia); reflexivity.
Qed.

Lemma from_utf8_exact b : from_utf8_ok b = true <-> utf8_text b.
Proof.
  split; [now apply (from_utf8_sound (length b))|]. intros (cs & F & ->).
  induction F as [|c cs S F IH]; [reflexivity|]. cbn [map concat]. now rewrite from_utf8_char.
Qed.
