(** Facts about Base.v. *)
From Verif Require Import Base.
From Coq Require Import ZifyBool ZifyNat ZifyN.
Ltac Zify.zify_post_hook ::= Z.div_mod_to_equations.

(** Case analysis on boolean comparisons. *)
Ltac bdestr :=
  match goal with
  | |- context [?a <=? ?b] => destruct (Nat.leb_spec a b)
  | |- context [?a <? ?b] => destruct (Nat.ltb_spec a b)
  | |- context [?a =? ?b] => destruct (Nat.eqb_spec a b)
  end.

Lemma bN_lt (b : byte) : (bN b < 256)%N.
Proof. unfold bN. pose proof (Strings.Byte.to_N_bounded b). lia. Qed.

Lemma bN_inj (a b : byte) : bN a = bN b -> a = b.
Proof.
  unfold bN. intros H.
  assert (Ha := Strings.Byte.of_to_N a). assert (Hb := Strings.Byte.of_to_N b).
  rewrite H, Hb in Ha. now inversion Ha.
Qed.

Lemma u8_bN (b : byte) : u8 (bN b) = b.
Proof.
  unfold u8. rewrite N.mod_small by apply bN_lt.
  unfold bN. now rewrite Strings.Byte.of_to_N.
Qed.

Lemma bN_u8 (n : N) : bN (u8 n) = (n mod 256)%N.
Proof.
  unfold u8, bN.
  assert (H : (n mod 256 < 256)%N) by (apply N.mod_lt; lia).
  destruct (Strings.Byte.of_N (n mod 256)) as [b|] eqn:E.
  - apply Strings.Byte.to_of_N_iff in E. exact E.
  - apply Strings.Byte.of_N_None_iff in E. lia.
Qed.

Lemma u8_eq (n : N) (b : byte) : (n mod 256 = bN b)%N -> u8 n = b.
Proof. intros H. apply bN_inj. now rewrite bN_u8. Qed.

Lemma byte_eqb_spec (a b : byte) : reflect (a = b) (byte_eqb a b).
Proof.
  unfold byte_eqb. destruct (Strings.Byte.eqb a b) eqn:E.
  - constructor. now apply Strings.Byte.byte_dec_bl.
  - constructor. intros ->. rewrite (Strings.Byte.byte_dec_lb eq_refl) in E. discriminate.
Qed.

Lemma byte_eqb_refl a : byte_eqb a a = true.
Proof. destruct (byte_eqb_spec a a); congruence. Qed.

Lemma bytes_eqb_spec (a b : bytes) : reflect (a = b) (bytes_eqb a b).
Proof.
  revert b. induction a as [|x a IH]; intros [|y b]; cbn [bytes_eqb];
    try (constructor; congruence).
  destruct (byte_eqb_spec x y) as [->|Hn]; cbn [andb].
  - destruct (IH b) as [->|Hn]; constructor; congruence.
  - constructor. congruence.
Qed.

Lemma slice_from_ok b i : i <= length b -> slice_from b i = Ret (skipn i b).
Proof. unfold slice_from. bdestr; auto; lia. Qed.
Lemma slice_to_ok b i : i <= length b -> slice_to b i = Ret (firstn i b).
Proof. unfold slice_to. bdestr; auto; lia. Qed.
Lemma slice_ok b i j : i <= j -> j <= length b -> slice b i j = Ret (firstn (j - i) (skipn i b)).
Proof. unfold slice. intros. repeat bdestr; cbn [andb]; auto; lia. Qed.

(** * Fixed-width integers *)
Lemma be16_lt a b : (be16 a b < 65536)%N.
Proof. unfold be16. pose proof (bN_lt a). pose proof (bN_lt b). lia. Qed.
Lemma be32_lt a b c d : (be32 a b c d < 4294967296)%N.
Proof.
  unfold be32. pose proof (bN_lt a). pose proof (bN_lt b).
  pose proof (bN_lt c). pose proof (bN_lt d). lia.
Qed.

Lemma be16_bytes_be16 a b : be16_bytes (be16 a b) = [a; b].
Proof.
  unfold be16_bytes, be16. pose proof (bN_lt a). pose proof (bN_lt b).
  repeat f_equal; apply u8_eq; lia.
Qed.
Lemma be32_bytes_be32 a b c d : be32_bytes (be32 a b c d) = [a; b; c; d].
Proof.
  unfold be32_bytes, be32. pose proof (bN_lt a). pose proof (bN_lt b).
  pose proof (bN_lt c). pose proof (bN_lt d).
  repeat f_equal; apply u8_eq; lia.
Qed.
Lemma le32_bytes_le32 a b c d : le32_bytes (le32 a b c d) = [a; b; c; d].
Proof. unfold le32_bytes, le32. now rewrite be32_bytes_be32. Qed.

Lemma be16_of_bytes n : (n < 65536)%N -> be16 (u8 (n / 256)) (u8 n) = n.
Proof. intros H. unfold be16. rewrite !bN_u8. lia. Qed.
Lemma be32_of_bytes n : (n < 4294967296)%N ->
  be32 (u8 (n / 16777216)) (u8 (n / 65536)) (u8 (n / 256)) (u8 n) = n.
Proof. intros H. unfold be32. rewrite !bN_u8. lia. Qed.

Lemma u32_of_i32_lt z : (u32_of_i32 z < 4294967296)%N.
Proof. unfold u32_of_i32. lia. Qed.
Lemma i32_of_u32_of_i32 z : (-2147483648 <= z < 2147483648)%Z -> i32_of_u32 (u32_of_i32 z) = z.
Proof. intros H. unfold i32_of_u32, u32_of_i32. destruct (N.ltb_spec (Z.to_N (z mod 4294967296)) 2147483648); lia. Qed.
Lemma u32_of_i32_of_u32 n : (n < 4294967296)%N -> u32_of_i32 (i32_of_u32 n) = n.
Proof. intros H. unfold i32_of_u32, u32_of_i32. destruct (N.ltb_spec n 2147483648); lia. Qed.
Lemma i32_of_u32_range n : (n < 4294967296)%N -> (-2147483648 <= i32_of_u32 n < 2147483648)%Z.
Proof. intros H. unfold i32_of_u32. destruct (N.ltb_spec n 2147483648); lia. Qed.
Lemma i32_of_u32_mod n : (n < 4294967296)%N -> (i32_of_u32 n mod 4294967296 = Z.of_N n)%Z.
Proof. intros H. unfold i32_of_u32. destruct (N.ltb_spec n 2147483648); lia. Qed.

(** * All bytes *)
Definition all_bytes : list byte := map u8 (map N.of_nat (seq 0 256)).
Lemma all_bytes_complete b : In b all_bytes.
Proof.
  unfold all_bytes. rewrite map_map. apply in_map_iff.
  exists (N.to_nat (bN b)). split.
  - rewrite N2Nat.id. apply u8_bN.
  - apply in_seq. pose proof (bN_lt b). lia.
Qed.
Lemma byte_sweep (P : byte -> bool) : forallb P all_bytes = true -> forall b, P b = true.
Proof. intros H b. rewrite forallb_forall in H. apply H, all_bytes_complete. Qed.

Lemma skipn_skipn' {A} (n m : nat) (l : list A) : skipn n (skipn m l) = skipn (m + n) l.
Proof.
  revert l. induction m as [|m IH]; intros l; cbn; [reflexivity|].
  destruct l as [|x l]; [now rewrite skipn_nil|apply IH].
Qed.
