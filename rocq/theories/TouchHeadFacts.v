(** Facts for C136: reading one field. *)
From Verif Require Import Base DltModel MatchModel GenModel ToolsModel TraceModel MappedModel MappedCmd TouchModel TouchMore TouchCmd TouchSpec Spec ReadSpec MappedSpec MappedCmdSpec
  TouchHeadSpec BaseFacts FindFacts MappedFacts TouchFacts TouchMoreFacts TouchCmdFacts TouchCmdInside.
From Coq Require Import ZifyBool ZifyNat ZifyN.
Ltac Zify.zify_post_hook ::= idtac.

Lemma flag_bit h : (0 <? N.land (bN h) 1)%N = flag h 0 /\ (0 <? N.land (bN h) 4)%N = flag h 2 /\ (0 <? N.land (bN h) 8)%N = flag h 3 /\ (0 <? N.land (bN h) 16)%N = flag h 4.
Proof. destruct h; vm_compute; repeat split; reflexivity. Qed.

Section Fields.
  Variables (b : bytes) (F : bytes -> nat -> option (nat * nat)) (V : cells) (n : nat) (P : reading).
  Hypothesis LA : lasting P.
  Notation W := (still b F).
  Lemma all_last a k t : forallb (reads P t) (seq a k) = forallb (reads P 0) (seq a k).
  Proof. induction (seq a k) as [|p l IH]; [reflexivity|]. cbn [forallb]. now rewrite IH, LA. Qed.
  Lemma peeks_is {A} a k (f : nat -> A) t : peeks P a k f t = if forallb (reads P 0) (seq a k) then Ret (f t, S t) else Fuel.
  Proof. unfold peeks, alive, look. replace (a + k - a) with k by lia. rewrite all_last. destruct (forallb _ _); reflexivity. Qed.
  Lemma forallb_one p : forallb (reads P 0) (seq p 1) = reads P 0 p.
  Proof. cbn [seq forallb]. apply andb_true_r. Qed.
  Lemma flag_is v m t : t_flag W (reads P) v m t = if reads P 0 (fst v + 16) then Back ((0 <? N.land (bN (nth (fst v + 16) b x00)) m)%N, S t) else Killed.
  Proof. unfold t_flag, look. replace (fst v + 17 - (fst v + 16)) with 1 by lia. rewrite all_last, forallb_one. reflexivity. Qed.
  Lemma m_flag_is v m t : m_flag W v m t = Ret ((0 <? N.land (bN (nth (fst v + 16) b x00)) m)%N, S t).
  Proof. reflexivity. Qed.
  Lemma range_true a k : (forall p, a <= p < a + k -> reads P 0 p = true) -> forallb (reads P 0) (seq a k) = true.
  Proof. intros H. apply forallb_forall. intros p I. apply in_seq in I. now apply H. Qed.
  Lemma range_false a k p : a <= p < a + k -> reads P 0 p = false -> forallb (reads P 0) (seq a k) = false.
  Proof. intros H R. destruct (forallb _ _) eqn:E; [|reflexivity]. rewrite forallb_forall in E. rewrite <- R. symmetry. apply E, in_seq. lia. Qed.
  (** One read. *)
  Lemma needs_peeks {A} a k (f : nat -> A) (set : nat -> Prop) : (forall p, set p <-> a <= p < a + k) -> needs P set (peeks P a k f) (ask f).
  Proof.
    intros H t. rewrite peeks_is. split.
    - intros R. rewrite range_true; [reflexivity|]. intros p Hp. apply R, H, Hp.
    - intros p Hp R. rewrite (range_false a k p); [reflexivity|now apply H|exact R].
  Qed.
  Lemma needs_done {A B} (x y : act A) (f : A -> B) set : needs P set x y -> needs P set (see r <- x; done (f r)) (see r <- y; done (f r)).
  Proof.
    intros H t. destruct (H t) as [H1 H2]. unfold follow. split; [intros R; now rewrite H1|]. intros p Hp R. now rewrite (H2 p Hp R).
  Qed.

  Ltac flags v := destruct (flag_bit (nth (fst v + 16) b x00)) as (B1 & B4 & B8 & B16).
  (** What [c_number] does at a place of four bytes, or at none. *)
  Lemma number_is (p : act (option (nat * nat))) t t' o : p t = Ret (o, t') -> opt (fun q => snd q = 4) o ->
    c_number V P p t = match o with
                       | None => Ret (None, t')
                       | Some q => if forallb (reads P 0) (seq (fst q) 4) then m_number V (fun _ => Ret (o, t')) t else Fuel
                       end.
  Proof.
    intros E O. unfold c_number, m_number, follow. rewrite E. destruct o as [q|]; [|reflexivity]. rewrite peeks_is. destruct (forallb _ _); reflexivity.
  Qed.
  Lemma needs_flag v m : needs P (fun p => p = fst v + 16) (alive (t_flag W (reads P) v m)) (m_flag W v m).
  Proof.
    intros t. unfold alive. rewrite flag_is, m_flag_is. split.
    - intros R. now rewrite (R (fst v + 16) eq_refl).
    - intros p -> R. now rewrite R.
  Qed.
  Lemma needs_time v : needs P (time_bytes b v) (c_time W V P v) (m_time W V v).
  Proof.
    intros t. unfold c_time, m_time, c_number, m_number, follow, alive, t_timestamp, m_timestamp, next_peek, follow. rewrite flag_is, !m_flag_is. flags v. rewrite B16.
    change (flag (nth (fst v + 16) b x00) 4) with (has b (fst v) 4). unfold time_bytes. destruct (reads P 0 (fst v + 16)) eqn:R0.
    2:{ split; [|reflexivity]. intros R. rewrite R in R0 by now left. discriminate. }
    destruct (has b (fst v) 4) eqn:H4.
    2:{ split; [reflexivity|]. intros p [->|(X & _)] R; congruence. }
    do 3 (rewrite ?flag_is, ?m_flag_is, ?R0; cbv beta iota). cbv zeta. rewrite B4, B8.
    change (flag (nth (fst v + 16) b x00) 2) with (has b (fst v) 2). change (flag (nth (fst v + 16) b x00) 3) with (has b (fst v) 3).
    unfold t_tail_from, m_tail_from, t_get, m_place, time_at, four. set (off := (if has b (fst v) 2 then 4 else 0) + (if has b (fst v) 3 then 4 else 0)).
    assert (OFF : fst v + 20 + (if has b (fst v) 2 then 4 else 0) + (if has b (fst v) 3 then 4 else 0) = fst v + 20 + off) by (unfold off; lia). rewrite OFF.
    unfold m_tail. destruct (Nat.ltb_spec (snd v - 20) off) as [L|L].
    { split; [reflexivity|]. intros p [->|(_ & X & Y)] R; [congruence|]. lia. }
    unfold back, done, follow. destruct (Nat.ltb_spec (snd v - 20 - off) 4) as [L4|L4].
    { split; [reflexivity|]. intros p [->|(_ & X & Y)] R; [congruence|]. lia. }
    rewrite all_last. cbn [fst snd]. split.
    - intros R. assert (A : forallb (reads P 0) (seq (fst v + 20 + off) 4) = true) by (apply range_true; intros p Hp; apply R; right; repeat split; lia).
      rewrite A. cbv beta iota. rewrite peeks_is. cbn [fst]. rewrite A. reflexivity.
    - intros p [->|(_ & X & Y)] R; [congruence|]. rewrite (range_false _ 4 p); [reflexivity|lia|exact R].
  Qed.
  Lemma needs_ecu_number v : needs P (ecu_bytes b v) (c_ecu_number W V P v) (m_ecu_number W V v).
  Proof.
    intros t. unfold c_ecu_number, m_ecu_number, c_number, m_number, follow, alive, t_ecu_id, m_ecu_id, next_peek, follow. rewrite flag_is, !m_flag_is. flags v. rewrite B4.
    change (flag (nth (fst v + 16) b x00) 2) with (has b (fst v) 2). unfold ecu_bytes. destruct (reads P 0 (fst v + 16)) eqn:R0.
    2:{ split; [|reflexivity]. intros R. rewrite R in R0 by now left. discriminate. }
    destruct (has b (fst v) 2) eqn:H4.
    2:{ split; [reflexivity|]. intros p [->|(X & _)] R; congruence. }
    unfold t_get, m_place, m_tail, crash, done. destruct (Nat.ltb_spec (snd v - 20) 4) as [L|L].
    { split; [reflexivity|]. intros p [->|(_ & X & Y)] R; [congruence|]. lia. }
    destruct (Nat.ltb_spec (snd v - 20 - 0) 4) as [L4|L4]; [lia|].
    rewrite all_last. cbn [fst snd]. replace (fst v + 20 + 0) with (fst v + 20) by lia. split.
    - intros R. assert (A : forallb (reads P 0) (seq (fst v + 20) 4) = true) by (apply range_true; intros p Hp; apply R; right; repeat split; lia).
      rewrite A. cbv beta iota. rewrite peeks_is. cbn [fst]. rewrite A. reflexivity.
    - intros p [->|(_ & X & Y)] R; [congruence|]. rewrite (range_false _ 4 p); [reflexivity|lia|exact R].
  Qed.
  Lemma needs_info a : needs P (fun p => p = a) (c_info V P a) (m_info V a).
  Proof.
    intros t. unfold c_info, m_info, follow, ask. rewrite peeks_is, forallb_one. destruct (reads P 0 a) eqn:R0.
    - rewrite peeks_is, forallb_one, R0, peeks_is, forallb_one, R0. split; [reflexivity|]. intros p -> R. congruence.
    - split; [|reflexivity]. intros R. rewrite R in R0 by reflexivity. discriminate.
  Qed.
  Lemma needs_info_key v : needs P (info_bytes b v) (c_info_key W V P v) (m_info_key W V v).
  Proof.
    intros t. unfold c_info_key, m_info_key, follow, alive, t_extended_header, m_extended_header, next_peek, follow. rewrite flag_is, !m_flag_is. flags v. rewrite B1.
    change (flag (nth (fst v + 16) b x00) 0) with (has b (fst v) 0). unfold info_bytes. destruct (reads P 0 (fst v + 16)) eqn:R0.
    2:{ split; [|reflexivity]. intros R. rewrite R in R0 by now left. discriminate. }
    destruct (has b (fst v) 0) eqn:H4.
    2:{ split; [reflexivity|]. intros p [->|(X & _)] R; congruence. }
    do 3 (rewrite ?flag_is, ?m_flag_is, ?R0; cbv beta iota). cbv zeta. rewrite B4, B8, B16.
    change (flag (nth (fst v + 16) b x00) 2) with (has b (fst v) 2). change (flag (nth (fst v + 16) b x00) 3) with (has b (fst v) 3). change (flag (nth (fst v + 16) b x00) 4) with (has b (fst v) 4).
    unfold t_tail_from, m_tail_from, m_place, extended_at, time_at, four.
    set (off := (if has b (fst v) 2 then 4 else 0) + (if has b (fst v) 3 then 4 else 0) + (if has b (fst v) 4 then 4 else 0)).
    assert (OFF : fst v + 20 + (if has b (fst v) 2 then 4 else 0) + (if has b (fst v) 3 then 4 else 0) + (if has b (fst v) 4 then 4 else 0) = fst v + 20 + off) by (unfold off; lia).
    rewrite OFF. unfold m_tail, crash, done, back. destruct (Nat.ltb_spec (snd v - 20) off) as [L|L].
    { split; [reflexivity|]. intros p [->|(_ & X & Y)] R; [congruence|]. lia. }
    destruct (Nat.ltb_spec (snd v - 20 - off) 10) as [L4|L4].
    { split; [reflexivity|]. intros p [->|(_ & X & Y)] R; [congruence|]. lia. }
    unfold c_unwrap, m_unwrap, done. cbn [fst snd]. destruct (needs_info (fst v + 20 + off) (S (S (S (S t))))) as [N1 N2]. split.
    - intros R. apply N1. intros p ->. apply R. right. repeat split; lia.
    - intros p [->|(_ & X & ->)] R; [congruence|]. exact (N2 _ eq_refl R).
  Qed.

  Lemma needs_len v : needs P (fun p => fst v + 18 <= p < fst v + 20) (alive (t_len W (reads P) v)) (m_len W v).
  Proof.
    intros t. unfold alive, t_len, m_len, t_length, m_length, next_peek, follow, look, ask, back, done. replace (fst v + 20 - (fst v + 18)) with 2 by lia. rewrite all_last. split.
    - intros R. rewrite range_true; [reflexivity|]. intros p Hp. apply R. lia.
    - intros p Hp R. rewrite (range_false _ 2 p); [reflexivity|lia|exact R].
  Qed.
  Lemma needs_payload v : needs P (fun p => p = fst v + 16) (alive (t_payload W (reads P) v)) (m_payload W v).
  Proof.
    intros t. unfold alive, t_payload, m_payload, next_peek, follow. rewrite !flag_is, !m_flag_is. destruct (reads P 0 (fst v + 16)) eqn:R0.
    2:{ split; [|reflexivity]. intros R. rewrite R in R0 by reflexivity. discriminate. }
    split; [|intros p -> R; congruence]. intros _. do 4 (rewrite ?flag_is, ?m_flag_is, ?R0; cbv beta iota). cbv zeta.
    unfold t_tail_from, m_tail_from, crash, done, back. destruct (0 <? N.land (bN (nth (fst v + 16) b x00)) 1)%N.
    - destruct (_ <? _); [reflexivity|]. destruct (m_place _ _ _); [|reflexivity]. destruct (_ <? _); reflexivity.
    - destruct (_ <? _); reflexivity.
  Qed.
End Fields.

Lemma payload_behind b F v t p k t' : 20 <= snd v -> m_payload (still b F) v t = Ret (Some (p, k), t') -> p = headers_end b (fst v) /\ p + k = fst v + snd v.
Proof.
  intros H20. unfold m_payload, follow. rewrite !m_flag_is. destruct (flag_bit (nth (fst v + 16) b x00)) as (B1 & B4 & B8 & B16). rewrite B1, B4, B8, B16. cbv zeta.
  unfold headers_end, extended_at, time_at, four, has.
  set (off := (if flag (nth (fst v + 16) b x00) 2 then 4 else 0) + (if flag (nth (fst v + 16) b x00) 3 then 4 else 0) + (if flag (nth (fst v + 16) b x00) 4 then 4 else 0)).
  assert (OFF : forall z, fst v + 20 + (if flag (nth (fst v + 16) b x00) 2 then 4 else 0) + (if flag (nth (fst v + 16) b x00) 3 then 4 else 0) + (if flag (nth (fst v + 16) b x00) 4 then 4 else 0) + z = fst v + 20 + (off + z)) by (unfold off; lia).
  rewrite OFF. unfold m_tail_from, m_tail, crash, done. destruct (flag (nth (fst v + 16) b x00) 0).
  - destruct (Nat.ltb_spec (snd v - 20) off); [discriminate|]. destruct (m_place v off 10); [|discriminate]. destruct (Nat.ltb_spec (snd v - 20) (off + 10)); [discriminate|].
    intros [= <- <- <-]. lia.
  - destruct (Nat.ltb_spec (snd v - 20) off); [discriminate|]. intros [= <- <- <-]. lia.
Qed.
