(** Reading what follows a file: shifting a chain. *)
From Verif Require Import Base DltModel MatchModel Spec BaseFacts DltFacts CodecFacts ParseFacts FindFacts IterFacts DltIterFacts.

Definition shift (d : nat) (l : list (nat * storage_entry)) : list (nat * storage_entry) :=
  map (fun x => (d + fst x, snd x)) l.

Lemma occ_shift pre b k : occ dlt_marker (pre ++ b) (length pre + k) = occ dlt_marker b k.
Proof. unfold occ. rewrite <- skipn_skipn', (skipn_app_exact pre b (length pre) eq_refl). reflexivity. Qed.
Lemma first_marker_shift pre b off k : first_marker DLT b off k ->
  first_marker DLT (pre ++ b) (length pre + off) (length pre + k).
Proof.
  intros (A & B & C). split; [lia|]. change (marker DLT) with dlt_marker in *. split.
  - now rewrite occ_shift.
  - intros j Hj. replace j with (length pre + (j - length pre)) by lia. rewrite occ_shift. apply C. lia.
Qed.
Lemma chain_shift pre b off l : dchain b off l -> dchain (pre ++ b) (length pre + off) (shift (length pre) l).
Proof.
  induction 1 as [off N|off k F P|off k n v l F P C IH].
  - apply chain_end. intros j Hj. change (marker DLT) with dlt_marker.
    replace j with (length pre + (j - length pre)) by lia. rewrite occ_shift. apply N. lia.
  - apply (chain_stop DLT parse _ _ (length pre + k)); [now apply first_marker_shift|].
    now rewrite <- skipn_skipn', (skipn_app_exact pre b (length pre) eq_refl).
  - cbn [shift map fst snd]. apply (chain_step DLT parse _ _ (length pre + k) n v); [now apply first_marker_shift| |].
    + now rewrite <- skipn_skipn', (skipn_app_exact pre b (length pre) eq_refl).
    + rewrite <- Nat.add_assoc. exact IH.
Qed.

Lemma layout_last parts b : layout parts b = layout parts [] ++ b.
Proof. induction parts as [|[j m] ps IH]; [reflexivity|]. cbn [layout]. now rewrite IH, <- !app_assoc. Qed.

Lemma layout_then parts : forall pre b l, parts_ok parts -> dchain b 0 l ->
  dchain (pre ++ layout parts b) (length pre)
    (entries (placed (length pre) parts) ++ shift (length pre + length (layout parts [])) l).
Proof.
  induction parts as [|[j m] ps IH]; intros pre b l OK C.
  - cbn [layout placed entries map app length]. rewrite Nat.add_0_r.
    pose proof (chain_shift pre b 0 l C) as S. now rewrite Nat.add_0_r in S.
  - inversion OK as [|z y [NJ V] OK']; subst. cbn [fst snd] in NJ, V.
    cbn [layout placed entries map fst snd app].
    apply (chain_step DLT parse _ _ (length pre + length j) (length m) (entry_of m)).
    + apply first_marker_app. apply find_after_junk; [cbn; lia|apply dlt_marker_no_overlap| |now apply valid_is_prefix].
      apply not_occurs_occ; [cbn; lia|exact NJ].
    + rewrite <- skipn_skipn'. rewrite (skipn_app_exact pre _ (length pre) eq_refl).
      rewrite (skipn_app_exact j _ (length j) eq_refl). now apply parse_valid.
    + specialize (IH (pre ++ j ++ m) b l OK' C).
      rewrite !app_length in IH. rewrite <- !app_assoc in IH.
      rewrite !app_length.
      replace (length pre + (length j + length m)) with (length pre + length j + length m) in IH by lia.
      replace (length pre + (length j + (length m + length (layout ps [])))) with
        (length pre + length j + length m + length (layout ps [])) by lia.
      exact IH.
Qed.

Lemma append_read parts b l : parts_ok parts -> dltit_offset b = Ret l ->
  exists l1, dltit_offset (layout parts [] ++ b) = Ret (l1 ++ shift (length (layout parts [])) l) /\ shows l1 (placed 0 parts).
Proof.
  intros OK H. apply dltit_offset_chain in H. exists (entries (placed 0 parts)). split.
  - rewrite <- layout_last. apply dltit_offset_chain. exact (layout_then parts [] b l OK H).
  - apply entries_shows. now apply placed_valid.
Qed.
