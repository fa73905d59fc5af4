(** Facts about SigModel.v: dd_dlt with payloads of less than 1024 bytes and no newline in its output. *)
From Coq Require Import String.
From Verif Require Import Base DltModel MatchModel GenModel ToolsModel Spec DdModel MainModel PrintModel DdOs OsSpec RipOs SigModel SigSpec BaseFacts DltFacts CodecFacts ParseFacts
  FindFacts IterFacts DltIterFacts DdFacts DdOsFacts DdAnyFacts SigFacts.
From Coq Require Import ZifyBool ZifyNat ZifyN.
Ltac Zify.zify_post_hook ::= idtac.

Definition plain (b : bytes) : Prop := ~ In x0a b /\ length b < 1024.
Lemma plain_rfind b : ~ In x0a b -> rfind [x0a] b = None.
Proof. intros H. destruct (rfind [x0a] b) as [k|] eqn:E; [|reflexivity]. destruct (last_nl b k E) as (_ & _ & I). contradiction. Qed.
Section Past.
  Variable h : past.
  Hypothesis FAIR : fair h.

  Lemma fine_buf_write ws buf : length buf < 1024 -> fine h ws (fun f => sig_buf_write f h ws buf) (fun o w => buf_write o w buf).
  Proof.
    intros L. set (spare := lw_capacity - length (buffered ws)).
    apply (fine_ext h ws (fun f => if length buf <? spare then Ret (set_buffered ws (buffered ws ++ buf), Some (length buf)) else
        let* (w, ok) := if spare <? length buf then sig_flush f h ws else Ret (ws, true) in
        if negb ok then Ret (w, None) else Ret (set_buffered w (buffered w ++ buf), Some (length buf))) _
      (fun o w => if length buf <? spare then (set_buffered w (buffered w ++ buf), Some (length buf)) else
        let '(w, ok) := if spare <? length buf then flush_out o w else (w, true) in
        if negb ok then (w, None) else (set_buffered w (buffered w ++ buf), Some (length buf)))).
    - intros f. unfold sig_buf_write. fold spare. destruct (length buf <? spare); [reflexivity|]. destruct (if spare <? length buf then _ else _) as [[w ok]| |]; [|reflexivity|reflexivity].
      cbn [obind]. destruct ok; [|reflexivity]. cbn [negb]. change lw_capacity with 1024. destruct (Nat.leb_spec 1024 (length buf)); [lia|reflexivity].
    - intros o w [_ B]. unfold buf_write. rewrite B. fold spare. destruct (length buf <? spare); [reflexivity|]. destruct (if spare <? length buf then _ else _) as [w1 ok].
      destruct ok; [|reflexivity]. cbn [negb]. change lw_capacity with 1024. destruct (Nat.leb_spec 1024 (length buf)); [lia|reflexivity].
    - destruct (length buf <? spare); [apply fine_put|]. apply fine_bind; [now apply fine_if_flush|]. intros ws1 [|]; cbn [negb]; [apply fine_put|apply fine_done].
  Qed.
  Lemma fine_write v ws buf : plain buf -> fine h ws (fun f => sig_write v f h ws buf) (fun o w => line_write v o w buf).
  Proof.
    intros [NL L]. unfold sig_write, line_write. rewrite plain_rfind by exact NL.
    apply fine_bind; [now apply fine_completed|]. intros ws1 [|]; cbn [negb]; [now apply fine_buf_write|apply fine_done].
  Qed.
  Lemma fine_then v ws buf (K : nat -> stdout -> outcome (stdout * (N + os_end))) K' : plain buf ->
    (forall ws1, fine h ws1 (fun f => K f ws1) K') ->
    fine h ws (fun f => let* (w, r) := sig_write v f h ws buf in match r with None => Ret (w, inr OsError) | Some _ => K f w end)
      (fun o w => match line_write v o w buf with (w, None) => (w, inr OsError) | (w, Some _) => K' o w end).
  Proof.
    intros PL H. eapply fine_ext; [| |apply (fine_bind h ws (fun f => sig_write v f h ws buf) (fun o w => line_write v o w buf)
      (fun f w r => match r with None => Ret (w, inr OsError) | Some _ => K f w end) (fun o w r => match r with None => (w, inr OsError) | Some _ => K' o w end))].
    - reflexivity.
    - intros o w _. cbv beta. destruct (line_write v o w buf) as [w1 [k|]]; reflexivity.
    - now apply fine_write.
    - intros ws1 [k|]; [apply H|apply fine_done].
  Qed.
  Lemma fine_message v A m e a p c buf ws len : checked m u16_mod (4 + 10 + 4 + p) = Ret len ->
    (m = Release \/ (c * 100 < u32_mod)%N) -> (c + 1 < u32_mod)%N -> Forall plain (wire_parts A e a len c buf) ->
    fine h ws (fun f => sig_message v f h A m (quad_bytes e) (quad_bytes a) p c buf ws) (fun o w => os_message v o A m (quad_bytes e) (quad_bytes a) p c buf w).
  Proof.
    intros CL CT CC PL. unfold sig_message, os_message. rewrite !quad_ok. cbn [obind]. rewrite CL. cbn [obind].
    assert (T : checked m u32_mod (c * 100) = Ret (c * 100 mod u32_mod)%N).
    { rewrite checked_ok by exact CT. destruct (N.ltb_spec (c * 100) u32_mod); [|reflexivity]. now rewrite N.mod_small. }
    rewrite T. rewrite checked_ok by (right; exact CC). destruct (N.ltb_spec (c + 1) u32_mod); [|lia].
    set (shb := storage_header_as_bytes _). set (hb := std_header_as_bytes _). set (eb := ext_header_as_bytes _). set (tb := be32_bytes _).
    assert (WP : wire_parts A e a len c buf = [shb; hb; tb; eb; buf]).
    { unfold wire_parts, shb, hb, tb, eb, storage_header_as_bytes, storage_header_new, std_header_as_bytes, std_header_new, ext_header_as_bytes, ext_header_new.
      cbn [pattern secs msecs ecu header_type message_counter std_length msin noar apid ctid].
      rewrite us_bytes by (apply N.mod_lt; discriminate).
      change (htyp_new true false false false true x01) with x31. fold (dd_type A). cbn [quad_bytes the_pattern app]. now rewrite <- ?app_assoc. }
    rewrite WP in PL. clearbody shb hb eb tb. clear WP. inversion PL as [|? ? P1 P1']; subst. inversion P1' as [|? ? P2 P2']; subst. inversion P2' as [|? ? P3 P3']; subst.
    inversion P3' as [|? ? P4 P4']; subst. inversion P4' as [|? ? P5 _]; subst.
    apply fine_then; [exact P1|]. intros ws1. apply fine_then; [exact P2|]. intros ws2. apply fine_then; [exact P3|]. intros ws3.
    apply fine_then; [exact P4|]. intros ws4. apply fine_then; [exact P5|]. intros ws5. apply fine_done.
  Qed.
  Lemma message_shape v o A m e a p c buf w len : checked m u16_mod (4 + 10 + 4 + p) = Ret len ->
    (m = Release \/ (c * 100 < u32_mod)%N) -> (c + 1 < u32_mod)%N ->
    snd (os_message v o A m (quad_bytes e) (quad_bytes a) p c buf w) = inl (c + 1)%N \/ snd (os_message v o A m (quad_bytes e) (quad_bytes a) p c buf w) = inr OsError.
  Proof.
    intros CL CT CC. unfold os_message. rewrite !quad_ok. cbn [obind]. rewrite CL. cbn [obind].
    assert (T : checked m u32_mod (c * 100) = Ret (c * 100 mod u32_mod)%N).
    { rewrite checked_ok by exact CT. destruct (N.ltb_spec (c * 100) u32_mod); [|reflexivity]. now rewrite N.mod_small. }
    rewrite T. rewrite checked_ok by (right; exact CC). destruct (N.ltb_spec (c + 1) u32_mod); [|lia].
    do 5 (match goal with |- context [line_write ?v ?o ?w ?b] => destruct (line_write v o w b) as [? [?|]]; [|now right] end). now left.
  Qed.
  Lemma keeps_to_exists l c : exists o, keeps_to o c l.
  Proof.
    exists (fun i => nth (i - c) l TakesAll). intros i a E. replace (c + i - c) with i by lia. now apply nth_error_nth.
  Qed.
  Lemma loop_plain v A m e a p len rest : checked m u16_mod (4 + 10 + 4 + p) = Ret len -> (N.of_nat (length rest) < p)%N ->
    forall chunks c ws fuel, Forall (fun x => N.of_nat (length x) = p) chunks ->
    (m = Release \/ ((c + N.of_nat (length chunks)) * 100 < u32_mod + 100)%N) -> (c + N.of_nat (length chunks) < u32_mod)%N ->
    length chunks < fuel -> Forall plain (all_parts A e a len c chunks) ->
    exists l res, heard h ws l /\
      (exists f0, forall f, f0 <= f -> sig_loop v fuel f h A m (quad_bytes e) (quad_bytes a) p c (concat chunks ++ rest) ws = res) /\
      forall o w, same w ws -> keeps_to o (calls w) l -> os_loop v fuel o A m (quad_bytes e) (quad_bytes a) p c (concat chunks ++ rest) w = res.
  Proof.
    intros CL LR. induction chunks as [|x cs IH]; intros c ws fuel F CT CC Hf PL; destruct fuel as [|fuel]; try lia; cbn [os_loop sig_loop].
    - cbn [concat app]. destruct (Nat.ltb_spec (length rest) (N.to_nat p)); [|lia].
      destruct (ends_arrived h FAIR ws (OsDone c)) as (l & out & H0 & [f0 F0] & G). exists l, (Ret (out, OsDone c)). split; [exact H0|]. split; [exists f0; exact F0|].
      intros o w SA FO. f_equal. now apply G.
    - inversion F as [|y z F1 F2]; subst y z. cbn [concat]. rewrite <- app_assoc.
      destruct (Nat.ltb_spec (length (x ++ concat cs ++ rest)) (N.to_nat p)) as [H|_]; [rewrite app_length in H; lia|].
      replace (N.to_nat p) with (length x) by lia.
      rewrite firstn_app, firstn_all, Nat.sub_diag, skipn_app, skipn_all, Nat.sub_diag. cbn [firstn skipn app]. rewrite app_nil_r.
      cbn [length all_parts] in *. apply Forall_app in PL. destruct PL as [PL1 PL2].
      assert (CT1 : m = Release \/ (c * 100 < u32_mod)%N) by (destruct CT as [CT|CT]; [now left|right; lia]).
      destruct (fine_message v A m e a p c x ws len CL CT1 ltac:(lia) PL1) as (ws1 & r & l1 & Q1 & G1).
      assert (R : r = inl (c + 1)%N \/ r = inr OsError).
      { destruct G1 as [_ G1]. destruct (keeps_to_exists l1 (calls ws)) as [o FO]. destruct (G1 o ws (conj eq_refl eq_refl) FO) as (w' & E & _).
        pose proof (message_shape v o A m e a p c x ws len CL CT1 ltac:(lia)) as MS. rewrite E in MS. exact MS. }
      destruct G1 as [[f1 F1'] G1].
      destruct R as [-> | ->].
      + destruct (IH (c + 1)%N ws1 fuel F2) as (l2 & res & H2 & [f2 FF] & G2); [destruct CT as [CT|CT]; [now left|right; lia]|lia|lia|exact PL2|].
        exists (l1 ++ l2), res. split; [now apply (heard_app h ws l1 ws1)|]. split.
        * exists (Nat.max f1 f2). intros f Hf'. rewrite F1' by lia. cbn [obind]. apply FF. lia.
        * intros o w SA FO. apply keeps_to_app in FO. destruct FO as [FO1 FO2]. destruct (G1 o w SA FO1) as (w1 & E1 & S1 & C1). rewrite E1. rewrite <- C1 in FO2. now apply G2.
      + destruct (ends_arrived h FAIR ws1 OsError) as (l2 & out & H2 & [f2 FF] & G2). exists (l1 ++ l2), (Ret (out, OsError)). split; [now apply (heard_app h ws l1 ws1)|]. split.
        * exists (Nat.max f1 f2). intros f Hf'. rewrite F1' by lia. cbn [obind]. apply FF. lia.
        * intros o w SA FO. apply keeps_to_app in FO. destruct FO as [FO1 FO2]. destruct (G1 o w SA FO1) as (w1 & E1 & S1 & C1). rewrite E1. rewrite <- C1 in FO2. f_equal. now apply G2.
  Qed.
End Past.
Lemma plain_parts A e a len p : forall chunks c, p < 1024 -> Forall (fun x => length x = p) chunks -> ~ In x0a (concat (all_parts A e a len c chunks)) ->
  Forall plain (all_parts A e a len c chunks).
Proof.
  intros chunks c Hp F NI. assert (L : Forall (fun b => length b < 1024) (all_parts A e a len c chunks)).
  { clear NI. revert c. induction F as [|x cs Hx F IH]; intros c; [constructor|]. cbn [all_parts]. apply Forall_app. split; [|apply IH].
    unfold wire_parts. destruct e, a. do 4 (constructor; [cbn; lia|]). constructor; [cbn; lia|constructor]. }
  apply Forall_forall. intros b Hb. split; [|now apply (proj1 (Forall_forall _ _) L)].
  intros I. apply NI. apply in_concat. now exists b.
Qed.
