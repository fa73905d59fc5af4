(** Facts for C71-C74: accessors, merge and dd_dlt exactly. *)
From Verif Require Import Base DltModel MatchModel GenModel ToolsModel DdModel Spec CommandSpec ReadSpec BaseFacts DltFacts CodecFacts ParseFacts
  FindFacts IterFacts DltIterFacts GenFacts MapFacts MergeFacts DdFacts ExactFacts.
From Coq Require Import Sorted ZifyBool ZifyNat ZifyN.
Ltac Zify.zify_post_hook ::= Z.div_mod_to_equations.

(** * merge *)
Section MergeRun.
  Context {K I : Type}.
  Variable cmp : K -> K -> comparison.
  Hypothesis O : total_order cmp.
  Variable f : I -> I -> option I.
  Variable key : I -> K.

  Lemma ascending_ext l : forall l', ascending cmp (map key l) -> ascending cmp (map key l') ->
    (forall x, In x l <-> In x l') -> l = l'.
  Proof.
    induction l as [|x l IH]; intros [|y l'] S S' E.
    - reflexivity.
    - destruct (proj2 (E y) (or_introl eq_refl)).
    - destruct (proj1 (E x) (or_introl eq_refl)).
    - cbn [map] in S, S'. inversion S as [|a b S1 F1]; subst. inversion S' as [|a b S1' F1']; subst.
      rewrite Forall_forall in F1, F1'.
      assert (x = y).
      { destruct (proj1 (E x) (or_introl eq_refl)) as [<-|Ix]; [reflexivity|].
        destruct (proj2 (E y) (or_introl eq_refl)) as [->|Iy]; [reflexivity|].
        assert (A : cmp (key y) (key x) = Lt) by (apply F1'; now apply in_map).
        assert (B : cmp (key x) (key y) = Lt) by (apply F1; now apply in_map).
        rewrite (order_sym cmp O), A in B. discriminate. }
      subst y. f_equal. apply IH; [exact S1|exact S1'|]. intros z. split; intros Iz.
      + destruct (proj1 (E z) (or_intror Iz)) as [<-|Q]; [|exact Q]. exfalso.
        assert (A : cmp (key x) (key x) = Lt) by (apply F1; now apply in_map). now rewrite (cmp_refl cmp O) in A.
      + destruct (proj2 (E z) (or_intror Iz)) as [<-|Q]; [|exact Q]. exfalso.
        assert (A : cmp (key x) (key x) = Lt) by (apply F1'; now apply in_map). now rewrite (cmp_refl cmp O) in A.
  Qed.
  Lemma stored_fun l v l1 l2 : stored cmp key l v l1 -> stored cmp key l v l2 -> l1 = l2.
  Proof. intros [A B] [C D]. apply ascending_ext; [exact A|exact C|]. intros x. now rewrite B, D. Qed.
  Lemma first_fun (P : I -> option I) l1 p l2 l1' p' l2' v v' : l1 ++ p :: l2 = l1' ++ p' :: l2' ->
    Forall (fun q => P q = None) l1 -> Forall (fun q => P q = None) l1' -> P p = Some v -> P p' = Some v' -> l1 = l1' /\ p = p' /\ l2 = l2'.
  Proof.
    revert l1'. induction l1 as [|a l1 IH]; intros [|a' l1'] E F F' Q Q'; cbn [app] in E; injection E as E1 E2.
    - auto.
    - subst. inversion F'; congruence.
    - subst. inversion F; congruence.
    - subst a'. inversion F; subst. inversion F'; subst. destruct (IH l1' E2) as (-> & -> & ->); auto.
  Qed.
  Lemma merge_step_fun l x l1 l2 : merge_step cmp f key l x l1 -> merge_step cmp f key l x l2 -> l1 = l2.
  Proof.
    intros [(a & p & b & v & E & F & Q & S)|(F & S)] [(a' & p' & b' & v' & E' & F' & Q' & S')|(F' & S')].
    - rewrite E in E'. destruct (first_fun (fun q => f q x) _ _ _ _ _ _ _ _ E' F F' Q Q') as (-> & -> & ->).
      assert (v = v') by congruence. subst v'. exact (stored_fun _ _ _ _ S S').
    - subst l. apply Forall_app in F'. destruct F' as [_ F']. inversion F'; congruence.
    - subst l. apply Forall_app in F. destruct F as [_ F]. inversion F; congruence.
    - exact (stored_fun _ _ _ _ S S').
  Qed.
  Lemma merge_run_fun l xs l1 l2 : merge_run cmp f key l xs l1 -> merge_run cmp f key l xs l2 -> l1 = l2.
  Proof.
    intros H. revert l2. induction H as [l|l x m xs r S R IH]; intros l2 H2; inversion H2 as [|? ? m' ? ? S' R']; subst; [reflexivity|].
    apply IH. now rewrite (merge_step_fun _ _ _ _ S S').
  Qed.
  Lemma filed_keys m : filed cmp key m -> map fst m = map key (map snd m).
  Proof.
    intros [_ F]. induction m as [|[k v] m IH]; [reflexivity|]. cbn [map fst snd]. f_equal; [apply F; now left|].
    apply IH. intros; apply F; now right.
  Qed.
  Lemma partner_split x (m : list (K * I)) p v : partner f x m = Some (p, v) ->
    exists l1 l2, map snd m = l1 ++ p :: l2 /\ Forall (fun q => f q x = None) l1 /\ f p x = Some v.
  Proof.
    induction m as [|[k q] m IH]; [discriminate|]. cbn [partner map snd]. destruct (f q x) as [w|] eqn:E.
    - intros [= -> ->]. exists [], (map snd m). repeat split; auto.
    - intros H. destruct (IH H) as (l1 & l2 & -> & F & Q). exists (q :: l1), l2. repeat split; auto.
  Qed.
  Lemma merge_in_step m x : filed cmp key m -> merge_step cmp f key (map snd m) x (map snd (merge_in cmp f key m x)).
  Proof.
    intros Fm. pose proof (merge_in_filed cmp O f key m x Fm) as Fm'.
    assert (A : ascending cmp (map key (map snd (merge_in cmp f key m x)))) by (rewrite <- filed_keys by exact Fm'; apply Fm').
    pose proof (fun w => merge_in_in cmp O f key m x w Fm) as W.
    destruct (partner f x m) as [[p v]|] eqn:P.
    - left. destruct (partner_split x m p v P) as (l1 & l2 & E & F & Q). exists l1, p, l2, v. split; [exact E|]. split; [exact F|]. split; [exact Q|].
      split; [exact A|]. intros w. rewrite W, E.
      assert (ND : NoDup (map key (l1 ++ p :: l2))).
      { rewrite <- E, <- filed_keys by exact Fm. apply (sorted_nodup cmp O), Fm. }
      assert (NP : In w (l1 ++ l2) <-> key w <> key p /\ In w (l1 ++ p :: l2)).
      { rewrite !in_app_iff. cbn [In]. rewrite map_app in ND. cbn [map] in ND. apply NoDup_remove_2 in ND. rewrite in_app_iff in ND. split.
        - intros Iw. split; [|tauto]. intros Q'. apply ND. destruct Iw as [Iw|Iw]; [left|right]; rewrite <- Q'; now apply in_map.
        - intros [N [Iw|[->|Iw]]]; tauto. }
      rewrite NP. tauto.
    - right. split.
      + apply Forall_forall. intros q Iq. apply in_map_iff in Iq. destruct Iq as ([k q'] & <- & Iq). exact (partner_none f x m P k q' Iq).
      + split; [exact A|]. intros w. rewrite W. tauto.
  Qed.
  Lemma fold_merge_run xs : forall m, filed cmp key m -> merge_run cmp f key (map snd m) xs (map snd (fold_left (merge_in cmp f key) xs m)).
  Proof.
    induction xs as [|x xs IH]; intros m Fm; cbn [fold_left]; [constructor|].
    econstructor; [now apply merge_in_step|]. apply IH. now apply merge_in_filed.
  Qed.

  (** Weights are never invented. *)
  Variable w : I -> nat.
  Definition total (l : list I) : nat := list_sum (map w l).
  Lemma total_app a b : total (a ++ b) = total a + total b.
  Proof. unfold total. now rewrite map_app, list_sum_app. Qed.
  Lemma ascending_nodup' l : ascending cmp (map key l) -> NoDup l.
  Proof.
    intros A. apply (NoDup_map_inv key). now apply (ascending_nodup cmp O).
  Qed.
  Lemma total_incl l l' : NoDup l -> incl l l' -> total l <= total l'.
  Proof.
    revert l'. induction l as [|x l IH]; intros l' ND Ic; [unfold total; cbn; lia|].
    inversion ND as [|? ? N ND']; subst. assert (Ix : In x l') by (apply Ic; now left). apply in_split in Ix. destruct Ix as (a & b & ->).
    specialize (IH (a ++ b) ND'). rewrite total_app in *. change (total (x :: l)) with (w x + total l). change (total (x :: b)) with (w x + total b).
    assert (Ic' : incl l (a ++ b)).
    { intros y Iy. specialize (Ic y (or_intror Iy)). apply in_app_iff in Ic. apply in_app_iff. cbn [In] in Ic. destruct Ic as [Q|[->|Q]]; auto. contradiction. }
    specialize (IH Ic'). lia.
  Qed.
  Lemma stored_total l v l' : stored cmp key l v l' -> total l' <= w v + total l.
  Proof.
    intros [A E]. change (w v + total l) with (total (v :: l)). apply total_incl; [now apply ascending_nodup'|].
    intros x Ix. apply E in Ix. cbn [In]. intuition auto.
  Qed.
  Hypothesis additive : forall p x v, f p x = Some v -> w v = w p + w x.
  Lemma merge_run_total l xs l' : merge_run cmp f key l xs l' -> total l' <= total l + total xs.
  Proof.
    induction 1 as [l|l x m xs r S R IH]; [unfold total; cbn; lia|]. change (total (x :: xs)) with (w x + total xs).
    enough (total m <= total l + w x) by lia.
    destruct S as [(a & p & b & v & -> & F & Q & S)|(F & S)]; apply stored_total in S.
    - rewrite total_app in *. change (total (p :: b)) with (w p + total b). pose proof (additive _ _ _ Q). lia.
    - lia.
  Qed.
  (** If merging keeps the key and items with the same key always merge, nothing is lost. *)
  Hypothesis keeps : forall p x v, f p x = Some v -> key v = key p.
  Hypothesis meets_own : forall p x, key p = key x -> f p x <> None.
  Lemma stored_exact l v l' : ascending cmp (map key l) -> stored cmp key l v l' -> (forall x, In x l -> key x <> key v) -> total l' = w v + total l.
  Proof.
    intros Al [A E] N. change (w v + total l) with (total (v :: l)). apply Nat.le_antisymm; apply total_incl.
    - now apply ascending_nodup'. - intros x Ix. apply E in Ix. cbn [In]. intuition auto.
    - constructor; [intros Iv; now apply (N v)|now apply ascending_nodup'].
    - intros x [->|Ix]; apply E; [now left|]. right. auto.
  Qed.
  Lemma ascending_remove a (p : I) b : ascending cmp (map key (a ++ p :: b)) -> ascending cmp (map key (a ++ b)) /\ forall x, In x (a ++ b) -> key x <> key p.
  Proof.
    intros A. split.
    - rewrite map_app in *. cbn [map] in A. revert A. generalize (map key a) as ka. generalize (map key b) as kb. clear. intros kb ka.
      induction ka as [|k ka IH]; cbn [app]; intros A; inversion A as [|? ? A1 F]; subst; [exact A1|].
      constructor; [now apply IH|]. apply Forall_app in F. destruct F as [F1 F2]. inversion F2; subst. apply Forall_app. auto.
    - pose proof (ascending_nodup cmp O _ A) as ND. rewrite map_app in ND. cbn [map] in ND. apply NoDup_remove_2 in ND. rewrite <- map_app in ND.
      intros x Ix Q. apply ND. rewrite <- Q. now apply in_map.
  Qed.
  Lemma merge_run_exact l xs l' : ascending cmp (map key l) -> merge_run cmp f key l xs l' -> total l' = total l + total xs.
  Proof.
    intros A R. revert A. induction R as [l|l x m xs r S R IH]; intros A; [unfold total; cbn; lia|].
    change (total (x :: xs)) with (w x + total xs).
    assert (Am : ascending cmp (map key m)) by (destruct S as [(? & ? & ? & ? & _ & _ & _ & S)|(_ & S)]; apply S).
    rewrite (IH Am). enough (total m = total l + w x) by lia.
    destruct S as [(a & p & b & v & -> & F & Q & S)|(F & S)].
    - destruct (ascending_remove a p b A) as [A' N]. rewrite (stored_exact _ _ _ A' S) by (rewrite (keeps _ _ _ Q); exact N).
      rewrite !total_app. change (total (p :: b)) with (w p + total b). pose proof (additive _ _ _ Q). lia.
    - rewrite (stored_exact _ _ _ A S); [lia|]. intros q Iq E. rewrite Forall_forall in F. specialize (F q Iq). now apply (meets_own q x E).
  Qed.
End MergeRun.

(** * Accessors *)
Lemma u32be_skipn (m : bytes) j k : u32be_at (skipn j m) k = u32be_at m (j + k).
Proof.
  unfold u32be_at, byte_at. rewrite !nth_skipn_x. now rewrite !Nat.add_assoc.
Qed.
Lemma ext_prefix_at (m : bytes) k : ext_header_from_prefix (skipn k m) =
  if length m <? k + 10 then None
  else Some {| msin := nth k m x00; noar := nth (k + 1) m x00; apid := quad_at m (k + 2); ctid := quad_at m (k + 6) |}.
Proof.
  destruct (Nat.ltb_spec (length m) (k + 10)) as [L|L].
  - assert (Ls : length (skipn k m) < 10) by (rewrite skipn_length; lia). revert Ls. generalize (skipn k m) as s. intros s Ls.
    do 10 (destruct s as [|? s]; [reflexivity|]). cbn [length] in Ls. lia.
  - assert (E : forall j, nth (k + j) m x00 = nth j (skipn k m) x00) by (intros j; now rewrite nth_skipn_x).
    assert (E0 : nth k m x00 = nth 0 (skipn k m) x00) by (rewrite nth_skipn_x; f_equal; lia).
    assert (Ls : 10 <= length (skipn k m)) by (rewrite skipn_length; lia).
    unfold quad_at. rewrite <- !Nat.add_assoc. cbn [Nat.add]. rewrite E0, !E. revert Ls. generalize (skipn k m) as s. intros s Ls.
    do 10 (destruct s as [|? s]; [cbn in Ls; lia|]). reflexivity.
Qed.

(** * dd_dlt *)
Definition takes (v : std_version) (post : bytes) : bytes :=
  match v with
  | TakesSome => firstn 1024 post
  | TakesNone => if length post <? 1024 then post else []
  end.
Lemma accepted_arrives v c : arrives (takes v) c (accepted v c).
Proof.
  unfold accepted. destruct (rfind [x0a] c) as [i|] eqn:R.
  - right. apply rfind_some in R; [|cbn; lia]. destruct R as [Oc L]. pose proof (skipn_nl _ _ Oc) as Q.
    exists (firstn i c), (skipn (i + 1) c). split; [cbn [app]; rewrite <- Q; symmetry; apply firstn_skipn|]. split.
    + intros Il. apply nl_occ in Il. destruct Il as [k Kk]. rewrite occ_skipn in Kk. specialize (L (i + 1 + k) ltac:(lia)). congruence.
    + assert (T : taken v (skipn (i + 1) c) = takes v (skipn (i + 1) c)).
      { unfold taken, takes. replace lw_capacity with 1024 by (unfold lw_capacity; lia). destruct v; [reflexivity|].
        destruct (Nat.leb_spec 1024 (length (skipn (i + 1) c))), (Nat.ltb_spec (length (skipn (i + 1) c)) 1024); try lia; reflexivity. }
      rewrite T, app_assoc. f_equal.
      assert (Lb : i < length c) by (apply occ_len in Oc; [cbn in Oc; lia|cbn; lia]).
      rewrite <- (firstn_skipn i c) at 1. rewrite firstn_app, firstn_length, Nat.min_l by lia.
      replace (i + 1 - i) with 1 by lia. rewrite firstn_all2 by (rewrite firstn_length; lia). rewrite Q. reflexivity.
  - left. split; [|reflexivity]. intros Il. apply nl_occ in Il. destruct Il as [k Kk].
    pose proof (proj1 (rfind_none [x0a] c ltac:(cbn; lia)) R k) as N. congruence.
Qed.

Definition wrap (n : N) : N := (n mod u32_mod)%N.
Fixpoint wiresw (v : std_version) (A : ctor_addrs) (e a : quad) (len count : N) (chunks : list bytes) : list bytes :=
  match chunks with
  | [] => []
  | c :: cs => wire A e a len count (accepted v c) :: wiresw v A e a len (wrap (count + 1)) cs
  end.
Lemma dd_message_wrap v A m e a psize count buf w len : lw_ok w ->
  checked m u16_mod (4 + 10 + 4 + psize) = Ret len ->
  (m = Release \/ (count * 100 < u32_mod)%N) ->
  exists w', dd_message v A m (quad_bytes e) (quad_bytes a) psize count buf w = (w', Some (wrap (count + 1))) /\
    lw_ok w' /\ at_exit w' = at_exit w ++ wire A e a len count (accepted v buf).
Proof.
  intros OK CL CT. unfold dd_message. rewrite !quad_ok. cbn [obind]. rewrite CL. cbn [obind].
  assert (T : checked m u32_mod (count * 100) = Ret (count * 100 mod u32_mod)%N).
  { rewrite checked_ok by exact CT. destruct (N.ltb_spec (count * 100) u32_mod); [|reflexivity]. now rewrite N.mod_small. }
  rewrite T.
  assert (T1 : checked m u32_mod (count + 1) = Ret (wrap (count + 1))).
  { rewrite checked_ok by (destruct CT as [->|CT]; [now left|right; unfold u32_mod in *; lia]). unfold wrap.
    destruct (N.ltb_spec (count + 1) u32_mod); [|reflexivity]. now rewrite N.mod_small. }
  rewrite T1.
  set (shb := storage_header_as_bytes _). set (hb := std_header_as_bytes _). set (eb := ext_header_as_bytes _).
  set (tb := be32_bytes _).
  destruct (write_spec v w shb OK) as [E1 OK1]. destruct (write_spec v _ hb OK1) as [E2 OK2].
  destruct (write_spec v _ tb OK2) as [E3 OK3]. destruct (write_spec v _ eb OK3) as [E4 OK4].
  destruct (write_spec v _ buf OK4) as [E5 OK5].
  eexists. split; [reflexivity|]. split; [exact OK5|]. rewrite E5, E4, E3, E2, E1.
  rewrite (accepted_fits v eb), (accepted_fits v tb), (accepted_fits v hb), (accepted_fits v shb);
    try (apply small_fits; vm_compute; destruct e; destruct a; cbn; lia).
  rewrite <- !app_assoc. f_equal. unfold shb, hb, tb, eb, wire.
  unfold storage_header_as_bytes, storage_header_new, std_header_as_bytes, std_header_new, ext_header_as_bytes, ext_header_new.
  cbn [pattern secs msecs ecu header_type message_counter std_length msin noar apid ctid].
  rewrite us_bytes by (apply N.mod_lt; discriminate).
  change (htyp_new true false false false true x01) with x31. fold (dd_type A).
  cbn [quad_bytes the_pattern app]. rewrite <- !app_assoc. reflexivity.
Qed.
(** The messages of the first chunks, whatever follows. *)
Lemma dd_loop_prefix v A m e a psize len rest : checked m u16_mod (4 + 10 + 4 + psize) = Ret len ->
  forall chunks count w fuel, lw_ok w -> Forall (fun c => N.of_nat (length c) = psize) chunks -> (count < u32_mod)%N ->
  (m = Release \/ ((count + N.of_nat (length chunks)) * 100 < u32_mod + 100)%N) ->
  exists w', lw_ok w' /\ at_exit w' = at_exit w ++ concat (wiresw v A e a len count chunks) /\
    dd_loop v (length chunks + fuel) A m (quad_bytes e) (quad_bytes a) psize count (concat chunks ++ rest) w =
    dd_loop v fuel A m (quad_bytes e) (quad_bytes a) psize (wrap (count + N.of_nat (length chunks))) rest w'.
Proof.
  intros CL. induction chunks as [|c cs IH]; intros count w fuel OK F Hc CT.
  - exists w. split; [exact OK|]. cbn [wiresw concat app length Nat.add]. rewrite app_nil_r. split; [reflexivity|].
    do 2 f_equal. unfold wrap. rewrite N.add_0_r. symmetry. now apply N.mod_small.
  - inversion F as [|x y F1 F2]; subst x y. cbn [length Nat.add] in *. cbn [dd_loop concat]. rewrite <- app_assoc.
    destruct (Nat.ltb_spec (length (c ++ concat cs ++ rest)) (N.to_nat psize)) as [L|_]; [rewrite app_length in L; lia|].
    replace (N.to_nat psize) with (length c) by lia.
    rewrite firstn_app, firstn_all, Nat.sub_diag, skipn_app, skipn_all, Nat.sub_diag. cbn [firstn skipn app]. rewrite app_nil_r.
    destruct (dd_message_wrap v A m e a psize count c w len OK CL) as (w1 & -> & OK1 & E1);
      [destruct CT as [CT|CT]; [now left|right; lia]|].
    destruct (IH (wrap (count + 1)) w1 fuel OK1 F2) as (w' & OK' & E' & ->).
    + apply N.mod_lt. discriminate.
    + destruct CT as [CT|CT]; [now left|right]. unfold wrap, u32_mod in *. pose proof (N.mod_le (count + 1) 4294967296 ltac:(discriminate)). lia.
    + exists w'. split; [exact OK'|]. cbn [wiresw concat]. rewrite E', E1, <- app_assoc. split; [reflexivity|].
      f_equal. unfold wrap. rewrite N.add_mod_idemp_l by discriminate. f_equal. lia.
Qed.
Lemma wiresw_length v A e a len chunks : forall count, length (wiresw v A e a len count chunks) = length chunks.
Proof. induction chunks as [|c cs IH]; intros count; cbn [wiresw length]; [reflexivity|now rewrite IH]. Qed.
Lemma wiresw_nth v A e a len chunks : forall count i c, (count < u32_mod)%N -> nth_error chunks i = Some c ->
  nth_error (wiresw v A e a len count chunks) i = Some (wire A e a len (wrap (count + N.of_nat i)) (accepted v c)).
Proof.
  induction chunks as [|c0 cs IH]; intros count [|i] c Hc H; try discriminate H; cbn [wiresw nth_error] in *.
  - injection H as <-. do 2 f_equal. unfold wrap. rewrite N.add_0_r. symmetry. now apply N.mod_small.
  - rewrite (IH (wrap (count + 1)) i c); [|apply N.mod_lt; discriminate|exact H]. do 2 f_equal. unfold wrap. rewrite N.add_mod_idemp_l by discriminate. f_equal. lia.
Qed.
Lemma wire_dd A e a psize i p : dd_wire e a (dd_type A) psize i p (wire A e a ((18 + psize) mod u16_mod) (wrap (N.of_nat i)) p).
Proof.
  unfold dd_wire. cbv zeta. change (2 ^ 32)%N with u32_mod. fold (wrap (N.of_nat i)).
  assert (HC : (wrap (N.of_nat i) < u32_mod)%N) by (apply N.mod_lt; discriminate). generalize dependent (wrap (N.of_nat i)). intros c HC.
  assert (Hl : ((18 + psize) mod u16_mod < u16_mod)%N) by (apply N.mod_lt; discriminate).
  rewrite wire_len, wire_u16 by exact Hl. split; [reflexivity|]. split; [reflexivity|].
  assert (LE : forall n (y : bytes), u32le_at (the_pattern ++ le32_bytes n ++ y) 4 = le32 (u8 n) (u8 (n / 256)) (u8 (n / 65536)) (u8 (n / 16777216))).
  { intros n y. unfold le32, be32, u32le_at, byte_at, le32_bytes, be32_bytes, the_pattern. cbn [rev app nth Nat.add]. unfold bN. lia. }
  assert (LE' : forall n n' (y : bytes), u32le_at (the_pattern ++ le32_bytes n ++ le32_bytes n' ++ y) 8 = le32 (u8 n') (u8 (n' / 256)) (u8 (n' / 65536)) (u8 (n' / 16777216))).
  { intros n n' y. unfold le32, be32, u32le_at, byte_at, le32_bytes, be32_bytes, the_pattern. cbn [rev app nth Nat.add]. unfold bN. lia. }
  split; [unfold wire; rewrite LE; unfold le32; apply be32_of_bytes; unfold u32_mod in *; lia|].
  split; [unfold wire; rewrite LE'; unfold le32; apply be32_of_bytes; lia|].
  split; [unfold wire; destruct e; reflexivity|]. split; [unfold wire; destruct e; reflexivity|].
  split; [unfold wire, byte_at; destruct e; cbn; fold (bN (u8 c)); apply bN_u8|]. split; [reflexivity|].
  split.
  { assert (HT : (c * 100 mod u32_mod < 4294967296)%N) by (apply N.mod_lt; discriminate).
    transitivity (be32 (u8 (c * 100 mod u32_mod / 16777216)) (u8 (c * 100 mod u32_mod / 65536)) (u8 (c * 100 mod u32_mod / 256)) (u8 (c * 100 mod u32_mod))); [|now apply be32_of_bytes].
    unfold wire. destruct e. generalize (c * 100 mod u32_mod)%N. intros ts. unfold be32, u32be_at, byte_at, le32_bytes, be16_bytes, be32_bytes, the_pattern. cbn [rev quad_bytes app nth Nat.add]. unfold bN. lia. }
  repeat split; unfold wire; destruct e, a; reflexivity.
Qed.
(** An input consists of whole chunks and a rest. *)
Lemma cut_chunks psize : (0 < psize)%N -> forall n (b : bytes), N.of_nat n = (N.of_nat (length b) / psize)%N ->
  exists chunks rest, b = concat chunks ++ rest /\ length chunks = n /\ Forall (fun c => N.of_nat (length c) = psize) chunks /\
    (N.of_nat (length rest) < psize)%N /\
    forall i c, nth_error chunks i = Some c -> c = firstn (N.to_nat psize) (skipn (i * N.to_nat psize) b).
Proof.
  intros Hp. induction n as [|n IH]; intros b E.
  - exists [], b. split; [reflexivity|]. split; [reflexivity|]. split; [constructor|]. split; [|intros [|i] c; discriminate].
    destruct (N.lt_ge_cases (N.of_nat (length b)) psize) as [L|L]; [exact L|].
    assert (1 <= N.of_nat (length b) / psize)%N by (apply N.div_le_lower_bound; lia). lia.
  - assert (L : (psize <= N.of_nat (length b))%N).
    { destruct (N.lt_ge_cases (N.of_nat (length b)) psize) as [L|L]; [|exact L]. rewrite N.div_small in E by exact L. lia. }
    destruct (IH (skipn (N.to_nat psize) b)) as (cs & rest & Eb & Lc & F & R & Nth).
    { rewrite skipn_length. set (r := N.of_nat (length b - N.to_nat psize)).
      replace (N.of_nat (length b)) with (1 * psize + r)%N in E by lia. rewrite N.div_add_l in E by lia. lia. }
    exists (firstn (N.to_nat psize) b :: cs), rest. split; [|split; [|split; [|split; [exact R|]]]].
    + cbn [concat]. rewrite <- app_assoc, <- Eb. symmetry. apply firstn_skipn.
    + cbn. now rewrite Lc.
    + constructor; [|exact F]. rewrite firstn_length. lia.
    + intros [|i] c H; cbn [nth_error] in H; [injection H as <-; reflexivity|]. rewrite (Nth i c H), skipn_skipn'. reflexivity.
Qed.
