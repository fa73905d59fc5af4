(** Property theorems C121 and C122: a memory mapped file of which some bytes cannot be read (TouchModel.v; vocabulary in TouchSpec.v
    and MappedSpec.v).  [W] answers every single read as it likes, [n] is the length of the mapping, [reads t p] says whether byte [p]
    can be read at the [t]-th read, [reach] how far memmem looks. *)
From Verif Require Import Base DltModel MatchModel MappedModel TouchModel Spec MappedSpec TouchSpec BaseFacts DltFacts CodecFacts ParseFacts FindFacts IterFacts DltIterFacts
  ContainFacts CommandFacts ExactFacts MappedFacts MappedStill TouchFacts TouchSame P_Mapped.
From Verif Require Samples.
From Coq Require Import ZifyBool ZifyNat ZifyN.
Import Samples(m1, m2, m3, m1_valid, m2_valid, m3_valid).
Ltac Zify.zify_post_hook ::= idtac.

(** * C121: truncated meanwhile *)
(** Killed or not, what is delivered is what is delivered if everything can be read, or a beginning of it. *)
Theorem C121_iterators : forall W n reads reach off t,
  (exists all t', m_collect (m_fallback_next W n (S (S n))) (S n) off t = Ret (all, t') /\
     delivers_of all (t_collect (t_fallback_next W n reads reach (S (S n))) (S n) off t)) /\
  (exists all t', m_collect (m_readit_next W n) (S n) off t = Ret (all, t') /\
     delivers_of all (t_collect (t_readit_next W n reads) (S n) off t)) /\
  (exists all t', m_collect (m_search_next W n (S n)) (S n) off t = Ret (all, t') /\
     delivers_of all (t_collect (t_search_next W n reads reach (S n)) (S n) off t)).
Proof.
  intros W n reads reach off t. split; [|split].
  - destruct (safe_collect_spread W n (S n) off ltac:(lia) t) as (all & t' & E & _). exists all, t'. split; [exact E|].
    eapply sim_collect; [intros s; apply sim_fallback|exact E].
  - destruct (C115_contiguous W n off t) as (all & t' & E & _). exists all, t'. split; [exact E|]. eapply sim_collect; [intros s; apply sim_readit|exact E].
  - destruct (C115_search W n off t) as (all & t' & E & _). exists all, t'. split; [exact E|]. eapply sim_collect; [intros s; apply sim_search_next|exact E].
Qed.
Print Assumptions C121_iterators.
(** Nothing outside of the mapping is read. *)
Theorem C121_inside : forall W n reads reach off t, (forall t p, p < n -> reads t p = true) ->
  snd (t_collect (t_fallback_next W n reads reach (S (S n))) (S n) off t) = Back tt /\
  snd (t_collect (t_readit_next W n reads) (S n) off t) = Back tt /\
  snd (t_collect (t_search_next W n reads reach (S n)) (S n) off t) = Back tt.
Proof.
  intros W n reads reach off t ALL. destruct (C121_iterators W n reads reach off t) as ((a1 & u1 & _ & D1) & (a2 & u2 & _ & D2) & (a3 & u3 & _ & D3)).
  assert (X : forall A (all : list A) r, delivers_of all r -> snd r <> Killed -> snd r = Back tt).
  { intros A all [l [[]| | |]]; cbn; intros; congruence || contradiction. }
  split; [|split]; (eapply X; [eassumption|]); apply lives_collect; intros s; [now apply lives_fallback|now apply lives_readit|now apply lives_search_next].
Qed.
Print Assumptions C121_inside.
Theorem C121_accessors : forall W reads v,
  (forall t, killed_or (t_ecu_id W reads v t) (m_ecu_id W v t)) /\ (forall t, killed_or (t_timestamp W reads v t) (m_timestamp W v t)) /\
  (forall t, killed_or (t_extended_header W reads v t) (m_extended_header W v t)) /\ (forall t, killed_or (t_payload W reads v t) (m_payload W v t)).
Proof. intros W reads v. split; [apply sim_ecu_id|]. split; [apply sim_timestamp|]. split; [apply sim_extended|apply sim_payload]. Qed.
Print Assumptions C121_accessors.

Section Here.
  Variable W : world.
  Variable n : nat.
  Variable reads : nat -> nat -> bool.
  Variable reach : nat -> nat -> nat.
  Variables off k : nat.
  Hypothesis K : 20 <= k.
  Hypothesis KN : (N.of_nat k < 65552)%N.
  Hypothesis Hn : off + k <= n.
  Hypothesis MK : forall t, sees_marker W t off = true.
  Hypothesis LN : forall t, sees_length W t (off + 16) + 16 = k.
  Hypothesis RD : forall t p, key_byte off p -> reads t p = true.
  Lemma look_ok {A} a z (f : nat -> A) t : (forall p, a <= p < z -> key_byte off p) -> look reads a z f t = Back (f t, S t).
  Proof. intros H. unfold look. rewrite (proj2 (forallb_forall _ _)); [reflexivity|]. intros p I. apply in_seq in I. apply RD, H. lia. Qed.
  Lemma read_here t : t_read W n reads off t = Back (Some (k, (off, k)), S t).
  Proof.
    unfold t_read. destruct (Nat.ltb_spec (n - off) 16); [lia|]. destruct (Nat.ltb_spec (n - off - 16) 4); [lia|].
    unfold t_length, next_peek. rewrite look_ok by (unfold key_byte; lia). unfold back. pose proof (LN t) as L.
    rewrite N.mod_small by lia. rewrite Nat2N.id. destruct (Nat.ltb_spec (sees_length W t (off + 16)) 4); [lia|].
    destruct (Nat.ltb_spec (n - off - 16) (sees_length W t (off + 16))); [lia|]. cbn [orb]. replace (16 + sees_length W t (off + 16)) with k by lia. reflexivity.
  Qed.
  Lemma from_here t : t_from n off t = Back (tt, t).
  Proof. unfold t_from. destruct (Nat.ltb_spec n off); [lia|reflexivity]. Qed.
  Lemma fallback_here f t : exists t', t_fallback_next W n reads reach (S f) off t = Back ((off + k, Some (off, k)), t').
  Proof.
    cbn [t_fallback_next]. destruct (Nat.leb_spec n (off + 4)); [lia|]. unfold next_peek, t_slice. destruct (Nat.ltb_spec (off + 4) off); [lia|].
    destruct (Nat.ltb_spec n (off + 4)); [lia|]. cbn [orb]. unfold back at 1. rewrite look_ok by (unfold key_byte; lia). rewrite MK, from_here, read_here. eexists. reflexivity.
  Qed.
  Lemma readit_here t : exists t', t_readit_next W n reads off t = Back ((off + k, Some (off, k)), t').
  Proof.
    unfold t_readit_next. destruct (Nat.leb_spec n off); [lia|]. unfold next_peek. rewrite from_here. unfold t_try_read. destruct (Nat.ltb_spec (n - off) 4); [lia|].
    unfold next_peek. rewrite look_ok by (unfold key_byte; lia). rewrite MK, read_here. eexists. reflexivity.
  Qed.
End Here.
Lemma place_small b a k v : parse (skipn a b) = Some (k, v) -> (N.of_nat k < 65552)%N.
Proof. intros P. destruct (parse_place b a k v P) as (_ & _ & _ & E). pose proof (field_bound b (a + 16)). lia. Qed.

(** If the first [c] bytes neither change nor become unreadable, the messages at the beginning of the file whose headers lie in them
    are delivered first, whatever happens to the rest. *)
Theorem C121_kept : forall W (b : bytes) c reads reach front others, steady W b c -> c <= length b -> (forall t p, p < c -> reads t p = true) ->
  dltit_offset b = Ret (front ++ others) -> back_to_back 0 (places front) -> Forall (fun x => fst x + 20 <= c) front ->
  exists more e, t_dltit W (length b) reads reach = (places front ++ more, e).
Proof.
  intros W b c reads reach front others ST Hc RD E BB FC. apply dltit_offset_chain in E. unfold t_dltit.
  assert (G : forall front off fuel t, dchain b off (front ++ others) -> back_to_back off (places front) -> Forall (fun x => fst x + 20 <= c) front -> length b - off < fuel ->
    exists more e, t_collect (t_fallback_next W (length b) reads reach (S (S (length b)))) fuel off t = (places front ++ more, e)).
  { clear - ST Hc RD. induction front as [|[k v] front IH]; intros off fuel t CH BB FC Hf.
    - destruct (t_collect _ fuel off t) as [l e]. now exists l, e.
    - cbn [app] in CH. inversion CH as [| |off' k' len v' l' FM P CH']; subst. destruct (parse_place b k len v P) as (E1 & E2 & E3 & E4). pose proof (place_small b k len v P) as SM.
      cbn [places map fst snd back_to_back] in BB. destruct BB as [<- BB]. rewrite E1 in BB. inversion FC as [|? ? H1 H2]; subst. cbn [fst] in H1. destruct fuel as [|f]; [lia|].
      assert (OC : occurs_at the_pattern b k) by (destruct FM as (_ & O & _); apply (occ_occurs dlt_marker b k); [cbn; lia|exact O]).
      destruct (fallback_here W (length b) reads reach k (storage_len v) ltac:(lia) ltac:(lia) ltac:(lia)) with (f := S (length b)) (t := t) as [t' N].
      + intros u. now apply (steady_marker W b c ST u k ltac:(lia)).
      + intros u. rewrite (steady_length W b c ST u (k + 16)) by lia. lia.
      + intros u p Hp. apply RD. unfold key_byte in Hp. lia.
      + cbn [t_collect]. rewrite N. destruct (IH (k + storage_len v) f t' CH' BB H2 ltac:(lia)) as (more & e & R). rewrite R. exists more, e. reflexivity. }
  apply G; auto. lia.
Qed.
Print Assumptions C121_kept.
(** With garbage in between this holds if memmem looks no further than the marker it finds ... *)
Theorem C121_garbage : forall W (b : bytes) c reads reach front others, steady W b c -> c <= length b -> (forall t p, p < c -> reads t p = true) ->
  (forall t a, reach t a <= c) ->
  dltit_offset b = Ret (front ++ others) -> Forall (fun x => fst x + 20 <= c) front ->
  exists more e, t_dltit W (length b) reads reach = (places front ++ more, e).
Proof.
  intros W b c reads reach front others ST Hc RD RE E FC. apply dltit_offset_chain in E. unfold t_dltit.
  assert (G : forall front off fuel t, dchain b off (front ++ others) -> Forall (fun x => fst x + 20 <= c) front -> length b - off < fuel ->
    exists more e, t_collect (t_fallback_next W (length b) reads reach (S (S (length b)))) fuel off t = (places front ++ more, e)).
  { clear - ST Hc RD RE. induction front as [|[k v] front IH]; intros off fuel t CH FC Hf.
    - destruct (t_collect _ fuel off t) as [l e]. now exists l, e.
    - cbn [app] in CH. inversion CH as [| |off' k' len v' l' FM P CH']; subst. destruct (parse_place b k len v P) as (E1 & E2 & E3 & E4). pose proof (place_small b k len v P) as SM.
      inversion FC as [|? ? H1 H2]; subst. cbn [fst] in H1. destruct fuel as [|f]; [lia|]. destruct FM as (F1 & O & NO).
      assert (OC : occurs_at the_pattern b k) by (apply (occ_occurs dlt_marker b k); [cbn; lia|exact O]).
      assert (AT : forall g u, exists t', t_fallback_next W (length b) reads reach (S g) k u = Back ((k + storage_len v, Some (k, storage_len v)), t')).
      { intros g u. apply (fallback_here W (length b) reads reach k (storage_len v)); [lia|lia|lia| | |].
        - intros u'. now apply (steady_marker W b c ST u' k ltac:(lia)).
        - intros u'. rewrite (steady_length W b c ST u' (k + 16)) by lia. lia.
        - intros u' p Hp. apply RD. unfold key_byte in Hp. lia. }
      assert (NX : exists t', t_fallback_next W (length b) reads reach (S (S (length b))) off t = Back ((k + storage_len v, Some (k, storage_len v)), t')).
      { destruct (Nat.eq_dec k off) as [->|NE]; [apply AT|]. remember (S (length b)) as g eqn:Eg. cbn [t_fallback_next]. destruct (Nat.leb_spec (length b) (off + 4)); [lia|].
        assert (LK : forall A a z (h : nat -> A) u, z <= c -> look reads a z h u = Back (h u, S u)).
        { intros A a z h u Hz. unfold look. rewrite (proj2 (forallb_forall _ _)); [reflexivity|]. intros p I. apply in_seq in I. apply RD. lia. }
        unfold next_peek, t_slice. destruct (Nat.ltb_spec (off + 4) off); [lia|]. destruct (Nat.ltb_spec (length b) (off + 4)); [lia|]. cbn [orb]. unfold back at 1.
        rewrite LK by lia.
        assert (M : sees_marker W t off = false).
        { destruct (sees_marker W t off) eqn:M; [|reflexivity]. apply (steady_marker W b c ST t off ltac:(lia)) in M.
          apply (occ_occurs dlt_marker b off) in M; [|cbn; lia]. change (marker DLT) with dlt_marker in NO. rewrite NO in M by lia. discriminate. }
        rewrite M. unfold t_from at 1. destruct (Nat.ltb_spec (length b) off); [lia|]. unfold back at 1. unfold t_find. cbv zeta.
        assert (SF : sees_first W (S t) off = Some k).
        { apply (steady_found W b c ST); [lia|lia|exact OC|]. intros q Hq Oq. apply (occ_occurs dlt_marker b q) in Oq; [|cbn; lia].
          change (marker DLT) with dlt_marker in NO. rewrite NO in Oq by lia. discriminate. }
        rewrite SF. destruct (Nat.leb_spec off k); [|lia]. destruct (Nat.leb_spec (k + 4) (length b)); [|lia]. cbn [andb].
        rewrite LK by (pose proof (RE (S t) off); lia). destruct (Nat.eqb_spec (k - off) 0); [lia|]. replace (off + (k - off)) with k by lia. subst g. apply AT. }
      destruct NX as [t' N]. cbn [t_collect]. rewrite N. destruct (IH (k + storage_len v) f t' CH' H2 ltac:(lia)) as (more & e & R). rewrite R. exists more, e. reflexivity. }
  apply G; auto. lia.
Qed.
Print Assumptions C121_garbage.
(** ... and otherwise it need not: two bytes of garbage and a message remain, the second message is cut off. *)
Example C121_example : let b := [x00; x00] ++ m1 ++ m2 in let c := 2 + length m1 in
  let reads := fun (_ p : nat) => p <? c in let W := still b (fun _ _ => None) in
  t_dltit W (length b) reads (fun _ _ => 0) = ([(2, length m1)], Killed) /\
  t_dltit W (length b) reads (fun _ _ => length b) = ([], Killed) /\
  t_dltit (still (m1 ++ m2) (fun _ _ => None)) (length (m1 ++ m2)) (fun _ p => p <? length m1 + 20) (fun _ _ => length b) =
    ([(0, length m1); (length m1, length m2)], Back tt).
Proof. vm_compute. split; [|split]; reflexivity. Qed.

(** * C122: payloads are not read *)
(** Messages back to back are all delivered even if of each only the four bytes of the marker and the two of the length can be read (and
    whatever happens to the other bytes). *)
Theorem C122_sequential : forall W (b : bytes) l reads reach, dltit_offset b = Ret l -> back_to_back 0 (places l) ->
  length b <= list_sum (map (fun x => storage_len (snd x)) l) + 4 ->
  (forall t o v, In (o, v) l -> sees_marker W t o = true /\ sees_length W t (o + 16) = field_at b (o + 16)) ->
  (forall t o v p, In (o, v) l -> key_byte o p -> reads t p = true) ->
  t_dltit W (length b) reads reach = (places l, Back tt).
Proof.
  intros W b l reads reach E BB END KW KR. apply dltit_offset_chain in E. unfold t_dltit.
  assert (G : forall off l, dchain b off l -> forall fuel t, back_to_back off (places l) -> length b <= off + list_sum (map (fun x => storage_len (snd x)) l) + 4 ->
    (forall t o v, In (o, v) l -> sees_marker W t o = true /\ sees_length W t (o + 16) = field_at b (o + 16)) ->
    (forall t o v p, In (o, v) l -> key_byte o p -> reads t p = true) -> length b - off < fuel ->
    t_collect (t_fallback_next W (length b) reads reach (S (S (length b)))) fuel off t = (places l, Back tt)).
  { clear. assert (STOP : forall off fuel t, length b <= off + 0 + 4 -> length b - off < fuel ->
      t_collect (t_fallback_next W (length b) reads reach (S (S (length b)))) fuel off t = ([], Back tt)).
    { intros off fuel t H Hf. destruct fuel as [|f]; [lia|]. cbn [t_collect t_fallback_next]. destruct (Nat.leb_spec (length b) (off + 4)); [reflexivity|lia]. }
    induction 1 as [off _|off k _ _|off k len v l FM P CH IH]; intros fuel t BB END KW KR Hf; [now apply STOP|now apply STOP|].
    destruct (parse_place b k len v P) as (E1 & E2 & E3 & E4). pose proof (place_small b k len v P) as SM.
    cbn [places map fst snd back_to_back] in BB. destruct BB as [-> BB]. rewrite E1 in BB. cbn [map list_sum fold_right snd] in END. destruct fuel as [|f]; [lia|].
    destruct (fallback_here W (length b) reads reach off len ltac:(lia) ltac:(lia) ltac:(lia)) with (f := S (length b)) (t := t) as [t' N].
    - intros u. apply (KW u off v). now left.
    - intros u. rewrite (proj2 (KW u off v (or_introl eq_refl))). lia.
    - intros u p. apply (KR u off v). now left.
    - cbn [t_collect]. rewrite N. rewrite IH; [unfold places; cbn [map fst snd]; now rewrite E1|exact BB| |intros u o w I; apply (KW u o w); now right|intros u o w p I; apply (KR u o w); now right|lia].
      rewrite E1 in END. change (fold_right Nat.add 0 (map (fun x => storage_len (snd x)) l)) with (list_sum (map (fun x : nat * storage_entry => storage_len (snd x)) l)) in END. lia. }
  apply G; auto; lia.
Qed.
Print Assumptions C122_sequential.
(** In particular on a file that does not change. *)
Theorem C122_unchanged : forall (b : bytes) l F reads reach, dltit_offset b = Ret l -> back_to_back 0 (places l) ->
  length b <= list_sum (map (fun x => storage_len (snd x)) l) + 4 -> (forall t o v p, In (o, v) l -> key_byte o p -> reads t p = true) ->
  t_dltit (still b F) (length b) reads reach = (places l, Back tt).
Proof.
  intros b l F reads reach E BB END KR. apply C122_sequential; auto. intros t o v I. split; [|reflexivity].
  assert (X : forall off l, dchain b off l -> In (o, v) l -> occ dlt_marker b o = true).
  { induction 1 as [| |off k len w l' FM P CH IH]; intros J; [destruct J|destruct J|]. destruct J as [J|J]; [|now apply IH]. injection J as -> ->. apply FM. }
  cbn [still sees_marker]. rewrite occ_marker. apply (X 0 l); [now apply dltit_offset_chain|exact I].
Qed.
Print Assumptions C122_unchanged.
(** Accessors: [payload] and [extended_header] need the header type byte only, [timestamp] and [ecu_id] also the bytes of the fields. *)
Theorem C122_accessors : forall W reads v, (forall t, reads t (fst v + 16) = true) ->
  (forall t, t_payload W reads v t <> Killed /\ t_extended_header W reads v t <> Killed) /\
  ((forall t p, fst v + 20 <= p < fst v + 24 -> p < fst v + snd v -> reads t p = true) -> forall t, t_ecu_id W reads v t <> Killed) /\
  ((forall t p, fst v + 20 <= p < fst v + 32 -> p < fst v + snd v -> reads t p = true) -> forall t, t_timestamp W reads v t <> Killed).
Proof.
  intros W reads v H.
  assert (FL : forall m, lives (t_flag W reads v m)).
  { intros m. unfold t_flag. apply (lives_look reads (fun _ _ => 0)). intros t p Hp. replace p with (fst v + 16) by lia. apply H. }
  assert (TL : forall k, lives (t_tail_from v k)) by (intros k t; unfold t_tail_from; destruct (_ <? _); discriminate).
  assert (GT : forall k len, (forall t p, fst v + 20 + k <= p < fst v + 20 + k + len -> p < fst v + snd v -> reads t p = true) -> lives (t_get reads (m_place v k len))).
  { intros k len R t. unfold t_get, m_place. destruct (Nat.ltb_spec (m_tail v - k) len) as [L|L]; [discriminate|].
    destruct len as [|len]; [discriminate|]. rewrite (proj2 (forallb_forall _ _)); [discriminate|]. intros p I. apply in_seq in I. apply R; unfold m_tail in L; lia. }
  split; [|split].
  - intros t. split.
    + revert t. change (lives (t_payload W reads v)). unfold t_payload. do 4 (apply lives_bind; [apply FL|]; intros ?). cbv zeta.
      match goal with |- lives (if ?x then _ else _) => destruct x end.
      * apply lives_bind; [apply TL|]. intros _. match goal with |- context [m_place ?a ?b ?c] => destruct (m_place a b c) end; [|apply lives_back].
        match goal with |- lives (if ?x then _ else _) => destruct x end; apply lives_back.
      * match goal with |- lives (if ?x then _ else _) => destruct x end; apply lives_back.
    + revert t. change (lives (t_extended_header W reads v)). unfold t_extended_header. apply lives_bind; [apply FL|]. intros [|]; [|apply lives_back].
      do 3 (apply lives_bind; [apply FL|]; intros ?). cbv zeta. apply lives_bind; [apply TL|]. intros _. apply lives_back.
  - intros R. change (lives (t_ecu_id W reads v)). unfold t_ecu_id. apply lives_bind; [apply FL|]. intros [|]; [|apply lives_back].
    destruct (_ <? _); [intros t; discriminate|]. apply GT. intros t p Hp. apply R. lia.
  - intros R. change (lives (t_timestamp W reads v)). unfold t_timestamp. apply lives_bind; [apply FL|]. intros [|]; [|apply lives_back].
    do 2 (apply lives_bind; [apply FL|]; intros ?). cbv zeta. match goal with |- lives (if ?x then _ else _) => destruct x end; [apply lives_back|].
    apply lives_bind; [apply TL|]. intros _. apply GT. intros t p Hp. apply R. destruct a, a0; lia.
Qed.
Print Assumptions C122_accessors.
Definition only_keys (os : list nat) : nat -> nat -> bool := fun _ p => existsb (fun o => (o <=? p) && (p <? o + 4) || (o + 18 <=? p) && (p <? o + 20)) os.
Example C122_example : let b := m1 ++ m2 ++ m3 in exists l, dltit_offset b = Ret l /\ back_to_back 0 (places l) /\
  length b <= list_sum (map (fun x => storage_len (snd x)) l) + 4 /\
  t_dltit (still b (fun _ _ => None)) (length b) (only_keys (map fst l)) (fun _ _ => 0) = (places l, Back tt) /\
  t_dltit (still b (fun _ _ => None)) (length b) (fun t p => only_keys (map fst l) t p && negb (p =? length m1 + 19)) (fun _ _ => 0) = ([(0, length m1)], Killed).
Proof. eexists. split; [vm_compute; reflexivity|]. vm_compute. repeat split. repeat constructor. Qed.

(** What is not read does not matter: if two files have the same bytes wherever and whenever one of them can be read, and the iteration over the
    one is not killed, the iteration over the other delivers the same. *)
Theorem C122_depends : forall (mem mem' : nat -> bytes) F F' n reads reach,
  (forall t, length (mem t) = n /\ length (mem' t) = n) ->
  (forall t p, reads t p = true -> nth p (mem t) x00 = nth p (mem' t) x00) ->
  let W := history mem F in let W' := history mem' F' in forall off t,
  (snd (t_collect (t_fallback_next W n reads reach (S (S n))) (S n) off t) <> Killed ->
     t_collect (t_fallback_next W' n reads reach (S (S n))) (S n) off t = t_collect (t_fallback_next W n reads reach (S (S n))) (S n) off t) /\
  (snd (t_collect (t_readit_next W n reads) (S n) off t) <> Killed ->
     t_collect (t_readit_next W' n reads) (S n) off t = t_collect (t_readit_next W n reads) (S n) off t) /\
  (snd (t_collect (t_search_next W n reads reach (S n)) (S n) off t) <> Killed ->
     t_collect (t_search_next W' n reads reach (S n)) (S n) off t = t_collect (t_search_next W n reads reach (S n)) (S n) off t).
Proof.
  intros mem mem' F F' n reads reach L A W W' off t. split; [|split]; apply same_collect; intros s.
  - now apply same_fallback.
  - now apply same_readit.
  - now apply same_search_next.
Qed.
Print Assumptions C122_depends.
(** The same for the accessors, and for the values of the fields that were read. *)
Theorem C122_fields : forall (mem mem' : nat -> bytes) F F' n reads v t,
  (forall t, length (mem t) = n /\ length (mem' t) = n) ->
  (forall t p, reads t p = true -> nth p (mem t) x00 = nth p (mem' t) x00) ->
  let W := history mem F in let W' := history mem' F' in
  (t_ecu_id W reads v t <> Killed -> t_ecu_id W' reads v t = t_ecu_id W reads v t) /\
  (t_timestamp W reads v t <> Killed -> t_timestamp W' reads v t = t_timestamp W reads v t) /\
  (t_extended_header W reads v t <> Killed -> t_extended_header W' reads v t = t_extended_header W reads v t) /\
  (t_payload W reads v t <> Killed -> t_payload W' reads v t = t_payload W reads v t) /\
  (forall a k t', t_ecu_id W reads v t = Back (Some (a, k), t') \/ t_timestamp W reads v t = Back (Some (a, k), t') ->
     k = 4 /\ firstn k (skipn a (mem t')) = firstn k (skipn a (mem' t'))).
Proof.
  intros mem mem' F F' n reads v t L A W W'.
  assert (FL : forall m, same (t_flag W reads v m) (t_flag W' reads v m)) by (intros m; exact (same_flag mem mem' F F' n reads (fun _ _ => 0) L A v m)).
  split; [|split; [|split; [|split]]].
  - revert t. change (same (t_ecu_id W reads v) (t_ecu_id W' reads v)). unfold t_ecu_id. apply same_bind; [apply FL|]. intros; apply same_refl.
  - revert t. change (same (t_timestamp W reads v) (t_timestamp W' reads v)). unfold t_timestamp. apply same_bind; [apply FL|]. intros [|]; [|apply same_refl].
    do 2 (apply same_bind; [apply FL|]; intros ?). apply same_refl.
  - revert t. change (same (t_extended_header W reads v) (t_extended_header W' reads v)). unfold t_extended_header. apply same_bind; [apply FL|]. intros [|]; [|apply same_refl].
    do 3 (apply same_bind; [apply FL|]; intros ?). apply same_refl.
  - revert t. change (same (t_payload W reads v) (t_payload W' reads v)). unfold t_payload. do 4 (apply same_bind; [apply FL|]; intros ?). apply same_refl.
  - assert (G : forall o u a k t', t_get reads (m_place v o 4) u = Back (Some (a, k), t') -> k = 4 /\ firstn k (skipn a (mem t')) = firstn k (skipn a (mem' t'))).
    { intros o u a k t' E. split; [|exact (get_same mem mem' F F' n reads (fun _ _ => 0) L A _ u a k t' E)].
      unfold t_get, m_place in E. destruct (_ <? _); [discriminate E|]. destruct (forallb _ _); [|discriminate E]. now injection E. }
    intros a k t' [E|E].
    + unfold t_ecu_id, next_peek in E. destruct (t_flag W reads v 4 t) as [[[|] t1]| | |]; try discriminate E. destruct (m_tail v <? 4); [discriminate E|]. exact (G _ _ _ _ _ E).
    + unfold t_timestamp, next_peek in E. destruct (t_flag W reads v 16 t) as [[[|] t1]| | |]; try discriminate E.
      destruct (t_flag W reads v 4 t1) as [[e t2]| | |]; try discriminate E. destruct (t_flag W reads v 8 t2) as [[s t3]| | |]; try discriminate E.
      cbv zeta in E. destruct (m_tail v <? _); [discriminate E|]. unfold t_tail_from in E. destruct (m_tail v <? _); [discriminate E|]. cbn [back] in E. exact (G _ _ _ _ _ E).
Qed.
Print Assumptions C122_fields.
(** Two files that differ in every byte of every payload. *)
Example C122_depends_example : let b := m1 ++ m2 ++ m3 in
  let b' := map (fun pc => if only_keys [0; length m1; length m1 + length m2] 0 (fst pc) then snd pc else x55) (combine (seq 0 (length b)) b) in
  let reads := only_keys [0; length m1; length m1 + length m2] in
  length b' = length b /\ b' <> b /\ (forall t p, reads t p = true -> nth p b x00 = nth p b' x00) /\
  t_dltit (history (fun _ => b) (fun _ _ => None)) (length b) reads (fun _ _ => 0) = ([(0, length m1); (length m1, length m2); (length m1 + length m2, length m3)], Back tt).
Proof.
  intros b b' reads. split; [vm_compute; reflexivity|]. split; [vm_compute; discriminate|]. split; [|vm_compute; reflexivity].
  intros t p R. assert (H : forallb (fun p => implb (reads 0 p) (byte_eqb (nth p b x00) (nth p b' x00))) (seq 0 (length b)) = true) by (vm_compute; reflexivity).
  destruct (le_lt_dec (length b) p) as [B|B]; [rewrite !nth_overflow; [reflexivity|vm_compute in B |- *; exact B|exact B]|].
  rewrite forallb_forall in H. specialize (H p). rewrite in_seq in H. specialize (H ltac:(lia)). change (reads 0 p) with (reads t p) in H. rewrite R in H. cbn [implb] in H.
  destruct (byte_eqb_spec (nth p b x00) (nth p b' x00)) as [E|]; [exact E|discriminate H].
Qed.
