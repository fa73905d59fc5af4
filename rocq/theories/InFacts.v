(** Facts about InModel.v for C97-C99. *)
From Verif Require Import Base DltModel MatchModel GenModel ToolsModel MainModel DdModel DdOs InModel InSpec.

Lemma delivers_fun evs b b' : delivers evs b -> delivers evs b' -> b = b'.
Proof.
  intros H. revert b'. induction H; intros b' H'; inversion H'; subst; try congruence; auto.
  f_equal. auto.
Qed.
Lemma delivers_total evs : exists b, delivers evs b.
Proof.
  induction evs as [|e evs [b IH]]; [exists []; constructor|]. destruct e as [[|x d]| | |].
  - exists []. constructor.
  - exists ((x :: d) ++ b). constructor; [discriminate|exact IH].
  - exists b. now constructor.
  - exists []. constructor.
  - exists []. constructor.
Qed.

(** One call of read(2), through [f]. *)
Definition reads_well (n : nat) (evs : list event) (b : bytes) (a : answer_in) (s : list event) : Prop :=
  length s <= length evs /\
  match a with
  | Got [] => b = []
  | Got d => length d <= n /\ exists b', b = d ++ b' /\ delivers s b'
  | Retry => delivers s b /\ length s < length evs
  | Failed => b = []
  end.
Lemma read_delivered n d evs b : 0 < n -> d <> [] -> delivers evs b ->
  reads_well n (Delivers d :: evs) (d ++ b) (Got (firstn n d)) (match skipn n d with [] => evs | d' => Delivers d' :: evs end).
Proof.
  intros Hn Hd H. split; [destruct (skipn n d); cbn [length]; lia|].
  destruct (firstn n d) as [|x f] eqn:F; [destruct n; [lia|]; destruct d; [congruence|discriminate]|]. rewrite <- F.
  split; [rewrite firstn_length; lia|]. exists (skipn n d ++ b). split; [now rewrite app_assoc, firstn_skipn|].
  destruct (skipn n d) as [|y s]; [exact H|]. constructor; [discriminate|exact H].
Qed.
Lemma os_read_ok n evs b : 0 < n -> delivers evs b -> let '(a, s) := os_read n evs in reads_well n evs b a s.
Proof.
  intros Hn H. destruct H as [|evs|evs|evs|evs b H|d evs b Hd H]; cbn [os_read].
  - split; [lia|reflexivity].
  - rewrite firstn_nil, skipn_nil. split; [cbn [length]; lia|reflexivity].
  - split; [cbn [length]; lia|reflexivity].
  - split; [cbn [length]; lia|reflexivity].
  - split; [cbn [length]; lia|]. split; [exact H|cbn [length]; lia].
  - now apply read_delivered.
Qed.
Lemma stdin_raw_read_ok n evs b : 0 < n -> delivers evs b -> let '(a, s) := stdin_raw_read n evs in reads_well n evs b a s.
Proof.
  intros Hn H. pose proof (os_read_ok n evs b Hn H) as R. destruct evs as [|[d| | |] evs]; exact R.
Qed.

(** What is still to come from a reader. *)
Definition holds (r : reader) (b : bytes) : Prop := exists b', b = unread r ++ b' /\ delivers (source r) b'.
Definition buf_reads (n : nat) (r : reader) (b : bytes) (a : answer_in) (r' : reader) : Prop :=
  length (source r') <= length (source r) /\
  match a with
  | Got [] => b = []
  | Got d => length d <= n /\ exists b', b = d ++ b' /\ holds r' b'
  | Retry => holds r' b /\ length (source r') < length (source r)
  | Failed => b = []
  end.
Lemma in_capacity_pos : 0 < in_capacity. Proof. unfold in_capacity. lia. Qed.
Lemma take_some n (d : bytes) (s : list event) (r : reader) b' : 0 < n -> d <> [] -> length s <= length (source r) -> delivers s b' ->
  buf_reads n r (d ++ b') (Got (firstn n d)) {| unread := skipn n d; source := s |}.
Proof.
  intros Hn Hd L H. split; [exact L|]. destruct (firstn n d) as [|y f] eqn:F; [destruct n; [lia|]; destruct d; [congruence|discriminate]|].
  rewrite <- F. split; [rewrite firstn_length; lia|]. exists (skipn n d ++ b'). split; [now rewrite app_assoc, firstn_skipn|].
  exists b'. split; [reflexivity|exact H].
Qed.
Lemma buf_read_ok n r b : 0 < n -> holds r b -> let '(a, r') := buf_read n r in buf_reads n r b a r'.
Proof.
  intros Hn (b' & -> & H). unfold buf_read. destruct (unread r) as [|x u] eqn:U.
  - cbn [app]. destruct (in_capacity <=? n).
    + pose proof (stdin_raw_read_ok n _ _ Hn H) as R. destruct (stdin_raw_read n (source r)) as [a s]. destruct R as [L R].
      split; [exact L|]. destruct a as [[|y d]| |]; auto.
      * destruct R as [R1 (b2 & R2 & R3)]. split; [exact R1|]. exists b2. split; [exact R2|]. exists b2. now split.
      * destruct R as [R1 R2]. split; [|exact R2]. exists b'. now split.
    + pose proof (stdin_raw_read_ok in_capacity _ _ in_capacity_pos H) as R. destruct (stdin_raw_read in_capacity (source r)) as [a s]. destruct R as [L R].
      destruct a as [[|y d]| |].
      * rewrite firstn_nil, skipn_nil. now split.
      * destruct R as [R1 (b2 & R2 & R3)]. rewrite R2. apply take_some; try assumption. discriminate.
      * destruct R as [R1 R2]. split; [exact L|]. split; [|exact R2]. exists b'. now split.
      * now split.
  - apply take_some; try assumption; [discriminate|reflexivity].
Qed.

Lemma rounds_ok rounds : forall n r b got, n + length (source r) <= rounds -> holds r b ->
  exists r', if length b <? n then read_exact_rounds rounds n r got = Ret (None, r')
    else read_exact_rounds rounds n r got = Ret (Some (got ++ firstn n b), r') /\ holds r' (skipn n b).
Proof.
  induction rounds as [|k IH]; intros n r b got Hr H.
  - assert (n = 0) as -> by lia. cbn [Nat.ltb Nat.leb]. exists r. destruct (Nat.ltb_spec (length b) 0); [lia|]. cbn [read_exact_rounds firstn skipn]. rewrite app_nil_r. now split.
  - destruct n as [|n]; [exists r; destruct (Nat.ltb_spec (length b) 0); [lia|]; cbn [read_exact_rounds firstn skipn]; rewrite app_nil_r; now split|].
    cbn [read_exact_rounds]. pose proof (buf_read_ok (S n) r b (Nat.lt_0_succ _) H) as R. destruct (buf_read (S n) r) as [a r1]. destruct R as [L R].
    destruct a as [[|y d]| |].
    + subst b. exists r1. now cbn [length Nat.ltb Nat.leb].
    + destruct R as [R1 (b' & -> & R3)]. set (dd := y :: d) in *. assert (1 <= length dd) by (subst dd; cbn [length]; lia).
      destruct (IH (S n - length dd) r1 b' (got ++ dd) ltac:(lia) R3) as (r2 & Q). exists r2. rewrite app_length.
      destruct (Nat.ltb_spec (length dd + length b') (S n)) as [Q1|Q1]; destruct (Nat.ltb_spec (length b') (S n - length dd)) as [Q2|Q2]; try lia.
      * exact Q.
      * destruct Q as [Q Q']. split.
        { rewrite Q. rewrite (firstn_app (S n)), (firstn_all2 (n := S n) dd) by lia. now rewrite app_assoc. }
        { rewrite skipn_app, (skipn_all2 dd) by lia. exact Q'. }
    + destruct R as [R1 R2]. exact (IH (S n) r1 b got ltac:(lia) R1).
    + subst b. exists r1. now cbn [length Nat.ltb Nat.leb].
Qed.
Lemma read_exact_ok n r b : holds r b ->
  exists r', if length b <? n then read_exact n r = Ret (None, r')
    else read_exact n r = Ret (Some (firstn n b), r') /\ holds r' (skipn n b).
Proof.
  intros H. unfold read_exact. destruct (Nat.leb_spec n (length (unread r))) as [L|L].
  - destruct H as (b' & -> & H). eexists. rewrite app_length. destruct (Nat.ltb_spec (length (unread r) + length b') n); [lia|].
    rewrite firstn_app, skipn_app. replace (n - length (unread r)) with 0 by lia. cbn [firstn skipn]. rewrite app_nil_r. split; [reflexivity|].
    exists b'. split; [reflexivity|exact H].
  - destruct (rounds_ok (n + length (source r)) n r b [] (le_n _) H) as (r' & Q). exists r'. exact Q.
Qed.

Lemma in_loop_os v o A m ecuid appid psize : forall fuel count r b w, holds r b ->
  in_loop v fuel o A m ecuid appid psize count r w = os_loop v fuel o A m ecuid appid psize count b w.
Proof.
  induction fuel as [|fuel IH]; intros count r b w H; [reflexivity|]. cbn [in_loop os_loop].
  destruct (read_exact_ok (N.to_nat psize) r b H) as (r' & Q). destruct (Nat.ltb_spec (length b) (N.to_nat psize)) as [L|L].
  - now rewrite Q.
  - destruct Q as [-> Q]. destruct (os_message v o A m ecuid appid psize count (firstn (N.to_nat psize) b) w) as [w' [c|e]]; [|reflexivity]. now apply IH.
Qed.
Lemma dd_in_os v fuel o A m args evs b : delivers evs b -> dd_dlt_in v fuel o A m args evs = dd_dlt_os v fuel o A m args b.
Proof.
  intros H. unfold dd_dlt_in, dd_dlt_os. destruct args as [|e [|a [|size more]]]; try reflexivity. destruct (parse_u16 size); [|reflexivity].
  apply in_loop_os. exists b. now split.
Qed.

(** [read_to_end] *)
Lemma volume_read n evs : 0 < n -> let '(a, s) := os_read n evs in match a with Got [] => True | Got _ | Retry => volume s < volume evs | Failed => True end.
Proof.
  intros Hn. destruct evs as [|[d| | |] evs]; cbn [os_read]; auto.
  destruct (firstn n d) as [|x f] eqn:F; [exact I|]. cbn [volume]. pose proof (skipn_length n d) as S. destruct (skipn n d) as [|y s] eqn:E; [lia|].
  cbn [volume]. rewrite S. destruct d; [rewrite firstn_nil in F; discriminate|]. cbn [length]. lia.
Qed.
Fixpoint read_fails (evs : list event) : bool :=
  match evs with
  | [] => false
  | Delivers [] :: _ => false
  | Delivers _ :: r => read_fails r
  | Interrupted :: r => read_fails r
  | _ => true
  end.
Lemma fails_read n evs : 0 < n -> let '(a, s) := os_read n evs in
  match a with Got [] => read_fails evs = false | Got _ | Retry => read_fails s = read_fails evs | Failed => read_fails evs = true end.
Proof.
  intros Hn. destruct evs as [|[d| | |] evs]; cbn [os_read read_fails]; auto.
  destruct n as [|n]; [lia|]. destruct d as [|x d]; [reflexivity|]. cbn [firstn skipn]. destruct (skipn n d); reflexivity.
Qed.
Lemma read_to_end_ok sizes : (forall i, 0 < sizes i) -> forall rounds i evs b buf, volume evs < rounds -> delivers evs b ->
  read_to_end rounds sizes i evs buf = Ret (buf ++ b, negb (read_fails evs)).
Proof.
  intros HS. induction rounds as [|k IH]; intros i evs b buf Hv H; [lia|]. cbn [read_to_end].
  pose proof (os_read_ok (sizes i) evs b (HS i) H) as R. pose proof (volume_read (sizes i) evs (HS i)) as V. pose proof (fails_read (sizes i) evs (HS i)) as Fr.
  destruct (os_read (sizes i) evs) as [a s]. destruct R as [_ R]. destruct a as [[|y d]| |]; cbv beta iota in V, Fr, R.
  - subst b. rewrite app_nil_r, Fr. reflexivity.
  - destruct R as [_ (b' & -> & R)]. rewrite (IH (S i) s b' (buf ++ (y :: d)) ltac:(lia) R), Fr, app_assoc. reflexivity.
  - destruct R as [R _]. rewrite (IH (S i) s b buf ltac:(lia) R), Fr. reflexivity.
  - subst b. rewrite app_nil_r, Fr. reflexivity.
Qed.

(** The counter at the end. *)
Lemma os_message_count v o A m ecuid appid psize count buf w w' c : os_message v o A m ecuid appid psize count buf w = (w', inl c) ->
  checked m u32_mod (count + 1) = Ret c.
Proof.
  unfold os_message. intros H.
  repeat match type of H with
  | (match ?x with _ => _ end) = _ => let E := fresh "E" in destruct x eqn:E; try discriminate H
  end.
  injection H as _ <-. reflexivity.
Qed.
Lemma os_message_end v o A m ecuid appid psize count buf w w' n : os_message v o A m ecuid appid psize count buf w <> (w', inr (OsDone n)).
Proof.
  unfold os_message. intros H.
  repeat match type of H with
  | (match ?x with _ => _ end) = _ => let E := fresh "E" in destruct x eqn:E; try discriminate H
  end.
Qed.
Lemma os_loop_count v o A m ecuid appid psize : forall fuel count b w out n, (count < u32_mod)%N ->
  os_loop v fuel o A m ecuid appid psize count b w = Ret (out, OsDone n) ->
  (0 < psize)%N /\ n = ((count + N.of_nat (length b) / psize) mod u32_mod)%N /\
  (m = Debug -> (count + N.of_nat (length b) / psize < u32_mod)%N).
Proof.
  induction fuel as [|fuel IH]; intros count b w out n Hc H; [discriminate|]. cbn [os_loop] in H.
  destruct (Nat.ltb_spec (length b) (N.to_nat psize)) as [L|L].
  - injection H as _ <-. split; [lia|]. rewrite N.div_small by lia. rewrite N.add_0_r, N.mod_small by exact Hc. split; [reflexivity|]. intros _. exact Hc.
  - destruct (os_message v o A m ecuid appid psize count (firstn (N.to_nat psize) b) w) as [w' [c|e]] eqn:E.
    + pose proof (os_message_count _ _ _ _ _ _ _ _ _ _ _ _ E) as C.
      assert (Q : c = ((count + 1) mod u32_mod)%N /\ (c < u32_mod)%N /\ (m = Debug -> c = count + 1)%N).
      { unfold checked in C. destruct (N.ltb_spec (count + 1) u32_mod) as [Q|Q].
        - injection C as <-. split; [now rewrite N.mod_small|]. split; [exact Q|reflexivity].
        - destruct m; [discriminate|]. injection C as <-. split; [reflexivity|]. split; [apply N.mod_lt; discriminate|discriminate]. }
      destruct Q as (Q1 & Q2 & Q3). destruct (IH c _ _ _ _ Q2 H) as (P & R & D). split; [exact P|]. rewrite skipn_length in R, D.
      replace (N.of_nat (length b)) with (1 * psize + N.of_nat (length b - N.to_nat psize))%N by lia. rewrite N.div_add_l by lia. split.
      * rewrite R, Q1. rewrite N.add_mod_idemp_l by discriminate. f_equal. lia.
      * intros M. specialize (D M). rewrite (Q3 M) in D. lia.
    + injection H as _ ->. now apply os_message_end in E.
Qed.
