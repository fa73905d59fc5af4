(** Property theorems C46-C48, C55-C58: dd_dlt. *)
From Coq Require Import String.
From Verif Require Import Base DltModel MatchModel GenModel ToolsModel DdModel MainModel Spec Samples BaseFacts DltFacts CodecFacts ParseFacts
  FindFacts IterFacts DltIterFacts GrepTools ContainFacts PartitionFacts GenFacts MapFacts ToolFacts TotalFacts DdFacts TreeFacts CommandFacts P_Tools.
From Coq Require Import ZifyBool ZifyNat ZifyN.
Ltac Zify.zify_post_hook ::= Z.div_mod_to_equations.

(** The size argument [size] is a decimal numeral for [psize]. *)
Definition says (size : bytes) (psize : N) : Prop :=
  exists ds, ds <> [] /\ Forall (fun d => (d < 10)%N) ds /\ size = numeral ds /\ decimal ds = psize.

(** The arithmetic of [n] messages does not overflow ([count] and [count * 100] are 32 bit; a
    release build wraps [count * 100], a debug build crashes). *)
Definition in_budget (mode : build_mode) (n : nat) : Prop :=
  match mode with Release => (N.of_nat n < 2 ^ 32)%N | Debug => (N.of_nat n <= 42949673)%N end.

Lemma run_spec v A mode e a psize size more chunks rest fuel len : says size psize -> (psize < 65536)%N ->
  checked mode u16_mod (4 + 10 + 4 + psize) = Ret len ->
  (N.of_nat (length rest) < psize)%N -> Forall (fun c => N.of_nat (length c) = psize) chunks ->
  in_budget mode (length chunks) -> length chunks < fuel ->
  dd_dlt v fuel A mode (quad_bytes e :: quad_bytes a :: size :: more) (concat chunks ++ rest) =
    Ret (concat (wires v A e a len 0 chunks), DdDone (N.of_nat (length chunks))).
Proof.
  intros (ds & H1 & H2 & H3 & H4) Hp CL LR F B Hf. unfold dd_dlt.
  assert (P : parse_u16 size = Some psize).
  { apply parse_u16_exact. exists ds. split; [exact H1|]. split; [exact H2|]. split; [now left|]. split; [exact H4|exact Hp]. }
  rewrite P. rewrite (dd_loop_spec v A mode e a psize len rest CL LR chunks 0 lw_new fuel).
  - cbn [lw_new at_exit sent pending app]. reflexivity.
  - unfold lw_ok. cbn. lia.
  - exact F.
  - unfold in_budget, u32_mod in *. destruct mode; [right; lia|now left].
  - unfold in_budget, u32_mod in *. destruct mode; lia.
  - exact Hf.
Qed.
Lemma wires_valid v A e a psize chunks : (psize <= 65517)%N -> Forall (fun c => N.of_nat (length c) = psize) chunks -> Forall line_fits chunks ->
  forall count, Forall valid_message (wires v A e a (18 + psize) count chunks) /\
    Forall (fun m => length m = 34 + N.to_nat psize) (wires v A e a (18 + psize) count chunks).
Proof.
  intros Hp. induction 1 as [|c cs L F IH]; intros FL count; cbn [wires]; [split; constructor|].
  inversion FL as [|x y FL1 FL2]; subst x y. destruct (IH FL2 (count + 1)%N) as [V1 V2]. rewrite (accepted_fits v c FL1). split.
  - constructor; [|exact V1]. apply wire_valid; unfold u16_mod; lia.
  - constructor; [|exact V2]. rewrite wire_len. lia.
Qed.
Lemma checked_len mode psize : (psize <= 65517)%N -> checked mode u16_mod (4 + 10 + 4 + psize) = Ret (18 + psize)%N.
Proof. intros H. rewrite checked_ok by (right; unfold u16_mod; lia). destruct (N.ltb_spec (4 + 10 + 4 + psize) u16_mod); [f_equal; lia|unfold u16_mod in *; lia]. Qed.

(** C46: if no chunk has a last line feed followed by 1024 or more bytes (so for every payload size
    up to 1024), the output reads back as one message per chunk. *)
Theorem C46_reads_back_partial : forall v A mode (e a : quad) psize size more chunks rest fuel,
  says size psize -> (1 <= psize <= 65517)%N ->
  Forall (fun c => N.of_nat (length c) = psize) chunks -> (N.of_nat (length rest) < psize)%N ->
  Forall line_fits chunks -> in_budget mode (length chunks) -> length chunks < fuel ->
  exists out l,
    dd_dlt v fuel A mode (quad_bytes e :: quad_bytes a :: size :: more) (concat chunks ++ rest) =
      Ret (out, DdDone (N.of_nat (length chunks))) /\
    dltit_offset out = Ret l /\ length l = length chunks /\
    forall i c, nth_error chunks i = Some c ->
      exists x, nth_error l i = Some (i * (34 + N.to_nat psize), x) /\
        payload (dlt x) = Ret (Some c) /\
        ecu (sheader x) = e /\
        (exists h, extended_header (dlt x) = Ret (Some h) /\ apid h = a /\ ctid h = a) /\
        secs (sheader x) = (N.of_nat i / 100)%N /\
        msecs (sheader x) = (Z.of_nat i mod 100 * 10000)%Z /\
        timestamp (dlt x) = Ret (Some (100 * N.of_nat i mod 2 ^ 32)%N) /\
        Strings.Byte.to_N (message_counter (header (dlt x))) = (N.of_nat i mod 256)%N.
Proof.
  intros v A mode e a psize size more chunks rest fuel SZ Hp F LR FL B Hf.
  pose proof (checked_len mode psize ltac:(lia)) as CL.
  rewrite (run_spec v A mode e a psize size more chunks rest fuel _ SZ ltac:(lia) CL LR F B Hf).
  destruct (wires_valid v A e a psize chunks ltac:(lia) F FL 0) as [V L]. set (ms := wires v A e a (18 + psize) 0 chunks) in *.
  exists (concat ms), (entries (with_offsets (@length byte) 0 ms)).
  assert (LM : length ms = length chunks) by apply wires_length.
  split; [reflexivity|]. split.
  { rewrite <- layout_bare, <- placed_bare. apply dltit_offset_chain.
    pose proof (layout_chain_cut (bare ms) [] (length (layout (bare ms) [])) [] (bare_ok ms V) not_in_nil) as C.
    rewrite firstn_all in C. cbn [app length Nat.add] in C. rewrite filter_all in C; [exact C|].
    eapply Forall_impl; [|apply (placed_bound (bare ms) 0 [])]. cbn. intros p Hpb. now apply Nat.leb_le. }
  split.
  { unfold entries. rewrite map_length. rewrite <- placed_bare, placed_len. unfold bare. now rewrite map_length. }
  intros i c Hi. pose proof (wires_nth v A e a (18 + psize) chunks 0 i c Hi) as W. fold ms in W.
  pose proof (with_offsets_nth ms (34 + N.to_nat psize) L 0 i _ W) as O.
  assert (IL : i < length chunks) by (apply nth_error_Some; congruence).
  assert (Hi32 : (N.of_nat i < u32_mod)%N) by (unfold in_budget, u32_mod in *; destruct mode; lia).
  rewrite N.add_0_l in *.
  assert (FLc : accepted v c = c).
  { apply accepted_fits. rewrite Forall_forall in FL. apply FL. now apply nth_error_In in Hi. }
  rewrite FLc in *.
  destruct (wire_entry A e a (18 + psize) (N.of_nat i) c ltac:(unfold u16_mod; lia) Hi32) as (E1 & E2 & E3 & E4 & _ & E6 & E7 & E8).
  exists (entry_of (wire A e a (18 + psize) (N.of_nat i) c)). split.
  { unfold entries. apply (map_nth_error (fun p : nat * bytes => (fst p, entry_of (snd p))) i _ O). }
  split; [exact E8|]. split; [exact E1|]. split; [eexists; split; [exact E7|split; reflexivity]|].
  split; [exact E2|]. split; [rewrite E3; lia|]. split; [rewrite E6; now rewrite N.mul_comm|].
  rewrite E4. fold (bN (u8 (N.of_nat i))). apply bN_u8.
Qed.
Print Assumptions C46_reads_back_partial.

Definition ten : bytes := [x31; x30].  (* "10" *)
Definition addrs : ctor_addrs := {| addr_log := x10; addr_app := x20; addr_nw := x30; addr_ctl := x40 |}.
(** Ten bytes per message; the input is itself DLT. *)
Example C46_example : exists out l,
  says ten 10 /\ dd_dlt TakesSome 20 addrs Debug [quad_bytes quad_ECU1; quad_bytes quad_ECU1; ten] (m1 ++ m2) = Ret (out, DdDone 6) /\
  dltit_offset out = Ret l /\ map fst l = [0; 44; 88; 132; 176; 220] /\
  map (fun x => payload (dlt (snd x))) l = map (fun k => Ret (Some (firstn 10 (skipn (10 * k) (m1 ++ m2))))) (seq 0 6).
Proof.
  do 2 eexists. split; [exists [1%N; 0%N]; split; [discriminate|]; split; [repeat constructor|]; split; reflexivity|].
  split; [vm_compute; reflexivity|]. split; [vm_compute; reflexivity|]. split; vm_compute; reflexivity.
Qed.

(** C46 in general: bytes are lost, because the results of [write] are dropped and standard
    output takes at most 1024 bytes behind the last line feed of a [write] (newer versions: none at
    all if there are that many).  Three chunks of 2000 bytes: the first message swallows the
    beginning of the second one, or all of the output. *)
Definition lossy : bytes := [x0a] ++ repeat x00 1999.
Definition two_thousand : bytes := [x32; x30; x30; x30].
Theorem C46_refuted : forall v, exists out l, says two_thousand 2000 /\
  dd_dlt v 10 addrs Debug [quad_bytes quad_ECU1; quad_bytes quad_ECU1; two_thousand] (lossy ++ lossy ++ lossy) = Ret (out, DdDone 3) /\
  length out = match v with TakesSome => 3 * (34 + 1025) | TakesNone => 3 * (34 + 1) end /\
  dltit_offset out = Ret l /\ length l = match v with TakesSome => 1 | TakesNone => 0 end /\
  Forall (fun x => payload (dlt (snd x)) <> Ret (Some lossy)) l.
Proof.
  intros v.
  set (r := dd_dlt v 10 addrs Debug [quad_bytes quad_ECU1; quad_bytes quad_ECU1; two_thousand] (lossy ++ lossy ++ lossy)).
  assert (C : match r with
    | Ret (out, DdDone n) => (n =? 3)%N && (length out =? match v with TakesSome => 3 * (34 + 1025) | TakesNone => 3 * (34 + 1) end) &&
        match v, dltit_offset out with
        | TakesSome, Ret [(_, x)] => match payload (dlt x) with Ret (Some p) => negb (bytes_eqb p lossy) | _ => false end
        | TakesNone, Ret [] => true
        | _, _ => false
        end
    | _ => false end = true) by (destruct v; vm_compute; reflexivity).
  clearbody r. destruct r as [[out [n|]]| |]; try discriminate C.
  apply andb_prop in C. destruct C as [C C3]. apply andb_prop in C. destruct C as [C1 C2].
  apply N.eqb_eq in C1. apply Nat.eqb_eq in C2. subst n.
  assert (SZ : says two_thousand 2000) by (exists [2%N; 0%N; 0%N; 0%N]; split; [discriminate|]; split; [repeat constructor|]; split; reflexivity).
  destruct v; destruct (dltit_offset out) as [[|[k x] [|]]| |] eqn:D; try discriminate C3.
  - exists out, [(k, x)]. split; [exact SZ|].
    split; [reflexivity|]. split; [exact C2|]. split; [exact D|]. split; [reflexivity|]. constructor; [|constructor].
    cbn [snd]. intros Q. rewrite Q in C3. destruct (bytes_eqb_spec lossy lossy) as [_|N]; [discriminate|]. now apply N.
  - exists out, []. split; [exact SZ|]. split; [reflexivity|]. split; [exact C2|]. split; [exact D|]. split; [reflexivity|]. constructor.
Qed.
Print Assumptions C46_refuted.

(** C47: for every positive payload size, whatever the ids and the build; every pass of the loop
    takes [psize] bytes of the input. *)
Lemma dd_loop_total v A mode ecuid appid psize : (1 <= psize)%N -> forall k stdin count w, length stdin < k ->
  exists r, forall fuel, length stdin < fuel -> dd_loop v fuel A mode ecuid appid psize count stdin w = Ret r.
Proof.
  intros Hp. induction k as [|k IH]; intros stdin count w L; [lia|].
  destruct (Nat.ltb_spec (length stdin) (N.to_nat psize)) as [Q|Q].
  - exists (at_exit w, DdDone count). intros [|fuel] Hf; [lia|]. cbn [dd_loop]. destruct (Nat.ltb_spec (length stdin) (N.to_nat psize)); [reflexivity|lia].
  - destruct (dd_message v A mode ecuid appid psize count (firstn (N.to_nat psize) stdin) w) as [w' [count'|]] eqn:M.
    + destruct (IH (skipn (N.to_nat psize) stdin) count' w') as [r R]; [rewrite skipn_length; lia|].
      exists r. intros [|fuel] Hf; [lia|]. cbn [dd_loop]. destruct (Nat.ltb_spec (length stdin) (N.to_nat psize)); [lia|].
      rewrite M. apply R. rewrite skipn_length. lia.
    + exists (at_exit w', DdPanic). intros [|fuel] Hf; [lia|]. cbn [dd_loop]. destruct (Nat.ltb_spec (length stdin) (N.to_nat psize)); [lia|].
      now rewrite M.
Qed.
Theorem C47_terminates_partial : forall v A mode args stdin,
  (forall ds, nth_error args 2 = Some (numeral ds) \/ nth_error args 2 = Some (x2b :: numeral ds) ->
     Forall (fun d => (d < 10)%N) ds -> ds <> [] -> decimal ds <> 0%N) ->
  exists r, forall fuel, length stdin < fuel -> dd_dlt v fuel A mode args stdin = Ret r.
Proof.
  intros v A mode args stdin H. unfold dd_dlt.
  destruct args as [|e [|a [|size more]]]; try (exists ([], DdDone 0); reflexivity).
  destruct (parse_u16 size) as [psize|] eqn:P; [|exists ([], DdPanic); reflexivity].
  apply (dd_loop_total v A mode e a psize) with (k := S (length stdin)); [|lia].
  apply parse_u16_exact in P. destruct P as (ds & NE & F & E & D & _). cbn [nth_error] in H.
  specialize (H ds). rewrite D in H. enough (psize <> 0%N) by lia. apply H; [|exact F|exact NE]. destruct E as [->| ->]; auto.
Qed.
Print Assumptions C47_terminates_partial.

Lemma release_message v A e a psize count buf w : exists w' count',
  dd_message v A Release (quad_bytes e) (quad_bytes a) psize count buf w = (w', Some count').
Proof.
  unfold dd_message. rewrite !quad_ok. cbn [obind]. unfold checked.
  destruct (4 + 10 + 4 + psize <? u16_mod)%N, (count * 100 <? u32_mod)%N, (count + 1 <? u32_mod)%N; cbn [obind]; do 2 eexists; reflexivity.
Qed.
(** With payload size 0 a release build writes messages for ever. *)
Theorem C47_refuted : says [x30] 0 /\ forall v A (e a : quad) stdin fuel,
  dd_dlt v fuel A Release [quad_bytes e; quad_bytes a; [x30]] stdin = Fuel.
Proof.
  split; [exists [0%N]; split; [discriminate|]; split; [repeat constructor|]; split; reflexivity|].
  intros v A e a stdin fuel. unfold dd_dlt. change (parse_u16 [x30]) with (Some 0%N). cbv iota beta.
  generalize 0%N at 2 as count. generalize lw_new as w. revert stdin.
  induction fuel as [|fuel IH]; intros stdin w count; [reflexivity|]. cbn [dd_loop]. change (N.to_nat 0) with 0.
  destruct (Nat.ltb_spec (length stdin) 0); [lia|].
  destruct (release_message v A e a 0 count (firstn 0 stdin) w) as (w' & count' & ->). apply IH.
Qed.
Print Assumptions C47_refuted.
Example C47_example : exists r, dd_dlt TakesSome 7 addrs Debug [[x41]; [x42]; ten] (repeat x00 5) = Ret r /\ r = ([], DdDone 0).
Proof. eexists. split; vm_compute; reflexivity. Qed.

(** C48: the length field, for payload sizes up to 65517 ... *)
Theorem C48_length_partial : forall v A mode (e a : quad) psize size more chunks rest fuel,
  says size psize -> (1 <= psize <= 65517)%N ->
  Forall (fun c => N.of_nat (length c) = psize) chunks -> (N.of_nat (length rest) < psize)%N ->
  Forall line_fits chunks -> in_budget mode (length chunks) -> length chunks < fuel ->
  exists ms, dd_dlt v fuel A mode (quad_bytes e :: quad_bytes a :: size :: more) (concat chunks ++ rest) =
      Ret (concat ms, DdDone (N.of_nat (length chunks))) /\
    length ms = length chunks /\
    Forall (fun m => firstn 4 m = the_pattern /\ length m = 34 + N.to_nat psize /\ u16_at m 18 = N.of_nat (length m - 16)) ms.
Proof.
  intros v A mode e a psize size more chunks rest fuel SZ Hp F LR FL B Hf.
  pose proof (checked_len mode psize ltac:(lia)) as CL.
  rewrite (run_spec v A mode e a psize size more chunks rest fuel _ SZ ltac:(lia) CL LR F B Hf).
  destruct (wires_valid v A e a psize chunks ltac:(lia) F FL 0) as [V L]. eexists. split; [reflexivity|].
  split; [apply wires_length|]. rewrite Forall_forall in *. intros m I. destruct (V m I) as (V1 & _ & V3).
  split; [exact V1|]. split; [now apply L|exact V3].
Qed.
Print Assumptions C48_length_partial.

(** ... while for larger ones a debug build crashes before it writes anything, and in a release
    build the length field is 65536 too small, in every message. *)
Theorem C48_refuted : forall v A (e a : quad) psize size more chunks rest fuel,
  says size psize -> (65517 < psize < 65536)%N ->
  Forall (fun c => N.of_nat (length c) = psize) chunks -> (N.of_nat (length rest) < psize)%N ->
  Forall line_fits chunks -> in_budget Release (length chunks) -> length chunks < fuel ->
  (chunks <> [] ->
   dd_dlt v fuel A Debug (quad_bytes e :: quad_bytes a :: size :: more) (concat chunks ++ rest) = Ret ([], DdPanic)) /\
  exists ms, dd_dlt v fuel A Release (quad_bytes e :: quad_bytes a :: size :: more) (concat chunks ++ rest) =
      Ret (concat ms, DdDone (N.of_nat (length chunks))) /\
    length ms = length chunks /\
    Forall (fun m => firstn 4 m = the_pattern /\ length m = 34 + N.to_nat psize /\
                     (u16_at m 18 + 65536 = N.of_nat (length m - 16))%N) ms.
Proof.
  intros v A e a psize size more chunks rest fuel SZ Hp F LR FL B Hf. split.
  - intros NE. destruct SZ as (ds & H1 & H2 & H3 & H4). unfold dd_dlt.
    rewrite (proj2 (parse_u16_exact size psize)) by (exists ds; repeat split; auto; lia).
    destruct chunks as [|c cs]; [congruence|]. inversion F as [|x y F1 _]; subst x y. destruct fuel as [|fuel]; [lia|]. cbn [dd_loop concat].
    destruct (Nat.ltb_spec (length ((c ++ concat cs) ++ rest)) (N.to_nat psize)) as [Q|_]; [rewrite !app_length in Q; lia|].
    unfold dd_message. rewrite !quad_ok. cbn [obind]. unfold checked at 1.
    destruct (N.ltb_spec (4 + 10 + 4 + psize) u16_mod) as [Q|_]; [unfold u16_mod in Q; lia|]. cbn [obind]. reflexivity.
  - assert (CL : checked Release u16_mod (4 + 10 + 4 + psize) = Ret (18 + psize - 65536)%N).
    { rewrite checked_ok by now left. destruct (N.ltb_spec (4 + 10 + 4 + psize) u16_mod) as [Q|_]; [unfold u16_mod in Q; lia|].
      f_equal. unfold u16_mod. lia. }
    rewrite (run_spec v A Release e a psize size more chunks rest fuel _ SZ ltac:(lia) CL LR F B Hf). eexists. split; [reflexivity|].
    split; [apply wires_length|]. clear - F FL Hp. generalize 0%N. revert FL.
    induction F as [|c cs L F IH]; intros FL count; cbn [wires]; [constructor|]. inversion FL as [|x y FL1 FL2]; subst x y.
    constructor; [|now apply IH]. rewrite (accepted_fits v c FL1), wire_len.
    rewrite wire_u16 by (unfold u16_mod; lia). split; [reflexivity|]. split; [lia|lia].
Qed.
Print Assumptions C48_refuted.
(** A chunk of 65520 zeros. *)
Example C48_example : says [x36; x35; x35; x32; x30] 65520 /\ Forall (fun c => N.of_nat (length c) = 65520%N) [repeat x00 (N.to_nat 65520)] /\
  Forall line_fits [repeat x00 (N.to_nat 65520)].
Proof.
  split; [exists [6%N; 5%N; 5%N; 2%N; 0%N]; split; [discriminate|]; split; [repeat constructor|]; split; reflexivity|].
  split; constructor; [|constructor| |constructor].
  - rewrite repeat_length. lia.
  - intros pre post E _. exfalso. assert (I : In x0a (repeat x00 (N.to_nat 65520))) by (rewrite E; apply in_or_app; right; now left).
    apply repeat_spec in I. discriminate.
Qed.

(** C55: killed at any point: whatever prefix of the output has been written, exactly the messages
    that are complete in it are read. *)
Theorem C55_killed : forall v A mode (e a : quad) psize size more chunks rest fuel out n cut,
  says size psize -> (1 <= psize <= 65517)%N ->
  Forall (fun c => N.of_nat (length c) = psize) chunks -> (N.of_nat (length rest) < psize)%N ->
  Forall line_fits chunks -> in_budget mode (length chunks) -> length chunks < fuel ->
  dd_dlt v fuel A mode (quad_bytes e :: quad_bytes a :: size :: more) (concat chunks ++ rest) = Ret (out, DdDone n) ->
  exists l, dltit_offset (firstn cut out) = Ret l /\
    length l = Nat.min (length chunks) (cut / (34 + N.to_nat psize)) /\
    forall i c, i < length l -> nth_error chunks i = Some c ->
      exists x, nth_error l i = Some (i * (34 + N.to_nat psize), x) /\ payload (dlt x) = Ret (Some c).
Proof.
  intros v A mode e a psize size more chunks rest fuel out n cut SZ Hp F LR FL B Hf R.
  pose proof (checked_len mode psize ltac:(lia)) as CL.
  rewrite (run_spec v A mode e a psize size more chunks rest fuel _ SZ ltac:(lia) CL LR F B Hf) in R.
  destruct (wires_valid v A e a psize chunks ltac:(lia) F FL 0) as [V L]. set (ms := wires v A e a (18 + psize) 0 chunks) in *.
  assert (EO : out = concat ms) by congruence. subst out. set (sz := 34 + N.to_nat psize) in *.
  assert (LM : length ms = length chunks) by apply wires_length.
  assert (D : dltit_offset (firstn cut (concat ms)) =
    Ret (entries (filter (fun p => fst p + length (snd p) <=? cut) (with_offsets (@length byte) 0 ms)))).
  { rewrite <- layout_bare, <- placed_bare. apply dltit_offset_chain.
    exact (layout_chain_cut (bare ms) [] cut [] (bare_ok ms V) not_in_nil). }
  eexists. split; [exact D|].
  assert (PF : forall k l0, Forall (fun m => length m = sz) l0 -> k <= cut ->
    filter (fun p => fst p + length (snd p) <=? cut) (with_offsets (@length byte) k l0) =
    firstn ((cut - k) / sz) (with_offsets (@length byte) k l0)).
  { intros k l0 Fl. revert k. induction Fl as [|m l0 Hm Fl IH]; intros k Hk; [now rewrite firstn_nil|].
    cbn [with_offsets filter fst snd]. rewrite Hm. destruct (Nat.leb_spec (k + sz) cut) as [Q|Q].
    - rewrite IH by lia. replace ((cut - k) / sz) with (S ((cut - (k + sz)) / sz)); [reflexivity|].
      replace (cut - k) with (1 * sz + (cut - (k + sz))) by lia. rewrite Nat.div_add_l by (unfold sz; lia). reflexivity.
    - rewrite Nat.div_small by lia. cbn [firstn]. clear - Q.
      assert (G : forall k', k + sz <= k' -> filter (fun p : nat * bytes => fst p + length (snd p) <=? cut) (with_offsets (@length byte) k' l0) = []).
      { induction l0 as [|m' l0 IH]; intros k' Hk'; [reflexivity|]. cbn [with_offsets filter fst snd].
        destruct (Nat.leb_spec (k' + length m') cut); [lia|]. apply IH. lia. }
      apply G. lia. }
  rewrite PF by (exact L || lia). rewrite Nat.sub_0_r.
  assert (LW : length (with_offsets (@length byte) 0 ms) = length chunks)
    by (rewrite <- placed_bare, placed_len; unfold bare; now rewrite map_length).
  split; [unfold entries; rewrite map_length, firstn_length, LW; apply Nat.min_comm|].
  intros i c Hi Hc. pose proof (wires_nth v A e a (18 + psize) chunks 0 i c Hc) as W. fold ms in W.
  pose proof (with_offsets_nth ms sz L 0 i _ W) as O. rewrite N.add_0_l in *.
  assert (FLc : accepted v c = c).
  { apply accepted_fits. rewrite Forall_forall in FL. apply FL. now apply nth_error_In in Hc. }
  rewrite FLc in *. exists (entry_of (wire A e a (18 + psize) (N.of_nat i) c)). split.
  - unfold entries in *. rewrite map_length, firstn_length in Hi.
    cbn [Nat.add] in O.
    refine (map_nth_error (fun p : nat * bytes => (fst p, entry_of (snd p))) i _ (d := (i * sz, wire A e a (18 + psize) (N.of_nat i) c)) _).
    rewrite <- O.
    clear - Hi. revert i Hi. generalize (with_offsets (@length byte) 0 ms) as ws. generalize (cut / sz) as q.
    induction q as [|q IH]; intros [|w ws] [|i] Hi; cbn in *; try lia; [reflexivity|]. apply IH. lia.
  - assert (IL : i < length chunks) by (apply nth_error_Some; congruence).
    assert (Hi32 : (N.of_nat i < u32_mod)%N) by (unfold in_budget, u32_mod in *; destruct mode; lia).
    now apply wire_entry; [unfold u16_mod; lia|].
Qed.
Print Assumptions C55_killed.
Example C55_example : exists out l,
  dd_dlt TakesSome 20 addrs Debug [quad_bytes quad_ECU1; quad_bytes quad_ECU1; ten] (m1 ++ m2) = Ret (out, DdDone 6) /\
  dltit_offset (firstn 175 out) = Ret l /\ map fst l = [0; 44; 88].
Proof. do 2 eexists. split; [vm_compute; reflexivity|]. split; vm_compute; reflexivity. Qed.

(** C56: the command line.  The size is a decimal number below 65536, with or without a plus sign;
    anything else, and ids that are not four bytes, end the program with a panic and without output
    (the ids only when there is something to write); with fewer than three arguments nothing happens. *)
Theorem C56_arguments : forall v A mode fuel args stdin,
  (length args < 3 -> dd_dlt v fuel A mode args stdin = Ret ([], DdDone 0)) /\
  (forall e a size more, args = e :: a :: size :: more ->
    ((forall ds, ds <> [] -> Forall (fun d => (d < 10)%N) ds -> (decimal ds < 65536)%N -> size <> numeral ds /\ size <> x2b :: numeral ds) ->
     dd_dlt v fuel A mode args stdin = Ret ([], DdPanic)) /\
    (forall psize, says size psize -> (psize < 65536)%N -> 0 < fuel ->
      dd_dlt v fuel A mode (e :: a :: (x2b :: size) :: more) stdin = dd_dlt v fuel A mode args stdin /\
      ((N.of_nat (length stdin) < psize)%N -> dd_dlt v fuel A mode args stdin = Ret ([], DdDone 0)) /\
      ((psize <= N.of_nat (length stdin))%N -> (length e <> 4 \/ length a <> 4) -> dd_dlt v fuel A mode args stdin = Ret ([], DdPanic)))).
Proof.
  intros v A mode fuel args stdin. split.
  { destruct args as [|? [|? [|? ?]]]; try reflexivity. cbn [length]. lia. }
  intros e a size more ->. split.
  - intros H. unfold dd_dlt. destruct (parse_u16 size) as [n|] eqn:P; [|reflexivity].
    apply parse_u16_exact in P. destruct P as (ds & NE & F & E & D & L). rewrite <- D in L. destruct (H ds NE F L). tauto.
  - intros psize (ds & NE & F & E & D) L Hf.
    assert (P : parse_u16 size = Some psize) by (apply parse_u16_exact; exists ds; repeat split; auto).
    assert (P' : parse_u16 (x2b :: size) = Some psize) by (apply parse_u16_exact; exists ds; rewrite E; repeat split; auto).
    unfold dd_dlt. rewrite P, P'. split; [reflexivity|]. destruct fuel as [|fuel]; [lia|]. cbn [dd_loop].
    split; intros Q; [destruct (Nat.ltb_spec (length stdin) (N.to_nat psize)); [reflexivity|lia]|].
    intros NI. destruct (Nat.ltb_spec (length stdin) (N.to_nat psize)); [lia|].
    assert (QS : forall b : bytes, length b <> 4 -> quad_of_slice b = Panic).
    { intros b Hb. destruct b as [|? [|? [|? [|? [|? ?]]]]]; try reflexivity. now elim Hb. }
    assert (QR : forall b : bytes, quad_of_slice b = Panic \/ exists q, quad_of_slice b = Ret q).
    { intros b. destruct b as [|? [|? [|? [|? [|? ?]]]]]; cbn; eauto. }
    assert (Z : dd_message v A mode e a psize 0 (firstn (N.to_nat psize) stdin) lw_new = (lw_new, None)).
    { unfold dd_message. destruct NI as [NI|NI]; [rewrite (QS e NI); reflexivity|]. rewrite (QS a NI).
      destruct (QR e) as [-> | [q ->]]; [reflexivity|]. cbn [obind]. destruct (checked mode u16_mod _); reflexivity. }
    rewrite Z. reflexivity.
Qed.
Print Assumptions C56_arguments.
Example C56_example : exists out1 out2,
  dd_dlt TakesSome 20 addrs Debug [quad_bytes quad_ECU1; quad_bytes quad_ECU1; x2b :: ten] m1 = Ret (out1, DdDone 4) /\
  dd_dlt TakesSome 20 addrs Debug [quad_bytes quad_ECU1; quad_bytes quad_ECU1; [x31; x30; x20]] m1 = Ret (out2, DdPanic) /\ out2 = [] /\
  dd_dlt TakesSome 20 addrs Debug [quad_bytes quad_ECU1; [x41]; ten] m1 = Ret (out2, DdPanic).
Proof. do 2 eexists. split; [vm_compute; reflexivity|]. split; [vm_compute; reflexivity|]. split; vm_compute; reflexivity. Qed.

(** C58: ripdlt on the output of dd_dlt: one message per chunk, all of the same size. *)
Lemma dltit_concat ms : Forall valid_message ms -> dltit (concat ms) = Ret (map entry_of ms).
Proof.
  intros V.
  assert (D : dltit_offset (concat ms) = Ret (entries (with_offsets (@length byte) 0 ms))).
  { rewrite <- layout_bare, <- placed_bare. apply dltit_offset_chain.
    pose proof (layout_chain_cut (bare ms) [] (length (layout (bare ms) [])) [] (bare_ok ms V) not_in_nil) as C.
    rewrite firstn_all in C. cbn [app length Nat.add] in C. rewrite filter_all in C; [exact C|].
    eapply Forall_impl; [|apply (placed_bound (bare ms) 0 [])]. cbn. intros p Hpb. now apply Nat.leb_le. }
  rewrite (dltit_map _ _ D). f_equal. unfold entries. rewrite map_map. cbn [snd]. clear.
  generalize 0. induction ms as [|m ms IH]; intros k; [reflexivity|]. cbn [with_offsets map snd]. now rewrite IH.
Qed.
Lemma hist_repeat k n : 0 < n -> hist_of (repeat k n) [(k, n)].
Proof.
  intros Hn. split; [constructor; constructor|]. intros k'. split.
  - unfold tally. cbn [map_get]. destruct (N.compare_spec k' k) as [->|L|L].
    + cbn. clear Hn. induction n as [|n IH]; [reflexivity|]. cbn [repeat count_occ]. destruct (N.eq_dec k k); [now f_equal|congruence].
    + symmetry. apply count_occ_not_In. intros I. apply repeat_spec in I. lia.
    + symmetry. apply count_occ_not_In. intros I. apply repeat_spec in I. lia.
  - cbn. split.
    + intros [<-|[]]. destruct n; [lia|]. now left.
    + intros I. apply repeat_spec in I. now left.
Qed.
Lemma histogram_same {I} (f : I -> N) (l : list I) k : l <> [] -> Forall (fun x => f x = k) l ->
  histogram N.compare (fun x => Ret (f x)) l = Ret [(k, length l)].
Proof.
  intros NE F. destruct (histogram_hist (fun x => Ret (f x)) f l) as (h & E & H); [reflexivity|]. rewrite E. f_equal.
  assert (Q : map f l = repeat k (length l)).
  { clear - F. induction F as [|x l E F IH]; [reflexivity|]. cbn [map length repeat]. now rewrite E, IH. }
  rewrite Q in H. apply (hist_of_unique _ _ _ H). apply hist_repeat. destruct l; [congruence|cbn; lia].
Qed.
Lemma wires_payload v A e a psize : (psize <= 65517)%N -> forall chunks, Forall (fun c => N.of_nat (length c) = psize) chunks -> Forall line_fits chunks ->
  forall count, (count + N.of_nat (length chunks) <= u32_mod)%N ->
  mapM (fun d => let* p := payload (dlt d) in Ret (match p with Some p => length p | None => 0 end))
    (map entry_of (wires v A e a (18 + psize) count chunks)) = Ret (repeat (N.to_nat psize) (length chunks)).
Proof.
  intros Hp. induction 1 as [|c cs L F IH]; intros FL count B; cbn [wires map mapM length repeat]; [reflexivity|].
  inversion FL as [|x y FL1 FL2]; subst x y. cbn [length] in B.
  rewrite (accepted_fits v c FL1).
  destruct (wire_entry A e a (18 + psize) count c ltac:(unfold u16_mod; lia) ltac:(lia)) as (_ & _ & _ & _ & _ & _ & _ & E8).
  rewrite E8. cbn [obind]. rewrite (IH FL2) by lia. cbn [obind]. do 2 f_equal. lia.
Qed.
Theorem C58_pipeline : forall v A mode (e a : quad) psize size more chunks rest fuel (M : machine) name,
  says size psize -> (1 <= psize <= 65517)%N ->
  Forall (fun c => N.of_nat (length c) = psize) chunks -> (N.of_nat (length rest) < psize)%N ->
  Forall line_fits chunks -> in_budget mode (length chunks) -> length chunks < fuel -> chunks <> [] ->
  exists out,
    dd_dlt v fuel A mode (quad_bytes e :: quad_bytes a :: size :: more) (concat chunks ++ rest) =
      Ret (out, DdDone (N.of_nat (length chunks))) /\
    (fs M name = {| file_content := out; file_open_err := false; file_map_err := false; file_read_err := None |} ->
     forall method, method = "mmap"%string \/ method = "read"%string ->
     ripdlt_main M [method; "count"%string; name] =
       Ret [LArgs [method; "count"%string; name]; LCount (length chunks)] /\
     ripdlt_main M [method; "histogram_message_size"%string; name] =
       Ret [LArgs [method; "histogram_message_size"%string; name]; LHeading "Distribution of DLT message length:";
            LSize (34 + psize) (length chunks) ((34 + psize) * N.of_nat (length chunks) / 1024);
            LTotal ((34 + psize) * N.of_nat (length chunks) / 1024)] /\
     ripdlt_main M [method; "histogram_payload_size"%string; name] =
       Ret [LArgs [method; "histogram_payload_size"%string; name]; LHeading "Distribution of payload length:";
            LSize psize (length chunks) (psize * N.of_nat (length chunks) / 1024);
            LTotal (psize * N.of_nat (length chunks) / 1024)]).
Proof.
  intros v A mode e a psize size more chunks rest fuel M name SZ Hp F LR FL B Hf NE.
  pose proof (checked_len mode psize ltac:(lia)) as CL.
  rewrite (run_spec v A mode e a psize size more chunks rest fuel _ SZ ltac:(lia) CL LR F B Hf).
  destruct (wires_valid v A e a psize chunks ltac:(lia) F FL 0) as [V L].
  pose proof (wires_payload v A e a psize ltac:(lia) chunks F FL 0 ltac:(unfold in_budget, u32_mod in *; destruct mode; lia)) as PL.
  set (ms := wires v A e a (18 + psize) 0 chunks) in *.
  assert (LM : length ms = length chunks) by apply wires_length.
  exists (concat ms). split; [reflexivity|]. intros FS method MT.
  assert (NM : ms <> []) by (intros Q; rewrite Q in LM; cbn in LM; destruct chunks; [congruence|discriminate]).
  assert (LD : exists d, load M method name = Ret d /\ as_slice d = concat ms).
  { destruct MT as [-> | ->]; unfold load; cbn [String.eqb Ascii.eqb Bool.eqb]; rewrite FS.
    - unfold mmap_file. cbn [file_open_err file_map_err file_content orb].
      destruct (Nat.eqb_spec (length (concat ms)) 0) as [Z|_]; [|eexists; split; reflexivity].
      exfalso. destruct ms as [|m ms']; [congruence|]. inversion L. cbn [concat] in Z. rewrite app_length in Z. lia.
    - eexists. split; reflexivity. }
  destruct LD as (d & LD & AS). unfold ripdlt_main. rewrite LD. cbn [obind]. rewrite AS. clear LD AS d.
  pose proof (dltit_concat ms V) as D.
  assert (SL : Forall (fun x => N.of_nat (storage_len x) = (34 + psize)%N) (map entry_of ms)).
  { apply Forall_forall. intros x I. apply in_map_iff in I. destruct I as (m & <- & I). rewrite Forall_forall in V, L.
    rewrite (storage_len_denotes (entry_of m) m (V m I)) by (apply denotes_entry_of, V, I). rewrite (L m I). lia. }
  split; [|split].
  - change (run_command M "count" (concat ms)) with (let* r := count (concat ms) in Ret [LCount r]).
    unfold count. rewrite D. cbn [obind]. now rewrite map_length, LM.
  - change (run_command M "histogram_message_size" (concat ms)) with
      (let* h := histogram_message (concat ms) in Ret (LHeading "Distribution of DLT message length:" :: print_sizes h)).
    unfold histogram_message. rewrite D. cbn [obind]. rewrite (histogram_same N.of_nat _ (34 + psize)%N).
    + cbn [obind]. rewrite !map_length, LM. reflexivity.
    + destruct ms; [congruence|discriminate].
    + rewrite Forall_map. exact SL.
  - change (run_command M "histogram_payload_size" (concat ms)) with
      (let* h := histogram_payload (concat ms) in Ret (LHeading "Distribution of payload length:" :: print_sizes h)).
    unfold histogram_payload. rewrite D. cbn [obind]. rewrite PL. cbn [obind]. rewrite (histogram_same N.of_nat _ psize).
    + cbn [obind]. rewrite repeat_length. reflexivity.
    + destruct chunks; [congruence|discriminate].
    + apply Forall_forall. intros x I. apply repeat_spec in I. lia.
Qed.
Print Assumptions C58_pipeline.
Definition recorded : bytes :=
  match dd_dlt TakesSome 20 addrs Debug [quad_bytes quad_ECU1; quad_bytes quad_ECU1; ten] (m1 ++ m2) with Ret (out, _) => out | _ => [] end.
Example C58_example : forall (M : machine),
  fs M "x.dlt"%string = {| file_content := recorded; file_open_err := false; file_map_err := false; file_read_err := None |} ->
  ripdlt_main M ["mmap"; "histogram_payload_size"; "x.dlt"]%string =
    Ret [LArgs ["mmap"; "histogram_payload_size"; "x.dlt"]%string; LHeading "Distribution of payload length:"; LSize 10 6 0; LTotal 0].
Proof. intros M H. unfold ripdlt_main, load. cbn [String.eqb Ascii.eqb Bool.eqb]. rewrite H. vm_compute. reflexivity. Qed.
