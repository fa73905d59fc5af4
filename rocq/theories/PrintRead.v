(** The printed text determines the numbers: facts for C81. *)
From Coq Require Import String Permutation.
From Verif Require Import Base BaseFacts DltModel MatchModel GenModel ToolsModel MainModel Spec PrintModel PrintSpec PrintFacts.
Local Open Scope string_scope. Local Open Scope list_scope.

Lemma cons_same {A} (c : A) r r' : c :: r = c :: r' -> r = r'.
Proof. congruence. Qed.
Lemma nodigit c : (bN c < 48 \/ 58 <= bN c)%N -> ~ digit c.
Proof. unfold digit. lia. Qed.
Ltac nodig := apply nodigit; vm_compute; first [left; reflexivity|right; discriminate].
Ltac literals E := repeat match type of E with context [ascii (String ?c ?s)] => let v := eval vm_compute in (ascii (String c s)) in change (ascii (String c s)) with v in E end;
  repeat rewrite <- app_assoc in E; cbn [app] in E.
Ltac skip E := repeat apply cons_same in E.
Ltac num E := let Q := fresh "Q" in
  match type of E with
  | ?t ++ _ :: _ = ?t' ++ _ :: _ =>
    match goal with
    | H : numeral_of ?n t, H' : numeral_of ?n' t' |- _ => apply (numeral_prefix n n' t t' _ _ _ _ H H') in E; [destruct E as [Q E]; subst; skip E|nodig|nodig]
    | H : numeral_of_nat ?n t, H' : numeral_of_nat ?n' t' |- _ =>
        apply (numeral_prefix (N.of_nat n) (N.of_nat n') t t' _ _ _ _ H H') in E; [destruct E as [Q E]; apply Nat2N.inj in Q; subst; skip E|nodig|nodig]
    end
  end.

Lemma app_same_length {A} : forall (a b x y : list A), length a = length b -> a ++ x = b ++ y -> a = b /\ x = y.
Proof.
  induction a as [|c a IH]; intros [|d b] x y L E; try discriminate; [now split|]. cbn in E. injection E as -> E. injection L as L.
  destruct (IH b x y L E) as [-> ->]. now split.
Qed.

(** Entries of a map, followed by a closing brace. *)
Lemma entries_head m t : entries_text m t -> m = [] /\ t = [] \/ exists k v m' c r, m = (k, v) :: m' /\ t = c :: r /\ digit c.
Proof.
  intros [|k v tk tv Hk Hv|k v tk tv m' t' Hk Hv NE He]; [now left| |]; right; destruct (numeral_nonempty _ _ Hk) as (c & r & -> & D); cbn [app]; do 5 eexists; (split; [reflexivity|split; [reflexivity|exact D]]).
Qed.
Lemma entries_prefix m t : entries_text m t -> forall m' t' r r', entries_text m' t' -> t ++ x7d :: r = t' ++ x7d :: r' -> m = m' /\ r = r'.
Proof.
  assert (D : forall c, c = x7d -> ~ digit c) by (intros c ->; nodig).
  induction 1 as [|k v tk tv Hk Hv|k v tk tv m t Hk Hv NE He IH]; intros m' t' r r' H' E.
  - destruct (entries_head _ _ H') as [[-> ->]|(k & v & m2 & c & r2 & -> & -> & Dc)]; cbn [app] in E; [apply cons_same in E; now split|].
    injection E as E1 _. exfalso. now apply (D c).
  - inversion H' as [|k' v' tk' tv' Hk' Hv'|k' v' tk' tv' m2 t2 Hk' Hv' NE' He']; subst.
    + destruct (numeral_nonempty _ _ Hk) as (c & r2 & -> & Dc). cbn [app] in E. injection E as E1 _. exfalso. now apply (D c).
    + literals E. num E. num E. now split.
    + literals E. num E. num E. discriminate E.
  - inversion H' as [|k' v' tk' tv' Hk' Hv'|k' v' tk' tv' m2 t2 Hk' Hv' NE' He']; subst.
    + destruct (numeral_nonempty _ _ Hk) as (c & r2 & -> & Dc). cbn [app] in E. injection E as E1 _. exfalso. now apply (D c).
    + literals E. num E. num E. discriminate E.
    + literals E. num E. num E. destruct (IH _ _ _ _ He' E) as [-> ->]. now split.
Qed.

(** Type names, followed by a parenthesis. *)
Lemma names_prefix t t' r r' : ascii (type_name t) ++ x29 :: r = ascii (type_name t') ++ x29 :: r' -> t = t' /\ r = r'.
Proof.
  destruct t as [[[]|[]|[]|[]]|]; destruct t' as [[[]|[]|[]|[]]|];
    (intros E; vm_compute in E; first [discriminate E|split; [reflexivity|repeat apply cons_same in E; exact E]]).
Qed.

(** Lines of one kind, in one command, end where they end. *)
Definition tag (l : line) : nat :=
  match l with
  | LUsage => 0 | LArgs _ => 1 | LHeading _ => 2 | LSlices _ _ => 3 | LBucket _ _ _ => 4 | LEcu _ _ => 5
  | LType _ _ => 6 | LSize _ _ _ => 7 | LTotal _ => 7 | LCount _ => 8 | LLong _ => 9 | LOffset _ _ _ => 10
  end.
Definition plain (l : line) : Prop := match l with LHeading _ => False | LEcu e _ => length e = 4 | _ => True end.
Lemma counted_space cmd : exists s, ascii (counted cmd) = x20 :: s.
Proof. unfold counted. destruct (_ || _); [|destruct (_ =? _)%string]; eexists; vm_compute; reflexivity. Qed.
Lemma totalled_letter cmd : exists c s, ascii (totalled cmd) = c :: s /\ ~ digit c.
Proof. unfold totalled. destruct (_ =? _)%string; (do 2 eexists; split; [vm_compute; reflexivity|nodig]). Qed.

Lemma line_prefix cmd l l' t t' r r' : tag l = tag l' -> plain l -> plain l' -> appears cmd l t -> appears cmd l' t' ->
  t ++ x0a :: r = t' ++ x0a :: r' -> l = l' /\ r = r'.
Proof.
  intros T P P' A A' E.
  destruct A; inversion A'; subst; try discriminate T; try (now destruct P); try (now destruct P'); clear A' T.
  - literals E. skip E. num E. num E. now split.
  - literals E. num E. num E. num E. now split.
  - literals E. cbn [plain] in P, P'. apply app_same_length in E; [|congruence]. destruct E as [-> E]. skip E.
    match goal with H : entries_text ?m ?t, H' : entries_text ?m' ?t' |- _ => destruct (entries_prefix m t H m' t' _ _ H' E) as [-> E'] end. skip E'. num E'. now split.
  - destruct verbose, verbose0; literals E; skip E; try discriminate E; (apply names_prefix in E; destruct E as [-> E]; skip E; num E; now split).
  - literals E. num E. num E. num E. now split.
  - exfalso. literals E. destruct (totalled_letter cmd) as (c & s & Ec & NC). rewrite Ec in E. cbn [app] in E.
    match goal with H : numeral_of _ ts |- _ => destruct (numeral_nonempty _ _ H) as (d & r2 & -> & D) end. cbn [app] in E. injection E as -> _. contradiction.
  - exfalso. literals E. destruct (totalled_letter cmd) as (c & s & Ec & NC). rewrite Ec in E. cbn [app] in E.
    match goal with H : numeral_of _ ts |- _ => destruct (numeral_nonempty _ _ H) as (d & r2 & -> & D) end. cbn [app] in E. injection E as -> _. contradiction.
  - literals E. apply app_inv_head in E. num E. now split.
  - literals E. destruct (counted_space cmd) as (s & Ec). rewrite Ec in E. cbn [app] in E. num E. apply app_inv_head in E. skip E. now split.
  - literals E. num E. now split.
  - literals E. skip E. num E. num E. num E. now split.
Qed.

Lemma texts_cons cmd l l' t t' ts ts' : tag l = tag l' -> plain l -> plain l' -> appears cmd l t -> appears cmd l' t' ->
  lines_text (t :: ts) = lines_text (t' :: ts') -> l = l' /\ lines_text ts = lines_text ts'.
Proof.
  intros T P P' A A' E. unfold lines_text in E. cbn [map concat] in E. rewrite <- !app_assoc in E. exact (line_prefix cmd l l' t t' _ _ T P P' A A' E).
Qed.
Lemma texts_nil t ts : lines_text (t :: ts) <> [].
Proof. unfold lines_text. cbn [map concat]. destruct t; discriminate. Qed.
Lemma texts_same cmd k ls : forall ls' ts ts', Forall (fun l => tag l = k /\ plain l) ls -> Forall (fun l => tag l = k /\ plain l) ls' ->
  Forall2 (appears cmd) ls ts -> Forall2 (appears cmd) ls' ts' -> lines_text ts = lines_text ts' -> ls = ls'.
Proof.
  induction ls as [|l ls IH]; intros [|l' ls'] ts ts' K K' F F' E; inversion F as [|? t ? ts1 A F1]; inversion F' as [|? t' ? ts1' A' F1']; subst.
  - reflexivity.
  - symmetry in E. now apply texts_nil in E.
  - now apply texts_nil in E.
  - inversion K as [|? ? [T P] K1]; inversion K' as [|? ? [T' P'] K1']; subst. apply (texts_cons cmd l l') in E; try assumption; [|congruence].
    destruct E as [-> E]. f_equal. now apply (IH ls' ts1 ts1').
Qed.

(** The shape of what a command prints. *)
Definition tag_of (cmd : string) : nat :=
  if existsb (String.eqb cmd) ["histogram_lifecycles"; "histogram_timestamp"; "par_histogram_timestamp"] then 4
  else if existsb (String.eqb cmd) ["split_lifecycles"; "split_timestamp"; "par_split_timestamp"] then 5
  else if (cmd =? "histogram_message_type")%string then 6
  else if existsb (String.eqb cmd) ["histogram_payload_size"; "histogram_message_size"] then 7
  else if (cmd =? "histogram_hello_world")%string then 10
  else if existsb (String.eqb cmd) ["par_iter"; "iter"; "itertools"] then 9
  else 8.
Definition shape (cmd : string) (ls : list line) : Prop :=
  exists slices rest, ls = map LHeading (heading cmd) ++ slices ++ rest /\
    (if with_slices cmd then exists n k, slices = [LSlices n k] else slices = []) /\ Forall (fun l => tag l = tag_of cmd /\ plain l) rest.
Lemma shape_rest cmd ls : with_slices cmd = false -> Forall (fun l => tag l = tag_of cmd /\ plain l) ls -> shape cmd (map LHeading (heading cmd) ++ ls).
Proof. intros S F. exists [], ls. split; [reflexivity|]. rewrite S. now split. Qed.
Lemma shape_sliced cmd n k ls : with_slices cmd = true -> Forall (fun l => tag l = tag_of cmd /\ plain l) ls ->
  shape cmd (map LHeading (heading cmd) ++ LSlices n k :: ls).
Proof. intros S F. exists [LSlices n k], ls. split; [reflexivity|]. rewrite S. split; [eauto|exact F]. Qed.
Lemma ecus_plain m ls : print_ecus m = Ret ls -> Forall (fun l => tag l = 5 /\ plain l) ls.
Proof.
  intros E. destruct (ecus_ret m finished ls E) as [-> _]. apply Forall_forall. intros l I. apply in_map_iff in I. destruct I as ([k v] & <- & _).
  split; [reflexivity|]. now destruct k.
Qed.
Lemma plain_map {A} (f : A -> line) k l : (forall x, tag (f x) = k /\ plain (f x)) -> Forall (fun l => tag l = k /\ plain l) (map f l).
Proof. intros H. apply Forall_forall. intros x I. apply in_map_iff in I. destruct I as (y & <- & _). apply H. Qed.
Ltac one_plain := constructor; [split; [reflexivity|exact I]|constructor].
Lemma run_shape M cmd b ls : run_command M cmd b = Ret ls -> shape cmd ls.
Proof.
  unfold run_command. cbv zeta. dispatch cmd; intros H; try discriminate H; repeat (apply ret_inv in H; let a := fresh "a" in let E := fresh "E" in destruct H as (a & E & H)); injection H as <-;
  repeat match goal with E : slices_line M b = Ret _ |- _ => apply slices_ret in E; destruct E as (? & _ & ->) end;
  first [apply (shape_rest "histogram_lifecycles") | apply (shape_rest "split_lifecycles") | apply (shape_rest "split_timestamp") | apply (shape_sliced "par_split_timestamp")
        | apply (shape_rest "histogram_timestamp") | apply (shape_sliced "par_histogram_timestamp") | apply (shape_rest "histogram_message_type")
        | apply (shape_rest "histogram_payload_size") | apply (shape_rest "histogram_message_size") | apply (shape_rest "count") | apply (shape_sliced "par_count")
        | apply (shape_rest "histogram_hello_world") | apply (shape_rest "count_hello_world") | apply (shape_rest "count_hello_world_raw") | apply (shape_rest "count_hello_world_grepit")
        | apply (shape_sliced "par_count_hello_world") | apply (shape_sliced "par_count_hello_world_raw") | apply (shape_sliced "par_count_hello_world_grepit")
        | apply (shape_sliced "par_iter") | apply (shape_rest "iter") | apply (shape_rest "itertools")];
  try reflexivity;
  first [one_plain | now apply ecus_plain with (1 := E0) | now apply ecus_plain with (1 := E1) | apply plain_map; intros; split; [reflexivity|exact I]
        | apply Forall_app; split; [apply plain_map; intros; split; [reflexivity|exact I]|one_plain]].
Qed.
Lemma shape_perm ls ls' : same_lines "par_iter" ls ls' -> shape "par_iter" ls -> shape "par_iter" ls'.
Proof.
  intros [->|(_ & f & r & r' & -> & -> & P)]; [tauto|]. intros (sl & rest & E & S & F). cbn in S. destruct S as (n & k & ->). cbn in E. injection E as -> ->.
  exists [LSlices n k], r'. split; [reflexivity|]. split; [cbn; eauto|]. apply Forall_forall. intros l I. rewrite Forall_forall in F. apply F.
  apply Permutation_in with r'; [now apply Permutation_sym|exact I].
Qed.
Lemma heading_same cmd ts ts' hs ls ls' : Forall2 (appears cmd) (map LHeading hs ++ ls) ts -> Forall2 (appears cmd) (map LHeading hs ++ ls') ts' ->
  lines_text ts = lines_text ts' ->
  exists us us', Forall2 (appears cmd) ls us /\ Forall2 (appears cmd) ls' us' /\ lines_text us = lines_text us'.
Proof.
  revert ts ts'. induction hs as [|h hs IH]; intros ts ts' F F' E; [eauto 6|].
  cbn [map app] in F, F'. inversion F as [|? t ? us A F1]; inversion F' as [|? t' ? us' A' F1']; subst. inversion A; inversion A'; subst.
  unfold lines_text in E. cbn [map concat] in E. rewrite <- !app_assoc in E. apply app_inv_head in E. apply cons_same in E.
  exact (IH us us' F1 F1' E).
Qed.
Lemma shapes_same cmd ls ls' ts ts' : shape cmd ls -> shape cmd ls' -> Forall2 (appears cmd) ls ts -> Forall2 (appears cmd) ls' ts' ->
  lines_text ts = lines_text ts' -> ls = ls'.
Proof.
  intros (sl & rest & -> & S & K) (sl' & rest' & -> & S' & K') F F' E. f_equal.
  destruct (heading_same cmd ts ts' _ _ _ F F' E) as (us & us' & G & G' & E').
  destruct (with_slices cmd).
  - destruct S as (n & k & ->), S' as (n' & k' & ->). cbn [app] in G, G'. inversion G as [|? t ? vs A G1]; inversion G' as [|? t' ? vs' A' G1']; subst.
    apply (texts_cons cmd (LSlices n k) (LSlices n' k') t t') in E'; try assumption; [|reflexivity|exact I|exact I]. destruct E' as [Q E']. cbn [app]. rewrite Q. f_equal.
    exact (texts_same cmd _ rest rest' vs vs' K K' G1 G1' E').
  - subst sl sl'. exact (texts_same cmd _ rest rest' us us' K K' G G' E').
Qed.
