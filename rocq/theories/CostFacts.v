(** The cost model computes what the model computes. *)
From Verif Require Import Base DltModel MatchModel CostModel BaseFacts.

Definition erase {A : Type} (x : work A) : outcome A := let* (a, _) := x in Ret a.
Lemma erase_bind {A B : Type} (x : work A) (k : A -> work B) : erase (wbind x k) = (let* a := erase x in erase (k a)).
Proof. unfold wbind, erase. destruct x as [[a c]| |]; cbn [obind]; [|reflexivity|reflexivity]. now destruct (k a) as [[b d]| |]. Qed.
Lemma erase_free {A : Type} (x : outcome A) : erase (free x) = x.
Proof. now destruct x. Qed.
Lemma erase_call : erase call = Ret tt. Proof. reflexivity. Qed.
Lemma erase_look n : erase (look n) = Ret tt. Proof. reflexivity. Qed.
Lemma erase_done {A : Type} (a : A) : erase (done a) = Ret a. Proof. reflexivity. Qed.
Lemma bind_call {B : Type} (k : unit -> work B) : erase (wbind call k) = erase (k tt).
Proof. now rewrite erase_bind. Qed.
Lemma bind_look {B : Type} n (k : unit -> work B) : erase (wbind (look n) k) = erase (k tt).
Proof. now rewrite erase_bind. Qed.
Lemma erase_find m b : erase (find_work m b) = Ret (find m b). Proof. reflexivity. Qed.
Lemma erase_rfind m b : erase (rfind_work m b) = Ret (rfind m b). Proof. reflexivity. Qed.

Lemma collect_erase {S I : Type} (nextw : S -> work (S * option I)) next : (forall s, erase (nextw s) = next s) ->
  forall fuel s, erase (collect_work nextw fuel s) = collect next fuel s.
Proof.
  intros H. induction fuel as [|fuel IH]; intros s; [reflexivity|]. cbn [collect_work collect]. rewrite erase_bind, H.
  destruct (next s) as [[s' [x|]]| |]; cbn [obind]; try reflexivity. rewrite erase_bind, IH. now destruct (collect next fuel s').
Qed.

Section Erase.
  Context {T : Type}.
  Variable R : Readable T.
  Lemma fallback_erase b : forall fuel off, erase (fallback_work R fuel b off) = fallback_next R fuel b off.
  Proof.
    induction fuel as [|fuel IH]; intros off; [reflexivity|]. cbn [fallback_work fallback_next]. rewrite bind_call.
    destruct (_ <=? _); [reflexivity|]. rewrite erase_bind, erase_free. destruct (slice b off _) as [s| |]; cbn [obind]; try reflexivity.
    destruct (bytes_eqb s (marker R)).
    - rewrite erase_bind, erase_free. destruct (slice_from b off) as [t| |]; cbn [obind]; try reflexivity. rewrite erase_bind, erase_free.
      now destruct (try_read_valid R t) as [[[n v]|]| |].
    - rewrite erase_bind, erase_free. destruct (slice_from b off) as [t| |]; cbn [obind]; try reflexivity. rewrite erase_bind, erase_find. cbn [obind].
      unfold search_marker. destruct (find (marker R) t) as [p|]; [|reflexivity]. destruct (p =? 0); [reflexivity|]. apply IH.
  Qed.
  Lemma search_search_erase b off : erase (search_search_work R b off) = search_search R b off.
  Proof.
    unfold search_search_work, search_search. destruct (_ <=? _); [reflexivity|]. rewrite erase_bind, erase_free.
    destruct (slice_from b off) as [s| |]; cbn [obind]; try reflexivity. rewrite erase_bind, erase_find. cbn [obind].
    destruct (find (marker R) s) as [c|]; [|reflexivity]. cbv zeta. rewrite erase_bind, erase_free.
    destruct (slice_from b (c + off)) as [t| |]; cbn [obind]; try reflexivity. rewrite erase_bind, erase_free.
    now destruct (try_read_valid R t) as [[[n v]|]| |].
  Qed.
  Lemma search_erase b : forall fuel off, erase (search_work R fuel b off) = search_next R fuel b off.
  Proof.
    induction fuel as [|fuel IH]; intros off; [reflexivity|]. cbn [search_work search_next]. rewrite bind_call, erase_bind, search_search_erase.
    destruct (search_search R b off) as [[[c t]|]| |]; cbn [obind]; try reflexivity. cbv zeta. destruct (_ <=? _); [reflexivity|]. apply IH.
  Qed.
  Lemma rev_search_erase b off : erase (rev_search_work R b off) = rev_search R b off.
  Proof.
    unfold rev_search_work, rev_search. destruct (_ || _); [reflexivity|]. rewrite erase_bind, erase_free.
    destruct (slice_to b _) as [s| |]; cbn [obind]; try reflexivity. rewrite erase_bind, erase_rfind. cbn [obind].
    destruct (rfind (marker R) s) as [c|]; [|reflexivity]. rewrite erase_bind, erase_free.
    destruct (slice_from b c) as [t| |]; cbn [obind]; try reflexivity. rewrite erase_bind, erase_free.
    now destruct (try_read_valid R t) as [[[n v]|]| |].
  Qed.
  Lemma rev_erase b : forall fuel off, erase (rev_work R fuel b off) = rev_next R fuel b off.
  Proof.
    induction fuel as [|fuel IH]; intros off; [reflexivity|]. cbn [rev_work rev_next]. rewrite bind_call, erase_bind, rev_search_erase.
    destruct (rev_search R b off) as [[[c t]|]| |]; cbn [obind]; try reflexivity. cbv zeta.
    generalize (if (N.of_nat (length (marker R)) <=? off)%N then (off - N.of_nat (length (marker R)))%N else usize_max). intros o.
    destruct (o =? usize_max)%N; [reflexivity|]. apply IH.
  Qed.
  Lemma grep_search_erase fa b : forall fuel off, erase (grep_search_work R fa fuel b off) = grep_search R fa fuel b off.
  Proof.
    induction fuel as [|fuel IH]; intros off; [reflexivity|]. cbn [grep_search_work grep_search]. rewrite bind_call. destruct (_ <=? _); [reflexivity|].
    destruct (fa b off) as [[s e]|]; [|reflexivity]. rewrite erase_bind, rev_search_erase.
    destruct (rev_search R b (N.of_nat s)) as [[[o v]|]| |]; cbn [obind]; try reflexivity.
    - destruct (_ && _); [apply IH|reflexivity].
    - destruct (_ <=? _); [reflexivity|apply IH].
  Qed.
  Lemma grep_erase fa b fuel off : erase (grep_work R fa fuel b off) = grep_next R fa fuel b off.
  Proof. unfold grep_work, grep_next. rewrite erase_bind, grep_search_erase. now destruct (grep_search R fa fuel b off) as [[[o v]|]| |]. Qed.
  Lemma scan_erase recw rec b back p0 p1 : (forall i j, erase (recw i j) = rec i j) ->
    forall cs, erase (scan_work R recw b back p0 p1 cs) = scan R rec b back p0 p1 cs.
  Proof.
    intros H. induction cs as [|x cs IH]; [reflexivity|]. cbn [scan_work scan]. destruct (_ <=? _); [reflexivity|]. rewrite erase_bind, erase_free.
    destruct (slice_from b (x + back)) as [s| |]; cbn [obind]; try reflexivity. rewrite erase_bind, erase_free.
    destruct (try_read R s) as [[[n v]|]| |]; cbn [obind]; try reflexivity; [|exact IH]. destruct (p1 <=? _); [|exact IH]. rewrite erase_bind, H.
    destruct (rec _ _) as [[w|]| |]; cbn [obind]; try reflexivity. exact IH.
  Qed.
  Lemma contained_erase b : forall fuel p0 p1, erase (contained_work R fuel b p0 p1) = contained_by R fuel b p0 p1.
  Proof.
    induction fuel as [|fuel IH]; intros p0 p1; [reflexivity|]. cbn [contained_work contained_by]. rewrite bind_call. destruct (_ || _); [reflexivity|].
    cbv zeta. rewrite erase_bind, erase_free. destruct (slice_from b _) as [s| |]; cbn [obind]; try reflexivity. apply scan_erase. exact IH.
  Qed.
  Lemma partition_loop_erase b size : forall fuel c0 c1, erase (partition_loop_work R fuel b size c0 c1) = partition_loop R fuel b size c0 c1.
  Proof.
    induction fuel as [|fuel IH]; intros c0 c1; [reflexivity|]. cbn [partition_loop_work partition_loop]. destruct (_ || _); [reflexivity|].
    rewrite erase_bind, contained_erase. destruct (contained_by R (S c1) b c1 (c1 + 1)) as [r| |]; cbn [obind]; try reflexivity. cbv zeta.
    generalize (match r with Some (container, _) => container | None => c1 end). intros c. destruct (_ <=? _); [reflexivity|].
    destruct (_ <=? _); rewrite erase_bind, erase_free; [now destruct (slice_from b c0)|]. destruct (slice b c0 c) as [s| |]; cbn [obind]; try reflexivity.
    rewrite erase_bind, IH. now destruct (partition_loop R fuel b size c (c + size)).
  Qed.
  Lemma partition_erase b num : erase (partition_work R b num) = partition_from R b num.
  Proof. unfold partition_work, partition_from. destruct (num =? 0); [reflexivity|]. apply partition_loop_erase. Qed.
End Erase.
Lemma erase_ret {A : Type} (x : work A) a : erase x = Ret a -> exists c, x = Ret (a, c).
Proof. destruct x as [[a' c]| |]; cbn; intros H; try discriminate. injection H as ->. now exists c. Qed.
