(** Model of the commands of ripdlt/src/main.rs once more, now with machine arithmetic: every addition
    and multiplication of two [usize] and every subtraction of two [u32] panics on overflow in a debug
    build and wraps around in a release build (in ToolsModel.v and MainModel.v numbers are unbounded, and
    a subtraction below zero panics in both builds).  The iterators and [partition_from] underneath are
    those of WordModel.v. *)
From Coq Require Import String.
From Verif Require Import Base DltModel MatchModel GenModel ToolsModel MainModel DdModel WordModel.

(** [a + b], [a += b] and [a * b] on [usize]. *)
Definition plus (m : target) (a b : nat) : outcome nat :=
  let* n := add m (N.of_nat a) (N.of_nat b) in Ret (N.to_nat n).
(** usize multiplication. *)
Definition times (m : target) (a b : N) : outcome N := checked (build m) (usize_mod m) (a * b).
(** [a - b] on [u32]: below zero, a panic or the difference modulo 2^32. *)
Definition u32_minus (m : target) (a b : N) : outcome N :=
  if (b <=? a)%N then Ret (a - b)%N
  else match build m with Debug => Panic | Release => Ret (a + u32_mod - b)%N end.

(** adapter.rs:142-145, generator.rs:32-35 [count]: [|acc, _| acc + 1]. *)
Definition CountWord {I : Type} (m : target) : Reduce nat I nat := Fold (fun acc _ => plus m acc 1).
(** generator.rs:32-35. *)
Definition CountWordG {I : Type} (m : target) : Reduce (nat * unit) I nat := ReducerOver (CountWord m) NilAdapter 1.
(** [Iterator::count] of the standard library: additions with the overflow checks of the build. *)
Definition count_items {I : Type} (m : target) (xs : list I) : outcome nat := run_reduce (CountWord m) 0 xs.
(** As [histogram] of ToolsModel.v (fromgenerator.rs:51-66). *)
Definition histogram_word {I K : Type} (m : target) (cmp : K -> K -> comparison) (key : I -> outcome K)
  (xs : list I) : outcome (list (K * nat)) :=
  run_reduce (Split cmp key (fun _ => (0, tt)) (CountWordG m)) [] xs.

(** dlt_v1.rs:444-446 [dltit]. *)
Definition dltit_word (m : target) (b : bytes) : outcome (list storage_entry) :=
  let* l := collect (fun off => fallback_word DLT m 2 b off) (S (length b)) 0%N in Ret (map snd l).
(** As [grep_collect] of ToolsModel.v (main.rs:121-124). *)
Definition grep_collect_word (m : target) (find_at : bytes -> nat -> option (nat * nat)) (buf : bytes)
  : outcome (list (N * storage_entry)) :=
  collect (grep_word DLT m find_at (S (length buf)) buf) (S (length buf)) 0%N.

(** main.rs:164, :232, :270, :287 and :147, :203. *)
Definition ts_delta_word (m : target) (r : storage_entry * storage_entry) : outcome N :=
  let* o1 := timestamp (dlt (snd r)) in
  let* t1 := unwrap o1 in
  let* o0 := timestamp (dlt (fst r)) in
  let* t0 := unwrap o0 in
  u32_minus m t1 t0.
(** main.rs:147 and 203. *)
Definition secs_delta_word (m : target) (r : storage_entry * storage_entry) : outcome N :=
  u32_minus m (esecs (snd r)) (esecs (fst r)).

(** main.rs:97-124 *)
Definition count_word (m : target) (buf : bytes) : outcome nat :=
  let* it := dltit_word m buf in count_items m it.
(** main.rs:104-114. *)
Definition count_hello_world_word (m : target) (buf : bytes) : outcome nat :=
  let* it := dltit_word m buf in
  let* r := filterM hello_predicate it in
  count_items m r.
(** main.rs:116-119. *)
Definition count_hello_world_raw_word (m : target) (buf : bytes) : outcome nat :=
  count_items m (find_iter hello_world buf).
(** main.rs:121-124. *)
Definition count_hello_world_grepit_word (m : target) (find_at : bytes -> nat -> option (nat * nat)) (buf : bytes) : outcome nat :=
  let* it := grep_collect_word m find_at buf in count_items m it.

(** main.rs:141-158 *)
Definition continuous_timestamp_histogram_word (m : target) (buf : bytes) : outcome (list (N * nat)) :=
  let* it := dltit_word m buf in
  let* gs := groupby_iter secs_pred it in
  let* ds := mapM (secs_delta_word m) gs in
  histogram_word m N.compare (fun id => Ret id) ds.
(** main.rs:152-158. *)
Definition mstp_info_histogram_word (m : target) (buf : bytes)
  : outcome (list ((bool * option msg_type) * nat)) :=
  let* it := dltit_word m buf in
  histogram_word m info_cmp
    (fun e => let* h := extended_header (dlt e) in
              let* h := unwrap h in Ret (msin_info (msin h)))
    (filter (fun e => is_extended_header (header_type (header (dlt e)))) it).

(** main.rs:160-182 *)
Definition ts_mapping_word (m : target) (r : storage_entry * storage_entry) : outcome N :=
  let* d := ts_delta_word m r in Ret (d / 10000)%N.
(** main.rs:160-182. *)
Definition lifecycle_reducer_word (m : target) (fuel : nat) :=
  let chain := Adapter (MapA (ts_mapping_word m)) (Adapter (GroupBy ts_pred) NilAdapter fuel) fuel in
  ReducerOver
    (Fork (ReducerOver (Split N.compare (fun k => Ret k) (fun _ => (0, tt)) (CountWordG m)) chain fuel)
          (CountWordG m))
    NilAdapter fuel.
(** main.rs:160-182. *)
Definition lifecycle_splitit_word (m : target) (fuel : nat) (buf : bytes)
  : outcome (list (quad * (list (N * nat) * nat))) :=
  let* it := dltit_word m buf in
  run_reduce
    (Split quad_cmp (fun e => Ret (ecu (sheader e)))
       (fun _ => ((([], (tt, (GEmpty, tt))), (0, tt)), tt)) (lifecycle_reducer_word m fuel))
    [] (filter with_ts it).

(** main.rs:199-223 *)
Definition timestamp_reducer_word (m : target) (fuel : nat) :=
  let chain :=
    Adapter (MapA (secs_delta_word m))
      (Adapter (Merge pair_cmp (fun a b => Ret (merge_overlapping a b)) (fun r => Ret (period_key r)))
         (Adapter (GroupBy secs_pred) NilAdapter fuel) fuel) fuel in
  ReducerOver
    (Fork (ReducerOver (Split N.compare (fun k => Ret k) (fun _ => (0, tt)) (CountWordG m)) chain fuel)
          (CountWordG m))
    NilAdapter fuel.
(** main.rs:199-223. *)
Definition timestamp_splitit_word (m : target) (fuel : nat) (buf : bytes)
  : outcome (list (quad * (list (N * nat) * nat))) :=
  let* it := dltit_word m buf in
  run_reduce
    (Split quad_cmp (fun e => Ret (ecu (sheader e)))
       (fun _ => ((([], (tt, (([], None), (GEmpty, tt)))), (0, tt)), tt)) (timestamp_reducer_word m fuel))
    [] it.

(** main.rs:225-261 *)
Definition lifecycle_histogram_word (m : target) (buf : bytes) : outcome (list (N * nat)) :=
  let* it := dltit_word m buf in
  let* gs := groupby_iter ecu_ts_pred (filter with_ts it) in
  let* ds := mapM (ts_delta_word m) gs in
  histogram_word m N.compare (fun id => Ret (id / 10000)%N) ds.
(** main.rs:237-244. *)
Definition histogram_payload_word (m : target) (buf : bytes) : outcome (list (N * nat)) :=
  let* it := dltit_word m buf in
  let* ls := mapM (fun e => let* p := payload (dlt e) in
                            Ret (match p with Some s => length s | None => 0 end)) it in
  histogram_word m N.compare (fun id => Ret (N.of_nat id)) ls.
(** main.rs:246-253. *)
Definition histogram_message_word (m : target) (buf : bytes) : outcome (list (N * nat)) :=
  let* it := dltit_word m buf in
  histogram_word m N.compare (fun id => Ret (N.of_nat id)) (map storage_len it).
(** main.rs:257-261. *)
Definition histogram_hello_world_word (m : target) (find_at : bytes -> nat -> option (nat * nat)) (buf : bytes)
  : outcome (list (N * nat)) :=
  let* it := grep_collect_word m find_at buf in
  histogram_word m N.compare (fun off => Ret (off / idx_bucket_size)%N) (map fst it).

(** main.rs:263-292 *)
Definition long_enough_word (m : target) (r : storage_entry * storage_entry) : outcome bool :=
  let* d := ts_delta_word m r in Ret (min_time_dms <=? d)%N.
(** main.rs:263-275. *)
Definition lifecycle_iter_word (m : target) (buf : bytes) : outcome nat :=
  let* it := dltit_word m buf in
  let* gs := groupby_iter ts_pred (filter with_ts it) in
  let* r := filterM (long_enough_word m) gs in
  count_items m r.
(** main.rs:279-292. *)
Definition lifecycle_itertools_word (m : target) (buf : bytes) : outcome nat :=
  let* it := dltit_word m buf in
  let* ps := filterM (fun r => ts_pred (fst r) (snd r)) (tuple_windows (filter with_ts it)) in
  let* r := filterM (long_enough_word m) ps in
  count_items m r.

(** rayon's reductions with an operation that may panic. *)
Fixpoint reduce_word {A : Type} (ident : A) (op : A -> A -> outcome A) (t : rtree A) : outcome A :=
  match t with
  | RId => Ret ident
  | RLeaf a => Ret a
  | RNode l r => let* x := reduce_word ident op l in let* y := reduce_word ident op r in op x y
  end.
(** main.rs:16-38 *)
Definition multithreaded_word (m : target) (sched : scheduler) (num : nat) (f : bytes -> outcome nat)
  (buf : bytes) : outcome nat :=
  let* slices := partition_word DLT m buf (N.of_nat num) in
  let* rs := mapM f slices in
  reduce_word 0 (plus m) (sched nat rs).

(** main.rs:57-63 *)
Fixpoint hist_merge_word {K : Type} (m : target) (cmp : K -> K -> comparison) (acc next : list (K * nat))
  : outcome (list (K * nat)) :=
  match next with
  | [] => Ret acc
  | (k, v) :: next' =>
      let* s := plus m (match map_get cmp k acc with Some n => n | None => 0 end) v in
      hist_merge_word m cmp (map_insert cmp k s acc) next'
  end.
(** main.rs:40-64 *)
Definition par_continuous_timestamp_histogram_word (m : target) (sched : scheduler) (num : nat) (buf : bytes)
  : outcome (list (N * nat)) :=
  let* slices := partition_word DLT m buf (N.of_nat num) in
  let* rs := mapM (continuous_timestamp_histogram_word m) slices in
  reduce_word [] (hist_merge_word m N.compare) (sched _ rs).
(** main.rs:83-93 *)
Fixpoint split_merge_word (m : target) (acc next : list (quad * (list (N * nat) * nat)))
  : outcome (list (quad * (list (N * nat) * nat))) :=
  match next with
  | [] => Ret acc
  | (k, v) :: next' =>
      let e := match map_get quad_cmp k acc with Some x => x | None => ([], 0) end in
      let* h := hist_merge_word m N.compare (fst e) (fst v) in
      let* n := plus m (snd e) (snd v) in
      split_merge_word m (map_insert quad_cmp k (h, n) acc) next'
  end.
(** main.rs:66-94 *)
Definition par_timestamp_splitit_word (m : target) (fuel : nat) (sched : scheduler) (num : nat) (buf : bytes)
  : outcome (list (quad * (list (N * nat) * nat))) :=
  let* slices := partition_word DLT m buf (N.of_nat num) in
  let* rs := mapM (timestamp_splitit_word m fuel) slices in
  reduce_word [] (split_merge_word m) (sched _ rs).

(** main.rs:318, :342, :348: [k+1]. *)
Definition print_buckets_word (m : target) (h : list (N * nat)) : outcome (list line) :=
  mapM (fun kv => let* hi := add m (fst kv) 1 in Ret (LBucket (fst kv) hi (snd kv))) h.
(** main.rs:359-366, :369-376: [k*v] and [total_size += size]. *)
Fixpoint print_sizes_word (m : target) (h : list (N * nat)) (total : N) : outcome (list line) :=
  match h with
  | [] => Ret [LTotal (total / 1024)%N]
  | (k, v) :: h' =>
      let* size := times m k (N.of_nat v) in
      let* total := add m total size in
      let* ls := print_sizes_word m h' total in
      Ret (LSize k v (size / 1024)%N :: ls)
  end.
(** main.rs:391: [k*IDX_BUCKET_SIZE] and [(k+1)*IDX_BUCKET_SIZE]. *)
Definition print_offsets_word (m : target) (h : list (N * nat)) : outcome (list line) :=
  mapM (fun kv =>
    let* lo := times m (fst kv) idx_bucket_size in
    let* k1 := add m (fst kv) 1 in
    let* hi := times m k1 idx_bucket_size in
    Ret (LOffset (lo / 1000000) (hi / 1000000) (snd kv))%N) h.

(** The slices line of the parallel commands. *)
Definition slices_line_word (m : target) (M : machine) (buf : bytes) : outcome line :=
  let* l := partition_word DLT m buf (N.of_nat (cores M)) in Ret (LSlices (cores M) (length l)).

(** main.rs:314-422, one entry per [match] arm. *)
Definition run_command_word (m : target) (M : machine) (name : string) (buf : bytes) : outcome (list line) :=
  let par (f : bytes -> outcome nat) :=
    let* s := slices_line_word m M buf in
    let* r := multithreaded_word m (sched M) (cores M) f buf in
    Ret [s; LCount r] in
  let lifecycles := LHeading "Distribution of lifecycle durations:" in
  let durations := LHeading "Durations of periods where DLT storage header timestamps are continuous:" in
  if (name =? "histogram_lifecycles")%string then
    let* h := lifecycle_histogram_word m buf in
    let* ls := print_buckets_word m h in Ret (lifecycles :: ls)
  else if (name =? "split_lifecycles")%string then
    let* t := lifecycle_splitit_word m (finalize_fuel buf) buf in
    let* ls := print_ecus t in Ret (lifecycles :: ls)
  else if (name =? "split_timestamp")%string then
    let* t := timestamp_splitit_word m (finalize_fuel buf) buf in
    let* ls := print_ecus t in Ret (durations :: ls)
  else if (name =? "par_split_timestamp")%string then
    let* s := slices_line_word m M buf in
    let* t := par_timestamp_splitit_word m (finalize_fuel buf) (sched M) (cores M) buf in
    let* ls := print_ecus t in Ret (durations :: s :: ls)
  else if (name =? "histogram_timestamp")%string then
    let* h := continuous_timestamp_histogram_word m buf in
    let* ls := print_buckets_word m h in Ret (durations :: ls)
  else if (name =? "par_histogram_timestamp")%string then
    let* s := slices_line_word m M buf in
    let* h := par_continuous_timestamp_histogram_word m (sched M) (cores M) buf in
    let* ls := print_buckets_word m h in Ret (durations :: s :: ls)
  else if (name =? "histogram_message_type")%string then
    let* h := mstp_info_histogram_word m buf in
    Ret (LHeading "(verbose, message type): # dlt messages" :: map (fun kv => LType (fst kv) (snd kv)) h)
  else if (name =? "histogram_payload_size")%string then
    let* h := histogram_payload_word m buf in
    let* ls := print_sizes_word m h 0 in Ret (LHeading "Distribution of payload length:" :: ls)
  else if (name =? "histogram_message_size")%string then
    let* h := histogram_message_word m buf in
    let* ls := print_sizes_word m h 0 in Ret (LHeading "Distribution of DLT message length:" :: ls)
  else if (name =? "count")%string then
    let* r := count_word m buf in Ret [LCount r]
  else if (name =? "par_count")%string then par (count_word m)
  else if (name =? "histogram_hello_world")%string then
    let* h := histogram_hello_world_word m (find_at M) buf in
    let* ls := print_offsets_word m h in Ret (LHeading "Distribution of 'Hello World' matches:" :: ls)
  else if (name =? "count_hello_world")%string then
    let* r := count_hello_world_word m buf in Ret [LCount r]
  else if (name =? "count_hello_world_raw")%string then
    let* r := count_hello_world_raw_word m buf in Ret [LCount r]
  else if (name =? "count_hello_world_grepit")%string then
    let* r := count_hello_world_grepit_word m (find_at M) buf in Ret [LCount r]
  else if (name =? "par_count_hello_world")%string then par (count_hello_world_word m)
  else if (name =? "par_count_hello_world_raw")%string then par (count_hello_world_raw_word m)
  else if (name =? "par_count_hello_world_grepit")%string then par (count_hello_world_grepit_word m (find_at M))
  else if (name =? "par_iter")%string then
    (* the sum is not printed, but computed (main.rs:37) *)
    let* s := slices_line_word m M buf in
    let* slices := partition_word DLT m buf (N.of_nat (cores M)) in
    let* rs := mapM (lifecycle_iter_word m) slices in
    let* _ := reduce_word 0 (plus m) (sched M nat rs) in
    Ret (s :: map LLong rs)
  else if (name =? "iter")%string then
    let* r := lifecycle_iter_word m buf in Ret [LLong r]
  else if (name =? "itertools")%string then
    let* r := lifecycle_itertools_word m buf in Ret [LLong r]
  else Panic.

(** main.rs:296-423 *)
Definition ripdlt_main_word (m : target) (M : machine) (args : list string) : outcome (list line) :=
  match args with
  | method :: command :: name :: _ =>
      let* d := load M method name in
      let* ls := run_command_word m M command (as_slice d) in
      Ret (LArgs args :: ls)
  | _ => Ret [LUsage]
  end.
