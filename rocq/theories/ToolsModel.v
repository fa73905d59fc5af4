(** Model of ripdlt/src/main.rs, dd_dlt/src/main.rs and rapiddlt/src/dltbuffer.rs. *)
From Verif Require Import Base DltModel MatchModel GenModel.

(** * std iterator adapters over an already collected sequence.
      (Simplification: Rust interleaves the iterator and the closures; since the DLT
      iterators neither panic nor diverge, proved in this development, only the order of
      evaluation differs, which is not observable.) *)
Fixpoint mapM {A B : Type} (f : A -> outcome B) (l : list A) : outcome (list B) :=
  match l with
  | [] => Ret []
  | x :: l' => let* y := f x in let* ys := mapM f l' in Ret (y :: ys)
  end.
(** [Iterator::filter] with a closure that can panic. *)
Fixpoint filterM {A : Type} (f : A -> outcome bool) (l : list A) : outcome (list A) :=
  match l with
  | [] => Ret []
  | x :: l' =>
      let* y := f x in
      let* ys := filterM f l' in
      Ret (if y then x :: ys else ys)
  end.

(** u32 subtraction; a debug build panics on underflow (a release build would wrap:
    see ToolsWord.v, and C94 for ripdlt). *)
Definition u32_sub (a b : N) : outcome N := if (b <=? a)%N then Ret (a - b)%N else Panic.

(** Rust's derived [Ord] on the key types used by ripdlt. *)
Definition quad_cmp (p q : quad) : comparison :=
  match p, q with
  | Quad a b c d, Quad a' b' c' d' =>
      match N.compare (bN a) (bN a') with
      | Eq => match N.compare (bN b) (bN b') with
              | Eq => match N.compare (bN c) (bN c') with
                      | Eq => N.compare (bN d) (bN d')
                      | r => r end
              | r => r end
      | r => r end
  end.
(** Lexicographic order of discriminant and payload, for [msg_type_code]. *)
Definition pair_cmp (p q : N * N) : comparison :=
  match N.compare (fst p) (fst q) with Eq => N.compare (snd p) (snd q) | r => r end.
(** dlt_v1.rs:147-155 derived [Ord]: discriminant, then payload. *)
Definition msg_type_code (t : msg_type) : N * N :=
  match t with
  | TypeLog i => (0, log_code i) | TypeAppTrace i => (1, trace_code i)
  | TypeNwTrace i => (2, nw_code i) | TypeControl i => (3, ctl_code i)
  end%N.
(** dlt_v1.rs:231 [info]: the order of [(bool, Option<DltMessageType>)], the keys of main.rs:152. *)
Definition info_cmp (p q : bool * option msg_type) : comparison :=
  match fst p, fst q with
  | false, true => Lt
  | true, false => Gt
  | _, _ =>
      match snd p, snd q with
      | None, None => Eq
      | None, Some _ => Lt
      | Some _, None => Gt
      | Some t, Some u => pair_cmp (msg_type_code t) (msg_type_code u)
      end
  end.

(** [Option<u32>]'s [>=]: [None] is least. *)
Definition opt_geb (a b : option N) : bool :=
  match a, b with
  | _, None => true
  | None, Some _ => false
  | Some x, Some y => (y <=? x)%N
  end.
(** [Option<u32>]'s [==]. *)
Definition opt_eqb (a b : option N) : bool :=
  match a, b with
  | None, None => true
  | Some x, Some y => (x =? y)%N
  | _, _ => false
  end.

(** main.rs:165 and others: [header_type.is_with_timestamp()]. *)
Definition with_ts (e : storage_entry) : bool :=
  is_with_timestamp (header_type (header (dlt e))).
(** [storage_header.secs.get()]. *)
Definition esecs (e : storage_entry) : N := secs (sheader e).

(** ripdlt main.rs:163, :265, :281 predicate on timestamps. *)
Definition ts_pred (a b : storage_entry) : outcome bool :=
  let* tb := timestamp (dlt b) in
  let* ta := timestamp (dlt a) in
  Ret (opt_geb tb ta).
(** ripdlt main.rs:227 predicate: same ECU id and timestamps ascending ([&&] is lazy). *)
Definition ecu_ts_pred (a b : storage_entry) : outcome bool :=
  let* ea := ecu_id (dlt a) in
  let* eb := ecu_id (dlt b) in
  if opt_eqb ea eb then ts_pred a b else Ret false.
(** ripdlt main.rs:143, :202 predicate on storage header seconds. *)
Definition secs_pred (a b : storage_entry) : outcome bool := Ret (esecs a <=? esecs b)%N.

(** [r.1.dlt.timestamp().unwrap() - r.0.dlt.timestamp().unwrap()], main.rs:164,232,270,287. *)
Definition ts_delta (r : storage_entry * storage_entry) : outcome N :=
  let* o1 := timestamp (dlt (snd r)) in
  let* t1 := unwrap o1 in
  let* o0 := timestamp (dlt (fst r)) in
  let* t0 := unwrap o0 in
  u32_sub t1 t0.
(** main.rs:147, :203. *)
Definition secs_delta (r : storage_entry * storage_entry) : outcome N :=
  u32_sub (esecs (snd r)) (esecs (fst r)).

(** [iter.split(key, |_| Generator::count())]: fromgenerator.rs:51-65 with a counting
    reducer (generator.rs:32-35: [Reducer<Fold, NilAdapter>]). *)
Definition CountG {I : Type} : Reduce (nat * unit) I nat := ReducerOver Count NilAdapter 1.
(** fromgenerator.rs:51 [split], as used for histograms in main.rs. *)
Definition histogram {I K : Type} (cmp : K -> K -> comparison) (key : I -> outcome K)
  (xs : list I) : outcome (list (K * nat)) :=
  run_reduce (Split cmp key (fun _ => (0, tt)) CountG) [] xs.

(** [iter.groupby(pred)]: fromgenerator.rs:44-49. *)
Definition groupby_iter (pred : storage_entry -> storage_entry -> outcome bool)
  (xs : list storage_entry) : outcome (list (storage_entry * storage_entry)) :=
  from_adapt (GroupBy pred) 2 (S (length xs) + 1) GEmpty xs.

(** * ripdlt commands.  [buf] is the memory-mapped file or a partition of it. *)

(** main.rs:97-102 *)
Definition count (buf : bytes) : outcome nat :=
  let* it := dltit buf in Ret (length it).

(** main.rs:105 and 117. *)
Definition hello_world : bytes :=    (* "Hello World" *)
  [x48; x65; x6c; x6c; x6f; x20; x57; x6f; x72; x6c; x64].

(** main.rs:104-114; [find_iter(..).next().is_some()] *)
Definition hello_predicate (e : storage_entry) : outcome bool :=
  let* p := payload (dlt e) in
  let* p := unwrap p in
  Ret (match find_iter hello_world p with [] => false | _ => true end).
(** main.rs:104-114. *)
Definition count_hello_world (buf : bytes) : outcome nat :=
  let* it := dltit buf in
  let* r := filterM hello_predicate it in
  Ret (length r).

(** main.rs:116-119 *)
Definition count_hello_world_raw (buf : bytes) : outcome nat :=
  Ret (length (find_iter hello_world buf)).

(** main.rs:121-124; the regex "H.* World" is the oracle [find_at].
    Fuel: [S |buf|] per search and for the whole iteration. *)
Definition grep_collect (find_at : bytes -> nat -> option (nat * nat)) (buf : bytes)
  : outcome (list (nat * storage_entry)) :=
  collect (grep_next DLT find_at (S (length buf)) buf) (S (length buf)) 0.
(** main.rs:121-124. *)
Definition count_hello_world_grepit (find_at : bytes -> nat -> option (nat * nat))
  (buf : bytes) : outcome nat :=
  let* it := grep_collect find_at buf in Ret (length it).

(** main.rs:141-150 *)
Definition continuous_timestamp_histogram (buf : bytes) : outcome (list (N * nat)) :=
  let* it := dltit buf in
  let* gs := groupby_iter secs_pred it in
  let* ds := mapM secs_delta gs in
  histogram N.compare (fun id => Ret id) ds.

(** main.rs:152-158 *)
Definition mstp_info_histogram (buf : bytes)
  : outcome (list ((bool * option msg_type) * nat)) :=
  let* it := dltit buf in
  histogram info_cmp
    (fun e => let* h := extended_header (dlt e) in
              let* h := unwrap h in Ret (msin_info (msin h)))
    (filter (fun e => is_extended_header (header_type (header (dlt e)))) it).

(** main.rs:164 mapping. *)
Definition ts_mapping (r : storage_entry * storage_entry) : outcome N :=
  let* d := ts_delta r in Ret (d / 10000)%N.

(** main.rs:160-182.  [fuel] is the budget of the [while] loops in [finalize]. *)
Definition lifecycle_reducer (fuel : nat) :=
  let chain := Adapter (MapA ts_mapping) (Adapter (GroupBy ts_pred) NilAdapter fuel) fuel in
  ReducerOver
    (Fork (ReducerOver (Split N.compare (fun k => Ret k) (fun _ => (0, tt)) CountG) chain fuel)
          CountG)
    NilAdapter fuel.
(** main.rs:160-182. *)
Definition lifecycle_splitit (fuel : nat) (buf : bytes)
  : outcome (list (quad * (list (N * nat) * nat))) :=
  let* it := dltit buf in
  run_reduce
    (Split quad_cmp (fun e => Ret (ecu (sheader e)))
       (fun _ => ((([], (tt, (GEmpty, tt))), (0, tt)), tt)) (lifecycle_reducer fuel))
    [] (filter with_ts it).

(** main.rs:185-197 [merge_overlapping_timestamps]. *)
Definition period : Type := (storage_entry * storage_entry)%type.
(** main.rs:185-197: the later of two ends. *)
Definition max_secs (a b : storage_entry) : storage_entry :=
  if (esecs b <=? esecs a)%N then a else b.
(** main.rs:185-197. *)
Definition merge_overlapping (a b : period) : option period :=
  if ((esecs (fst a) <=? esecs (fst b)) && (esecs (fst b) <=? esecs (snd a)))%N then
    Some (fst a, max_secs (snd a) (snd b))
  else if ((esecs (fst b) <=? esecs (fst a)) && (esecs (fst a) <=? esecs (snd b)))%N then
    Some (fst b, max_secs (snd a) (snd b))
  else None.
(** main.rs:205 [keyfn]. *)
Definition period_key (r : period) : N * N := (esecs (fst r), esecs (snd r)).

(** main.rs:199-223 *)
Definition timestamp_reducer (fuel : nat) :=
  let chain :=
    Adapter (MapA secs_delta)
      (Adapter (Merge pair_cmp (fun a b => Ret (merge_overlapping a b)) (fun r => Ret (period_key r)))
         (Adapter (GroupBy secs_pred) NilAdapter fuel) fuel) fuel in
  ReducerOver
    (Fork (ReducerOver (Split N.compare (fun k => Ret k) (fun _ => (0, tt)) CountG) chain fuel)
          CountG)
    NilAdapter fuel.
(** main.rs:199-223. *)
Definition timestamp_splitit (fuel : nat) (buf : bytes)
  : outcome (list (quad * (list (N * nat) * nat))) :=
  let* it := dltit buf in
  run_reduce
    (Split quad_cmp (fun e => Ret (ecu (sheader e)))
       (fun _ => ((([], (tt, (([], None), (GEmpty, tt)))), (0, tt)), tt)) (timestamp_reducer fuel))
    [] it.

(** main.rs:225-235 *)
Definition lifecycle_histogram (buf : bytes) : outcome (list (N * nat)) :=
  let* it := dltit buf in
  let* gs := groupby_iter ecu_ts_pred (filter with_ts it) in
  let* ds := mapM ts_delta gs in
  histogram N.compare (fun id => Ret (id / 10000)%N) ds.

(** main.rs:237-244 *)
Definition histogram_payload (buf : bytes) : outcome (list (N * nat)) :=
  let* it := dltit buf in
  let* ls := mapM (fun e => let* p := payload (dlt e) in
                            Ret (match p with Some s => length s | None => 0 end)) it in
  histogram N.compare (fun id => Ret (N.of_nat id)) ls.

(** main.rs:246-253 *)
Definition histogram_message (buf : bytes) : outcome (list (N * nat)) :=
  let* it := dltit buf in
  histogram N.compare (fun id => Ret (N.of_nat id)) (map storage_len it).

(** main.rs:256-261 *)
Definition idx_bucket_size : N := 100000000.
(** main.rs:257-261. *)
Definition histogram_hello_world (find_at : bytes -> nat -> option (nat * nat)) (buf : bytes)
  : outcome (list (N * nat)) :=
  let* it := grep_collect find_at buf in
  histogram N.compare (fun off => Ret (N.of_nat off / idx_bucket_size)%N) (map fst it).

(** main.rs:6 *)
Definition min_time_dms : N := 18000000.
(** main.rs:270 and 287: the last [filter]. *)
Definition long_enough (r : storage_entry * storage_entry) : outcome bool :=
  let* d := ts_delta r in Ret (min_time_dms <=? d)%N.
(** main.rs:263-275 *)
Definition lifecycle_iter (buf : bytes) : outcome nat :=
  let* it := dltit buf in
  let* gs := groupby_iter ts_pred (filter with_ts it) in
  let* r := filterM long_enough gs in
  Ret (length r).

(** itertools [tuple_windows] for pairs. *)
Fixpoint tuple_windows {A : Type} (l : list A) : list (A * A) :=
  match l with
  | x :: ((y :: _) as l') => (x, y) :: tuple_windows l'
  | _ => []
  end.
(** main.rs:279-292 *)
Definition lifecycle_itertools (buf : bytes) : outcome nat :=
  let* it := dltit buf in
  let* ps := filterM (fun r => ts_pred (fst r) (snd r)) (tuple_windows (filter with_ts it)) in
  let* r := filterM long_enough ps in
  Ret (length r).

(** * rayon: [into_par_iter().map(f).reduce(id, op)] evaluates some binary tree whose
      leaves, in order, are the mapped items, with identities inserted anywhere.  The
      scheduler's choice is the tree. *)
Inductive rtree (A : Type) : Type :=
| RId
| RLeaf (a : A)
| RNode (l r : rtree A).
Arguments RId {A}.
Arguments RLeaf {A} a.
Arguments RNode {A} l r.
(** rayon [reduce]: the value of such a tree. *)
Fixpoint reduce_tree {A : Type} (ident : A) (op : A -> A -> A) (t : rtree A) : A :=
  match t with
  | RId => ident
  | RLeaf a => a
  | RNode l r => op (reduce_tree ident op l) (reduce_tree ident op r)
  end.
(** The mapped items in such a tree, in order. *)
Fixpoint leaves {A : Type} (t : rtree A) : list A :=
  match t with
  | RId => []
  | RLeaf a => [a]
  | RNode l r => leaves l ++ leaves r
  end.

(** A scheduler turns the list of mapped items into such a tree. *)
Definition scheduler : Type := forall A : Type, list A -> rtree A.

(** main.rs:16-38 [multithreaded]; [num] is [available_parallelism()]. *)
Definition multithreaded (sched : scheduler) (num : nat) (f : bytes -> outcome nat)
  (buf : bytes) : outcome nat :=
  let* slices := partition_from DLT buf num in
  let* rs := mapM f slices in
  Ret (reduce_tree 0 Nat.add (sched nat rs)).

(** main.rs:57-63 merging of histograms. *)
Definition hist_merge {K : Type} (cmp : K -> K -> comparison) (acc next : list (K * nat))
  : list (K * nat) :=
  fold_left
    (fun acc kv =>
       let e := match map_get cmp (fst kv) acc with Some n => n | None => 0 end in
       map_insert cmp (fst kv) (e + snd kv) acc)
    next acc.

(** main.rs:40-64 *)
Definition par_continuous_timestamp_histogram (sched : scheduler) (num : nat) (buf : bytes)
  : outcome (list (N * nat)) :=
  let* slices := partition_from DLT buf num in
  let* rs := mapM continuous_timestamp_histogram slices in
  Ret (reduce_tree [] (hist_merge N.compare) (sched _ rs)).

(** main.rs:83-93 merging of per-ECU histograms. *)
Definition split_merge (acc next : list (quad * (list (N * nat) * nat)))
  : list (quad * (list (N * nat) * nat)) :=
  fold_left
    (fun acc kv =>
       let e := match map_get quad_cmp (fst kv) acc with Some x => x | None => ([], 0) end in
       map_insert quad_cmp (fst kv)
         (hist_merge N.compare (fst e) (fst (snd kv)), snd e + snd (snd kv)) acc)
    next acc.

(** main.rs:66-94 *)
Definition par_timestamp_splitit (fuel : nat) (sched : scheduler) (num : nat) (buf : bytes)
  : outcome (list (quad * (list (N * nat) * nat))) :=
  let* slices := partition_from DLT buf num in
  let* rs := mapM (timestamp_splitit fuel) slices in
  Ret (reduce_tree [] split_merge (sched _ rs)).

(** main.rs:358-367, :368-377: the printed total, sum of k*v. *)
Definition hist_total (h : list (N * nat)) : N :=
  fold_left (fun t kv => (t + fst kv * N.of_nat (snd kv))%N) h 0%N.

(** * rapiddlt/src/dltbuffer.rs *)

(** What the operating system answers for a path. [file_read_err = Some n]: reading
    fails after [n] bytes. *)
Record file := {
  file_content : bytes;
  file_open_err : bool;
  file_map_err : bool;
  file_read_err : option nat
}.
(** dltbuffer.rs:5-8 *)
Inductive dlt_buffer := BufMmap (b : bytes) | BufRead (b : bytes).
(** io::Result *)
Inductive io_result (A : Type) := IoOk (a : A) | IoErr.
Arguments IoOk {A} a.
Arguments IoErr {A}.

(** dltbuffer.rs:10-14; memmap 0.7 refuses to map an empty file. *)
Definition mmap_file (f : file) : io_result dlt_buffer :=
  if file_open_err f then IoErr
  else if file_map_err f || (length (file_content f) =? 0) then IoErr
  else IoOk (BufMmap (file_content f)).
(** dltbuffer.rs:15-21; the result of [read_to_end] is discarded ([let _ =]). *)
Definition read_file (f : file) : io_result dlt_buffer :=
  if file_open_err f then IoErr
  else IoOk (BufRead (match file_read_err f with
                      | None => file_content f
                      | Some n => firstn n (file_content f)
                      end)).
(** dltbuffer.rs:28-33 *)
Definition as_slice (d : dlt_buffer) : bytes :=
  match d with BufMmap b => b | BufRead b => b end.
(** dltbuffer.rs:22-27 *)
Definition buffer_len (d : dlt_buffer) : nat :=
  match d with BufMmap b => length b | BufRead b => length b end.
(** dltbuffer.rs:38-41 *)
Definition buffer_partition (d : dlt_buffer) (num : nat) : outcome (list bytes) :=
  partition_from DLT (as_slice d) num.
