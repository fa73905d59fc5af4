(** Model of ripdlt's commands (ripdlt/src/main.rs) on a memory mapped file that other processes overwrite.

    ToolsModel.v has the commands on a sequence of messages that has been collected before.  Here they are as they
    run: the iterator (MappedModel.v), the standard library's and the library's adapters and the
    closures take turns, one message at a time, and closures read the mapping when they are called: a
    message is a place in the mapping, and asking it twice for its timestamp reads it twice.

    [usize] additions are unbounded (as in ToolsModel.v; C94); a subtraction that underflows panics (debug build). *)
From Verif Require Import Base DltModel MatchModel GenModel ToolsModel TraceModel MappedModel.

(** Further answers of a changing file; the first number counts the reads. *)
Record cells := {
  sees_secs : nat -> nat -> N;                 (* seconds field of the storage header, at this position *)
  sees_quad : nat -> nat -> quad;              (* four bytes *)
  sees_word : nat -> nat -> N;                 (* four bytes, most significant first *)
  sees_byte : nat -> nat -> byte;              (* one byte *)
  sees_hello : nat -> nat -> nat -> option nat (* memmem find of "Hello World" from here to there: absolute position *)
}.

(** * Iterators: state, and [next] *)
Section Iterators.
  Context {T A : Type}.
  Variable next : T -> act (T * option A).
  (** std [Filter::next]: asks for items until one is accepted.  Fuel for each call. *)
  Fixpoint filter_next (p : A -> act bool) (fuel : nat) (s : T) : act (T * option A) :=
    match fuel with
    | O => unknown
    | S f =>
        see (s', o) <- next s;
        match o with
        | None => done (s', None)
        | Some x => see r <- p x; if r then done (s', Some x) else filter_next p f s'
        end
    end.
  (** std [Map::next] *)
  Definition map_next {B} (f : A -> act B) (s : T) : act (T * option B) :=
    see (s', o) <- next s;
    match o with
    | None => done (s', None)
    | Some x => see y <- f x; done (s', Some y)
    end.
  (** itertools [TupleWindows::next] for pairs: the state has the last item. *)
  Definition windows_next (s : option A * T) : act ((option A * T) * option (A * A)) :=
    match fst s with
    | Some x =>
        see (s', o) <- next (snd s);
        match o with
        | None => done ((Some x, s'), None)
        | Some y => done ((Some y, s'), Some (x, y))
        end
    | None =>
        see (s', o) <- next (snd s);
        match o with
        | None => done ((None, s'), None)
        | Some x =>
            see (s'', o) <- next s';
            match o with
            | None => done ((None, s''), None)
            | Some y => done ((Some y, s''), Some (x, y))
            end
        end
    end.
  (** std [Iterator::count] *)
  Fixpoint count_items (fuel : nat) (s : T) : act nat :=
    match fuel with
    | O => unknown
    | S f =>
        see (s', o) <- next s;
        match o with
        | None => done 0
        | Some _ => see k <- count_items f s'; done (S k)
        end
    end.
  (** fromgenerator.rs:59-64, the loop of [split] and its end. *)
  Fixpoint reduce_items {R Acc} (r : ReduceE nat Acc A R) (fuel : nat) (s : T) (acc : Acc) : act R :=
    match fuel with
    | O => unknown
    | S f =>
        see (s', o) <- next s;
        match o with
        | None => efinal r acc
        | Some x => see acc' <- enext r acc x; reduce_items r f s' acc'
        end
    end.
  (** fromgenerator.rs:30-37 *)
  Fixpoint from_finalizeE {S Q} (a : AdaptE nat S A Q) (fuel : nat) (s : S) : act (S * option Q) :=
    match fuel with
    | O => unknown
    | Datatypes.S f =>
        see (s', out) <- efinalize a s;
        match out with
        | Break => done (s', None)
        | Continue (Some o) => done (s', Some o)
        | Continue None => from_finalizeE a f s'
        end
    end.
  (** fromgenerator.rs:20-38 [FromAdaptFn::next]. *)
  Fixpoint pull_next {S Q} (a : AdaptE nat S A Q) (fuel finalizing : nat) (st : S * T) : act ((S * T) * option Q) :=
    match fuel with
    | O => unknown
    | Datatypes.S f =>
        see (t', i) <- next (snd st);
        match i with
        | None => see (s', o) <- from_finalizeE a finalizing (fst st); done ((s', t'), o)
        | Some x =>
            see (s', r) <- eadapt a (fst st) x;
            match r with
            | Continue (Some o) => done ((s', t'), Some o)
            | Break => see (s'', o) <- from_finalizeE a finalizing s'; done ((s'', t'), o)
            | Continue None => pull_next a f finalizing (s', t')
            end
        end
    end.
  (** [iter.split(key, |_| Generator::count())]; [clone]s of numbers are free (TraceModel.v). *)
  Definition CountGE {I} : ReduceE nat (nat * unit) I nat := ReducerOverE CountE NilE 1.
  (** As [histogram] of ToolsModel.v (fromgenerator.rs:51-66). *)
  Definition histogram_items {K} (cmp : K -> K -> comparison) (key : A -> act K) (fuel : nat) (s : T) : act (list (K * nat)) :=
    reduce_items (SplitE cmp key (fun _ => pure (0, tt)) CountGE) fuel s [].
End Iterators.

(** * What the closures read *)
Section Commands.
  Variable W : world.
  Variable V : cells.
  Variable n : nat.

  (** [e.storage_header.secs.get()], a [u32] (dlt_v1.rs:13-24). *)
  Definition m_secs (v : item) : act N := see x <- ask (fun t => sees_secs V t (fst v + 4)); done (x mod 4294967296)%N.
  (** [e.storage_header.ecu] *)
  Definition m_ecu (v : item) : act quad := ask (fun t => sees_quad V t (fst v + 12)).
  (** The number at a place that an accessor has found. *)
  Definition m_number (p : act (option (nat * nat))) : act (option N) :=
    see r <- p;
    match r with
    | None => done None
    | Some p => see x <- ask (fun t => sees_word V t (fst p)); done (Some (x mod 4294967296)%N)
    end.
  (** dlt_v1.rs:355-371. *)
  Definition m_time (v : item) : act (option N) := m_number (m_timestamp W v).
  (** dlt_v1.rs:346-353. *)
  Definition m_ecu_number (v : item) : act (option N) := m_number (m_ecu_id W v).
  (** [Option::unwrap] and [expect]. *)
  Definition m_unwrap {A} (o : option A) : act A := match o with Some a => done a | None => crash end.
  (** u32 subtraction in a debug build *)
  Definition m_sub (a b : N) : act N := if (b <=? a)%N then done (a - b)%N else crash.

  (** main.rs:105-108: [expect], then the first match in the payload. *)
  Definition m_hello_predicate (v : item) : act bool :=
    see p <- m_payload W v;
    see p <- m_unwrap p;
    see r <- ask (fun t => sees_hello V t (fst p) (fst p + snd p));
    done (match r with Some _ => true | None => false end).
  (** main.rs:143, :202 *)
  Definition m_secs_pred (a b : item) : act bool := see sb <- m_secs b; see sa <- m_secs a; done (sa <=? sb)%N.
  (** main.rs:147, :203 *)
  Definition m_secs_delta (r : item * item) : act N := see s1 <- m_secs (snd r); see s0 <- m_secs (fst r); m_sub s1 s0.
  (** main.rs:163, :265, :281 *)
  Definition m_ts_pred (a b : item) : act bool := see tb <- m_time b; see ta <- m_time a; done (opt_geb tb ta).
  (** main.rs:227 *)
  Definition m_ecu_ts_pred (a b : item) : act bool :=
    see ea <- m_ecu_number a;
    see eb <- m_ecu_number b;
    if opt_eqb ea eb then m_ts_pred a b else done false.
  (** main.rs:164, :232, :270, :287 *)
  Definition m_ts_delta (r : item * item) : act N :=
    see o1 <- m_time (snd r);
    see t1 <- m_unwrap o1;
    see o0 <- m_time (fst r);
    see t0 <- m_unwrap o0;
    m_sub t1 t0.
  (** main.rs:229, :267, :283 and :155 *)
  Definition m_with_ts (v : item) : act bool := m_flag W v 16.
  (** dlt_v1.rs:49-51. *)
  Definition m_with_ext (v : item) : act bool := m_flag W v 1.
  (** dlt_v1.rs:218-233 [MessageType::info]: reads the byte three times. *)
  Definition m_info (a : nat) : act (bool * option msg_type) :=
    see b1 <- ask (fun t => sees_byte V t a);
    see b2 <- ask (fun t => sees_byte V t a);
    see b3 <- ask (fun t => sees_byte V t a);
    let mtin := N.shiftr (N.land (bN b2) mask_message_type_info) 4 in
    done (is_verbose b1,
      match N.shiftr (N.land (bN b3) mask_message_type) 1 with
      | 0%N => option_map TypeLog (log_from_u8 mtin)
      | 1%N => option_map TypeAppTrace (trace_from_u8 mtin)
      | 2%N => option_map TypeNwTrace (nw_from_u8 mtin)
      | 3%N => option_map TypeControl (ctl_from_u8 mtin)
      | _ => None
      end).
  (** main.rs:156 *)
  Definition m_info_key (v : item) : act (bool * option msg_type) :=
    see p <- m_extended_header W v; see p <- m_unwrap p; m_info (fst p).
  (** main.rs:185-197 [merge_overlapping_timestamps]; [&&] is lazy. *)
  Definition m_max (a b : item) : act item := see sa <- m_secs a; see sb <- m_secs b; done (if (sb <=? sa)%N then a else b).
  (** main.rs:185-197. *)
  Definition m_merge (a b : item * item) : act (option (item * item)) :=
    let overlaps a b :=           (* b.0 >= a.0 && b.0 <= a.1 *)
      see b0 <- m_secs (fst b);
      see a0 <- m_secs (fst a);
      if (a0 <=? b0)%N then
        see b0 <- m_secs (fst b);
        see a1 <- m_secs (snd a);
        done (b0 <=? a1)%N
      else done false in
    see first <- overlaps a b;
    if first then see m <- m_max (snd a) (snd b); done (Some (fst a, m))
    else
      (* a.0 >= b.0 && a.0 <= b.1 *)
      see second <- overlaps b a;
      if second then see m <- m_max (snd a) (snd b); done (Some (fst b, m))
      else done None.
  (** main.rs:205 *)
  Definition m_period_key (r : item * item) : act (N * N) := see s0 <- m_secs (fst r); see s1 <- m_secs (snd r); done (s0, s1).
  (** main.rs:6 *)
  Definition m_long_enough (r : item * item) : act bool := see d <- m_ts_delta r; done (min_time_dms <=? d)%N.

  (** * The commands.  dlt_v1.rs:444-446 [dltit]: where it stands, and the messages without their positions. *)
  Definition m_messages : nat -> act (nat * option item) := m_fallback_next W n (S (S n)).
  Notation fuel := (S (S n)).
  Notation timed := (filter_next m_messages m_with_ts fuel).

  (** main.rs:97-102 *)
  Definition m_count : act nat := count_items m_messages fuel 0.
  (** main.rs:104-114 *)
  Definition m_count_hello_world : act nat := count_items (filter_next m_messages m_hello_predicate fuel) fuel 0.
  (** main.rs:116-119: [FindIter::next] searches from where the last match ended. *)
  Definition hello_next (a : nat) : act (nat * option nat) :=
    see r <- ask (fun t => sees_hello V t a n);
    match r with
    | Some p => if (a <=? p) && (p + 11 <=? n) then done (p + 11, Some p) else done (a, None)
    | None => done (a, None)
    end.
  (** main.rs:116-119. *)
  Definition m_count_hello_world_raw : act nat := count_items hello_next fuel 0.
  (** main.rs:121-124 *)
  Definition m_count_hello_world_grepit : act nat := count_items (m_grep_next W n (S n)) fuel 0.
  (** main.rs:141-150 *)
  Definition m_continuous_timestamp_histogram : act (list (N * nat)) :=
    histogram_items (map_next (pull_next m_messages (GroupByE m_secs_pred) fuel 2) m_secs_delta) N.compare (fun id => done id) fuel (GEmpty, 0).
  (** main.rs:152-158 *)
  Definition m_mstp_info_histogram : act (list ((bool * option msg_type) * nat)) :=
    histogram_items (filter_next m_messages m_with_ext fuel) info_cmp m_info_key fuel 0.
  (** main.rs:160-182; [fin] is the budget of the [while] loops in [finalize]. *)
  Definition m_lifecycle_reducer (fin : nat) :=
    let chain := AdapterE (MapE (fun r => see d <- m_ts_delta r; done (d / 10000)%N)) (AdapterE (GroupByE m_ts_pred) NilE fin) fin in
    ReducerOverE
      (ForkE (fun x => pure x) (ReducerOverE (SplitE N.compare (fun k => pure k) (fun _ => pure (0, tt)) CountGE) chain fin) CountGE)
      NilE fin.
  (** main.rs:160-182. *)
  Definition m_lifecycle_splitit (fin : nat) : act (list (quad * (list (N * nat) * nat))) :=
    reduce_items timed (SplitE quad_cmp m_ecu (fun _ => pure ((([], (tt, (GEmpty, tt))), (0, tt)), tt)) (m_lifecycle_reducer fin)) fuel 0 [].
  (** main.rs:199-223 *)
  Definition m_timestamp_reducer (fin : nat) :=
    let chain := AdapterE (MapE m_secs_delta) (AdapterE (MergeE pair_cmp m_merge m_period_key) (AdapterE (GroupByE m_secs_pred) NilE fin) fin) fin in
    ReducerOverE
      (ForkE (fun x => pure x) (ReducerOverE (SplitE N.compare (fun k => pure k) (fun _ => pure (0, tt)) CountGE) chain fin) CountGE)
      NilE fin.
  (** main.rs:199-223. *)
  Definition m_timestamp_splitit (fin : nat) : act (list (quad * (list (N * nat) * nat))) :=
    reduce_items m_messages (SplitE quad_cmp m_ecu (fun _ => pure ((([], (tt, (([], None), (GEmpty, tt)))), (0, tt)), tt)) (m_timestamp_reducer fin)) fuel 0 [].
  (** main.rs:225-235 *)
  Definition m_lifecycle_histogram : act (list (N * nat)) :=
    histogram_items (map_next (pull_next timed (GroupByE m_ecu_ts_pred) fuel 2) m_ts_delta) N.compare (fun id => done (id / 10000)%N) fuel (GEmpty, 0).
  (** main.rs:237-244 *)
  Definition m_histogram_payload : act (list (N * nat)) :=
    histogram_items (map_next m_messages (fun v => see p <- m_payload W v; done (match p with Some p => snd p | None => 0 end)))
      N.compare (fun id => done (N.of_nat id)) fuel 0.
  (** main.rs:246-253 *)
  Definition m_histogram_message : act (list (N * nat)) :=
    histogram_items (map_next m_messages (m_len W)) N.compare (fun id => done (N.of_nat id)) fuel 0.
  (** main.rs:256-261 *)
  Definition m_histogram_hello_world : act (list (N * nat)) :=
    histogram_items (map_next (m_grep_next W n (S n)) (fun v => done (fst v))) N.compare (fun off => done (N.of_nat off / idx_bucket_size)%N) fuel 0.
  (** main.rs:263-275 *)
  Definition m_lifecycle_iter : act nat :=
    count_items (filter_next (pull_next timed (GroupByE m_ts_pred) fuel 2) m_long_enough fuel) fuel (GEmpty, 0).
  (** main.rs:279-292 *)
  Definition m_lifecycle_itertools : act nat :=
    count_items (filter_next (filter_next (windows_next timed) (fun r => m_ts_pred (fst r) (snd r)) fuel) m_long_enough fuel) fuel (None, 0).
End Commands.

(** main.rs:16-94: the parts (start, end) are worked on at the same time; each thread has its own reads of its
    part, so each part has answers of its own ([Ws]), at positions within the part.  The mapped results are combined as
    in ToolsModel.v. *)
Section Parallel.
  Variable W : world.
  Variable n : nat.
  Variable Ws : nat * nat -> world * cells.
  (** main.rs:20-37, 44-63 and 70-93: the slices, each in a thread of its own. *)
  Definition m_parts {A B} (num : nat) (f : world -> cells -> nat -> act A) (combine : list A -> B) : outcome B :=
    match m_partition W n num 0 with
    | Ret (parts, _) =>
        let* rs := mapM (fun p => match f (fst (Ws p)) (snd (Ws p)) (snd p - fst p) 0 with
                                  | Ret (r, _) => Ret r | Panic => Panic | Fuel => Fuel end) parts in
        Ret (combine rs)
    | Panic => Panic
    | Fuel => Fuel
    end.
  (** main.rs:16-38 *)
  Definition m_multithreaded (sched : scheduler) (num : nat) (f : world -> cells -> nat -> act nat) : outcome nat :=
    m_parts num f (fun rs => reduce_tree 0 Nat.add (sched nat rs)).
  (** main.rs:40-64 *)
  Definition m_par_continuous_timestamp_histogram (sched : scheduler) (num : nat) : outcome (list (N * nat)) :=
    m_parts num m_continuous_timestamp_histogram (fun rs => reduce_tree [] (hist_merge N.compare) (sched _ rs)).
  (** main.rs:66-94 *)
  Definition m_par_timestamp_splitit (fin : nat) (sched : scheduler) (num : nat) : outcome (list (quad * (list (N * nat) * nat))) :=
    m_parts num (fun W V n => m_timestamp_splitit W V n fin) (fun rs => reduce_tree [] split_merge (sched _ rs)).
End Parallel.
