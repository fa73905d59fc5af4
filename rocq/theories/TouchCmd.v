(** Model of ripdlt's commands (ripdlt/src/main.rs) on a memory mapped file of which some bytes cannot be read (as in
    TouchModel.v): the commands of MappedCmd.v with, for every read, the bytes that are read.

    A process that is killed by SIGBUS does nothing any more.  Here that is the outcome [Fuel]: the budgets of
    the commands are large enough (C134_readable and C123: there is no other way to run out of them). *)
From Verif Require Import Base DltModel MatchModel GenModel ToolsModel TraceModel MappedModel MappedCmd TouchModel TouchMore.

(** A killed process has no result: [Fuel]. *)
Definition alive {A} (p : peek A) : act A :=
  fun t => match p t with Back r => Ret r | Panics => Panic | Undecided => Fuel | Killed => Fuel end.

(** What is left open about the reads of one mapping (or of one part of it): see TouchModel.v and TouchMore.v; [hreach] is for memmem
    on "Hello World" what [reach] is for the marker. *)
Record reading := {
  reads : nat -> nat -> bool;
  reach : nat -> nat -> nat;
  rreach : nat -> nat -> nat;
  looks_at : nat -> nat -> nat -> bool;
  hreach : nat -> nat -> nat
}.

Section Commands.
  Variable W : world.
  Variable V : cells.
  Variable n : nat.
  Variable P : reading.
  Notation reads := (reads P).
  Notation reach := (reach P).

  (** One read of [k] bytes from [a] on. *)
  Definition peeks {A} (a k : nat) (f : nat -> A) : act A := alive (look reads a (a + k) f).
  (** [Finder::find] for "Hello World" in [&bytes[a..z]]: the eleven bytes it finds and [hreach]; if it finds nothing, everything. *)
  Definition hello_in (a z : nat) : act (option nat) :=
    fun t =>
      let r := sees_hello V t a z in
      let e := match r with Some p => if p + 11 <=? z then Nat.max (p + 11) (Nat.min z (hreach P t a)) else z | None => z end in
      alive (look reads a e (fun _ => r)) t.
  (** grepit.rs:66-74 *)
  Definition grepped (off : nat) : act (nat * option item) := alive (t_grep_next W n reads (rreach P) (looks_at P) (S n) off).

  (** [e.storage_header.secs.get()], a [u32] (dlt_v1.rs:13-24). *)
  Definition c_secs (v : item) : act N := see x <- peeks (fst v + 4) 4 (fun t => sees_secs V t (fst v + 4)); done (x mod 4294967296)%N.
  (** [e.storage_header.ecu] *)
  Definition c_ecu (v : item) : act quad := peeks (fst v + 12) 4 (fun t => sees_quad V t (fst v + 12)).
  (** The number at a place that an accessor has found. *)
  Definition c_number (p : act (option (nat * nat))) : act (option N) :=
    see r <- p;
    match r with
    | None => done None
    | Some p => see x <- peeks (fst p) 4 (fun t => sees_word V t (fst p)); done (Some (x mod 4294967296)%N)
    end.
  (** dlt_v1.rs:355-371. *)
  Definition c_time (v : item) : act (option N) := c_number (alive (t_timestamp W reads v)).
  (** dlt_v1.rs:346-353. *)
  Definition c_ecu_number (v : item) : act (option N) := c_number (alive (t_ecu_id W reads v)).
  (** [Option::unwrap] and [expect]. *)
  Definition c_unwrap {A} (o : option A) : act A := match o with Some a => done a | None => crash end.
  (** u32 subtraction in a debug build *)
  Definition c_sub (a b : N) : act N := if (b <=? a)%N then done (a - b)%N else crash.

  (** main.rs:105-108: [expect], then the first match in the payload. *)
  Definition c_hello_predicate (v : item) : act bool :=
    see p <- alive (t_payload W reads v);
    see p <- c_unwrap p;
    see r <- hello_in (fst p) (fst p + snd p);
    done (match r with Some _ => true | None => false end).
  (** main.rs:143, :202 *)
  Definition c_secs_pred (a b : item) : act bool := see sb <- c_secs b; see sa <- c_secs a; done (sa <=? sb)%N.
  (** main.rs:147, :203 *)
  Definition c_secs_delta (r : item * item) : act N := see s1 <- c_secs (snd r); see s0 <- c_secs (fst r); c_sub s1 s0.
  (** main.rs:163, :265, :281 *)
  Definition c_ts_pred (a b : item) : act bool := see tb <- c_time b; see ta <- c_time a; done (opt_geb tb ta).
  (** main.rs:227 *)
  Definition c_ecu_ts_pred (a b : item) : act bool :=
    see ea <- c_ecu_number a;
    see eb <- c_ecu_number b;
    if opt_eqb ea eb then c_ts_pred a b else done false.
  (** main.rs:164, :232, :270, :287 *)
  Definition c_ts_delta (r : item * item) : act N :=
    see o1 <- c_time (snd r);
    see t1 <- c_unwrap o1;
    see o0 <- c_time (fst r);
    see t0 <- c_unwrap o0;
    c_sub t1 t0.
  (** main.rs:229, :267, :283 and :155 *)
  Definition c_with_ts (v : item) : act bool := alive (t_flag W reads v 16).
  (** dlt_v1.rs:49-51. *)
  Definition c_with_ext (v : item) : act bool := alive (t_flag W reads v 1).
  (** dlt_v1.rs:218-233 [MessageType::info]: reads the byte three times. *)
  Definition c_info (a : nat) : act (bool * option msg_type) :=
    see b1 <- peeks a 1 (fun t => sees_byte V t a);
    see b2 <- peeks a 1 (fun t => sees_byte V t a);
    see b3 <- peeks a 1 (fun t => sees_byte V t a);
    let mtin := N.shiftr (N.land (bN b2) mask_message_type_info) 4 in
    done (is_verbose b1,
      match N.shiftr (N.land (bN b3) mask_message_type) 1 with
      | 0%N => option_map TypeLog (log_from_u8 mtin)
      | 1%N => option_map TypeAppTrace (trace_from_u8 mtin)
      | 2%N => option_map TypeNwTrace (nw_from_u8 mtin)
      | 3%N => option_map TypeControl (ctl_from_u8 mtin)
      | _ => None
      end).
  (** main.rs:156 *)
  Definition c_info_key (v : item) : act (bool * option msg_type) :=
    see p <- alive (t_extended_header W reads v); see p <- c_unwrap p; c_info (fst p).
  (** main.rs:185-197 [merge_overlapping_timestamps]; [&&] is lazy. *)
  Definition c_max (a b : item) : act item := see sa <- c_secs a; see sb <- c_secs b; done (if (sb <=? sa)%N then a else b).
  (** main.rs:185-197. *)
  Definition c_merge (a b : item * item) : act (option (item * item)) :=
    let overlaps a b :=           (* b.0 >= a.0 && b.0 <= a.1 *)
      see b0 <- c_secs (fst b);
      see a0 <- c_secs (fst a);
      if (a0 <=? b0)%N then
        see b0 <- c_secs (fst b);
        see a1 <- c_secs (snd a);
        done (b0 <=? a1)%N
      else done false in
    see first <- overlaps a b;
    if first then see m <- c_max (snd a) (snd b); done (Some (fst a, m))
    else
      (* a.0 >= b.0 && a.0 <= b.1 *)
      see second <- overlaps b a;
      if second then see m <- c_max (snd a) (snd b); done (Some (fst b, m))
      else done None.
  (** main.rs:205 *)
  Definition c_period_key (r : item * item) : act (N * N) := see s0 <- c_secs (fst r); see s1 <- c_secs (snd r); done (s0, s1).
  (** main.rs:6 *)
  Definition c_long_enough (r : item * item) : act bool := see d <- c_ts_delta r; done (min_time_dms <=? d)%N.

  (** * The commands.  dlt_v1.rs:444-446 [dltit]: where it stands, and the messages without their positions. *)
  Definition c_messages : nat -> act (nat * option item) := fun s => alive (t_fallback_next W n reads reach (S (S n)) s).
  Notation fuel := (S (S n)).
  Notation timed := (filter_next c_messages c_with_ts fuel).

  (** main.rs:97-102 *)
  Definition c_count : act nat := count_items c_messages fuel 0.
  (** main.rs:104-114 *)
  Definition c_count_hello_world : act nat := count_items (filter_next c_messages c_hello_predicate fuel) fuel 0.
  (** main.rs:116-119: [FindIter::next] searches from where the last match ended. *)
  Definition c_hello_next (a : nat) : act (nat * option nat) :=
    see r <- hello_in a n;
    match r with
    | Some p => if (a <=? p) && (p + 11 <=? n) then done (p + 11, Some p) else done (a, None)
    | None => done (a, None)
    end.
  (** main.rs:116-119. *)
  Definition c_count_hello_world_raw : act nat := count_items c_hello_next fuel 0.
  (** main.rs:121-124 *)
  Definition c_count_hello_world_grepit : act nat := count_items grepped fuel 0.
  (** main.rs:141-150 *)
  Definition c_continuous_timestamp_histogram : act (list (N * nat)) :=
    histogram_items (map_next (pull_next c_messages (GroupByE c_secs_pred) fuel 2) c_secs_delta) N.compare (fun id => done id) fuel (GEmpty, 0).
  (** main.rs:152-158 *)
  Definition c_mstp_info_histogram : act (list ((bool * option msg_type) * nat)) :=
    histogram_items (filter_next c_messages c_with_ext fuel) info_cmp c_info_key fuel 0.
  (** main.rs:160-182; [fin] is the budget of the [while] loops in [finalize]. *)
  Definition c_lifecycle_reducer (fin : nat) :=
    let chain := AdapterE (MapE (fun r => see d <- c_ts_delta r; done (d / 10000)%N)) (AdapterE (GroupByE c_ts_pred) NilE fin) fin in
    ReducerOverE
      (ForkE (fun x => pure x) (ReducerOverE (SplitE N.compare (fun k => pure k) (fun _ => pure (0, tt)) CountGE) chain fin) CountGE)
      NilE fin.
  (** main.rs:160-182. *)
  Definition c_lifecycle_splitit (fin : nat) : act (list (quad * (list (N * nat) * nat))) :=
    reduce_items timed (SplitE quad_cmp c_ecu (fun _ => pure ((([], (tt, (GEmpty, tt))), (0, tt)), tt)) (c_lifecycle_reducer fin)) fuel 0 [].
  (** main.rs:199-223 *)
  Definition c_timestamp_reducer (fin : nat) :=
    let chain := AdapterE (MapE c_secs_delta) (AdapterE (MergeE pair_cmp c_merge c_period_key) (AdapterE (GroupByE c_secs_pred) NilE fin) fin) fin in
    ReducerOverE
      (ForkE (fun x => pure x) (ReducerOverE (SplitE N.compare (fun k => pure k) (fun _ => pure (0, tt)) CountGE) chain fin) CountGE)
      NilE fin.
  (** main.rs:199-223. *)
  Definition c_timestamp_splitit (fin : nat) : act (list (quad * (list (N * nat) * nat))) :=
    reduce_items c_messages (SplitE quad_cmp c_ecu (fun _ => pure ((([], (tt, (([], None), (GEmpty, tt)))), (0, tt)), tt)) (c_timestamp_reducer fin)) fuel 0 [].
  (** main.rs:225-235 *)
  Definition c_lifecycle_histogram : act (list (N * nat)) :=
    histogram_items (map_next (pull_next timed (GroupByE c_ecu_ts_pred) fuel 2) c_ts_delta) N.compare (fun id => done (id / 10000)%N) fuel (GEmpty, 0).
  (** main.rs:237-244 *)
  Definition c_histogram_payload : act (list (N * nat)) :=
    histogram_items (map_next c_messages (fun v => see p <- alive (t_payload W reads v); done (match p with Some p => snd p | None => 0 end)))
      N.compare (fun id => done (N.of_nat id)) fuel 0.
  (** main.rs:246-253 *)
  Definition c_histogram_message : act (list (N * nat)) :=
    histogram_items (map_next c_messages (fun v => alive (t_len W reads v))) N.compare (fun id => done (N.of_nat id)) fuel 0.
  (** main.rs:256-261 *)
  Definition c_histogram_hello_world : act (list (N * nat)) :=
    histogram_items (map_next grepped (fun v => done (fst v))) N.compare (fun off => done (N.of_nat off / idx_bucket_size)%N) fuel 0.
  (** main.rs:263-275 *)
  Definition c_lifecycle_iter : act nat :=
    count_items (filter_next (pull_next timed (GroupByE c_ts_pred) fuel 2) c_long_enough fuel) fuel (GEmpty, 0).
  (** main.rs:279-292 *)
  Definition c_lifecycle_itertools : act nat :=
    count_items (filter_next (filter_next (windows_next timed) (fun r => c_ts_pred (fst r) (snd r)) fuel) c_long_enough fuel) fuel (None, 0).
End Commands.


(** main.rs:16-94: the parts (start, end) are worked on at the same time, each with answers and reads of its own, at
    positions within the part.  If one of the threads gets SIGBUS, the process is killed. *)
Section Parallel.
  Variable W : world.
  Variable n : nat.
  Variable P : reading.
  Variable Ws : nat * nat -> world * cells.
  Variable Ps : nat * nat -> reading.
  (** main.rs:20-37, 44-63 and 70-93: the slices, each in a thread of its own. *)
  Definition c_parts {A B} (num : nat) (f : world -> cells -> nat -> reading -> act A) (combine : list A -> B) : outcome B :=
    match alive (t_partition W n (reads P) (reach P) num) 0 with
    | Ret (parts, _) =>
        let one p := match f (fst (Ws p)) (snd (Ws p)) (snd p - fst p) (Ps p) 0 with
                     | Ret (r, _) => Ret r | Panic => Panic | Fuel => Fuel end in
        if existsb (fun p => match one p with Fuel => true | _ => false end) parts then Fuel
        else let* rs := mapM one parts in Ret (combine rs)
    | Panic => Panic
    | Fuel => Fuel
    end.
  (** main.rs:16-38 *)
  Definition c_multithreaded (sched : scheduler) (num : nat) (f : world -> cells -> nat -> reading -> act nat) : outcome nat :=
    c_parts num f (fun rs => reduce_tree 0 Nat.add (sched nat rs)).
  (** main.rs:40-64 *)
  Definition c_par_continuous_timestamp_histogram (sched : scheduler) (num : nat) : outcome (list (N * nat)) :=
    c_parts num c_continuous_timestamp_histogram (fun rs => reduce_tree [] (hist_merge N.compare) (sched _ rs)).
  (** main.rs:66-94 *)
  Definition c_par_timestamp_splitit (fin : nat) (sched : scheduler) (num : nat) : outcome (list (quad * (list (N * nat) * nat))) :=
    c_parts num (fun W V n P => c_timestamp_splitit W V n P fin) (fun rs => reduce_tree [] split_merge (sched _ rs)).
End Parallel.
