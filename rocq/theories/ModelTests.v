(** The unit tests of the repository, run on the model (a sanity check of the model, not part of any
    proof).  Tests that need the generated multi-gigabyte files are left out. *)
From Verif Require Import Base DltModel MatchModel GenModel ToolsModel TestModel Spec GrepFacts.

Definition of_numbers (l : list N) : bytes := map u8 l.

(** ** rapiddlt/src/dlt_v1.rs:448-633 *)
(** :458-462 *)
Example t_storage_header : storage_header_from_prefix (of_numbers [68; 76; 84;  1;  1;  0;  0;  0;  0;  0;  0;  0; 1; 99; 17; 49]%N) <> None.
Proof. vm_compute. discriminate. Qed.
(** :464-469 *)
Example t_dlt_robust_iterator_none : exists s, no_offset (fallback_next DLT 2 (of_numbers [68; 76; 84; 1; 226; 26; 74; 101; 79; 4; 1; 0; 69; 48; 48; 49; 68; 76; 84; 1; 226; 26; 74; 101; 79; 4; 1; 0; 69; 48; 48; 49; 68; 76; 84; 1; 68; 76; 84; 1; 68; 76; 84; 1]%N)) 0 = Ret (s, None).
Proof. eexists. vm_compute. reflexivity. Qed.
(** :541-546 *)
Example t_dltentry_empty : storage_try_read [] = Ret None /\ entry_try_read [] = Ret None.
Proof. split; reflexivity. Qed.
(** :548-553 *)
Example t_dltentry_zeros : storage_try_read (repeat x00 100) = Ret None /\ entry_try_read (repeat x00 100) = Ret None.
Proof. split; vm_compute; reflexivity. Qed.
(** :555-560 *)
Example t_oneoff : storage_try_read (of_numbers [68; 76; 84; 1; 226; 26; 74; 101; 79; 4; 1; 0; 69; 48; 48; 49; 49; 63; 0; 62; 0; 0; 132; 198; 65; 4; 65; 48; 49; 49; 67; 48; 48; 49; 0; 130; 0; 0; 38; 0; 45; 45; 97; 110; 111; 110; 44; 114; 101; 99; 101; 112; 116; 105; 111; 110; 95; 116; 105; 109; 101; 58; 49; 54; 57; 57; 51; 53; 53; 51; 54; 50; 48; 54; 54; 109; 115]%N) = Ret None.
Proof. vm_compute. reflexivity. Qed.
(** :561-567 *)
Example t_onlystorage : storage_header_from_prefix (of_numbers [68; 76; 84; 1; 226; 26; 74; 101; 79; 4; 1; 0; 69; 48; 48; 49]%N) <> None /\
  storage_try_read (of_numbers [68; 76; 84; 1; 226; 26; 74; 101; 79; 4; 1; 0; 69; 48; 48; 49]%N) = Ret None.
Proof. split; vm_compute; [discriminate|reflexivity]. Qed.
(** :569-574 *)
Example t_incorrect : entry_try_read (of_numbers [68; 76; 84; 1; 102; 26; 74; 101; 220; 63; 15; 0; 69; 48; 48; 49; 49; 226; 0; 62; 0; 37; 20; 44; 65; 1; 65; 48; 48; 49; 67; 48; 48; 49; 0; 130; 0; 0; 38; 0; 45; 45; 97; 110; 111; 110; 44; 114; 101; 99; 101; 112; 116; 105; 111; 110; 95; 116; 105; 109; 101; 58; 49; 54; 57; 57; 51; 53; 53; 50; 51; 56; 57; 57; 57; 109; 115; 0]%N) = Ret None.
Proof. vm_compute. reflexivity. Qed.
(** :576-598 *)
Example t_correct :
  let buf := of_numbers [68; 76; 84; 1; 102; 26; 74; 101; 220; 63; 15; 0; 69; 48; 48; 49; 49; 226; 0; 62; 0; 37; 20; 44; 65; 1; 65; 48; 48; 49; 67; 48; 48; 49; 0; 130; 0; 0; 38; 0; 45; 45; 97; 110; 111; 110; 44; 114; 101; 99; 101; 112; 116; 105; 111; 110; 95; 116; 105; 109; 101; 58; 49; 54; 57; 57; 51; 53; 53; 50; 51; 56; 57; 57; 57; 109; 115; 0]%N in
  exists e, storage_try_read buf = Ret (Some (78, e)) /\
    std_header_length (header (dlt e)) = length buf - storage_header_size /\
    is_with_ecu_id (header_type (header (dlt e))) = false /\
    is_with_session_id (header_type (header (dlt e))) = false /\
    is_with_timestamp (header_type (header (dlt e))) = true /\
    is_extended_header (header_type (header (dlt e))) = true /\
    timestamp (dlt e) = Ret (Some 2429996%N) /\ payload (dlt e) = Ret (Some (skipn 34 buf)).
Proof. cbv zeta. eexists. repeat split; vm_compute; reflexivity. Qed.
(** :599-615 *)
Example t_correct2 :
  let buf := of_numbers [68; 76; 84; 1; 226; 26; 74; 101; 79; 4; 1; 0; 69; 48; 48; 49; 49; 63; 0; 62; 0; 0; 132; 198; 65; 4; 65; 48; 49; 49; 67; 48; 48; 49; 0; 130; 0; 0; 38; 0; 45; 45; 97; 110; 111; 110; 44; 114; 101; 99; 101; 112; 116; 105; 111; 110; 95; 116; 105; 109; 101; 58; 49; 54; 57; 57; 51; 53; 53; 51; 54; 50; 48; 54; 54; 109; 115; 0]%N in
  exists e, storage_try_read buf = Ret (Some (78, e)) /\
    std_header_length (header (dlt e)) = length buf - storage_header_size /\
    is_with_ecu_id (header_type (header (dlt e))) = false /\
    is_with_session_id (header_type (header (dlt e))) = false /\
    is_with_timestamp (header_type (header (dlt e))) = true /\
    is_extended_header (header_type (header (dlt e))) = true /\
    timestamp (dlt e) = Ret (Some 33990%N) /\ payload (dlt e) = Ret (Some (skipn 34 buf)).
Proof. cbv zeta. eexists. repeat split; vm_compute; reflexivity. Qed.

(** ** test_matchit/src/lib.rs:57-259 *)
Definition times {A : Type} (n : nat) (l : list A) : list A := concat (repeat l n).
Definition one : bytes := test_marker ++ [x00; x00; x00; x01].
Definition seq_offsets (b : bytes) : outcome (list (nat * N)) :=
  let* l := collect (fallback_next TEST 2 b) (S (length b)) 0 in Ret (map (fun x => (fst x, ts_val (snd x))) l).
Definition search_offsets (b : bytes) : outcome (list (nat * N)) :=
  let* l := collect (search_next TEST (S (length b)) b) (S (length b)) 0 in Ret (map (fun x => (fst x, ts_val (snd x))) l).
Definition rev_offsets (b : bytes) (off : nat) : outcome (list (nat * N)) :=
  let* l := collect (rev_next TEST (S (length b)) b) (S (length b)) (N.of_nat off) in Ret (map (fun x => (fst x, ts_val (snd x))) l).
(** :67-90, :196-199, :216-219, :231-234 *)
Example t_num_matches :
  search_offsets (times 4 one) = Ret [(0, 1%N); (8, 1%N); (16, 1%N); (24, 1%N)] /\
  seq_offsets (times 4 one) = Ret [(0, 1%N); (8, 1%N); (16, 1%N); (24, 1%N)] /\
  rev_offsets (times 4 one) 32 = Ret [(24, 1%N); (16, 1%N); (8, 1%N); (0, 1%N)].
Proof. repeat split; vm_compute; reflexivity. Qed.
(** :92-119 *)
Example t_robust_offset :
  search_offsets (times 4 ([x22; x22] ++ one)) = Ret [(2, 1%N); (12, 1%N); (22, 1%N); (32, 1%N)] /\
  seq_offsets (times 4 ([x22; x22] ++ one)) = Ret [(2, 1%N); (12, 1%N); (22, 1%N); (32, 1%N)] /\
  rev_offsets (times 4 ([x22; x22] ++ one)) 40 = Ret [(32, 1%N); (22, 1%N); (12, 1%N); (2, 1%N)].
Proof. repeat split; vm_compute; reflexivity. Qed.
(** :121-139 *)
Example t_skipped_simple :
  search_offsets (times 2 (one ++ [x22])) = Ret [(0, 1%N); (9, 1%N)] /\
  seq_offsets (times 2 (one ++ [x22])) = Ret [(0, 1%N); (9, 1%N)].
Proof. split; vm_compute; reflexivity. Qed.
(** :141-156 (the backward iterator starts at offset 0 in this test and finds nothing) *)
Definition wrap : bytes := [x01; x02; x03; x22; x22] ++ test_marker ++ [x00; x00; x00; xff; x01; x02; x03].
Example t_wrap_values :
  search_offsets (times 2 wrap) = Ret [(5, 255%N); (21, 255%N)] /\
  seq_offsets (times 2 wrap) = Ret [(5, 255%N); (21, 255%N)] /\ rev_offsets (times 2 wrap) 0 = Ret [].
Proof. repeat split; vm_compute; reflexivity. Qed.
(** :158-175 *)
Definition cafe : bytes := [x0c; x0a; x0f; x0f].
Definition grep_offsets (b : bytes) : outcome (list nat) :=
  let* l := collect (grep_next TEST (find_literal cafe) (S (length b)) b) (S (length b)) 0 in Ret (map fst l).
Example t_grepit1 :
  grep_offsets (times 4 (test_marker ++ [x00; x00; x00; xff] ++ test_marker ++ cafe ++ test_marker ++ [x00; x00; x00; xff])) = Ret [8; 32; 56; 80].
Proof. vm_compute. reflexivity. Qed.
(** :176-193 *)
Example t_grepit2 :
  grep_offsets (cafe ++ cafe ++ test_marker ++ cafe ++ test_marker ++ [x00; x00; x00; xff] ++ cafe) = Ret [8].
Proof. vm_compute. reflexivity. Qed.

(** ** matchit/src/generator/mod.rs:8-250 and fromgenerator.rs:71-81; halves of [f32] are counted in
    units of one half. *)
Definition upto (n : nat) : list nat := seq 0 n.
Notation over r a := (ReducerOver r a 20).
(** :15-24 *)
Example t_fold_generator : run_reduce (over (Fold (fun acc (_ : nat) => Ret (acc + 1))) NilAdapter) (0, tt) (upto 255) = Ret 255.
Proof. vm_compute. reflexivity. Qed.
(** :26-37, :39-50 *)
Example t_fold_adapter :
  run_reduce (over Count (Adapter (Filter (fun x => Ret (x <? 120))) NilAdapter 20)) (0, (tt, tt)) (upto 255) = Ret 120.
Proof. vm_compute. reflexivity. Qed.
(** :52-64: x/2 < 120 *)
Example t_filter_adapter :
  run_reduce (over Count (Adapter (Filter (fun h => Ret (h <? 240))) (Adapter (MapA (fun x : nat => Ret x)) NilAdapter 20) 20)) (0, (tt, (tt, tt))) (upto 255) = Ret 240.
Proof. vm_compute. reflexivity. Qed.
(** :67-77, :79-90: sums of halves *)
Example t_map_generator :
  run_reduce (over (Fold (fun acc h => Ret (acc + h))) (Adapter (MapA (fun x : nat => Ret x)) NilAdapter 20)) (0, (tt, tt)) (upto 11) = Ret (2 * 27 + 1).
Proof. vm_compute. reflexivity. Qed.
Example t_map_adapter :
  run_reduce (over (Fold (fun acc h => Ret (acc + h))) (Adapter (MapA (fun x : nat => Ret x)) (Adapter (Filter (fun x => Ret (3 <? x))) NilAdapter 20) 20)) (0, (tt, (tt, tt))) (upto 11) = Ret (2 * 24 + 1).
Proof. vm_compute. reflexivity. Qed.
(** :92-107, :108-122 *)
Example t_fork_adapter :
  run_reduce (over (Fork (over (Fold (fun acc h => Ret (acc + h))) (Adapter (MapA (fun x : nat => Ret x)) NilAdapter 20))
                         (over (Sum Nat.add) (Adapter (MapA (fun x => Ret (x * 2))) NilAdapter 20)))
                   (Adapter (MapA (fun x => Ret (x * 2))) NilAdapter 20)) (((0, (tt, tt)), (0, (tt, tt))), (tt, tt)) (upto 11)
  = Ret (2 * 55, 220).
Proof. vm_compute. reflexivity. Qed.
(** :124-134, :136-147 *)
Definition digits : list nat := [0; 1; 2; 0; 0; 2; 3; 0; 4; 3].
Definition ge (a b : nat) : outcome bool := Ret (a <=? b).
Example t_groupby_generator : run_reduce (over Count (Adapter (GroupBy ge) NilAdapter 20)) (0, (GEmpty, tt)) digits = Ret 4.
Proof. vm_compute. reflexivity. Qed.
Example t_groupby_adapter :
  run_reduce (over Count (Adapter (GroupBy ge) (Adapter (MapA (fun x => Ret (x * 2))) NilAdapter 20) 20)) (0, (GEmpty, (tt, tt))) digits = Ret 4.
Proof. vm_compute. reflexivity. Qed.
Example t_from_groupby : (let* l := from_adapt (GroupBy ge) 20 20 GEmpty digits in Ret (length l)) = Ret 4.
Proof. vm_compute. reflexivity. Qed.
(** :201-217, :219-235 *)
Definition digits' : list nat := [0; 1; 2; 0; 0; 2; 3; 0; 4; 3; 4; 4].
Example t_split_generator :
  run_reduce (over (Split Nat.compare (fun a => Ret a) (fun _ => (0, tt)) (over (Sum Nat.add) NilAdapter)) NilAdapter) ([], tt) digits'
  = Ret [(0, 0); (1, 1); (2, 4); (3, 6); (4, 12)].
Proof. vm_compute. reflexivity. Qed.
Example t_split_adapter :
  run_reduce (over (Split Nat.compare (fun a => Ret a) (fun _ => (0, (GEmpty, tt))) (over Count (Adapter (GroupBy ge) NilAdapter 20)))
                   (Adapter (MapA (fun x => Ret (x * 2))) NilAdapter 20)) ([], (tt, tt)) digits'
  = Ret [(0, 1); (2, 1); (4, 1); (6, 1); (8, 1)].
Proof. vm_compute. reflexivity. Qed.
