(** Property theorem C136 for a whole run of ripdlt (TouchRun.v; vocabulary in TouchHeadSpec.v, TouchRunSpec.v, PrintSpec.v). *)
From Coq Require Import String.
From Verif Require Import Base DltModel MatchModel GenModel ToolsModel MainModel PrintModel PrintSpec MappedModel MappedCmd TouchModel TouchMore TouchCmd TouchRun
  Spec ReadSpec MappedSpec MappedCmdSpec TouchSpec TouchCmdSpec TouchRunSpec TouchHeadSpec BaseFacts DltFacts MappedFacts TouchFacts TouchCmdFacts TouchCmdInside
  HelloRegex PrintFacts PrintCrash TouchRunFacts TouchHeadFacts TouchHeadRun P_Print P_TouchRun.
From Verif Require Samples.
From Coq Require Import ZifyBool ZifyNat ZifyN.
Import Samples(m1, m2, m3).
Ltac Zify.zify_post_hook ::= idtac.

(** The commands that neither look for "Hello World" nor divide the file. *)
Definition reads_headers : list string :=
  ["histogram_lifecycles"; "split_lifecycles"; "split_timestamp"; "histogram_timestamp"; "histogram_message_type"; "histogram_payload_size"; "histogram_message_size"; "count"; "iter"; "itertools"]%string.

(** A log of messages one behind the other, mapped; the headers of each message can be read, anything else may be lost while ripdlt runs: these commands print what
    they print for the complete file. *)
Theorem C136_run : forall (C : console) dotstar P Ps prog cmd name more d l, 0 < cores C -> text_args (prog :: "mmap"%string :: cmd :: name :: more) ->
  leftmost (h_star_world dotstar) (find_at C) -> (forall b a s e, find_at C b a = Some (s, e) -> a <= s /\ s <= e /\ e <= List.length b) ->
  load C "mmap"%string name = Ret d -> (N.of_nat (List.length (as_slice d)) < 2 ^ 64 - 1)%N -> In cmd reads_headers ->
  let b := as_slice d in
  dltit_offset b = Ret l -> back_to_back 0 (places l) -> List.length b <= list_sum (map (fun x => storage_len (snd x)) l) + 4 ->
  (forall t o v p, In (o, v) l -> o <= p < headers_end b o -> p < o + storage_len v -> reads P t p = true) ->
  let args := "mmap"%string :: cmd :: name :: more in
  ripdlt_mapped C (still b (find_at C)) (still_cells b) P (fun p => (still (part_of b p) (find_at C), still_cells (part_of b p))) Ps (finalize_fuel b) prog args = ripdlt_run C prog args.
Proof.
  intros C ds P Ps prog cmd name more d l Hc T LM HF L Hb IN b E BB EN RD args. unfold args.
  rewrite <- (C135_whole C ds prog cmd name more d Hc T LM HF L Hb). fold b.
  rewrite (mapped_args C _ _ P _ Ps _ prog cmd name more T), (mapped_args C _ _ everything _ (fun _ => everything) _ prog cmd name more T), L. cbn [compute].
  apply (f_equal (println (args_line prog ("mmap"%string :: cmd :: name :: more)))). change (List.length (as_slice d)) with (List.length b).
  assert (RE : forall t o v p, In (o, v) l -> o <= p < headers_end b o -> p < o + storage_len v -> reads everything t p = true) by reflexivity.
  assert (PL : forall A (x y : act A) next, x 0 = y 0 -> first_part x next = first_part y next) by (intros A x y next X; unfold first_part; now rewrite X).
  unfold mapped_command. cbv zeta. unfold reads_headers in IN. each_command cmd.
  all: match goal with |- ?x = ?x => exact eq_refl | |- println ?l ?r = println ?l ?r' => apply (f_equal (println l)) | _ => idtac end.
  all: match goal with
       | |- first_part ?x ?next = first_part ?y ?next => apply (PL _ x y next)
       | _ => exfalso; cbn [In] in IN; intuition discriminate end.
  all: match goal with
    | |- c_count _ _ _ 0 = _ => transitivity (m_count (still b (find_at C)) (List.length b) 0); [|symmetry]; now apply (heads_count b (find_at C) _ l)
    | |- c_continuous_timestamp_histogram _ _ _ _ 0 = _ => transitivity (m_continuous_timestamp_histogram (still b (find_at C)) (still_cells b) (List.length b) 0); [|symmetry]; now apply (heads_continuous_timestamp_histogram b (find_at C) _ l)
    | |- c_mstp_info_histogram _ _ _ _ 0 = _ => transitivity (m_mstp_info_histogram (still b (find_at C)) (still_cells b) (List.length b) 0); [|symmetry]; now apply (heads_mstp_info_histogram b (find_at C) _ l)
    | |- c_lifecycle_splitit _ _ _ _ ?f 0 = _ => transitivity (m_lifecycle_splitit (still b (find_at C)) (still_cells b) (List.length b) f 0); [|symmetry]; now apply (heads_lifecycle_splitit b (find_at C) _ l)
    | |- c_timestamp_splitit _ _ _ _ ?f 0 = _ => transitivity (m_timestamp_splitit (still b (find_at C)) (still_cells b) (List.length b) f 0); [|symmetry]; now apply (heads_timestamp_splitit b (find_at C) _ l)
    | |- c_lifecycle_histogram _ _ _ _ 0 = _ => transitivity (m_lifecycle_histogram (still b (find_at C)) (still_cells b) (List.length b) 0); [|symmetry]; now apply (heads_lifecycle_histogram b (find_at C) _ l)
    | |- c_histogram_payload _ _ _ 0 = _ => transitivity (m_histogram_payload (still b (find_at C)) (List.length b) 0); [|symmetry]; now apply (heads_histogram_payload b (find_at C) _ l)
    | |- c_histogram_message _ _ _ 0 = _ => transitivity (m_histogram_message (still b (find_at C)) (List.length b) 0); [|symmetry]; now apply (heads_histogram_message b (find_at C) _ l)
    | |- c_lifecycle_iter _ _ _ _ 0 = _ => transitivity (m_lifecycle_iter (still b (find_at C)) (still_cells b) (List.length b) 0); [|symmetry]; now apply (heads_lifecycle_iter b (find_at C) _ l)
    | |- c_lifecycle_itertools _ _ _ _ 0 = _ => transitivity (m_lifecycle_itertools (still b (find_at C)) (still_cells b) (List.length b) 0); [|symmetry]; now apply (heads_lifecycle_itertools b (find_at C) _ l)
    | _ => exfalso; clear - IN; cbn [In] in IN; intuition discriminate
  end.
Qed.
Print Assumptions C136_run.
Local Open Scope string_scope. Local Open Scope list_scope.
(** No byte of a payload can be read. *)
Example C136_run_example : let b := m1 ++ m2 ++ m3 in let C := desk b in
  let o2 := List.length m1 in let o3 := List.length m1 + List.length m2 in
  let heads p := Nat.ltb p (headers_end b 0) || (Nat.leb o2 p && Nat.ltb p (headers_end b o2)) || (Nat.leb o3 p && Nat.ltb p (headers_end b o3)) in
  let P := {| reads := fun _ p => heads p; reach := fun _ _ => 0; rreach := fun _ _ => 0; looks_at := fun _ _ _ => true; hreach := fun _ _ => 0 |} in
  let run cmd := ripdlt_mapped C (still b (find_at C)) (still_cells b) P (fun p => (still (part_of b p) (find_at C), still_cells (part_of b p))) (fun _ => P) (finalize_fuel b)
    "ripdlt" ["mmap"; cmd; "x.dlt"] in
  (load C "mmap" "x.dlt" = Ret (BufMmap b) /\ cores C = 2 /\ existsb (fun p => negb (heads p)) (seq 0 (List.length b)) = true) /\
  (exists l, dltit_offset b = Ret l /\ back_to_back 0 (places l) /\ List.length l = 3 /\ Nat.leb (List.length b) (list_sum (map (fun x => storage_len (snd x)) l) + 4) = true /\
     forallb (fun x => forallb (fun p => heads p || Nat.leb (fst x + storage_len (snd x)) p) (seq (fst x) (headers_end b (fst x) - fst x))) l = true) /\
  run "histogram_message_size" = ripdlt_run C "ripdlt" ["mmap"; "histogram_message_size"; "x.dlt"] /\
  out (run "count") = lines_text (map ascii ["ripdlt mmap count x.dlt"; "3 messages"]) /\ how (run "count_hello_world") = Endless.
Proof. vm_compute. split; [repeat split|]. split; [eexists; split; [reflexivity|]; repeat split|]. repeat split; reflexivity. Qed.
