(** Model of the offsets in matchit/src/{lib,readit}.rs and matchit/src/searchable/*.rs once more, now
    with machine arithmetic: every addition of two [usize] panics on overflow in a debug build
    and wraps around in a release build (in MatchModel.v offsets are natural numbers). *)
From Verif Require Import Base DltModel MatchModel DdModel.

(** What the code is compiled for: the width of [usize], and the build. *)
Inductive width := Bits32 | Bits64.
(** A width and a build. *)
Record target := { usize_width : width; build : build_mode }.
(** [usize::BITS]. *)
Definition bits (m : target) : N := match usize_width m with Bits32 => 32 | Bits64 => 64 end.
(** One more than [usize::MAX]. *)
Definition usize_mod (m : target) : N := 2 ^ bits m.
(** Rust's [a + b] and [a += b] on [usize]. *)
Definition add (m : target) (a b : N) : outcome N := checked (build m) (usize_mod m) (a + b).

(** [bytes.len()], [&bytes[i..]], [&bytes[i..j]] with [usize] values. *)
Definition word_len (b : bytes) : N := N.of_nat (length b).
(** [&bytes[i..]]. *)
Definition word_from (b : bytes) (i : N) : outcome bytes := slice_from b (N.to_nat i).
(** [&bytes[i..j]]. *)
Definition word_slice (b : bytes) (i j : N) : outcome bytes := slice b (N.to_nat i) (N.to_nat j).

Section Words.
  Context {T : Type}.
  Variable R : Readable T.
  Variable m : target.
  Let mlen := N.of_nat (length (marker R)).

  (** readit.rs:43-57 [ReadIterator::next]. *)
  Definition readit_word (b : bytes) (off : N) : outcome (N * option (N * T)) :=
    if (word_len b <=? off)%N then Ret (off, None)
    else let* s := word_from b off in
         let* r := try_read R s in
         match r with
         | Some (n, v) => let* off' := add m off (N.of_nat n) in Ret (off', Some (off, v))
         | None => Ret (off, None)
         end.

  (** readfallbackit.rs:47-81 [ReadFallbackIterator::next]; the additions are at :48, :51, :56, :72. *)
  Fixpoint fallback_word (fuel : nat) (b : bytes) (off : N) : outcome (N * option (N * T)) :=
    match fuel with
    | O => Fuel
    | S f =>
        let* e := add m off mlen in
        if (word_len b <=? e)%N then Ret (off, None)
        else
          let* e := add m off mlen in
          let* s := word_slice b off e in
          if bytes_eqb s (marker R) then
            let* t := word_from b off in
            let* r := try_read_valid R t in
            match r with
            | Some (n, v) => let* off' := add m off (N.of_nat n) in Ret (off', Some (off, v))
            | None => Ret (off, None)
            end
          else
            let* t := word_from b off in
            match search_marker R t with
            | Some position =>
                if position =? 0 then Ret (off, None)
                else let* off' := add m off (N.of_nat position) in fallback_word f b off'
            | None => Ret (off, None)
            end
    end.

  (** searchit.rs:33-42 [SearchIterator::search]; the addition is at :38. *)
  Definition search_search_word (b : bytes) (off : N) : outcome (option (N * T)) :=
    if (word_len b <=? off)%N then Ret None
    else
      let* s := word_from b off in
      match find (marker R) s with
      | None => Ret None
      | Some c =>
          let* candidate := add m (N.of_nat c) off in
          let* s := word_from b candidate in
          let* r := try_read_valid R s in
          match r with
          | None => Ret None
          | Some (_, t) => Ret (Some (candidate, t))
          end
      end.

  (** searchit.rs:53-67 [SearchIterator::next]; the additions are at :56 and :60. *)
  Fixpoint search_word (fuel : nat) (b : bytes) (off : N) : outcome (N * option (N * T)) :=
    match fuel with
    | O => Fuel
    | S f =>
        let* r := search_search_word b off in
        match r with
        | Some (c, t) => let* off' := add m c (N.of_nat (len_of R t)) in Ret (off', Some (c, t))
        | None =>
            let* off' := add m off mlen in
            if (word_len b <=? off')%N then Ret (off', None)
            else search_word f b off'
        end
    end.

  (** searchit.rs:83-91 [RevSearchIterator::search]. *)
  Definition rev_search_word (b : bytes) (off : N) : outcome (option (N * T)) :=
    if ((word_len b <? off) || (off =? usize_mod m - 1))%N then Ret None
    else
      let* s := word_slice b 0 off in
      match rfind (marker R) s with
      | None => Ret None
      | Some c =>
          let* s := word_from b (N.of_nat c) in
          let* r := try_read_valid R s in
          match r with
          | None => Ret None
          | Some (_, t) => Ret (Some (N.of_nat c, t))
          end
      end.

  (** searchit.rs:109-126 [RevSearchIterator::next]: [checked_sub] at :116, [usize::MAX] at :118 and
      :120; the recursion is at :123. *)
  Fixpoint rev_word (fuel : nat) (b : bytes) (off : N) : outcome (N * option (N * T)) :=
    match fuel with
    | O => Fuel
    | S f =>
        let* r := rev_search_word b off in
        match r with
        | Some (c, t) => Ret (c, Some (c, t))
        | None =>
            let off' := (if mlen <=? off then off - mlen else usize_mod m - 1)%N in
            if (off' =? usize_mod m - 1)%N then Ret (off', None)
            else rev_word f b off'
        end
    end.

  Section Grep.
    Variable find_at : bytes -> nat -> option (nat * nat).

    (** grepit.rs:34-57 [GrepIterator::search]; the addition is at :42. *)
    Fixpoint grep_search_word (fuel : nat) (b : bytes) (off : N) : outcome (option (N * T)) :=
      match fuel with
      | O => Fuel
      | S f =>
          if (word_len b <=? off)%N then Ret None
          else
            match find_at b (N.to_nat off) with
            | None => Ret None
            | Some (s, e) =>
                let* r := rev_search_word b (N.of_nat s) in
                match r with
                | Some (o, v) =>
                    let* inside :=
                      (if (o <? N.of_nat s)%N then let* x := add m o (N.of_nat (len_of R v)) in Ret (x <? N.of_nat e)%N
                       else Ret false) in
                    if inside then grep_search_word f b (N.of_nat e) else Ret (Some (o, v))
                | None =>
                    if length b <=? e then Ret None
                    else grep_search_word f b (N.of_nat e)
                end
            end
      end.

    (** grepit.rs:66-74 [GrepIterator::next]; the addition is at :71. *)
    Definition grep_word (fuel : nat) (b : bytes) (off : N) : outcome (N * option (N * T)) :=
      let* r := grep_search_word fuel b off in
      match r with
      | None => Ret (off, None)
      | Some (o, v) => let* off' := add m o (N.of_nat (len_of R v)) in Ret (off', Some (o, v))
      end.
  End Grep.

  Section Capture.
    Variable captures_at : bytes -> nat -> option ((nat * nat) * option (nat * nat)).

    (** grepit.rs:103-128 [RegExMatcherIterator::capture]; the addition is at :114. *)
    Fixpoint capture_search_word (fuel : nat) (b : bytes) (off : N) : outcome (option (N * (nat * nat))) :=
      match fuel with
      | O => Fuel
      | S f =>
          if (word_len b <=? off)%N then Ret None
          else
            match captures_at b (N.to_nat off) with
            | None => Ret None
            | Some ((s, e), g1) =>
                let* r := rev_search_word b (N.of_nat s) in
                match r with
                | Some (o, v) =>
                    let* inside :=
                      (if (o <? N.of_nat s)%N then let* x := add m o (N.of_nat (len_of R v)) in Ret (x <? N.of_nat e)%N
                       else Ret false) in
                    if inside then capture_search_word f b (N.of_nat e)
                    else match g1 with
                         | None => Ret None
                         | Some g => Ret (Some (o, g))
                         end
                | None =>
                    if length b <=? e then Ret None
                    else capture_search_word f b (N.of_nat e)
                end
            end
      end.

    (** grepit.rs:138-146 [RegExMatcherIterator::next]; the addition is at :143. *)
    Definition capture_word (fuel : nat) (b : bytes) (off : N) : outcome (N * option (N * (nat * nat))) :=
      let* r := capture_search_word fuel b off in
      match r with
      | None => Ret (off, None)
      | Some (o, v) => let* off' := add m o (N.of_nat (snd v)) in Ret (off', Some (o, v))
      end.
  End Capture.

  (** lib.rs:77-108 [ContainedBySearch::contained_by]; the additions are at :91, :98, :100. *)
  Section Scan.
    Variable recurse : N -> N -> outcome (option (N * T)).
    Variable b : bytes.
    Variables back p0 p1 : N.
    (** lib.rs:91-107. *)
    Fixpoint scan_word (cands : list nat) : outcome (option (N * T)) :=
      match cands with
      | [] => Ret None
      | x :: cs =>
          let* candidate_idx := add m (N.of_nat x) back in
          if (p0 <=? candidate_idx)%N then Ret None
          else
            let* s := word_from b candidate_idx in
            let* r := try_read R s in
            match r with
            | None => scan_word cs
            | Some (_, container) =>
                let* e := add m candidate_idx (N.of_nat (len_of R container)) in
                if (p1 <=? e)%N then
                  let* q := add m candidate_idx mlen in
                  let* inner := recurse candidate_idx q in
                  match inner with
                  | Some _ => scan_word cs
                  | None => Ret (Some (candidate_idx, container))
                  end
                else scan_word cs
            end
      end.
  End Scan.

  (** lib.rs:77-108. *)
  Fixpoint contained_word (fuel : nat) (b : bytes) (p0 p1 : N) : outcome (option (N * T)) :=
    match fuel with
    | O => Fuel
    | S f =>
        if ((word_len b <=? p0) || (word_len b <=? p1) || (p1 <=? p0) || (p1 =? 0))%N then Ret None
        else
          let back := (p0 - N.of_nat (max_len R))%N in
          let* s := word_from b back in
          scan_word (contained_word f b) b back p0 p1 (find_iter (marker R) s)
    end.

  (** lib.rs:121-151, the loop of [partition_from]; the additions are at :126, :144, :149. *)
  Fixpoint partition_loop_word (fuel : nat) (b : bytes) (size c0 c1 : N) : outcome (list bytes) :=
    match fuel with
    | O => Fuel
    | S f =>
        if ((word_len b <? c0) || (word_len b <? c1))%N then Ret []
        else
          let* p1 := add m c1 1 in
          let* r := contained_word (S (N.to_nat c1)) b c1 p1 in
          let c1 := match r with Some (container, _) => container | None => c1 end in
          if (c1 <=? c0)%N then Ret []
          else
            let* e := add m c1 (size / 4) in
            if (word_len b <=? e)%N then
              let* s := word_from b c0 in Ret [s]
            else
              let* s := word_slice b c0 c1 in
              let* c2 := add m c1 size in
              let* rest := partition_loop_word f b size c1 c2 in
              Ret (s :: rest)
    end.

  (** lib.rs:114-155 [partition_from]. *)
  Definition partition_word (b : bytes) (num : N) : outcome (list bytes) :=
    if (num =? 0)%N then Panic
    else
      let size := (word_len b / num)%N in
      partition_loop_word (S (length b)) b size 0 size.
End Words.
