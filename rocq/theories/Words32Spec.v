(** Vocabulary for C133: what a line of a report becomes on a machine with words of 32 bits. *)
From Verif Require Import Base DltModel MainModel DdModel.

(** The upper bound of a row of durations is the lower bound plus one; 2^32 is not a word any more. *)
Definition line_32 (build : build_mode) (l : line) : outcome line :=
  match l with
  | LBucket lo hi n =>
      if (hi =? 4294967296)%N then match build with Debug => Panic | Release => Ret (LBucket lo 0 n) end
      else Ret l
  | _ => Ret l
  end.
Fixpoint report_32 (build : build_mode) (ls : list line) : outcome (list line) :=
  match ls with
  | [] => Ret []
  | l :: rest => match line_32 build l, report_32 build rest with
                 | Ret l', Ret rest' => Ret (l' :: rest')
                 | _, _ => Panic
                 end
  end.
