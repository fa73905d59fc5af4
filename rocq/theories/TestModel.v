(** Model of test_matchit/src/lib.rs:12-55: the type the repository tests matchit with. *)
From Verif Require Import Base MatchModel.

(** test_matchit/src/lib.rs:12-21 [TestStruct] behind [WrapTestStruct]; the big-endian [U32] is
    held as its value. *)
Record test_struct := { ts_pattern : quad; ts_val : N }.

(** :23-26 [try_read]: zerocopy's [ref_from_prefix] ([None] if shorter than 8 bytes). *)
Definition test_read (b : bytes) : option (nat * test_struct) :=
  match b with
  | a :: c :: d :: e :: v3 :: v2 :: v1 :: v0 :: _ =>
      Some (8, {| ts_pattern := Quad a c d e; ts_val := be32 v3 v2 v1 v0 |})
  | _ => None
  end.

(** :29-31 [marker]. *)
Definition test_marker : bytes := [x01; x02; x03; x04].

(** :28-55.  [try_read] slices [bytes[0..4]] (which panics on a shorter slice), compares, and reads
    the struct behind the marker; [len] and [max_len] are [size_of::<WrapTestStruct>()], the size of
    a reference, 8 on a 64-bit target. *)
Definition TEST : Readable test_struct := {|
  marker := test_marker;
  max_len := 8;
  try_read := fun b =>
    let* s := slice b 0 4 in
    if bytes_eqb s test_marker then
      let* t := slice_from b 4 in
      Ret (test_read t)
    else Ret None;
  try_read_valid := fun b => Ret (test_read b);
  len_of := fun _ => 8
|}.
