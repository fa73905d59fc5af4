(** Common ground of the model: bytes, fixed-width integers, outcomes, slices.
    Nothing here is specific to one source file; each definition says which Rust
    construct it stands for. *)
From Coq Require Export List Arith NArith ZArith Lia Bool.
From Coq Require Export Init.Byte.
From Coq Require Strings.Byte.
Export ListNotations.

(** Rust [&[u8]] / [Vec<u8>]. References are modelled by the bytes they denote
    (simplification: no aliasing, no lifetimes; the code never mutates a slice). *)
Definition bytes := list byte.

(** Result of running a Rust computation.  [Ret a]: it returned [a].
    [Panic]: it panicked.  [Fuel]: the model's recursion budget was exhausted
    before the Rust code would have returned. *)
Inductive outcome (A : Type) : Type :=
| Ret (a : A)
| Panic
| Fuel.
Arguments Ret {A} a.
Arguments Panic {A}.
Arguments Fuel {A}.

(** Sequencing; a panic ends the computation. *)
Definition obind {A B : Type} (x : outcome A) (k : A -> outcome B) : outcome B :=
  match x with
  | Ret a => k a
  | Panic => Panic
  | Fuel => Fuel
  end.

Notation "'let*' x ':=' a 'in' b" := (obind a (fun x => b))
  (at level 200, x pattern, a at level 100, b at level 200, right associativity).

(** Rust [Option::unwrap] / [Option::expect]. *)
Definition unwrap {A : Type} (x : option A) : outcome A :=
  match x with Some a => Ret a | None => Panic end.

(** Rust [u8 as usize/u16/u32]. *)
Definition bN (b : byte) : N := Strings.Byte.to_N b.

(** Rust [x as u8]: truncation to the low eight bits. *)
Definition u8 (n : N) : byte :=
  match Strings.Byte.of_N (n mod 256) with Some b => b | None => x00 end.

(** [u8]'s [==]. *)
Definition byte_eqb (a b : byte) : bool := Strings.Byte.eqb a b.

(** Rust [==] on byte slices. *)
Fixpoint bytes_eqb (a b : bytes) : bool :=
  match a, b with
  | [], [] => true
  | x :: a', y :: b' => byte_eqb x y && bytes_eqb a' b'
  | _, _ => false
  end.

(** Rust [&b[i..]]: panics if [i > b.len()]. *)
Definition slice_from (b : bytes) (i : nat) : outcome bytes :=
  if i <=? length b then Ret (skipn i b) else Panic.

(** Rust [&b[..j]]: panics if [j > b.len()]. *)
Definition slice_to (b : bytes) (j : nat) : outcome bytes :=
  if j <=? length b then Ret (firstn j b) else Panic.

(** Rust [&b[i..j]]: panics if [i > j] or [j > b.len()]. *)
Definition slice (b : bytes) (i j : nat) : outcome bytes :=
  if (i <=? j) && (j <=? length b) then Ret (firstn (j - i) (skipn i b)) else Panic.

(** zerocopy [byteorder::big_endian::U16::get] on its two bytes. *)
Definition be16 (a b : byte) : N := bN a * 256 + bN b.
(** zerocopy [byteorder::big_endian::U32::get] on its four bytes. *)
Definition be32 (a b c d : byte) : N :=
  ((bN a * 256 + bN b) * 256 + bN c) * 256 + bN d.
(** zerocopy [byteorder::little_endian::U32::get] on its four bytes. *)
Definition le32 (a b c d : byte) : N := be32 d c b a.

(** zerocopy [U16::from(n)] / [U32::from(n)] viewed as bytes. *)
Definition be16_bytes (n : N) : bytes := [u8 (n / 256); u8 n].
(** [U32::from(n)] of zerocopy (big_endian). *)
Definition be32_bytes (n : N) : bytes :=
  [u8 (n / 16777216); u8 (n / 65536); u8 (n / 256); u8 n].
(** [U32::from(n)] of zerocopy (little_endian). *)
Definition le32_bytes (n : N) : bytes := rev (be32_bytes n).

(** zerocopy [little_endian::I32]: two's complement. *)
Definition i32_of_u32 (n : N) : Z :=
  if (n <? 2147483648)%N then Z.of_N n else (Z.of_N n - 4294967296)%Z.
(** [as u32]. *)
Definition u32_of_i32 (z : Z) : N := Z.to_N (z mod 4294967296)%Z.

(** Rust [[u8;4]]. *)
Inductive quad : Type := Quad (a b c d : byte).
(** [as_bytes] of [[u8;4]]. *)
Definition quad_bytes (q : quad) : bytes :=
  match q with Quad a b c d => [a; b; c; d] end.

(** [usize::MAX] on a 64-bit target. *)
Definition usize_max : N := 18446744073709551615.

(** Rust's [Iterator::collect]/[for]/[count] driver: call [next] until [None].
    [next] takes the iterator state to the new state and the item. *)
Section Drive.
  Context {S Item : Type}.
  Variable next : S -> outcome (S * option Item).
  (** The caller's loop: [next] until it returns [None]. *)
  Fixpoint collect (fuel : nat) (s : S) : outcome (list Item) :=
    match fuel with
    | O => Fuel
    | Datatypes.S f =>
        let* (s', o) := next s in
        match o with
        | None => Ret []
        | Some x => let* xs := collect f s' in Ret (x :: xs)
        end
    end.
End Drive.
