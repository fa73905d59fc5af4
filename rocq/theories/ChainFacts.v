(** Chains of adapters. *)
From Verif Require Import Base GenModel Spec BaseFacts GenFacts GroupFacts MapFacts MergeFacts.

(** A chain of adapter calls on a generator of [I]: [Generator::new().filter(..).map(..)...]
    (generator.rs:14-30, adapter.rs:36-100). *)
Inductive chain (I : Type) : Type -> Type :=
| Start : chain I I
| FilterBy {Q : Type} (p : Q -> bool) (c : chain I Q) : chain I Q
| MapBy {Q R : Type} (f : Q -> R) (c : chain I Q) : chain I R
| GroupedBy {Q : Type} (rel : Q -> Q -> bool) (c : chain I Q) : chain I (Q * Q)
| MergedBy {Q K : Type} (cmp : K -> K -> comparison) (f : Q -> Q -> option Q) (key : Q -> K) (c : chain I Q) : chain I Q.
Arguments Start {I}.
Arguments FilterBy {I Q} p c.
Arguments MapBy {I Q R} f c.
Arguments GroupedBy {I Q} rel c.
Arguments MergedBy {I Q K} cmp f key c.

(** Only filter and map. *)
Fixpoint simple {I Q : Type} (c : chain I Q) : Prop :=
  match c with
  | Start => True
  | FilterBy _ c => simple c
  | MapBy _ c => simple c
  | _ => False
  end.

Fixpoint chain_state {I Q : Type} (c : chain I Q) : Type :=
  match c with
  | Start => unit
  | FilterBy _ c => (unit * chain_state c)%type
  | MapBy _ c => (unit * chain_state c)%type
  | @GroupedBy _ Q _ c => (gstate Q * chain_state c)%type
  | @MergedBy _ Q K _ _ _ c => (merge_state K Q * chain_state c)%type
  end.
Fixpoint chain_init {I Q : Type} (c : chain I Q) : chain_state c :=
  match c with
  | Start => tt
  | FilterBy _ c => (tt, chain_init c)
  | MapBy _ c => (tt, chain_init c)
  | GroupedBy _ c => (GEmpty, chain_init c)
  | MergedBy _ _ _ c => (([], None), chain_init c)
  end.
Fixpoint chain_adapter (fuel : nat) {I Q : Type} (c : chain I Q) : Adapt (chain_state c) I Q :=
  match c with
  | Start => NilAdapter
  | FilterBy p c => Adapter (Filter (fun x => Ret (p x))) (chain_adapter fuel c) fuel
  | MapBy f c => Adapter (MapA (fun x => Ret (f x))) (chain_adapter fuel c) fuel
  | GroupedBy rel c => Adapter (GroupBy (fun x y => Ret (rel x y))) (chain_adapter fuel c) fuel
  | MergedBy cmp f key c =>
      Adapter (Merge cmp (fun x y => Ret (f x y)) (fun x => Ret (key x))) (chain_adapter fuel c) fuel
  end.

(** The corresponding list function. *)
Fixpoint meaning {I Q : Type} (c : chain I Q) (xs : list I) : list Q :=
  match c with
  | Start => xs
  | FilterBy p c => filter p (meaning c xs)
  | MapBy f c => map f (meaning c xs)
  | GroupedBy rel c => grouped rel (meaning c xs)
  | MergedBy cmp f key c => merged cmp f key (meaning c xs)
  end.

Lemma chain_delivers {I Q} (c : chain I Q) (xs : list I) : exists n, forall fuel, n <= fuel ->
  exists k, k <= n /\ delivers (chain_adapter fuel c) k (chain_init c) xs (meaning c xs).
Proof.
  induction c as [|Q p c IH|Q R f c IH|Q rel c IH|Q K cmp f key c IH].
  - exists 1. intros fuel _. exists 1. split; [lia|apply delivers_nil].
  - destruct IH as [n IH]. exists (1 + n). intros fuel L. destruct (IH fuel ltac:(lia)) as (k & Lk & D).
    destruct (delivers_comp (Filter (fun x => Ret (p x))) (chain_adapter fuel c) fuel 1 k tt (chain_init c) xs (meaning c xs) (filter p (meaning c xs)) D) as (j & Lj & Dj).
    + now apply delivers_filter.
    + lia.
    + exists j. split; [lia|exact Dj].
  - destruct IH as [n IH]. exists (1 + n). intros fuel L. destruct (IH fuel ltac:(lia)) as (k & Lk & D).
    destruct (delivers_comp (MapA (fun x => Ret (f x))) (chain_adapter fuel c) fuel 1 k tt (chain_init c) xs (meaning c xs) (map f (meaning c xs)) D) as (j & Lj & Dj).
    + now apply delivers_map.
    + lia.
    + exists j. split; [lia|exact Dj].
  - destruct IH as [n IH]. exists (2 + n). intros fuel L. destruct (IH fuel ltac:(lia)) as (k & Lk & D).
    destruct (delivers_groupby rel (fun x y => Ret (rel x y)) (meaning c xs)) as (i & Li & Di); [reflexivity|].
    destruct (delivers_comp (GroupBy (fun x y => Ret (rel x y))) (chain_adapter fuel c) fuel i k GEmpty (chain_init c) xs (meaning c xs) _ D Di) as (j & Lj & Dj); [lia|].
    exists j. split; [lia|exact Dj].
  - destruct IH as [n IH]. exists (S (length (merged cmp f key (meaning c xs))) + n). intros fuel L. destruct (IH fuel ltac:(lia)) as (k & Lk & D).
    destruct (delivers_merge cmp f key (meaning c xs)) as (i & Li & Di).
    destruct (delivers_comp _ (chain_adapter fuel c) fuel i k ([], None) (chain_init c) xs (meaning c xs) _ D Di) as (j & Lj & Dj); [lia|].
    exists j. split; [lia|exact Dj].
Qed.
