(** How much a call adds to the storage. *)
From stdpp Require Import gmap.
From Coq Require Import NArith ZArith.
From Verif Require Import Base GoText Model3 Storage SpecText Spec.
Local Open Scope nat_scope.

(** The nodes of a storage, and its edges and references. *)
Definition node_count (g : graph) : nat := size (nodes g).
Definition link_count (g : graph) : nat := size (edges g) + size (fwd g).

(** The number of bytes a call made after the history [t] has to store: those of
    its texts; for AddRemarkToFact those of the new property and of the object
    of its remark (aggregate.go 214-232 reads it back and stores it anew). *)
Inductive volume (t : trace) : opn → nat → Prop :=
| vol_texts o ob pr : own_texts o = Some (ob, pr) → volume t o (length ob + length pr)
| vol_remark r pr ob q : tells t r ob q → volume t (AddRemarkToFact r pr) (length ob + length pr).

(** [amount t t' n b]: between the histories [t] and [t'] lie [n] calls that
    make something, and they have [b] bytes to store. *)
Inductive amount (t : trace) : trace → nat → nat → Prop :=
| am_now : amount t t 0 0
| am_made t1 n b i o out v :
    amount t t1 n b → volume t1 o v → amount t (Called i o out :: t1) (S n) (b + v)
| am_read t1 n b i o out :
    amount t t1 n b → creating o = false → amount t (Called i o out :: t1) n b
| am_restart t1 n b i : amount t t1 n b → amount t (Restarted i :: t1) n b.
