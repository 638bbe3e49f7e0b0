(** Histories on a concrete storage. *)
From stdpp Require Import gmap.
From Coq Require Import NArith ZArith.
From Verif Require Import Base GoText Model1 Model2 Model3 Storage SpecText SpecMachine Spec.
Local Open Scope nat_scope.

(** One step of a script: a call with a schedule of faults, or a restart. *)
Inductive act :=
| Do (i : nat) (o : opn) (evs : list event)
| Boot (i : nat).

Record machine (S : storage) := Machine {
  k_state : st_state S;
  k_mem : nat → cache;
  k_trace : trace
}.
Arguments Machine {S}.
Arguments k_state {S}.
Arguments k_mem {S}.
Arguments k_trace {S}.

Definition on (S : storage) : machine S := Machine (st_init S) (λ _, None) [].

(** A call at the present state. *)
Definition now {S} (fuel : nat) (x : machine S) (i : nat) (o : opn) (evs : list event) : result S value :=
  run S (call_of fuel o) evs (k_state x) (k_mem x i).

Definition perform {S} (fuel : nat) (x : machine S) (a : act) : machine S :=
  match a with
  | Do i o evs =>
    let r := now fuel x i o evs in
    Machine (r_state r) (keep i (after (r_out r) (r_cache r)) (k_mem x)) (Called i o (r_out r) :: k_trace x)
  | Boot i => Machine (k_state x) (keep i None (k_mem x)) (Restarted i :: k_trace x)
  end.
Definition play (S : storage) (fuel : nat) (acts : list act) : machine S := fold_left (perform fuel) acts (on S).

Definition all_normal (evs : list event) : bool :=
  forallb (λ e, match e with Normal => true | _ => false end) evs.

(** The scripts considered: those of [reach]. *)
Definition allowed (zp : zpolicy) (faults : bool) (fuel : nat) (t : trace) (a : act) : Prop :=
  match a with
  | Do i o evs => legal fuel t (Called i o OKilled) ∧
      (all_normal evs = false → faults = true ∧ zp = ZStrict ∧ settled t)
  | Boot i => True
  end.

Inductive plays (zp : zpolicy) (faults : bool) (fuel : nat) (S : storage) : machine S → Prop :=
| plays_on : plays zp faults fuel S (on S)
| plays_act x a :
    plays zp faults fuel S x → allowed zp faults fuel (k_trace x) a → plays zp faults fuel S (perform fuel x a).
