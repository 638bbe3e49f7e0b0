(** The number of storage calls, and the fuel. *)
From stdpp Require Import gmap.
From Coq Require Import NArith ZArith.
From Verif Require Import Base GoText Model1 Model2 Model3 Storage SpecText Spec SpecPlay.
Local Open Scope nat_scope.

(** The number of storage calls a program makes. *)
Fixpoint calls (S : storage) {A} (p : prog A) (evs : list event) (s : st_state S) (m : cache) : nat :=
  match p with
  | Ret _ | Throw _ | Panic | Diverge => 0
  | Call c k =>
    match evs with
    | Fault :: evs' => 1 + calls S (k (Err EStorage)) evs' s m
    | Kill :: _ => 0
    | _ => let rs := st_step S s c in 1 + calls S (k (fst rs)) (tail evs) (snd rs) m
    end
  | LoadBits k => calls S (k m) evs s m
  | StoreBits m' k => calls S k evs s m'
  end.

(** Calls that read no text. *)
Definition textless (o : opn) : Prop :=
  match o with
  | GetRemark _ | HasNextRemark _ | GetNextRemark _ | HasNextFact _ | GetNextFact _
  | GetFirstFact _ | HasNextStory _ | GetNextStory _ => True
  | _ => False
  end.

(** All texts of a history fit the fuel. *)
Definition all_fit (n : nat) (t : trace) : Prop := ∀ i o out, Called i o out ∈ t → Forall (fits n) (texts o).
