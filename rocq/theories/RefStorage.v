(** An executable storage that meets the contract; used for concrete examples
    and counterexamples.  Node numbers are handed out by one counter which a new
    edge also advances, as the expectations of
    internal/concrete/bit/repository_test.go suggest for clew. *)
From stdpp Require Import gmap.
From Coq Require Import NArith.
From Verif Require Import Base Storage.

Record rstate := RState { rs_next : N; rs_graph : graph }.

Definition rvalid (zp : zpolicy) (g : graph) (x : N) : bool :=
  bool_decide (x ∈ nodes g) ||
  match zp with ZStrict => false | ZNode => N.eqb x 0 end.

Definition list_targets (x : N) (E : gset (N * N)) : list N :=
  map snd (filter (λ e, e.1 = x) (elements E)).
Definition list_sources (x : N) (E : gset (N * N)) : list N :=
  map fst (filter (λ e, e.2 = x) (elements E)).

Definition rstep (zp : zpolicy) (s : rstate) (c : call) : res (answer c) * rstate :=
  let g := rs_graph s in
  match c return res (answer c) * rstate with
  | CHas x => (Ok (bool_decide (x ∈ nodes g)), s)
  | CCreate => (Ok (rs_next s), RState (rs_next s + 1) (add_node (rs_next s) g))
  | CSources x => if rvalid zp g x then (Ok (list_sources x (edges g)), s) else (Err EStorage, s)
  | CTargets x => if rvalid zp g x then (Ok (list_targets x (edges g)), s) else (Err EStorage, s)
  | CGetRef x =>
    if rvalid zp g x then (Ok (default 0%N (bwd g !! x), default 0%N (fwd g !! x)), s)
    else (Err EStorage, s)
  | CSetRef x y =>
    if rvalid zp g x && rvalid zp g y then (Ok tt, RState (rs_next s) (add_ref x y g))
    else (Err EStorage, s)
  | CConnect x y =>
    if rvalid zp g x && rvalid zp g y then
      (Ok tt, RState (if bool_decide ((x, y) ∈ edges g) then rs_next s else (rs_next s + 1)%N)
                     (add_edge x y g))
    else (Err EStorage, s)
  | CDisconnect _ _ | CDelete _ => (Err EStorage, s)
  end.

Definition ref_storage (zp : zpolicy) : storage :=
  Storage rstate (RState 1 empty_graph) (rstep zp).
