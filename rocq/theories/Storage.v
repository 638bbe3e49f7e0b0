(** The storage contract and executions.

    The storage (clew) is not part of /repo.  This file says what the code of
    /repo is entitled to expect of it (internal/abstract/storage.go 3-13) and
    defines executions of programs over *every* storage that behaves so. *)
From stdpp Require Import gmap.
From Coq Require Import NArith.
From Verif Require Import Base.

(** Abstract contents of a storage: nodes, directed edges, and references (each
    node has at most one reference going out and one coming in). *)
Record graph := Graph {
  nodes : gset N;
  edges : gset (N * N);
  fwd : gmap N N;     (* node -> the node it references *)
  bwd : gmap N N      (* node -> the node that references it *)
}.

Definition empty_graph : graph := Graph ∅ ∅ ∅ ∅.

Definition add_node (x : N) (g : graph) : graph :=
  Graph ({[x]} ∪ nodes g) (edges g) (fwd g) (bwd g).
Definition add_edge (x y : N) (g : graph) : graph :=
  Graph (nodes g) ({[(x, y)]} ∪ edges g) (fwd g) (bwd g).
Definition add_ref (x y : N) (g : graph) : graph :=
  Graph (nodes g) (edges g) (<[x:=y]> (fwd g)) (<[y:=x]> (bwd g)).

(** What the storage does with node 0, the "no reference" value: [ZStrict] 0 is
    an unknown node, [ZNode] 0 is accepted like a node. *)
Inductive zpolicy := ZStrict | ZNode.

Definition valid (zp : zpolicy) (g : graph) (x : N) : Prop :=
  x ∈ nodes g ∨ (zp = ZNode ∧ x = 0%N).

(** A call on an unknown node fails and changes nothing. *)
Definition guarded {A} (v : Prop) (g : graph) (r : res A) (g' : graph) (P : Prop) : Prop :=
  (v → P) ∧ (¬ v → r = Err EStorage ∧ g' = g).

(** [gstep zp g c r g']: in state [g] the call [c] may answer [r] and leave
    [g'].  Reads may list neighbours in any order.  Connecting twice is the same
    as connecting once.  New nodes are numbered 1, 2, 3, ... as long as there is
    no edge; later numbers are only fresh and non-zero.  SetReference is only
    specified for nodes whose references are unset; Disconnect and Delete are
    not specified at all. *)
Definition gstep (zp : zpolicy) (g : graph) (c : call) : res (answer c) → graph → Prop :=
  match c return res (answer c) → graph → Prop with
  | CHas x => λ r g', r = Ok (bool_decide (x ∈ nodes g)) ∧ g' = g
  | CCreate => λ r g', ∃ x : N, r = Ok x ∧ x ≠ 0%N ∧ x ∉ nodes g ∧
      (edges g = ∅ → x = (N.of_nat (size (nodes g)) + 1)%N) ∧ g' = add_node x g
  | CSources x => λ r g', guarded (valid zp g x) g r g'
      (∃ l : list N, r = Ok l ∧ NoDup l ∧ (∀ y, y ∈ l ↔ (y, x) ∈ edges g) ∧ g' = g)
  | CTargets x => λ r g', guarded (valid zp g x) g r g'
      (∃ l : list N, r = Ok l ∧ NoDup l ∧ (∀ y, y ∈ l ↔ (x, y) ∈ edges g) ∧ g' = g)
  | CGetRef x => λ r g', guarded (valid zp g x) g r g'
      (r = Ok (default 0%N (bwd g !! x), default 0%N (fwd g !! x)) ∧ g' = g)
  | CSetRef x y => λ r g', guarded (valid zp g x ∧ valid zp g y) g r g'
      (fwd g !! x = None → bwd g !! y = None → r = Ok tt ∧ g' = add_ref x y g)
  | CConnect x y => λ r g', guarded (valid zp g x ∧ valid zp g y) g r g'
      (r = Ok tt ∧ g' = add_edge x y g)
  | CDisconnect _ _ | CDelete _ => λ _ _, True
  end.

(** [exec zp fk p g m o g' m']: program [p], started on storage contents [g]
    with bit cache [m], may end with outcome [o], contents [g'] and cache [m'].
    With [fk = true] any storage call may fail without effect, and the program
    may be stopped before any storage call. *)
Inductive exec (zp : zpolicy) (fk : bool) {A} :
  prog A → graph → cache → outcome A → graph → cache → Prop :=
| ExRet a g m : exec zp fk (Ret a) g m (OOk a) g m
| ExThrow e g m : exec zp fk (Throw e) g m (OErr e) g m
| ExPanic g m : exec zp fk Panic g m OPanic g m
| ExDiverge g m : exec zp fk Diverge g m ODiverge g m
| ExCall c k g m r g1 o g2 m2 :
    gstep zp g c r g1 → exec zp fk (k r) g1 m o g2 m2 →
    exec zp fk (Call c k) g m o g2 m2
| ExFault c k g m o g2 m2 :
    fk = true → exec zp fk (k (Err EStorage)) g m o g2 m2 →
    exec zp fk (Call c k) g m o g2 m2
| ExKill c k g m :
    fk = true → exec zp fk (Call c k) g m OKilled g m
| ExLoad k g m o g2 m2 :
    exec zp fk (k m) g m o g2 m2 → exec zp fk (LoadBits k) g m o g2 m2
| ExStore m1 k g m o g2 m2 :
    exec zp fk k g m1 o g2 m2 → exec zp fk (StoreBits m1 k) g m o g2 m2.

(** A concrete storage: a deterministic state machine. *)
Record storage := Storage {
  st_state : Type;
  st_init : st_state;
  st_step : st_state → ∀ c : call, res (answer c) * st_state
}.

(** It meets the contract if its states stand for graphs. *)
Definition stands (zp : zpolicy) (S : storage) (inv : st_state S → Prop) (abs : st_state S → graph) : Prop :=
  inv (st_init S) ∧ abs (st_init S) = empty_graph ∧
  ∀ s c, inv s →
    inv (snd (st_step S s c)) ∧
    gstep zp (abs s) c (fst (st_step S s c)) (abs (snd (st_step S s c))).
Definition meets (zp : zpolicy) (S : storage) : Prop := ∃ inv abs, stands zp S inv abs.

(** Schedule of one program: what happens at each storage call; when the list
    is used up everything goes well. *)
Inductive event := Normal | Fault | Kill.

Record result (S : storage) (A : Type) := Result {
  r_out : outcome A;
  r_state : st_state S;
  r_cache : cache
}.
Arguments Result {S A}.
Arguments r_out {S A}.
Arguments r_state {S A}.
Arguments r_cache {S A}.

Fixpoint run (S : storage) {A} (p : prog A) (evs : list event)
    (s : st_state S) (m : cache) : result S A :=
  match p with
  | Ret a => Result (OOk a) s m
  | Throw e => Result (OErr e) s m
  | Panic => Result OPanic s m
  | Diverge => Result ODiverge s m
  | Call c k =>
    match evs with
    | Fault :: evs' => run S (k (Err EStorage)) evs' s m
    | Kill :: _ => Result OKilled s m
    | _ =>
      let rs := st_step S s c in
      run S (k (fst rs)) (tail evs) (snd rs) m
    end
  | LoadBits k => run S (k m) evs s m
  | StoreBits m' k => run S k evs s m'
  end.
