(** API calls that overlap. *)
From stdpp Require Import gmap.
From Coq Require Import NArith ZArith.
From Verif Require Import Base Model1 Model2 Model3 Storage Spec SpecMoments.
Local Open Scope nat_scope.

(** ** Crowds

    Any number of Graph values work on one storage at the same time; each makes
    one call after the other.  [sc_running i] is what is left of the call of
    Graph value [i]. *)
Record scene := Scene {
  sc_trace : trace;        (* the calls that have ended, latest first *)
  sc_store : graph;
  sc_mem : nat → cache;    (* the bit caches of the Graph values *)
  sc_running : nat → option (opn * prog value)
}.

Definition set_at {A} (i : nat) (a : A) (f : nat → A) : nat → A :=
  λ j, if Nat.eqb j i then a else f j.

(** Nobody is at work. *)
Definition still (t : trace) (w : world) : scene := Scene t (store w) (mem w) (λ _, None).

(** One step of one Graph value; a step makes at most one storage call.  [fk]:
    storage calls may fail and calls may be killed.  Methods that create are
    called on remarks the API returned, at any time; the others on any remark. *)
Inductive crowd (zp : zpolicy) (fk : bool) (fuel : nat) : scene → scene → Prop :=
| cr_begin t g mm ru i o :
    ru i = None → (creating o = true → ∀ r, receiver o = Some r → issued t r) →
    crowd zp fk fuel (Scene t g mm ru) (Scene t g mm (set_at i (Some (o, call_of fuel o)) ru))
| cr_call t g mm ru i o c k r g' :
    ru i = Some (o, Call c k) → gstep zp g c r g' →
    crowd zp fk fuel (Scene t g mm ru) (Scene t g' mm (set_at i (Some (o, k r)) ru))
| cr_fault t g mm ru i o c k :
    fk = true → ru i = Some (o, Call c k) →
    crowd zp fk fuel (Scene t g mm ru) (Scene t g mm (set_at i (Some (o, k (Err EStorage))) ru))
| cr_kill t g mm ru i o c k :
    fk = true → ru i = Some (o, Call c k) →
    crowd zp fk fuel (Scene t g mm ru)
      (Scene (Called i o OKilled :: t) g (set_at i None mm) (set_at i None ru))
| cr_load t g mm ru i o k :
    ru i = Some (o, LoadBits k) →
    crowd zp fk fuel (Scene t g mm ru) (Scene t g mm (set_at i (Some (o, k (mm i))) ru))
| cr_store t g mm ru i o m k :
    ru i = Some (o, StoreBits m k) →
    crowd zp fk fuel (Scene t g mm ru) (Scene t g (set_at i m mm) (set_at i (Some (o, k)) ru))
| cr_end t g mm ru i o p out :
    ru i = Some (o, p) → final p = Some out →
    crowd zp fk fuel (Scene t g mm ru) (Scene (Called i o out :: t) g mm (set_at i None ru))
| cr_restart t g mm ru i :
    ru i = None →
    crowd zp fk fuel (Scene t g mm ru) (Scene (Restarted i :: t) g (set_at i None mm) ru).

(** The scenes a crowd may reach from [w], where all was quiet. *)
Definition crowded (zp : zpolicy) (fk : bool) (fuel : nat) (t : trace) (w : world) (s : scene) : Prop :=
  rtc (crowd zp fk fuel) (still t w) s.

(** The texts given to the calls that run fit. *)
Definition sized (fuel : nat) (s : scene) : Prop :=
  ∀ i o p, sc_running s i = Some (o, p) → Forall (fits fuel) (texts o).
(** From one scene of a crowd to a later one, where all texts given fit. *)
Definition goes_on (zp : zpolicy) (fk : bool) (fuel : nat) : scene → scene → Prop :=
  rtc (λ s s', crowd zp fk fuel s s' ∧ sized fuel s').

(** Call [o] has ended with [out] since the crowd came together. *)
Definition since (t : trace) (s : scene) (i : nat) (o : opn) (out : outcome value) : Prop :=
  ∃ l, sc_trace s = l ++ t ∧ Called i o out ∈ l.

(** A call that reads a remark of the history [t]. *)
Definition reads_from (t : trace) (o : opn) : Prop :=
  match o with
  | GetRemark x => ∃ r, issued t r ∧ x = re_class r
  | _ => creating o = false ∧ ∃ r, receiver o = Some r ∧ issued t r
  end.

(** The nodes a remark consists of. *)
Definition nodes_of (r : remark_ent) : gset N := {[re_class r; re_detail r; re_position r; re_fact r]}.

(** A bit cache as the initialisation of the bit layer fills it on [g]. *)
Definition remembers (g : graph) (m : cache) : Prop :=
  ∀ zo, m = Some zo → exec ZStrict false bit_initialize g None (OOk zo) g (Some zo).

(** Right neighbours and right references, any number of them. *)
Record sorted (g : graph) (K : N → option node_kind) : Prop := {
  so_nodes : ∀ x, x ∈ nodes g ↔ K x ≠ None;
  so_zero : ∀ x, K x = Some Zero → False;
  so_edge : ∀ x y, (x, y) ∈ edges g → ∃ a b, K x = Some a ∧ K y = Some b ∧ joins a b = true;
  so_ref : ∀ x y, fwd g !! x = Some y → ∃ a b, K x = Some a ∧ K y = Some b ∧ next_field a = Some b;
  so_back : ∀ x y, fwd g !! x = Some y ↔ bwd g !! y = Some x
}.
