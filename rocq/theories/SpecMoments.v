(** Histories watched at every storage call. *)
From stdpp Require Import gmap.
From Coq Require Import NArith ZArith.
From Verif Require Import Base Model1 Model2 Model3 Storage Spec.
Local Open Scope nat_scope.

(** ** Moments

    [reach] only sees the storage between API calls.  A moment may also lie
    within a call: [running] is what is left of it. *)
Record running := Running {
  ru_faults : bool;        (* storage calls may fail, the call may be killed *)
  ru_graph : nat;          (* the Graph value that makes the call *)
  ru_call : opn;
  ru_rest : prog value;    (* what is left to do *)
  ru_cache : cache         (* the bit cache of the Graph value *)
}.

Record moment := Moment {
  mo_trace : trace;        (* the calls that have ended *)
  mo_store : graph;
  mo_mem : nat → cache;
  mo_running : option running
}.

Definition between (t : trace) (w : world) : moment := Moment t (store w) (mem w) None.

(** The end of a program that makes no further storage call. *)
Definition final {A} (p : prog A) : option (outcome A) :=
  match p with
  | Ret a => Some (OOk a)
  | Throw e => Some (OErr e)
  | Panic => Some OPanic
  | Diverge => Some ODiverge
  | Call _ _ | LoadBits _ | StoreBits _ _ => None
  end.

Section moves.
  Context (zp : zpolicy) (faults : bool) (fuel : nat).

  (** One step; a step makes at most one storage call. *)
  Inductive moves : moment → moment → Prop :=
  | mv_begin t g mm fk i o :
      legal fuel t (Called i o OKilled) →
      (fk = true → faults = true ∧ zp = ZStrict ∧ settled t) →
      moves (Moment t g mm None) (Moment t g mm (Some (Running fk i o (call_of fuel o) (mm i))))
  | mv_call t g mm fk i o c k m r g' :
      gstep zp g c r g' →
      moves (Moment t g mm (Some (Running fk i o (Call c k) m)))
            (Moment t g' mm (Some (Running fk i o (k r) m)))
  | mv_fault t g mm fk i o c k m :
      fk = true →
      moves (Moment t g mm (Some (Running fk i o (Call c k) m)))
            (Moment t g mm (Some (Running fk i o (k (Err EStorage)) m)))
  | mv_kill t g mm fk i o c k m :
      fk = true →
      moves (Moment t g mm (Some (Running fk i o (Call c k) m)))
            (Moment (Called i o OKilled :: t) g (keep i None mm) None)
  | mv_load t g mm fk i o k m :
      moves (Moment t g mm (Some (Running fk i o (LoadBits k) m)))
            (Moment t g mm (Some (Running fk i o (k m) m)))
  | mv_store t g mm fk i o k m m' :
      moves (Moment t g mm (Some (Running fk i o (StoreBits m' k) m)))
            (Moment t g mm (Some (Running fk i o k m')))
  | mv_end t g mm fk i o p m out :
      final p = Some out →
      moves (Moment t g mm (Some (Running fk i o p m)))
            (Moment (Called i o out :: t) g (keep i m mm) None)
  | mv_restart t g mm i :
      moves (Moment t g mm None) (Moment (Restarted i :: t) g (keep i None mm) None).

  (** The moments of all histories. *)
  Definition seen_at (a : moment) : Prop := rtc moves (between [] first_world) a.
End moves.

(** ** A reader next to others

    [overlaps fk a p m out b]: the program [p] of a Graph value of its own with
    bit cache [m] starts at moment [a]; its storage calls interleave in any way
    with the moves of the others; it ends with [out] at moment [b].  [fk]: its
    own storage calls may fail and it may be killed. *)
Definition with_store (g : graph) (a : moment) : moment :=
  Moment (mo_trace a) g (mo_mem a) (mo_running a).

Inductive overlaps (zp : zpolicy) (faults : bool) (fuel : nat) (fk : bool) {A} :
  moment → prog A → cache → outcome A → moment → Prop :=
| ov_others a a' p m out b :
    moves zp faults fuel a a' → overlaps zp faults fuel fk a' p m out b →
    overlaps zp faults fuel fk a p m out b
| ov_call a c k m r g' out b :
    gstep zp (mo_store a) c r g' → overlaps zp faults fuel fk (with_store g' a) (k r) m out b →
    overlaps zp faults fuel fk a (Call c k) m out b
| ov_fault a c k m out b :
    fk = true → overlaps zp faults fuel fk a (k (Err EStorage)) m out b →
    overlaps zp faults fuel fk a (Call c k) m out b
| ov_kill a c k m :
    fk = true → overlaps zp faults fuel fk a (Call c k) m OKilled a
| ov_load a k m out b :
    overlaps zp faults fuel fk a (k m) m out b → overlaps zp faults fuel fk a (LoadBits k) m out b
| ov_store a m m' k out b :
    overlaps zp faults fuel fk a k m' out b → overlaps zp faults fuel fk a (StoreBits m' k) m out b
| ov_end a p m out :
    final p = Some out → overlaps zp faults fuel fk a p m out a.

(** ** Kinds of nodes

    The nodes of an entity are named after the fields of its Go struct: the
    first field is its class node, each further field is referenced by the one
    before (internal/concrete/bit/entity.go 9-14, character/entity.go 9-15,
    word/entity.go 9-15, phrase/entity.go 9-15, detail/entity.go 9-14,
    remark/entity.go 10-16, fact/entity.go 9-15, story/entity.go 9-15). *)
Inductive node_kind :=
| Zero                                     (* the number 0, never a node *)
| Root (k : N)                             (* node k = 1..8 of the class layer *)
| BitClass | BitCharacter
| CharacterClass | CharacterBit | CharacterCharacter | CharacterWord
| WordClass | WordCharacter | WordWord | WordPhrase
| PhraseClass | PhraseWord | PhrasePhrase | PhraseDetail
| DetailClass | DetailPhrase | DetailRemark
| RemarkClass | RemarkDetail | RemarkPosition | RemarkFact
| FactClass | FactRemark | FactPosition | FactStory
| StoryClass | StoryFact | StoryPosition | StoryTree.

(** Class nodes by internal/concrete/class/repository.go 9-18. *)
Definition class_root (x : node_kind) : option N :=
  match x with
  | BitClass => Some 1%N | CharacterClass => Some 2%N | WordClass => Some 3%N | PhraseClass => Some 4%N
  | DetailClass => Some 5%N | RemarkClass => Some 6%N | FactClass => Some 7%N | StoryClass => Some 8%N
  | _ => None
  end.

(** The node each field references. *)
Definition next_field (x : node_kind) : option node_kind :=
  match x with
  | Root k => Some (Root (k + 1))
  | BitClass => Some BitCharacter
  | CharacterClass => Some CharacterBit | CharacterBit => Some CharacterCharacter
  | CharacterCharacter => Some CharacterWord
  | WordClass => Some WordCharacter | WordCharacter => Some WordWord | WordWord => Some WordPhrase
  | PhraseClass => Some PhraseWord | PhraseWord => Some PhrasePhrase | PhrasePhrase => Some PhraseDetail
  | DetailClass => Some DetailPhrase | DetailPhrase => Some DetailRemark
  | RemarkClass => Some RemarkDetail | RemarkDetail => Some RemarkPosition | RemarkPosition => Some RemarkFact
  | FactClass => Some FactRemark | FactRemark => Some FactPosition | FactPosition => Some FactStory
  | StoryClass => Some StoryFact | StoryFact => Some StoryPosition | StoryPosition => Some StoryTree
  | _ => None
  end.

(** The edges of the data model; those at [Zero] are there because of the
    defects of C23 and C26. *)
Definition joins (x y : node_kind) : bool :=
  match x, y with
  | CharacterBit, BitCharacter | BitCharacter, CharacterBit
  | CharacterCharacter, CharacterCharacter
  | CharacterWord, WordCharacter | WordCharacter, CharacterWord
  | WordWord, WordWord
  | WordPhrase, PhraseWord | PhraseWord, WordPhrase
  | PhrasePhrase, PhrasePhrase
  | PhraseDetail, DetailPhrase | DetailPhrase, PhraseDetail
  | DetailRemark, RemarkDetail
  | RemarkFact, FactRemark | FactRemark, RemarkFact
  | FactStory, StoryFact | StoryFact, FactStory
  | FactPosition, StoryPosition | StoryPosition, StoryPosition
  | FactStory, Zero | Zero, FactPosition | StoryTree, Zero | Zero, StoryTree => true
  | x, Root k => match class_root x with Some k' => N.eqb k k' | None => false end
  | _, _ => false
  end.

(** Nodes with at most one edge going out, and with at most one coming in. *)
Definition single_target (x : node_kind) : bool :=
  match x with
  | BitCharacter | CharacterBit | WordCharacter | WordPhrase | PhraseWord | DetailPhrase
  | RemarkFact | FactRemark | FactStory | StoryFact => true
  | _ => false
  end.
Definition single_source (x : node_kind) : bool :=
  match x with
  | CharacterCharacter | WordWord | PhrasePhrase | DetailPhrase | RemarkDetail => true
  | _ => false
  end.

Record typed (zp : zpolicy) (g : graph) (K : N → option node_kind) : Prop := {
  ty_zero : ∀ x, K x = Some Zero ↔ x = 0%N;
  ty_nodes : ∀ x, x ∈ nodes g ↔ x ≠ 0%N ∧ K x ≠ None;
  ty_root : ∀ x k, K x = Some (Root k) → x = k ∧ (1 <= k <= 8)%N;
  ty_edge : ∀ x y, (x, y) ∈ edges g → ∃ a b, K x = Some a ∧ K y = Some b ∧ joins a b = true;
  ty_strict : zp = ZStrict → ∀ x y, (x, y) ∈ edges g → x ∈ nodes g ∧ y ∈ nodes g;
  ty_target : ∀ x y z a, (x, y) ∈ edges g → (x, z) ∈ edges g → K x = Some a → single_target a = true → y = z;
  ty_source : ∀ x y z a, (y, x) ∈ edges g → (z, x) ∈ edges g → K x = Some a → single_source a = true → y = z;
  ty_class : ∀ x y a k, K x = Some a → class_root a = Some k → fwd g !! x = Some y → (x, k) ∈ edges g;
  ty_ref : ∀ x y, fwd g !! x = Some y → ∃ a b, K x = Some a ∧ K y = Some b ∧ next_field a = Some b;
  ty_back : ∀ x y, fwd g !! x = Some y ↔ bwd g !! y = Some x
}.

(** Storage calls for which the contract of [Storage] promises something. *)
Definition specified (zp : zpolicy) (g : graph) (c : call) : Prop :=
  match c with
  | CSetRef x y => valid zp g x → valid zp g y → fwd g !! x = None ∧ bwd g !! y = None
  | CDisconnect _ _ | CDelete _ => False
  | _ => True
  end.

(** Nothing is removed or overwritten. *)
Record grows (g g' : graph) : Prop := {
  gr_nodes : nodes g ⊆ nodes g';
  gr_edges : edges g ⊆ edges g';
  gr_fwd : fwd g ⊆ fwd g';
  gr_bwd : bwd g ⊆ bwd g'
}.

(** Whatever the storage answers, the program makes only calls of the kind [P]. *)
Fixpoint makes_only {A} (P : call → Prop) (p : prog A) : Prop :=
  match p with
  | Ret _ | Throw _ | Panic | Diverge => True
  | Call c k => P c ∧ ∀ r, makes_only P (k r)
  | LoadBits k => ∀ m, makes_only P (k m)
  | StoreBits _ k => makes_only P k
  end.

Definition appends (c : call) : Prop :=
  match c with CDisconnect _ _ | CDelete _ => False | _ => True end.
Definition only_looks (c : call) : Prop :=
  match c with CHas _ | CSources _ | CTargets _ | CGetRef _ => True | _ => False end.

(** The program panics nowhere, whatever the storage answers. *)
Fixpoint panics_nowhere {A} (p : prog A) : Prop :=
  match p with
  | Ret _ | Throw _ | Diverge => True
  | Panic => False
  | Call c k => ∀ r, panics_nowhere (k r)
  | LoadBits k => ∀ m, panics_nowhere (k m)
  | StoreBits _ k => panics_nowhere k
  end.

(** The schedule [evs] makes one of the storage calls of this run fail, or kills
    the run. *)
Fixpoint struck (S : storage) {A} (p : prog A) (evs : list event) (s : st_state S) (m : cache) : bool :=
  match p with
  | Ret _ | Throw _ | Panic | Diverge => false
  | Call c k =>
    match evs with
    | Fault :: _ | Kill :: _ => true
    | _ => let rs := st_step S s c in struck S (k (fst rs)) (tail evs) (snd rs) m
    end
  | LoadBits k => struck S (k m) evs s m
  | StoreBits m' k => struck S k evs s m'
  end.
