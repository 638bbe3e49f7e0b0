(** Walks from fact to fact, on any storage contents whatever. *)
From stdpp Require Import gmap.
From Coq Require Import NArith.
From Verif Require Import Base Model1 Model2 Model3 Model4 Storage SpecGuards.

(** References go both ways and join nodes. *)
Definition coherent (g : graph) : Prop :=
  ∀ x y, fwd g !! x = Some y → bwd g !! y = Some x ∧ x ∈ nodes g ∧ y ∈ nodes g.

Definition is_fact (g : graph) (f : fact_ent) : Prop := row g [fe_class f; fe_remark f; fe_position f; fe_story f].
Definition is_story (g : graph) (s : story_ent) : Prop := row g [se_class s; se_fact s; se_position s; se_tree s].

(** Fact [f] belongs to story [s], and [f] is the first fact of [s]. *)
Definition belongs (g : graph) (f : fact_ent) (s : story_ent) : Prop :=
  is_fact g f ∧ is_story g s ∧ only_neighbour Outgoing g (fe_story f) (se_fact s).
Definition begins (g : graph) (s : story_ent) (f : fact_ent) : Prop :=
  is_story g s ∧ is_fact g f ∧ only_neighbour Outgoing g (se_fact s) (fe_story f).

(** Where the methods of internal/concrete/fact/aggregate.go (36-52, 71-104,
    118-151, 153-176) should lead. *)
Inductive walk (g : graph) (f : fact_ent) : (fact_agg → prog fact_agg) → fact_ent → Prop :=
| walk_next_fact f' : is_fact g f → is_fact g f' → only_neighbour Outgoing g (fe_position f) (fe_position f') →
    walk g f fact_agg_to_next_fact f'
| walk_first_fact s f' : belongs g f s → begins g s f' → walk g f fact_agg_to_first_fact f'
| walk_next_story s s' f' : belongs g f s → only_neighbour Outgoing g (se_position s) (se_position s') →
    begins g s' f' → walk g f fact_agg_to_next_story f'
| walk_parent_story s s' f' : belongs g f s → only_neighbour Outgoing g (se_tree s) (se_tree s') →
    begins g s' f' → walk g f fact_agg_to_parent_story f'.

(** What HasNextFact, HasNextStory and HasParentStory (31-34, 59-69, 106-116)
    look at.  The last looks at the children. *)
Inductive outlook (g : graph) (f : fact_ent) : (fact_agg → prog bool) → direction → N → Prop :=
| look_next_fact : is_fact g f → outlook g f fact_agg_has_next_fact Outgoing (fe_position f)
| look_next_story s : belongs g f s → outlook g f fact_agg_has_next_story Outgoing (se_position s)
| look_parent_story s : belongs g f s → outlook g f fact_agg_has_parent_story Incoming (se_tree s).
