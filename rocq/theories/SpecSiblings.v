(** The stories that follow a story, and a further child of a story. *)
From stdpp Require Import gmap.
From Coq Require Import NArith.
From Verif Require Import Base Model1 Model2 Model3 Storage Spec SpecGuards SpecWalk SpecEntities.

(** The positions lead from the story [s] to [u] in [n] steps, and not further. *)
Inductive last_story (g : graph) : nat → story_ent → story_ent → Prop :=
| last_here s : no_neighbour Outgoing g (se_position s) → last_story g 0 s s
| last_next n s t u : only_neighbour Outgoing g (se_position s) (se_position t) → is_story g t →
    last_story g n t u → last_story g (S n) s u.

(** The positions lead from the story [s] on and on. *)
Definition endless_stories (g : graph) (P : story_ent → Prop) : Prop :=
  ∀ s, P s → is_story g s ∧ ∃ t, only_neighbour Outgoing g (se_position s) (se_position t) ∧ P t.

(** A new story with its first fact; its tree node leads to the one of [s] and back,
    and its position comes after the one of [last]. *)
Definition further_story (s last : story_ent) (g : graph) (out : outcome fact_agg) (g' : graph) : Prop :=
  ∃ f c, out = OOk (FactAgg f true) ∧
    enlarged (story_nodes c ++ fact_nodes f)
      [(se_class c, storyIdentifier); (se_tree c, se_tree s); (se_position last, se_position c); (se_tree s, se_tree c);
       (fe_class f, factIdentifier); (fe_story f, se_fact c); (se_fact c, fe_story f)]
      (chain_of (story_nodes c) ++ chain_of (fact_nodes f)) g g'.
