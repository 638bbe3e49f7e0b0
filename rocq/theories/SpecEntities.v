(** What the methods of entities and the functions CreateEntity write, on any
    storage contents whatever. *)
From stdpp Require Import gmap.
From Coq Require Import NArith.
From Verif Require Import Base Model1 Model2 Model3 Model4 Storage SpecGuards SpecMoments.

(** References are kept at both ends, and the ends are nodes. *)
Definition mirrored (g : graph) : Prop :=
  ∀ x y, (fwd g !! x = Some y ↔ bwd g !! y = Some x) ∧ (fwd g !! x = Some y → x ∈ nodes g ∧ y ∈ nodes g).

(** Methods that make one edge.
    internal/concrete: character/entity.go 39-42, 88-91, 93-96; word/entity.go 53-56,
    58-61, 138-141; phrase/entity.go 39-42, 63-66, 117-120, 122-125, 127-130;
    detail/entity.go 33-36; story/entity.go 39-52; fact/entity.go 39-52;
    remark/entity.go 40-48. *)
Inductive ties : prog unit → N → N → Prop :=
| link_char_bit e x : ties (char_point_to_bit e x) (ce_bit e) x
| link_char_char e x : ties (char_point_to_character e x) (ce_char e) x
| link_char_word e x : ties (char_point_to_word e x) (ce_word e) x
| link_word_char e x : ties (word_point_to_character e x) (we_char e) x
| link_word_phrase e x : ties (word_point_to_phrase e x) (we_phrase e) x
| link_word_word e x : ties (word_point_to_word e x) (we_word e) x
| link_phrase_phrase e x : ties (phrase_point_to_phrase e x) (pe_phrase e) x
| link_phrase_word e x : ties (phrase_point_to_word e x) (pe_word e) x
| link_phrase_source e x : ties (phrase_add_source_detail e x) x (pe_detail e)
| link_phrase_target e x : ties (phrase_add_target_detail e x) (pe_detail e) x
| link_phrase_mark e x : ties (phrase_mark e x) x (pe_detail e)
| link_detail_remark e x : ties (detail_point_to_remark e x) (de_remark e) x
| link_story_fact e x : ties (story_point_to_fact e x) (se_fact e) x
| link_story_next e x : ties (story_point_to_position e x) (se_position e) x
| link_story_tree e x : ties (story_point_to_tree e x) (se_tree e) x
| link_fact_story e x : ties (fact_point_to_story e x) (fe_story e) x
| link_fact_remark e x : ties (fact_point_to_remark e x) (fe_remark e) x
| link_fact_next e x : ties (fact_point_to_position e x) (fe_position e) x
| link_remark_next e x : ties (remark_point_to_position e x) (re_position e) x
| link_remark_fact e x : ties (remark_point_to_fact e x) (re_fact e) x.

(** [g'] is [g] with the edges [l] added. *)
Record linked (l : list (N * N)) (g g' : graph) : Prop := {
  li_nodes : nodes g' = nodes g;
  li_edges : ∀ e, e ∈ edges g' ↔ e ∈ edges g ∨ e ∈ l;
  li_fwd : fwd g' = fwd g;
  li_bwd : bwd g' = bwd g
}.

(** The functions CreateEntity that are given a class node, and the nodes of
    what they make.
    internal/concrete: character/storage.go 20-59; word/storage.go 20-59;
    phrase/storage.go 20-59; story/storage.go 21-60; fact/storage.go 21-60;
    remark/storage.go 21-60. *)
Inductive builds : ∀ A : Type, prog A → N → (A → list N) → Prop :=
| build_char c : builds _ (char_create_entity c) c (λ e, [ce_class e; ce_bit e; ce_char e; ce_word e])
| build_word c : builds _ (word_create_entity c) c (λ e, [we_class e; we_char e; we_word e; we_phrase e])
| build_phrase c : builds _ (phrase_create_entity c) c (λ e, [pe_class e; pe_word e; pe_phrase e; pe_detail e])
| build_story c : builds _ (story_create_entity c) c (λ e, [se_class e; se_fact e; se_position e; se_tree e])
| build_fact c : builds _ (fact_create_entity c) c (λ e, [fe_class e; fe_remark e; fe_position e; fe_story e])
| build_remark c : builds _ (remark_create_entity c) c remark_row.

(** [l] are new nodes of [g']. *)
Definition brand_new (l : list N) (g g' : graph) : Prop :=
  NoDup l ∧ ∀ x, x ∈ nodes g' ↔ x ∈ nodes g ∨ x ∈ l ∧ x ∉ nodes g.
(** Whatever refers to something it did not refer to before refers to a new node. *)
Definition refers_anew (g g' : graph) : Prop :=
  ∀ x y, fwd g' !! x = Some y → fwd g !! x = Some y ∨ fwd g !! x = None ∧ y ∉ nodes g.
(** The nodes of [c :: l] are an entity of [g']; its nodes [l] are new. *)
Definition built (c : N) (l : list N) (g g' : graph) : Prop :=
  brand_new l g g' ∧ row g' (c :: l) ∧ length l = 3%nat ∧
  ∀ x, x ∈ nodes g → x ≠ c → fwd g' !! x = fwd g !! x.

(** ** Facts and stories

    [g'] is [g] with the new nodes [ns], and the edges [es] and references [rs]. *)
Record enlarged (ns : list N) (es rs : list (N * N)) (g g' : graph) : Prop := {
  en_distinct : NoDup ns;
  en_new : ∀ x, x ∈ ns → x ∉ nodes g;
  en_nodes : ∀ x, x ∈ nodes g' ↔ x ∈ nodes g ∨ x ∈ ns;
  en_edges : ∀ e, e ∈ edges g' ↔ e ∈ edges g ∨ e ∈ es;
  en_fwd : ∀ x y, fwd g' !! x = Some y ↔ fwd g !! x = Some y ∨ (x, y) ∈ rs;
  en_mirrored : mirrored g'
}.

(** The nodes of a fact and of a story, and what ties them to each other. *)
Definition fact_nodes (f : fact_ent) : list N := [fe_class f; fe_remark f; fe_position f; fe_story f].
Definition story_nodes (s : story_ent) : list N := [se_class s; se_fact s; se_position s; se_tree s].
Definition chain_of (l : list N) : list (N * N) := zip l (tail l).

(** Class nodes are there: number 1 is what class/repository.go 36-43 looks for,
    7 and 8 are those of facts and stories. *)
Definition classes_there (g : graph) : Prop := 1%N ∈ nodes g ∧ factIdentifier ∈ nodes g ∧ storyIdentifier ∈ nodes g.

(** A call that was to bring about [P]: it adds to the storage only, and either
    does what it was to do or is cut short by a fault. *)
Definition brings {A} (fk : bool) (P : outcome A → graph → Prop) (g : graph) (m : cache) (out : outcome A) (g' : graph) (m' : cache) : Prop :=
  m' = m ∧ grows g g' ∧ mirrored g' ∧ (P out g' ∨ fk = true ∧ ∀ b, out ≠ OOk b).

(** A first fact, with its story. *)
Definition new_story (g : graph) (out : outcome fact_agg) (g' : graph) : Prop :=
  ∃ f s, out = OOk (FactAgg f true) ∧
    enlarged (fact_nodes f ++ story_nodes s)
      [(fe_class f, factIdentifier); (se_class s, storyIdentifier); (fe_story f, se_fact s); (se_fact s, fe_story f)]
      (chain_of (fact_nodes f) ++ chain_of (story_nodes s)) g g'.
(** A fact after [f], that points to [x] as its story. *)
Definition next_fact (f : fact_ent) (x : N) (g : graph) (out : outcome fact_agg) (g' : graph) : Prop :=
  ∃ n, out = OOk (FactAgg n true) ∧
    enlarged (fact_nodes n) [(fe_class n, factIdentifier); (fe_story n, x); (fe_position f, fe_position n)] (chain_of (fact_nodes n)) g g'.
(** A first fact with its story, whose tree node points to [x]. *)
Definition child_story (x : N) (g : graph) (out : outcome fact_agg) (g' : graph) : Prop :=
  ∃ f s, out = OOk (FactAgg f true) ∧
    enlarged (story_nodes s ++ fact_nodes f)
      [(se_class s, storyIdentifier); (se_tree s, x); (fe_class f, factIdentifier); (fe_story f, se_fact s); (se_fact s, fe_story f)]
      (chain_of (story_nodes s) ++ chain_of (fact_nodes f)) g g'.
