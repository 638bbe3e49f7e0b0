(** The methods of entities that look at the neighbours of a node, on any
    storage contents whatever. *)
From stdpp Require Import gmap.
From Coq Require Import NArith.
From Verif Require Import Base Model1 Model2 Model3 Model4 Storage SpecLayers.

(** Edges that leave a node, or come in. *)
Inductive direction := Outgoing | Incoming.
Definition near (d : direction) (g : graph) (x y : N) : Prop :=
  match d with Outgoing => (x, y) ∈ edges g | Incoming => (y, x) ∈ edges g end.

Definition no_neighbour (d : direction) (g : graph) (x : N) : Prop := ∀ y, ¬ near d g x y.
Definition only_neighbour (d : direction) (g : graph) (x y : N) : Prop := ∀ z, near d g x z ↔ z = y.

(** Methods that fetch the one neighbour.
    internal/concrete: bit/entity.go 63-75; character/entity.go 44-56, 74-86,
    120-132; word/entity.go 39-51, 63-75, 99-111, 124-136; phrase/entity.go 49-61,
    68-80, 93-105; story/entity.go 64-76, 78-90, 102-114, 126-138; fact/entity.go 64-76, 78-90, 92-104;
    remark/entity.go 50-62, 64-76, 104-116. *)
Inductive fetches : prog N → direction → N → Prop :=
| fetch_bit e : fetches (bit_get_target_character e) Outgoing (be_char e)
| fetch_char_bit e : fetches (char_get_target_bit e) Outgoing (ce_bit e)
| fetch_char_char e : fetches (char_get_source_character e) Incoming (ce_char e)
| fetch_char_word e : fetches (char_get_target_word e) Outgoing (ce_word e)
| fetch_word_phrase e : fetches (word_get_target_phrase e) Outgoing (we_phrase e)
| fetch_word_char e : fetches (word_get_target_character e) Outgoing (we_char e)
| fetch_word_source e : fetches (word_get_source_character e) Incoming (we_char e)
| fetch_word_word e : fetches (word_get_source_word e) Incoming (we_word e)
| fetch_phrase_word e : fetches (phrase_get_target_word e) Outgoing (pe_word e)
| fetch_phrase_source e : fetches (phrase_get_source_word e) Incoming (pe_word e)
| fetch_phrase_phrase e : fetches (phrase_get_source_phrase e) Incoming (pe_phrase e)
| fetch_story_next e : fetches (story_get_target_position e) Outgoing (se_position e)
| fetch_story_fact e : fetches (story_get_target_fact e) Outgoing (se_fact e)
| fetch_story_parent e : fetches (story_get_target_tree e) Outgoing (se_tree e)
| fetch_story_child e : fetches (story_get_source_tree e) Incoming (se_tree e)
| fetch_fact_next e : fetches (fact_get_target_fact e) Outgoing (fe_position e)
| fetch_fact_remark e : fetches (fact_get_first_remark e) Outgoing (fe_remark e)
| fetch_fact_story e : fetches (fact_get_target_story e) Outgoing (fe_story e)
| fetch_remark_fact e : fetches (remark_get_target_fact e) Outgoing (re_fact e)
| fetch_remark_detail e : fetches (remark_get_source_detail e) Incoming (re_detail e)
| fetch_remark_next e : fetches (remark_get_next_position e) Outgoing (re_position e).

(** Methods that ask for a neighbour; [true]: several neighbours are an error.
    internal/concrete: bit/entity.go 32-47; character/entity.go 63-72, 103-118;
    word/entity.go 77-92, 113-122; phrase/entity.go 82-91; story/entity.go 54-62,
    92-100, 116-124; fact/entity.go 54-62; remark/entity.go 93-102.  The second of
    character/entity.go looks at the character node, not at the word node. *)
Inductive asks : prog bool → direction → N → bool → Prop :=
| ask_bit e : asks (bit_has_target_character e) Outgoing (be_char e) true
| ask_char_char e : asks (char_has_source_character e) Incoming (ce_char e) false
| ask_char_word e : asks (char_has_target_word e) Outgoing (ce_char e) true
| ask_word_phrase e : asks (word_has_target_phrase e) Outgoing (we_phrase e) true
| ask_word_word e : asks (word_has_source_word e) Incoming (we_word e) false
| ask_phrase_phrase e : asks (phrase_has_source_phrase e) Incoming (pe_phrase e) false
| ask_story_next e : asks (story_has_target_position e) Outgoing (se_position e) false
| ask_story_tree e : asks (story_has_target_tree e) Outgoing (se_tree e) false
| ask_story_source e : asks (story_has_source_tree e) Incoming (se_tree e) false
| ask_fact_next e : asks (fact_has_target_fact e) Outgoing (fe_position e) false
| ask_remark_next e : asks (has_next_remark e) Outgoing (re_position e) false.

(** Details of an object and a property. *)
Definition joint_detail (g : graph) (object property : phrase_ent) (d : N) : Prop :=
  (pe_detail object, d) ∈ edges g ∧ (d, pe_detail property) ∈ edges g.

(** ** Lookups

    An entity is a row of nodes; each refers to the next. *)
Fixpoint row (g : graph) (l : list N) : Prop :=
  match l with
  | x :: l' => match l' with y :: _ => fwd g !! x = Some y | [] => True end ∧ row g l'
  | [] => True
  end.

(** The functions ReadEntityBy… of internal/concrete/*/storage.go: each finds an
    entity by one node of its row. *)
Inductive finds : ∀ A : Type, prog A → A → list N → Prop :=
| find_char_class a b c d : finds _ (char_read_by_class a) (CharEnt a b c d, false) [a; b; c; d]
| find_char_bit a b c d : finds _ (char_read_by_bit b) (CharEnt a b c d) [a; b; c; d]
| find_char_char a b c d : finds _ (char_read_by_character c) (CharEnt a b c d) [a; b; c; d]
| find_char_word a b c d : finds _ (char_read_by_word d) (CharEnt a b c d) [a; b; c; d]
| find_word_class a b c d : finds _ (word_read_by_class a) (WordEnt a b c d) [a; b; c; d]
| find_word_char a b c d : finds _ (word_read_by_character b) (WordEnt a b c d) [a; b; c; d]
| find_word_word a b c d : finds _ (word_read_by_word c) (WordEnt a b c d) [a; b; c; d]
| find_word_phrase a b c d : finds _ (word_read_by_phrase d) (WordEnt a b c d) [a; b; c; d]
| find_phrase_class a b c d : finds _ (phrase_read_by_class a) (PhraseEnt a b c d) [a; b; c; d]
| find_phrase_word a b c d : finds _ (phrase_read_by_word b) (PhraseEnt a b c d) [a; b; c; d]
| find_phrase_phrase a b c d : finds _ (phrase_read_by_phrase c) (PhraseEnt a b c d) [a; b; c; d]
| find_phrase_detail a b c d : finds _ (phrase_read_by_detail d) (PhraseEnt a b c d) [a; b; c; d]
| find_detail_class a b c : finds _ (detail_read_by_class a) (DetailEnt a b c) [a; b; c]
| find_detail_phrase a b c : finds _ (detail_read_by_phrase b) (DetailEnt a b c) [a; b; c]
| find_detail_remark a b c : finds _ (detail_read_by_remark c) (DetailEnt a b c) [a; b; c]
| find_story_class a b c d : finds _ (story_read_by_class a) (StoryEnt a b c d) [a; b; c; d]
| find_story_fact a b c d : finds _ (story_read_by_fact b) (StoryEnt a b c d) [a; b; c; d]
| find_story_position a b c d : finds _ (story_read_by_position c) (StoryEnt a b c d) [a; b; c; d]
| find_story_tree a b c d : finds _ (story_read_by_tree d) (StoryEnt a b c d) [a; b; c; d]
| find_fact_class a b c d : finds _ (fact_read_by_class a) (FactEnt a b c d) [a; b; c; d]
| find_fact_remark a b c d : finds _ (fact_read_by_remark b) (FactEnt a b c d) [a; b; c; d]
| find_fact_position a b c d : finds _ (fact_read_by_position c) (FactEnt a b c d) [a; b; c; d]
| find_fact_story a b c d : finds _ (fact_read_by_story d) (FactEnt a b c d) [a; b; c; d]
| find_remark_class a b c d : finds _ (remark_read_by_class a) (RemarkEnt a b c d) [a; b; c; d]
| find_remark_detail a b c d : finds _ (remark_read_by_detail b) (RemarkEnt a b c d) [a; b; c; d]
| find_remark_position a b c d : finds _ (remark_read_by_position c) (RemarkEnt a b c d) [a; b; c; d]
| find_remark_fact a b c d : finds _ (remark_read_by_fact d) (RemarkEnt a b c d) [a; b; c; d].

Definition remark_row (r : remark_ent) : list N := [re_class r; re_detail r; re_position r; re_fact r].
(** The row of an entity a layer handed out. *)
Definition layer_row (v : lvalue) : list N :=
  match v with
  | LBit e => [be_class e; be_char e]
  | LChar (Some e) => [ce_class e; ce_bit e; ce_char e; ce_word e]
  | LWord e => [we_class e; we_char e; we_word e; we_phrase e]
  | LPhrase e => [pe_class e; pe_word e; pe_phrase e; pe_detail e]
  | _ => []
  end.
