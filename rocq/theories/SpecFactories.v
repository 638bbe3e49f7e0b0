(** What the factories of characters, words and phrases make or find, on any
    storage contents. *)
From stdpp Require Import gmap.
From Coq Require Import NArith.
From Verif Require Import Base Model1 Model2 Model3 Model4 Storage Spec SpecGuards SpecMoments SpecEntities.

Definition char_row (e : char_ent) : list N := [ce_class e; ce_bit e; ce_char e; ce_word e].
Definition word_row (e : word_ent) : list N := [we_class e; we_char e; we_word e; we_phrase e].
Definition phrase_row (e : phrase_ent) : list N := [pe_class e; pe_word e; pe_phrase e; pe_detail e].

(** The functions ProvideHeadEntity: [heads A p asked x k er nodes_of] if [p] looks
    for targets of [asked], and finds or makes an entity of class [k] that belongs
    to [x].
    internal/concrete: character/factory.go 24-64; word/factory.go 22-63;
    phrase/factory.go 22-60. *)
Inductive heads : ∀ A : Type, prog A → N → N → N → err → (A → list N) → Prop :=
| head_char b : heads _ (char_provide_head_entity b) (be_char b) (be_char b) characterIdentifier EBitTargets char_row
| head_word c : heads _ (word_provide_head_entity (Some c)) (ce_char c) (ce_word c) wordIdentifier ECharTargetWords word_row
| head_phrase w : heads _ (phrase_provide_head_entity w) (we_phrase w) (we_phrase w) phraseIdentifier EWordTargetPhrases phrase_row.

(** The functions CreateTailEntity: a new entity of class [k] that belongs to [x]
    and comes after the node [y].
    internal/concrete: character/factory.go 66-93; word/factory.go 65-92;
    phrase/factory.go 62-89. *)
Inductive tails : ∀ A : Type, prog A → N → N → N → (A → list N) → Prop :=
| tail_char b e : tails _ (char_create_tail_entity b e) (be_char b) (ce_char e) characterIdentifier char_row
| tail_word c e : tails _ (word_create_tail_entity (Some c) e) (ce_word c) (we_word e) wordIdentifier word_row
| tail_phrase w e : tails _ (phrase_create_tail_entity w e) (we_phrase w) (pe_phrase e) phraseIdentifier phrase_row.

(** A new entity whose second node is tied to [x] both ways. *)
Definition new_head {A} (rowof : A → list N) (k x : N) (g : graph) (out : outcome A) (g' : graph) : Prop :=
  ∃ e c a b d, out = OOk e ∧ rowof e = [c; a; b; d] ∧
    enlarged [c; a; b; d] [(c, k); (a, x); (x, a)] (chain_of [c; a; b; d]) g g'.
(** A new entity whose second node points to [x]; [y] points to its third. *)
Definition new_tail {A} (rowof : A → list N) (k x y : N) (g : graph) (out : outcome A) (g' : graph) : Prop :=
  ∃ e c a b d, out = OOk e ∧ rowof e = [c; a; b; d] ∧
    enlarged [c; a; b; d] [(c, k); (a, x); (y, b)] (chain_of [c; a; b; d]) g g'.
(** A new detail between the phrases [o] and [p]. *)
Definition new_detail (o p : phrase_ent) (g : graph) (out : outcome detail_ent) (g' : graph) : Prop :=
  ∃ c x y, out = OOk (DetailEnt c x y) ∧
    enlarged [c; x; y] [(c, detailIdentifier); (pe_detail o, x); (x, pe_detail p)] (chain_of [c; x; y]) g g'.
