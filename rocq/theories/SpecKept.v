(** Texts that are in the storage already: chains that start at a bit, a character
    or a word and branch clearly, whoever made them. *)
From stdpp Require Import gmap.
From Coq Require Import NArith ZArith Ascii.
From Verif Require Import Base Model1 Storage Spec SpecText SpecGuards SpecEntities SpecSpelling SpecFactories.

(** The binary digits of a number, without leading zeros. *)
Definition digits_of (n : Z) (bs : list bool) : Prop := number bs = n ∧ (bs = [false] ∨ ∃ l, bs = true :: l).

Section kept.
  Context (zero one : N) (g : graph).

  (** The node [x] has the child [x'] for [v], and its other children are for other
      values; [says c v]: the entity with the third node [c] is one for [v]. *)
  Definition clear_child {V} (says : N → V → Prop) (x x' : N) (v : V) : Prop :=
    near Outgoing g x x' ∧ says x' v ∧ ∀ c, near Outgoing g x c → c = x' ∨ ∃ w, says c w ∧ w ≠ v.

  (** The node [x] has children for other values only. *)
  Definition no_child {V} (says : N → V → Prop) (x : N) (v : V) : Prop :=
    ∀ c, near Outgoing g x c → ∃ w, says c w ∧ w ≠ v.

  (** From [x], following the values [vs], one gets to [y]. *)
  Inductive follow {V} (says : N → V → Prop) : N → list V → N → Prop :=
  | follow_here x : follow says x [] x
  | follow_child x x' y v vs : clear_child says x x' v → follow says x' vs y → follow says x (v :: vs) y.

  Definition says_bit (c : N) (v : bool) : Prop :=
    ∃ a b d, row g [a; b; c; d] ∧ only_neighbour Outgoing g b (if v then one else zero).
  Definition says_letter (c : N) (l : text) : Prop :=
    ∃ a b d y, row g [a; b; c; d] ∧ only_neighbour Outgoing g b y ∧ letter_at zero one g y l.
  Definition says_word (c : N) (w : text) : Prop :=
    ∃ a b d y, row g [a; b; c; d] ∧ only_neighbour Outgoing g b y ∧ word_at zero one g y w.

  (** The character with the nodes [a; b; x; d] is found by the digits [bs]. *)
  Definition char_kept (a b x d : N) (bs : list bool) : Prop :=
    row g [a; b; x; d] ∧ ∃ v vs a0 b0 x0 d0, bs = v :: vs ∧ row g [a0; b0; x0; d0] ∧
      only_neighbour Outgoing g (if v : bool then one else zero) b0 ∧ follow says_bit x0 vs x.

  Definition letter_kept (a b x d : N) (c : text) : Prop :=
    utf8_char c ∧ ∃ bs, digits_of (code_point c) bs ∧ char_kept a b x d bs.

  (** The word with the nodes [a; b; x; d] is found by the characters [cs]; the
      character node of the first one must have exactly one child. *)
  Definition word_kept (a b x d : N) (cs : list text) : Prop :=
    row g [a; b; x; d] ∧ Forall utf8_char cs ∧ ∃ c cs' a1 b1 x1 d1 y a0 b0 x0 d0, cs = c :: cs' ∧ letter_kept a1 b1 x1 d1 c ∧
      only_neighbour Outgoing g x1 y ∧ only_neighbour Outgoing g d1 b0 ∧
      row g [a0; b0; x0; d0] ∧ follow says_letter x0 cs' x.

  (** The phrase with the nodes [a; b; x; d] is found by the words [ws]. *)
  Definition phrase_kept (a b x d : N) (ws : list text) : Prop :=
    row g [a; b; x; d] ∧ Forall (λ w, ascii_of_N 32 ∉ w) ws ∧ ∃ cs ws' a1 b1 x1 d1 a0 b0 x0 d0, ws = concat cs :: ws' ∧
      word_kept a1 b1 x1 d1 cs ∧ only_neighbour Outgoing g d1 b0 ∧
      row g [a0; b0; x0; d0] ∧ follow says_word x0 ws' x.
End kept.

(** An outcome that is as [P] says, or the report of a fault. *)
Definition gives {A} (fk : bool) (out : outcome A) (P : A → Prop) : Prop :=
  (fk = false → ∃ a, out = OOk a) ∧ ∀ a, out = OOk a → P a.

(** Edges start at nodes. *)
Definition anchored (g : graph) : Prop := ∀ x y, (x, y) ∈ edges g → x ∈ nodes g.

(** What the rules about the bits need of the contents. *)
Record seated (zp : zpolicy) (z o : bit_ent) (g : graph) : Prop := {
  st_mirrored : mirrored g;
  st_anchored : anchored g;
  st_one : 1%N ∈ nodes g;
  st_zero_bit : be_char z ∈ nodes g;
  st_one_bit : be_char o ∈ nodes g;
  st_class : valid zp g characterIdentifier
}.

(** New characters for the digits [vs], one after the other, the first one after
    [e]; the last one is [e']. *)
Inductive drawn (zero one : N) : char_ent → list bool → graph → char_ent → graph → Prop :=
| drawn_here e g : drawn zero one e [] g e g
| drawn_next e (v : bool) vs g e1 g1 e' g' :
    new_tail char_row characterIdentifier (if v then one else zero) (ce_char e) g (OOk e1) g1 →
    drawn zero one e1 vs g1 e' g' → drawn zero one e (v :: vs) g e' g'.

(** No five nodes in a row, and no bit where the third node of an entity is. *)
Record neat (zero one : N) (g : graph) : Prop := {
  nt_short : ∀ a b c d e, ¬ row g [a; b; c; d; e];
  nt_bits : ∀ (v : bool) a b d, ¬ row g [a; b; if v then one else zero; d]
}.

(** Every string of digits is found, or a first part of it is and the next digit is
    missing, or its first bit has nothing yet. *)
Definition in_order (zero one : N) (g : graph) : Prop := ∀ (v : bool) vs,
  (∃ a b x d, char_kept zero one g a b x d (v :: vs)) ∨
  (∃ us u us' a b x d, v :: vs = us ++ u :: us' ∧ char_kept zero one g a b x d us ∧ no_child g (says_bit zero one g) x u) ∨
  no_neighbour Outgoing g (if v then one else zero).

(** Characters asked for one after the other, with what was given for each. *)
Inductive supplied (zp : zpolicy) (z o : bit_ent) : list (Z * char_ent) → graph → graph → Prop :=
| supplied_none g : supplied zp z o [] g g
| supplied_one n e l g g1 m1 g' :
    exec zp false (char_provide n) g (Some (z, o)) (OOk (Some e)) g1 m1 → supplied zp z o l g1 g' →
    supplied zp z o ((n, e) :: l) g g'.
