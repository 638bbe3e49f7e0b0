(** What a text looks like in the storage: chains of nodes, whoever made them. *)
From stdpp Require Import gmap.
From Coq Require Import NArith ZArith Ascii.
From Verif Require Import Base Storage SpecText SpecGuards.

(** The number with the binary digits [bs], the most significant one first. *)
Definition number (bs : list bool) : Z := fold_left (λ n b, (2 * n + if b : bool then 1 else 0)%Z) bs 0%Z.

(** Words put one after the other with a space between. *)
Fixpoint spaced (ws : list text) : text :=
  match ws with
  | [] => []
  | [w] => w
  | w :: ws' => w ++ ascii_of_N 32 :: spaced ws'
  end.

Section spelling.
  (** The nodes that stand for the bits 0 and 1, and the contents. *)
  Context (zero one : N) (g : graph).

  (** The node before [x] in its chain, if any. *)
  Definition comes_first (x : N) : Prop := no_neighbour Incoming g x.
  Definition comes_after (x p : N) : Prop := only_neighbour Incoming g x p.

  (** [x] is the character node of a character with the binary digits [bs], the
      last of them its own. *)
  Inductive bits_at : N → list bool → Prop :=
  | bits_first a b x d v : row g [a; b; x; d] → only_neighbour Outgoing g b (if v : bool then one else zero) →
      comes_first x → bits_at x [v]
  | bits_next a b x d v p bs : row g [a; b; x; d] → only_neighbour Outgoing g b (if v : bool then one else zero) →
      comes_after x p → bits_at p bs → bits_at x (bs ++ [v]).

  (** [y] is the word node of a character that is the byte sequence [c]. *)
  Definition letter_at (y : N) (c : text) : Prop :=
    utf8_char c ∧ ∃ a b x bs, row g [a; b; x; y] ∧ bits_at x bs ∧ number bs = code_point c.

  (** [x] is the word node of a word with the characters [cs]. *)
  Inductive letters_at : N → list text → Prop :=
  | letters_first a b x d y c : row g [a; b; x; d] → only_neighbour Outgoing g b y → letter_at y c →
      comes_first x → letters_at x [c]
  | letters_next a b x d y c p cs : row g [a; b; x; d] → only_neighbour Outgoing g b y → letter_at y c →
      comes_after x p → letters_at p cs → letters_at x (cs ++ [c]).

  (** [y] is the phrase node of a word that is the text [w]. *)
  Definition word_at (y : N) (w : text) : Prop :=
    ∃ a b x cs, row g [a; b; x; y] ∧ letters_at x cs ∧ w = concat cs.

  (** [x] is the phrase node of a phrase with the words [ws]. *)
  Inductive words_at : N → list text → Prop :=
  | words_first a b x d y w : row g [a; b; x; d] → only_neighbour Outgoing g b y → word_at y w →
      comes_first x → words_at x [w]
  | words_next a b x d y w p ws : row g [a; b; x; d] → only_neighbour Outgoing g b y → word_at y w →
      comes_after x p → words_at p ws → words_at x (ws ++ [w]).

  (** [y] is the detail node of a phrase that is the text [s]. *)
  Definition phrase_at (y : N) (s : text) : Prop :=
    ∃ a b x ws, row g [a; b; x; y] ∧ words_at x ws ∧ s = spaced ws.

  (** [x] is the detail node of a remark with these texts. *)
  Definition remark_at (x : N) (o p : text) : Prop :=
    x ∈ nodes g ∧ ∃ r y ob pr, only_neighbour Incoming g x r ∧ row g [y; r] ∧
      only_neighbour Incoming g y ob ∧ only_neighbour Outgoing g y pr ∧ phrase_at ob o ∧ phrase_at pr p.
End spelling.
