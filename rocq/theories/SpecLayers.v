(** Histories of calls to the lower layers.

    The API histories of [Spec], followed by direct uses of the repositories of
    the class, bit, character, word and phrase layers, by any of the Graph
    values. *)
From stdpp Require Import gmap.
From Coq Require Import NArith ZArith.
From Verif Require Import Base GoText Model1 Model2 Model3 Storage SpecText SpecMachine Spec.
Local Open Scope nat_scope.

Inductive lopn :=
| PutClass
| PutBit (b : bool)
| PutChar (r : Z)
| PutWord (s : text)
| PutPhrase (s : text).

Inductive lvalue :=
| LUnit
| LBit (e : bit_ent)
| LChar (a : char_aggregate)
| LWord (e : word_ent)
| LPhrase (e : phrase_ent).

Definition put (fuel : nat) (o : lopn) : prog lvalue :=
  match o with
  | PutClass => class_provide;;; Ret LUnit
  | PutBit b => e <- bit_provide b;; Ret (LBit e)
  | PutChar r => a <- char_provide r;; Ret (LChar a)
  | PutWord s => e <- word_provide fuel s;; Ret (LWord e)
  | PutPhrase s => e <- phrase_provide fuel s;; Ret (LPhrase e)
  end.

(** Runes are 32 bits wide. *)
Definition is_rune (r : Z) : Prop := (-2147483648 ≤ r < 2147483648)%Z.

Definition lfits (fuel : nat) (o : lopn) : Prop :=
  31 ≤ fuel ∧
  match o with
  | PutClass | PutBit _ => True
  | PutChar r => is_rune r
  | PutWord s | PutPhrase s => fits fuel s
  end.

(** The two bits exist for sure. *)
Definition settled_by (t : trace) (l : list (lopn * outcome lvalue)) : Prop :=
  settled t ∨ ∃ o v, (o, OOk v) ∈ l ∧ o ≠ PutClass.

(** [grown zp faults fuel t l w]: the API history [t], then the layer calls [l]
    (latest first), may lead to [w]. *)
Inductive grown (zp : zpolicy) (faults : bool) (fuel : nat) (t : trace) : list (lopn * outcome lvalue) → world → Prop :=
| grown_api w : reach zp faults fuel t w → grown zp faults fuel t [] w
| grown_put fk l w i o out g' m' :
    grown zp faults fuel t l w → lfits fuel o →
    exec zp fk (put fuel o) (store w) (mem w i) out g' m' →
    (fk = true → faults = true ∧ settled_by t l) →
    grown zp faults fuel t ((o, out) :: l) (World g' (keep i (after out m') (mem w)))
| grown_restart l w i :
    grown zp faults fuel t l w →
    grown zp faults fuel t l (World (store w) (keep i None (mem w))).

(** The cache of some Graph value over [w], maybe a new one. *)
Definition cache_in (w : world) (m : cache) : Prop := m = None ∨ ∃ j, m = mem w j.

(** The class node of an entity and the number of its class, by
    internal/concrete/class/repository.go 9-18. *)
Definition class_of (v : lvalue) : option (N * N) :=
  match v with
  | LBit e => Some (be_class e, 1)
  | LChar (Some e) => Some (ce_class e, 2)
  | LWord e => Some (we_class e, 3)
  | LPhrase e => Some (pe_class e, 4)
  | _ => None
  end%N.

(** The machine of C18, for layer calls. *)
Definition l_step (M : pview) (o : lopn) : pview :=
  match o with
  | PutClass | PutBit _ => M
  | PutChar r => if (r <? 0)%Z then M else PV (m_char (pV M) r) (pT M)
  | PutWord s => PV (snd (m_word (pV M) (runes_of s))) (pT M)
  | PutPhrase s => snd (m_phrase M (code_points s))
  end.
Definition l_run (M : pview) (l : list (lopn * outcome lvalue)) : pview :=
  foldr (λ x M, l_step M (fst x)) M l.

Definition l_predict (M : pview) (o : lopn) : moutcome :=
  match o with
  | PutClass | PutBit _ => MOk
  | PutChar r => if (r <? 0)%Z then MErr else MOk
  | PutWord s => match fst (m_word (pV M) (runes_of s)) with Some _ => MOk | None => MErr end
  | PutPhrase s => fst (m_phrase M (code_points s))
  end.

(** The machine only speaks of phrases in UTF-8. *)
Definition lvalid (o : lopn) : Prop := match o with PutPhrase s => valid_utf8 s | _ => True end.

(** The class layer's graph: nodes 1 to 8, each referring to the next. *)
Definition class_graph : graph :=
  Graph (list_to_set [1; 2; 3; 4; 5; 6; 7; 8]%N) ∅
    (list_to_map [(1, 2); (2, 3); (3, 4); (4, 5); (5, 6); (6, 7); (7, 8)]%N)
    (list_to_map [(2, 1); (3, 2); (4, 3); (5, 4); (6, 5); (7, 6); (8, 7)]%N).
