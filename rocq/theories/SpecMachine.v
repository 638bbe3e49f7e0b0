(** What the outcome of a creating call depends on, as a small machine.

    A word is a list of code points, a phrase a list of words.  The machine knows
    nothing of nodes and edges. *)
From stdpp Require Import gmap.
From Coq Require Import ZArith.
Local Open Scope nat_scope.

(** ** What the word layer depends on, as a machine

    The code points reachable in the trie of bits, and how many one-letter words
    each code point has. *)
Record wview := WV { vP : gset Z; vH : gmap Z nat }.

Definition hd_count (V : wview) (r : Z) : nat := default 0 (vH V !! r).
Definition kid_count (V : wview) (r : Z) : nat :=
  if (r =? 0)%Z then 0
  else (if bool_decide (2 * r ∈ vP V)%Z then 1 else 0) +
       (if bool_decide (2 * r + 1 ∈ vP V)%Z then 1 else 0).

(** All prefixes of the binary notation. *)
Fixpoint prefs_of (n : nat) (r : Z) : gset Z :=
  match n with
  | O => ∅
  | S n' => {[r]} ∪ (if (r <? 2)%Z then ∅ else prefs_of n' (r / 2)%Z)
  end.

Definition m_char (V : wview) (r : Z) : wview := WV (prefs_of 31 r ∪ vP V) (vH V).

(** Some b: the word is stored, b tells if its first letter was made anew. *)
Definition m_word (V : wview) (w : list Z) : option bool * wview :=
  match w with
  | [] => (None, V)
  | r :: rs =>
    let V1 := m_char V r in
    match kid_count V1 r with
    | 0 => (Some true, fold_left m_char rs (WV (vP V1) (<[r:=S (hd_count V1 r)]> (vH V1))))
    | 1 => if hd_count V1 r =? 1 then (Some false, fold_left m_char rs V1) else (None, V1)
    | _ => (None, V1)
    end
  end.

(** ** What the phrase layer depends on, as a machine *)
Record pview := PV { pV : wview; pT : gset (list (list Z)) }.

Inductive moutcome := MOk | MErr | MPanic.

(** One more word.  [fresh]: nothing hangs on the current phrase. *)
Definition m_next (fresh : bool) (M : pview) (ws : list (list Z)) (w : list Z) : option bool * pview :=
  if negb fresh && bool_decide (ws ++ [w] ∈ pT M) then (Some false, M)
  else match m_word (pV M) w with
       | (Some _, V') => (Some true, PV V' ({[ws ++ [w]]} ∪ pT M))
       | (None, V') => (None, PV V' (pT M))
       end.

(** The words after the first: a refused one ends in a nil dereference. *)
Fixpoint m_tail (fresh : bool) (M : pview) (ws : list (list Z)) (path : list (list Z)) : moutcome * pview :=
  match path with
  | [] => (MOk, M)
  | w :: path' =>
    match m_next fresh M ws w with
    | (Some fresh', M') => m_tail fresh' M' (ws ++ [w]) path'
    | (None, M') => (MPanic, M')
    end
  end.

Definition m_phrase (M : pview) (ws : list (list Z)) : moutcome * pview :=
  match ws with
  | [] => (MErr, M)
  | w :: path =>
    match m_word (pV M) w with
    | (Some b, V') => m_tail (b || negb (bool_decide ([w] ∈ pT M))) (PV V' ({[[w]]} ∪ pT M)) [w] path
    | (None, V') => (MErr, PV V' (pT M))
    end
  end.

(** The machine for two phrases. *)
Definition m_detail (M : pview) (o p : list (list Z)) : moutcome * pview :=
  match m_phrase M o with
  | (MOk, M') => m_phrase M' p
  | r => r
  end.
