(** Reversing a path. *)
From stdpp Require Import list.
From Coq Require Import Lia.
From Verif Require Import Model4.

Lemma set_nth_middle {A} (x y : A) l l' : set_nth (length l) x (l ++ y :: l') = l ++ x :: l'.
Proof. induction l as [|a l IH]; simpl; [done|]. by rewrite IH. Qed.

Lemma reverse_loop_rev {A} (p : list A) l l' : length l = length p →
  reverse_loop p (Nat.pred (length p)) (l ++ l') = rev p ++ l'.
Proof.
  revert l l'. induction p as [|x p IH]; intros l l' Hl; simpl.
  - by destruct l.
  - destruct (exists_last (l := l)) as (l0&y&->); [by intros ->|].
    rewrite app_length in Hl. simpl in Hl. assert (Hl0 : length l0 = length p) by lia.
    rewrite <- app_assoc. simpl. rewrite <- Hl0 at 2. rewrite set_nth_middle, IH by done. by rewrite <- app_assoc.
Qed.

Lemma path_reverse_rev {A} (zero : A) p : path_reverse zero p = rev p.
Proof.
  unfold path_reverse. rewrite <- (app_nil_r (List.repeat zero (length p))), reverse_loop_rev, app_nil_r; [done|].
  apply List.repeat_length.
Qed.

Theorem path_reverse_place {A} (zero : A) p i x : i < length p →
  path_reverse zero p !! i = Some x ↔ p !! (length p - S i) = Some x.
Proof. intros Hi. rewrite path_reverse_rev. change (rev p) with (List.rev p). by rewrite <- reverse_lookup by done; unfold reverse; rewrite rev_alt. Qed.
Theorem path_reverse_length {A} (zero : A) p : length (path_reverse zero p) = length p.
Proof. rewrite path_reverse_rev. apply List.rev_length. Qed.
Theorem path_reverse_twice {A} (zero : A) p : path_reverse zero (path_reverse zero p) = p.
Proof. rewrite !path_reverse_rev. apply List.rev_involutive. Qed.
