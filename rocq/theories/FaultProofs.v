(** Reads in which a failing storage call is always noticed. *)
From stdpp Require Import gmap.
From Coq Require Import NArith ZArith.
From Verif Require Import Base GoText Model1 Model2 Model3 Storage Spec SpecMoments CallProofs.
Local Open Scope nat_scope.

(** No success, whatever the storage answers. *)
Fixpoint fails {A} (p : prog A) : Prop :=
  match p with
  | Ret _ => False
  | Throw _ | Panic | Diverge => True
  | Call c k => ∀ r, fails (k r)
  | LoadBits k => ∀ m, fails (k m)
  | StoreBits _ k => fails k
  end.
(** No success after a storage call has failed. *)
Fixpoint tight {A} (p : prog A) : Prop :=
  match p with
  | Ret _ | Throw _ | Panic | Diverge => True
  | Call c k => fails (k (Err EStorage)) ∧ ∀ r, tight (k r)
  | LoadBits k => ∀ m, tight (k m)
  | StoreBits _ k => tight k
  end.

Lemma fails_bind {A B} (p : prog A) (f : A → prog B) : fails p → fails (bind p f).
Proof. intros Hp. induction p; simpl in *; naive_solver. Qed.
Lemma tight_bind {A B} (p : prog A) (f : A → prog B) : tight p → (∀ a, tight (f a)) → tight (bind p f).
Proof. intros Hp Hf. induction p; simpl in *; try naive_solver. destruct Hp. split; [by apply fails_bind|naive_solver]. Qed.
Lemma tight_invoke c : tight (invoke c).
Proof. split; [done|]. by intros []. Qed.
(** An ignored error leaves nil behind, which is used next. *)
Lemma fails_nil {A B} (p : prog A) (f : A → prog B) :
  fails p → fails (bind (try p) (λ r, bind (deref (nil_on_err r)) f)).
Proof. intros Hp. induction p; simpl in *; naive_solver. Qed.
Lemma tight_nil {A B} (p : prog A) (f : A → prog B) :
  tight p → (∀ a, tight (f a)) → tight (bind (try p) (λ r, bind (deref (nil_on_err r)) f)).
Proof. intros Hp Hf. induction p; simpl in *; try naive_solver. destruct Hp. split; [by apply fails_nil|naive_solver]. Qed.

Lemma fails_run {A} S (p : prog A) evs s m v : fails p → r_out (run S p evs s m) ≠ OOk v.
Proof.
  revert evs s m. induction p as [| | | |c k IH|k IH|m' k IH]; intros evs s m Hp; simpl in *; try done; [|by apply IH..].
  destruct evs as [|[] evs]; try done; by apply IH.
Qed.
Lemma tight_run {A} S (p : prog A) evs s m v :
  tight p → struck S p evs s m = true → r_out (run S p evs s m) ≠ OOk v.
Proof.
  revert evs s m. induction p as [| | | |c k IH|k IH|m' k IH]; intros evs s m Hp Hs; simpl in *; try done; [|by apply IH..].
  destruct Hp as [Hf Hp]. destruct evs as [|[] evs]; simpl in *; try done; try by apply IH. by apply fails_run.
Qed.

Ltac tightly :=
  repeat first
    [ progress intros
    | match goal with
      | |- True => exact I
      | |- tight (bind (try _) (λ r, bind (deref (nil_on_err r)) _)) => apply tight_nil
      | |- tight (bind _ _) => apply tight_bind
      | |- tight (invoke _) => apply tight_invoke
      | |- tight (Ret _) => exact I
      | |- tight (Throw _) => exact I
      | |- tight Panic => exact I
      | |- tight Diverge => exact I
      | |- tight (StoreBits _ _) => cbn [tight]
      | |- tight (LoadBits _) => cbn [tight]
      | |- tight (match ?x with _ => _ end) => destruct x
      | |- tight (let _ := _ in _) => cbv zeta
      | |- _ => solve [auto with tight]
      | |- tight ?t => let f := head_of t in unfold f
      end ].
Create HintDb tight.
Lemma tight_char_extract_loop n el l : tight (char_extract_loop n el l).
Proof. revert el l. induction n; cbn [char_extract_loop]; tightly. Qed.
Global Hint Resolve tight_char_extract_loop : tight.
Lemma tight_word_extract_loop m n el l : tight (word_extract_loop m n el l).
Proof. revert el l. induction n; cbn [word_extract_loop]; tightly. Qed.
Global Hint Resolve tight_word_extract_loop : tight.
Lemma tight_phrase_extract_loop m n el l : tight (phrase_extract_loop m n el l).
Proof. revert el l. induction n; cbn [phrase_extract_loop]; tightly. Qed.
Global Hint Resolve tight_phrase_extract_loop : tight.

(** C30 *)
Lemma reads_notice fuel o :
  match o with
  | GetRemark _ | GetObjectAndProperty _ | HasNextRemark _ | HasNextFact _ | GetNextFact _ => True
  | _ => False
  end → ∀ S evs s m v, struck S (call_of fuel o) evs s m = true → r_out (run S (call_of fuel o) evs s m) ≠ OOk v.
Proof.
  intros Ho S evs s m v. apply tight_run. destruct o; try done; clear Ho; cbn [call_of]; tightly.
Qed.
