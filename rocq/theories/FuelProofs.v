(** More fuel changes nothing: a program that does not run out of fuel does the
    same, call by call, with more of it. *)
From stdpp Require Import gmap.
From Coq Require Import NArith ZArith Lia.
From Verif Require Import Base GoText Model1 Model2 Model3 Storage SpecText Spec SpecPlay SpecCost HistoryProofs ApiProofs InitProofs PlayProofs.
Local Open Scope nat_scope.

(** [q] does what [p] does where [p] does not diverge. *)
Inductive below {A} : prog A → prog A → Prop :=
| below_diverge q : below Diverge q
| below_ret a : below (Ret a) (Ret a)
| below_throw e : below (Throw e) (Throw e)
| below_panic : below Panic Panic
| below_call c k k' : (∀ r, below (k r) (k' r)) → below (Call c k) (Call c k')
| below_load k k' : (∀ m, below (k m) (k' m)) → below (LoadBits k) (LoadBits k')
| below_store m k k' : below k k' → below (StoreBits m k) (StoreBits m k').

Lemma below_refl {A} (p : prog A) : below p p.
Proof. induction p; constructor; auto. Qed.
Lemma below_bind {A B} (p p' : prog A) (f f' : A → prog B) :
  below p p' → (∀ a, below (f a) (f' a)) → below (bind p f) (bind p' f').
Proof. intros Hp Hf. induction Hp; cbn [bind]; try constructor; auto. Qed.
Lemma below_try {A} (p p' : prog A) : below p p' → below (try p) (try p').
Proof. induction 1; cbn [try]; constructor; auto. Qed.

Section runs.
  Context {A : Type}.
  Lemma below_run S (p q : prog A) : below p q → ∀ evs s m,
    r_out (run S p evs s m) ≠ ODiverge →
    run S q evs s m = run S p evs s m ∧ calls S q evs s m = calls S p evs s m.
  Proof.
    induction 1 as [q|a|e| |c k k' _ IH|k k' _ IH|m' k k' _ IH]; intros evs s m Hd; cbn [run calls] in *; try done.
    - destruct evs as [|[] evs]; cbn [tail] in *; try done.
      + destruct (IH _ [] _ _ Hd) as [-> ->]. done.
      + destruct (IH _ evs _ _ Hd) as [-> ->]. done.
      + destruct (IH _ evs _ _ Hd) as [-> ->]. done.
    - by apply IH.
    - by apply IH.
  Qed.
  Lemma below_exec zp fk (p q : prog A) : below p q → ∀ g m out g' m', out ≠ ODiverge →
    exec zp fk p g m out g' m' → exec zp fk q g m out g' m'.
  Proof.
    induction 1 as [q|a|e| |c k k' _ IH|k k' _ IH|m1 k k' _ IH]; intros g m out g' m' Ho Hx.
    - by inversion Hx; simplify_eq.
    - done.
    - done.
    - done.
    - apply exec_call_any in Hx as [(r&g1&Hc&Hx)|[[? Hx]|(?&->&->&->)]].
      + eapply ExCall; [exact Hc|]. by apply IH.
      + eapply ExFault; [done|]. by apply IH.
      + by apply ExKill.
    - apply exec_load in Hx. apply ExLoad. by apply IH.
    - apply exec_store in Hx. apply ExStore. by apply IH.
  Qed.
  (** Conversely, what [q] does [p] does, if it does not diverge. *)
  Lemma exec_below zp fk (p q : prog A) : below p q → ∀ g m out g' m',
    exec zp fk q g m out g' m' →
    exec zp fk p g m out g' m' ∨ ∃ g1 m1, exec zp fk p g m ODiverge g1 m1.
  Proof.
    induction 1 as [q|a|e| |c k k' _ IH|k k' _ IH|m1 k k' _ IH]; intros g m out g' m' Hx.
    - right. eexists _, _. apply ExDiverge.
    - by left.
    - by left.
    - by left.
    - apply exec_call_any in Hx as [(r&g1&Hc&Hx)|[[? Hx]|(?&->&->&->)]].
      + apply IH in Hx as [Hx|(g2&m2&Hx)]; [left|right; exists g2, m2]; (eapply ExCall; [exact Hc|exact Hx]).
      + apply IH in Hx as [Hx|(g2&m2&Hx)]; [left|right; exists g2, m2]; (eapply ExFault; [done|exact Hx]).
      + left. by apply ExKill.
    - apply exec_load in Hx. apply IH in Hx as [Hx|(g2&m2&Hx)]; [left|right; exists g2, m2]; by apply ExLoad.
    - apply exec_store in Hx. apply IH in Hx as [Hx|(g2&m2&Hx)]; [left|right; exists g2, m2]; by apply ExStore.
  Qed.
End runs.

(** ** Every loop *)
Create HintDb below.
Ltac mono :=
  repeat first
    [ assumption
    | progress intros
    | solve [auto with below]
    | match goal with
      | |- below (bind _ _) (bind _ _) => apply below_bind
      | |- below (try _) (try _) => apply below_try
      | |- below (if ?b then _ else _) _ => destruct b
      | |- below (match ?x with _ => _ end) _ => destruct x
      end
    | apply below_refl ].

Section loops.
  Context {n n' : nat} (Hn : n ≤ n').
  Lemma below_char_loop el path : below (char_extract_loop n el path) (char_extract_loop n' el path).
  Proof.
    revert n' Hn el path. induction n as [|k IH]; intros n' Hn el path; [apply below_diverge|].
    destruct n' as [|k']; [lia|]. cbn [char_extract_loop]. mono. apply IH. lia.
  Qed.
  Lemma below_char a : below (char_extract n a) (char_extract n' a).
  Proof. unfold char_extract. mono. apply below_char_loop. Qed.
  Hint Resolve below_char : below.
  Lemma below_character_value e : below (word_extract_character_value n e) (word_extract_character_value n' e).
  Proof. unfold word_extract_character_value. mono. Qed.
  Hint Resolve below_character_value : below.
  Lemma below_word_find z es : below (word_find n z es) (word_find n' z es).
  Proof. induction es as [|e es IH]; cbn [word_find]; mono. Qed.
  Hint Resolve below_word_find : below.
  Lemma below_word_next e z : below (word_provide_next_element n e z) (word_provide_next_element n' e z).
  Proof. unfold word_provide_next_element. mono. Qed.
  Hint Resolve below_word_next : below.
  Lemma below_word_provide_loop el path : below (word_provide_loop n el path) (word_provide_loop n' el path).
  Proof. revert el. induction path as [|z path IH]; intros el; cbn [word_provide_loop]; mono. Qed.
  Hint Resolve below_word_provide_loop : below.
  Lemma below_word_provide s : below (word_provide n s) (word_provide n' s).
  Proof. unfold word_provide. mono. Qed.
  Hint Resolve below_word_provide : below.
  Lemma below_word_loop k k' e path : k ≤ k' → below (word_extract_loop n k e path) (word_extract_loop n' k' e path).
  Proof.
    revert k' e path. induction k as [|k IH]; intros k' e path Hk; [apply below_diverge|].
    destruct k' as [|k']; [lia|]. cbn [word_extract_loop]. mono. apply IH. lia.
  Qed.
  Hint Resolve below_word_loop : below.
  Lemma below_word e : below (word_extract n e) (word_extract n' e).
  Proof. unfold word_extract. mono. Qed.
  Hint Resolve below_word : below.
  Lemma below_word_value e : below (phrase_extract_word_value n e) (phrase_extract_word_value n' e).
  Proof. unfold phrase_extract_word_value. mono. Qed.
  Hint Resolve below_word_value : below.
  Lemma below_phrase_find w es : below (phrase_find n w es) (phrase_find n' w es).
  Proof. induction es as [|e es IH]; cbn [phrase_find]; mono. Qed.
  Hint Resolve below_phrase_find : below.
  Lemma below_phrase_next e w : below (phrase_provide_next_element n e w) (phrase_provide_next_element n' e w).
  Proof. unfold phrase_provide_next_element. mono. Qed.
  Hint Resolve below_phrase_next : below.
  Lemma below_phrase_first w : below (phrase_provide_first_element n w) (phrase_provide_first_element n' w).
  Proof. unfold phrase_provide_first_element. mono. Qed.
  Hint Resolve below_phrase_first : below.
  Lemma below_phrase_provide_loop el path : below (phrase_provide_loop n el path) (phrase_provide_loop n' el path).
  Proof. revert el. induction path as [|z path IH]; intros el; cbn [phrase_provide_loop]; mono. Qed.
  Hint Resolve below_phrase_provide_loop : below.
  Lemma below_phrase_provide s : below (phrase_provide n s) (phrase_provide n' s).
  Proof. unfold phrase_provide. mono. Qed.
  Hint Resolve below_phrase_provide : below.
  Lemma below_phrase_loop k k' e path : k ≤ k' → below (phrase_extract_loop n k e path) (phrase_extract_loop n' k' e path).
  Proof.
    revert k' e path. induction k as [|k IH]; intros k' e path Hk; [apply below_diverge|].
    destruct k' as [|k']; [lia|]. cbn [phrase_extract_loop]. mono. apply IH. lia.
  Qed.
  Hint Resolve below_phrase_loop : below.
  Lemma below_phrase e : below (phrase_extract n e) (phrase_extract n' e).
  Proof. unfold phrase_extract. mono. Qed.
  Hint Resolve below_phrase : below.
  Lemma below_detail_provide ob pr : below (detail_provide n ob pr) (detail_provide n' ob pr).
  Proof. unfold detail_provide. mono. Qed.
  Hint Resolve below_detail_provide : below.
  Lemma below_detail_get d : below (detail_get_object_and_property n d) (detail_get_object_and_property n' d).
  Proof. unfold detail_get_object_and_property. mono. Qed.
  Hint Resolve below_detail_get : below.
  Lemma below_get_texts a : below (get_object_and_property n a) (get_object_and_property n' a).
  Proof. unfold get_object_and_property. mono. Qed.
  Hint Resolve below_get_texts : below.
  Lemma below_sibling s : below (fact_last_sibling n s) (fact_last_sibling n' s).
  Proof.
    revert n' Hn s. induction n as [|k IH]; intros n' Hn s; [apply below_diverge|].
    destruct n' as [|k']; [lia|]. cbn [fact_last_sibling]. mono. apply IH. lia.
  Qed.
  Hint Resolve below_sibling : below.
  Lemma below_child_fact x : below (fact_create_child_story_fact n x) (fact_create_child_story_fact n' x).
  Proof. unfold fact_create_child_story_fact. mono. Qed.
  Hint Resolve below_child_fact : below.
  Lemma below_story_loop k k' a s : k ≤ k' → below (get_story_loop n k a s) (get_story_loop n' k' a s).
  Proof.
    revert k' a s. induction k as [|k IH]; intros k' a s Hk; [apply below_diverge|].
    destruct k' as [|k']; [lia|]. cbn [get_story_loop]. mono. apply IH. lia.
  Qed.
  Hint Resolve below_story_loop : below.
  Lemma below_call_of o : below (call_of n o) (call_of n' o).
  Proof.
    destruct o; cbn [call_of]; unfold create_story, add_remark_to_fact, add_fact_to_story, create_child_story, get_story; mono.
  Qed.
End loops.

(** ** Histories *)
Lemma fits_mono n n' s : n ≤ n' → fits n s → fits n' s.
Proof. unfold fits. lia. Qed.
Lemma legal_mono n n' t e : n ≤ n' → legal n t e → legal n' t e.
Proof.
  intros Hn. destruct e as [i o out|i]; [|done]. intros (H1&H2&H3). refine (conj H1 (conj _ H3)).
  eapply Forall_impl; [exact H2|]. intros s. by apply fits_mono.
Qed.

Lemma step_any_fuel zp faults n n' t w fk i o out w' : n ≤ n' → reach zp faults n t w → legal n t (Called i o out) →
  (fk = true → faults = true ∧ zp = ZStrict ∧ settled t) →
  hstep zp fk n w (Called i o out) w' ↔ hstep zp fk n' w (Called i o out) w'.
Proof.
  intros Hn Hr Hl Hf. split.
  - intros Hx. pose proof (never_diverges _ _ _ _ _ _ _ _ _ _ Hr Hl Hx Hf) as Hd.
    inversion Hx as [? ? ? ? g' m' He|]; subst. apply HCall. by apply (below_exec _ _ _ _ (below_call_of Hn o)).
  - intros Hx. inversion Hx as [? ? ? ? g' m' He|]; subst. apply HCall.
    apply (exec_below _ _ _ _ (below_call_of Hn o)) in He as [He|(g1&m1&He)]; [done|].
    destruct (never_diverges zp faults n t w fk i o ODiverge _ Hr Hl (HCall _ _ _ _ _ _ _ _ _ He) Hf eq_refl).
Qed.

Lemma reach_any_fuel zp faults n n' t w : n ≤ n' → reach zp faults n t w → reach zp faults n' t w.
Proof.
  intros Hn. induction 1 as [|fk t w e w' Hr IH Hl Hx Hf]; [constructor|].
  eapply reach_step; [exact IH|by eapply legal_mono| |exact Hf].
  destruct e as [i o out|i]; [by apply (step_any_fuel zp faults n n' t w fk i o out w' Hn Hr Hl Hf)|].
  inversion Hx; subst. constructor.
Qed.

(** With less fuel too, if the texts of the history still fit. *)
Lemma reach_less_fuel zp faults n n' t w : n ≤ n' → all_fit n t → reach zp faults n' t w → reach zp faults n t w.
Proof.
  intros Hn Ha Hr. revert Ha. induction Hr as [|fk t w e w' Hr IH Hl Hx Hf]; intros Ha; [constructor|].
  assert (IH' : reach zp faults n t w).
  { apply IH. intros i o out Hin. apply (Ha i o out). by apply elem_of_list_further. }
  assert (Hl' : legal n t e).
  { destruct e as [i o out|i]; [|done]. destruct Hl as (H1&H2&H3). refine (conj H1 (conj _ H3)). apply (Ha i o out), elem_of_list_here. }
  eapply reach_step; [exact IH'|exact Hl'| |exact Hf].
  destruct e as [i o out|i]; [by apply (step_any_fuel zp faults n n' t w fk i o out w' Hn IH' Hl' Hf)|].
  inversion Hx; subst. constructor.
Qed.

Lemma reach_fits zp faults n t w : reach zp faults n t w → all_fit n t.
Proof.
  induction 1 as [|fk t w e w' _ IH Hl]; intros i o out Hin; [by inversion Hin|].
  apply elem_of_cons in Hin as [<-|Hin]; [apply Hl|by eapply IH].
Qed.

(** On a concrete storage. *)
Section storages.
  Context {zp : zpolicy} {S : storage} (HS : meets zp S).
  Lemma plays_terminates faults n x i o evs : plays zp faults n S x → allowed zp faults n (k_trace x) (Do i o evs) →
    r_out (now n x i o evs) ≠ ODiverge.
  Proof.
    intros Hx Ha. destruct HS as (inv&abs&Hst). destruct (plays_reach Hst faults n x Hx) as [Hi Hr].
    destruct Ha as [Hl Hf].
    pose proof (now_hstep Hst n x i o evs Hi) as Hs.
    eapply never_diverges; [exact Hr|destruct Hl as (H1&H2&H3); exact (conj H1 (conj H2 H3))|exact Hs|].
    intros Hn%negb_true_iff. by apply Hf.
  Qed.
  Lemma now_any_fuel faults n n' x i o evs : n ≤ n' → plays zp faults n S x → allowed zp faults n (k_trace x) (Do i o evs) →
    now n' x i o evs = now n x i o evs.
  Proof.
    intros Hn Hx Ha. unfold now. apply (below_run S _ _ (below_call_of Hn o)). by apply (plays_terminates faults n x i o evs).
  Qed.
  Lemma plays_any_fuel faults n n' x : n ≤ n' → plays zp faults n S x → plays zp faults n' S x.
  Proof.
    intros Hn. induction 1 as [|x a Hx IH Ha]; [constructor|].
    assert (Ha' : allowed zp faults n' (k_trace x) a).
    { destruct a as [i o evs|i]; [|done]. destruct Ha as [Hl Hf]. split; [by eapply legal_mono|done]. }
    replace (perform n x a) with (perform n' x a); [by constructor|].
    destruct a as [i o evs|i]; [|done]. cbn [perform]. by rewrite (now_any_fuel faults n n' x i o evs).
  Qed.
End storages.
