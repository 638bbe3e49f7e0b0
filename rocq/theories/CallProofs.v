(** The storage calls a program can make at all. *)
From stdpp Require Import gmap.
From Coq Require Import NArith ZArith.
From Verif Require Import Base GoText Model1 Model2 Model3 Storage Spec SpecMoments ApiProofs LaterProofs.
Local Open Scope nat_scope.

Section only.
  Context {P : call → Prop}.

  Lemma only_bind {A B} (p : prog A) (f : A → prog B) :
    makes_only P p → (∀ a, makes_only P (f a)) → makes_only P (bind p f).
  Proof. intros Hp Hf. induction p; simpl in *; naive_solver. Qed.
  Lemma only_try {A} (p : prog A) : makes_only P p → makes_only P (try p).
  Proof. intros Hp. induction p; simpl in *; naive_solver. Qed.
  Lemma only_invoke c : P c → makes_only P (invoke c).
  Proof. intros Hc. split; [done|]. by intros []. Qed.
End only.

Ltac head_of t := match t with ?f _ => head_of f | ?f => f end.
Ltac calls :=
  repeat first
    [ progress intros
    | match goal with
      | |- True => exact I
      | |- makes_only _ (bind _ _) => apply only_bind
      | |- makes_only _ (try _) => apply only_try
      | |- makes_only _ (invoke _) => apply only_invoke; exact I
      | |- makes_only _ (Ret _) => exact I
      | |- makes_only _ (Throw _) => exact I
      | |- makes_only _ Panic => exact I
      | |- makes_only _ Diverge => exact I
      | |- makes_only _ (StoreBits _ _) => cbn [makes_only]
      | |- makes_only _ (LoadBits _) => cbn [makes_only]
      | |- makes_only _ (match ?x with _ => _ end) => destruct x
      | |- makes_only _ (let _ := _ in _) => cbv zeta
      | |- _ => solve [auto with calls]
      | |- makes_only _ ?t => let f := head_of t in unfold f
      end ].

Local Notation grown p := (makes_only appends p) (only parsing).
Create HintDb calls.

Lemma only_char_read_all l : grown (char_read_all l).
Proof. induction l; cbn [char_read_all]; calls. Qed.
Global Hint Resolve only_char_read_all : calls.
Lemma only_char_find b l : grown (char_find b l).
Proof. induction l; cbn [char_find]; calls. Qed.
Global Hint Resolve only_char_find : calls.
Lemma only_char_provide_loop el l : grown (char_provide_loop el l).
Proof. revert el. induction l; cbn [char_provide_loop]; calls. Qed.
Global Hint Resolve only_char_provide_loop : calls.
Lemma only_char_extract_loop n el l : grown (char_extract_loop n el l).
Proof. revert el l. induction n; cbn [char_extract_loop]; calls. Qed.
Global Hint Resolve only_char_extract_loop : calls.
Lemma only_word_read_all l : grown (word_read_all l).
Proof. induction l; cbn [word_read_all]; calls. Qed.
Global Hint Resolve only_word_read_all : calls.
Lemma only_word_find n b l : grown (word_find n b l).
Proof. induction l; cbn [word_find]; calls. Qed.
Global Hint Resolve only_word_find : calls.
Lemma only_word_provide_loop n el l : grown (word_provide_loop n el l).
Proof. revert el. induction l; cbn [word_provide_loop]; calls. Qed.
Global Hint Resolve only_word_provide_loop : calls.
Lemma only_word_extract_loop m n el l : grown (word_extract_loop m n el l).
Proof. revert el l. induction n; cbn [word_extract_loop]; calls. Qed.
Global Hint Resolve only_word_extract_loop : calls.
Lemma only_word_provide n s : grown (word_provide n s).
Proof. calls. Qed.
Global Hint Resolve only_word_provide : calls.
Lemma only_phrase_read_all l : grown (phrase_read_all l).
Proof. induction l; cbn [phrase_read_all]; calls. Qed.
Global Hint Resolve only_phrase_read_all : calls.
Lemma only_phrase_find n b l : grown (phrase_find n b l).
Proof. induction l; cbn [phrase_find]; calls. Qed.
Global Hint Resolve only_phrase_find : calls.
Lemma only_phrase_provide_loop n el l : grown (phrase_provide_loop n el l).
Proof. revert el. induction l; cbn [phrase_provide_loop]; calls. Qed.
Global Hint Resolve only_phrase_provide_loop : calls.
Lemma only_phrase_extract_loop m n el l : grown (phrase_extract_loop m n el l).
Proof. revert el l. induction n; cbn [phrase_extract_loop]; calls. Qed.
Global Hint Resolve only_phrase_extract_loop : calls.
Lemma only_phrase_provide n s : grown (phrase_provide n s).
Proof. calls. Qed.
Global Hint Resolve only_phrase_provide : calls.
Lemma only_detail_provide n o p : grown (detail_provide n o p).
Proof. calls. Qed.
Global Hint Resolve only_detail_provide : calls.
Lemma only_get_object_and_property n a : grown (get_object_and_property n a).
Proof. calls. Qed.
Global Hint Resolve only_get_object_and_property : calls.
Lemma only_fact_last_sibling n s : grown (fact_last_sibling n s).
Proof. revert s. induction n; cbn [fact_last_sibling]; calls. Qed.
Global Hint Resolve only_fact_last_sibling : calls.
Lemma only_get_story_loop m n r b : grown (get_story_loop m n r b).
Proof. revert r b. induction n; cbn [get_story_loop]; calls. Qed.
Global Hint Resolve only_get_story_loop : calls.

(** C10 *)
Lemma calls_append fuel o : makes_only appends (call_of fuel o).
Proof. destruct o; cbn [call_of]; calls. Qed.

(** C27 *)
Lemma calls_look fuel o :
  match o with
  | GetRemark _ | HasNextRemark _ | HasNextFact _ | GetNextFact _ | GetFirstFact _
  | HasNextStory _ | GetNextStory _ => True
  | _ => False
  end → makes_only only_looks (call_of fuel o).
Proof. destruct o; try done; intros _; cbn [call_of]; calls. Qed.

(** No panic, and what is returned meets [Q]. *)
Fixpoint calmly {A} (Q : A → Prop) (p : prog A) : Prop :=
  match p with
  | Ret a => Q a
  | Throw _ | Diverge => True
  | Panic => False
  | Call c k => ∀ r, calmly Q (k r)
  | LoadBits k => ∀ m, calmly Q (k m)
  | StoreBits _ k => calmly Q k
  end.
Lemma calmly_any {A} (Q : A → Prop) p : calmly Q p → panics_nowhere p.
Proof. induction p; simpl; naive_solver. Qed.
Lemma calmly_bind {A B} (Q : A → Prop) (R : B → Prop) p f :
  calmly Q p → (∀ a, Q a → calmly R (f a)) → calmly R (bind p f).
Proof. intros Hp Hf. induction p; simpl in *; naive_solver. Qed.
Lemma calmly_seq {A B} (R : B → Prop) (p : prog A) f :
  calmly (λ _, True) p → (∀ a, calmly R (f a)) → calmly R (bind p f).
Proof. intros Hp Hf. by eapply calmly_bind. Qed.
Lemma calmly_try {A} (p : prog A) : calmly (λ _, True) p → calmly (λ _, True) (try p).
Proof. induction p; simpl in *; naive_solver. Qed.
Lemma calmly_invoke c : calmly (λ _, True) (invoke c).
Proof. intros []; exact I. Qed.

Ltac quiet_calls :=
  repeat first
    [ progress intros
    | match goal with
      | |- True => exact I
      | |- calmly _ (bind (fact_fetch_by_remark _) _) =>
          apply (calmly_bind (λ a, fa_storage a = true)); [|intros [? ?] ?; simplify_eq/=]
      | |- calmly _ (fact_storage (FactAgg _ true)) => exact I
      | |- calmly _ (bind _ _) => apply calmly_seq
      | |- calmly _ (try _) => apply calmly_try
      | |- calmly _ (invoke _) => apply calmly_invoke
      | |- calmly _ (Ret _) => reflexivity || exact I
      | |- calmly _ (Throw _) => exact I
      | |- calmly _ Diverge => exact I
      | |- calmly _ (Call _ _) => cbn [calmly]
      | |- calmly _ (match ?x with _ => _ end) => destruct x
      | |- calmly _ (let _ := _ in _) => cbv zeta
      | |- calmly _ ?t => let f := head_of t in unfold f
      end ].

(** C16 *)
Lemma calls_no_panic fuel o :
  match o with
  | GetRemark _ | HasNextRemark _ | GetNextRemark _ | HasNextFact _ | GetNextFact _ | GetFirstFact _
  | HasNextStory _ | GetNextStory _ => True
  | _ => False
  end → panics_nowhere (call_of fuel o).
Proof.
  intros Ho. apply (calmly_any (λ _, True)).
  destruct o; try done; clear Ho; cbn [call_of]; quiet_calls.
Qed.

Lemma panics_nowhere_exec {A} zp fk (p : prog A) g m out g' m' :
  panics_nowhere p → exec zp fk p g m out g' m' → out ≠ OPanic.
Proof. intros Hp Hx. induction Hx; simpl in Hp; auto; done. Qed.

Lemma opened_issued b t r r0 : opened b t r r0 → issued t r ∧ issued t r0.
Proof.
  induction 1 as [e t r r0 _ [(i&o&?&?) (i0&o0&?&?)]|i ob pr t r|i a ob pr t r|i a pr t r r0 _ [_ (i0&o0&?&?)]|
    i a ob pr t r r0 _ _ [_ (i0&o0&?&?)]]; split;
    solve [eexists _, _; split; [|by left]; done | eexists _, _; split; [|by right; eauto]; done].
Qed.

Lemma reading_no_panic zp faults fuel t w i o out w' :
  happens zp faults fuel t w false i o out w' → creating o = false → out ≠ OPanic.
Proof.
  intros (Hr&(Hi&_&Hst)&Hx&_) Hc.
  assert (He : ∃ g m g' m', exec zp false (call_of fuel o) g m out g' m') by (inversion Hx; subst; eauto).
  destruct He as (g&m&g'&m'&He).
  assert (Hp : ∀ o', o = o' → match o' with
    | GetRemark _ | HasNextRemark _ | GetNextRemark _ | HasNextFact _ | GetNextFact _ | GetFirstFact _
    | HasNextStory _ | GetNextStory _ => True
    | _ => False
    end → out ≠ OPanic).
  { intros o' <- Ho. eapply panics_nowhere_exec; [by apply calls_no_panic|done]. }
  destruct o; try done; try (by eapply Hp).
  - destruct (issued_tells _ _ _ _ _ _ Hr (Hi _ eq_refl)) as (ob&pr&Ht&_).
    destruct (read_texts Hr _ _ _ _ _ _ Ht Hx) as [_ [-> _]]; done.
  - destruct (Hst _ eq_refl) as (r0&Ho). destruct (opened_issued _ _ _ _ Ho) as [_ Hi0].
    destruct (issued_tells _ _ _ _ _ _ Hr Hi0) as (ob&pr&Ht&_).
    assert (Hz : false = true → zp = ZStrict) by done.
    destruct (read_story Hr Hz _ _ _ _ _ _ _ Ho Ht Hx) as [_ [-> _]]; done.
Qed.
