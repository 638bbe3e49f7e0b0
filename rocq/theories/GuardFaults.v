(** Theorems about [SpecGuards] when storage calls may fail. *)
From stdpp Require Import gmap.
From Coq Require Import NArith ZArith Lia.
From Verif Require Import Base GoText Model1 Model2 Model3 Storage RefStorage Spec SpecLayers SpecGuards SpecWalk SpecMoments SpecEntities SpecFactories
  DetailProofs InitProofs GuardProofs LookupProofs StoryWrites FactoryProofs PlayProofs.
Local Open Scope nat_scope.

Section guards.
  Context {zp : zpolicy} {fk : bool}.
  Notation exec := (exec zp fk).

  Lemma listing_any {B} d x (f : list N → prog B) g m out g' m' : valid zp g x →
    exec (l <- listing d x;; f l) g m out g' m' →
    (∃ l, NoDup l ∧ (∀ y, y ∈ l ↔ near d g x y) ∧ exec (f l) g m out g' m') ∨ faulty (fk:=fk) out ∧ g' = g ∧ m' = m.
  Proof.
    intros Hv Hx. destruct d; (apply exec_call_any in Hx as [(r&g1&[Hc _]&Hx)|[[? Hx]|(?&->&->&->)]];
      [destruct (Hc Hv) as (l&->&Hnd&Hl&->); left; by exists l
      |cbn [bind of_res] in Hx; apply exec_throw_any in Hx as (->&->&->); right; unfold faulty; auto
      |right; unfold faulty; auto]).
  Qed.

  Theorem fetches_any p d x g m out g' m' : fetches p d x → valid zp g x → exec p g m out g' m' →
    g' = g ∧ m' = m ∧
    ((∀ y, out = OOk y ↔ only_neighbour d g x y) ∧ ((∀ y, out ≠ OOk y) → ∃ er, out = OErr er) ∨
     fk = true ∧ (out = OErr EStorage ∨ out = OKilled)).
  Proof.
    intros Hp Hv Hx. assert (H : ∃ er, p = (l <- listing d x;; single er l)) by (destruct Hp; by eexists).
    destruct H as [er ->]. apply listing_any in Hx as [(l&Hnd&Hl&Hx)|(Hf&->&->)]; [| |done].
    2: { split_and!; [done|done|]. by right. }
    assert (H1 : ∀ y, only_neighbour d g x y ↔ l = [y]) by (intros y; by apply list_one).
    destruct l as [|a [|b l]]; cbn [single] in Hx;
      [apply exec_throw_any in Hx|apply exec_ret_any in Hx|apply exec_throw_any in Hx]; destruct Hx as (->&->&->);
      (split; [done|]); (split; [done|]); left; (split; [intros y; rewrite H1; naive_solver|intros Hno]); first [by eexists|by destruct (Hno a)].
  Qed.

  Theorem asks_any p d x b g m out g' m' : asks p d x b → valid zp g x → exec p g m out g' m' →
    g' = g ∧ m' = m ∧
    ((out = OOk false ↔ no_neighbour d g x) ∧
     (out = OOk true ↔ if b then ∃ y, only_neighbour d g x y else ∃ y, near d g x y) ∧
     ((∀ v, out ≠ OOk v) → ∃ er, out = OErr er) ∨
     fk = true ∧ (out = OErr EStorage ∨ out = OKilled)).
  Proof.
    intros Hp Hv Hx.
    assert (H : if b then ∃ er, p = (l <- listing d x;; zero_or_one er l) else p = (l <- listing d x;; Ret (nonempty l)))
      by (destruct Hp; by try eexists).
    assert (H' : ∃ f, p = (l <- listing d x;; f l) ∧ if b then ∃ er, f = zero_or_one er else f = (λ l, Ret (nonempty l)))
      by (destruct b; [destruct H as [er ->]; eexists; split; [reflexivity|by exists er]|subst p; by eexists]).
    clear H. destruct H' as (f&->&Hf). apply listing_any in Hx as [(l&Hnd&Hl&Hx)|(Hfa&->&->)]; [| |done].
    2: { split_and!; [done|done|]. by right. }
    assert (H1 : ∀ y, only_neighbour d g x y ↔ l = [y]) by (intros y; by apply list_one).
    assert (H0 : no_neighbour d g x ↔ l = []) by by apply list_none.
    destruct b.
    - destruct Hf as [er ->]. destruct l as [|a [|c l]]; cbn [zero_or_one] in Hx;
        [apply exec_ret_any in Hx|apply exec_ret_any in Hx|apply exec_throw_any in Hx]; destruct Hx as (->&->&->);
        (split; [done|]); (split; [done|]); left; (split; [rewrite H0; naive_solver|]); (split; [|first [by eauto|by intros Hno; edestruct Hno]]).
      + split; [done|]. by intros [y Hy%H1].
      + split; [|done]. intros _. exists a. by apply H1.
      + split; [done|]. by intros [y Hy%H1].
    - subst f. apply exec_ret_any in Hx as (->&->&->). (split; [done|]); (split; [done|]). left. split; [rewrite H0; by destruct l|].
      split; [|by intros Hno; edestruct Hno]. destruct l as [|a l].
      * split; [done|]. by intros [y Hy%Hl%elem_of_nil].
      * split; [|done]. intros _. exists a. apply Hl. left.
  Qed.

  Theorem phrases_any e g m out g' m' : valid zp g (de_phrase e) →
    exec (detail_get_object_and_property_phrases e) g m out g' m' →
    g' = g ∧ m' = m ∧
    ((∀ o p, out = OOk (o, p) ↔ only_neighbour Incoming g (de_phrase e) o ∧ only_neighbour Outgoing g (de_phrase e) p) ∧
     ((∀ v, out ≠ OOk v) → ∃ er, out = OErr er) ∨
     fk = true ∧ (out = OErr EStorage ∨ out = OKilled)).
  Proof.
    intros Hv Hx. unfold detail_get_object_and_property_phrases in Hx.
    apply (listing_any Incoming) in Hx as [(l&Hnd&Hl&Hx)|(Hf&->&->)]; [| |done].
    2: { split_and!; [done|done|]. by right. }
    assert (H1 : ∀ y, only_neighbour Incoming g (de_phrase e) y ↔ l = [y]) by (intros y; by apply list_one).
    destruct l as [|a [|c l]]; cbn [single bind] in Hx.
    1,3: apply exec_throw_any in Hx as (->&->&->); (split; [done|]); (split; [done|]); left; split; [|by eauto]; intros o p; rewrite H1; naive_solver.
    apply (listing_any Outgoing) in Hx as [(l&Hnd'&Hl'&Hx)|(Hf&->&->)]; [| |done].
    2: { split_and!; [done|done|]. by right. }
    assert (H2 : ∀ y, only_neighbour Outgoing g (de_phrase e) y ↔ l = [y]) by (intros y; by apply list_one).
    destruct l as [|a' [|c' l]]; cbn [single bind] in Hx.
    1,3: apply exec_throw_any in Hx as (->&->&->); (split; [done|]); (split; [done|]); left; split; [|by eauto]; intros o p; rewrite H2; naive_solver.
    apply exec_ret_any in Hx as (->&->&->). (split; [done|]); (split; [done|]). left. split; [|by intros Hno; edestruct Hno].
    intros o p. rewrite H1, H2. naive_solver.
  Qed.

  (** A failing look at the second phrase is taken for a missing detail. *)
  Theorem joint_any o p d g m out g' m' : mirrored g → valid zp g detailIdentifier → valid zp g (pe_detail o) → valid zp g (pe_detail p) →
    valid zp g d → (∀ z, joint_detail g o p z ↔ z = d) →
    exec (detail_provide_entity o p) g m out g' m' →
    g' = g ∧ m' = m ∧ (fk = false → ∃ e, out = OOk e) ∧ (∀ e, out = OOk e → de_phrase e = d) ∨
    fk = true ∧ brings fk (new_detail o p g) g m out g' m'.
  Proof.
    intros Hg Hk Ho Hp Hd Hone Hx. unfold detail_provide_entity, phrase_get_target_details, phrase_get_source_details in Hx.
    apply step_targets in Hx as [(ts&Hnt&Hts&Hx)|(->&->&?&Hn)]; [| |done].
    2: { left. split_and!; [done|done|congruence|]. intros e He. by destruct (Hn e). }
    apply step_try_sources in Hx as [(ss&Hns&Hss&Hx)|[[Hf Hx]|(->&->&?&Hn)]]; [| | |done].
    - left. cbv beta iota zeta in Hx.
      assert (Hj : ∀ z, z ∈ common_details ts ss ↔ joint_detail g o p z).
      { intros z. rewrite elem_common, Hts, Hss. done. }
      pose proof (NoDup_common _ _ Hnt Hns) as Hnd. apply (list_one _ _ _ Hnd Hj) in Hone. rewrite Hone in Hx.
      unfold detail_read_by_phrase in Hx. apply exec_getref in Hx as [Hx|([Hf Hfo]&->&->)]; [| |done].
      + apply exec_ret_any in Hx as (->&->&->). split_and!; [done|done|by eauto|]. by intros e [= <-].
      + split_and!; [done|done|congruence|]. intros e He. destruct Hfo; congruence.
    - right. split; [done|]. cbv beta iota zeta in Hx. replace (common_details ts []) with (@nil N) in Hx; [by eapply detail_made|].
      clear. unfold common_details. induction ts as [|t ts IH]; [done|]. cbn [flat_map filter List.filter app]. exact IH.
    - left. split_and!; [done|done|congruence|]. intros e He. by destruct (Hn e).
  Qed.

  Theorem crowded_any o p d1 d2 g m out g' m' : mirrored g → valid zp g detailIdentifier → valid zp g (pe_detail o) → valid zp g (pe_detail p) →
    d1 ≠ d2 → joint_detail g o p d1 → joint_detail g o p d2 →
    exec (detail_provide_entity o p) g m out g' m' →
    g' = g ∧ m' = m ∧ refuses fk out ETooManyDetails ∨ fk = true ∧ brings fk (new_detail o p g) g m out g' m'.
  Proof.
    intros Hg Hk Ho Hp Hne H1 H2 Hx. unfold detail_provide_entity, phrase_get_target_details, phrase_get_source_details in Hx.
    apply step_targets in Hx as [(ts&Hnt&Hts&Hx)|(->&->&?&Hn)]; [| |done].
    2: { left. split; [done|]. split; [done|]. split; [congruence|]. done. }
    apply step_try_sources in Hx as [(ss&Hns&Hss&Hx)|[[Hf Hx]|(->&->&?&Hn)]]; [| | |done].
    - left. cbv beta iota zeta in Hx.
      assert (Hj : ∀ z, z ∈ common_details ts ss ↔ joint_detail g o p z).
      { intros z. rewrite elem_common, Hts, Hss. done. }
      apply Hj in H1, H2. destruct (common_details ts ss) as [|a [|b l]].
      + by apply elem_of_nil in H1.
      + apply elem_of_list_singleton in H1, H2. congruence.
      + apply exec_throw_any in Hx as (->&->&->). split; [done|]. split; [done|]. by split.
    - right. split; [done|]. cbv beta iota zeta in Hx. replace (common_details ts []) with (@nil N) in Hx; [by eapply detail_made|].
      clear. unfold common_details. induction ts as [|t ts IH]; [done|]. cbn [flat_map filter List.filter app]. exact IH.
    - left. split; [done|]. split; [done|]. split; [congruence|]. done.
  Qed.
End guards.
