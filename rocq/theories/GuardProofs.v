(** Theorems about [SpecGuards]. *)
From stdpp Require Import gmap.
From Coq Require Import NArith ZArith Lia.
From Verif Require Import Base GoText Model1 Model2 Model3 Storage Spec SpecLayers DetailProofs LayerProofs InitProofs SpecGuards.
Local Open Scope nat_scope.

Section guards.
  Context {zp : zpolicy}.

  (** Listing neighbours. *)
  Definition listing (d : direction) (x : N) : prog (list N) :=
    match d with Outgoing => st_targets x | Incoming => st_sources x end.

  Lemma exec_listing {B} d x (f : list N → prog B) g m out g' m' : valid zp g x →
    exec zp false (l <- listing d x;; f l) g m out g' m' →
    ∃ l, NoDup l ∧ (∀ y, y ∈ l ↔ near d g x y) ∧ exec zp false (f l) g m out g' m'.
  Proof.
    intros Hv Hx. apply exec_bind_any in Hx as [(l&g1&m1&Hc&Hx)|(Ho&o'&Hc&Ho')].
    - exists l. destruct d; [apply (exec_invoke (CTargets _)) in Hc|apply (exec_invoke (CSources _)) in Hc];
        destruct Hc as [-> [(r&[Hc _]&Hr)|(?&_)]]; try done; destruct (Hc Hv) as (l'&->&Hnd&Hl&->); injection Hr as <-; done.
    - destruct d; [apply (exec_invoke (CTargets _)) in Hc|apply (exec_invoke (CSources _)) in Hc];
        destruct Hc as [-> [(r&[Hc _]&->)|(?&_)]]; try done; destruct (Hc Hv) as (l'&->&_); by edestruct Ho'.
  Qed.

  Lemma list_one (l : list N) P y : NoDup l → (∀ z, z ∈ l ↔ P z) → (∀ z, P z ↔ z = y) ↔ l = [y].
  Proof.
    intros Hnd Hl. split.
    - intros HP. destruct l as [|a [|b l]].
      + destruct (proj1 (elem_of_nil y) (proj2 (Hl y) (proj2 (HP y) eq_refl))).
      + f_equal. apply HP, Hl. left.
      + assert (a = y) by (apply HP, Hl; left). assert (b = y) by (apply HP, Hl; right; left). subst.
        inversion Hnd as [|? ? Hn _]; subst. destruct Hn. left.
    - intros -> z. rewrite <- Hl. apply elem_of_list_singleton.
  Qed.
  Lemma list_none (l : list N) P : (∀ z, z ∈ l ↔ P z) → (∀ z, ¬ P z) ↔ l = [].
  Proof.
    intros Hl. split.
    - intros HP. destruct l as [|a l]; [done|]. destruct (HP a). apply Hl. left.
    - intros -> z Hz%Hl. by apply elem_of_nil in Hz.
  Qed.

  Lemma single_rule er d x g m out g' m' : valid zp g x →
    exec zp false (l <- listing d x;; single er l) g m out g' m' →
    g' = g ∧ m' = m ∧ (∀ y, out = OOk y ↔ only_neighbour d g x y) ∧ ((∀ y, out ≠ OOk y) → out = OErr er).
  Proof.
    intros Hv Hx. apply exec_listing in Hx as (l&Hnd&Hl&Hx); [|done].
    assert (H1 : ∀ y, only_neighbour d g x y ↔ l = [y]) by (intros y; by apply list_one).
    destruct l as [|a [|b l]]; cbn [single] in Hx;
      [apply exec_throw_any in Hx|apply exec_ret_any in Hx|apply exec_throw_any in Hx]; destruct Hx as (->&->&->);
      (split_and!; [done|done| |first [done|by intros Hno; destruct (Hno a)]]); intros y; rewrite H1; naive_solver.
  Qed.

  Theorem fetches_rule p d x g m out g' m' : fetches p d x → valid zp g x →
    exec zp false p g m out g' m' →
    g' = g ∧ m' = m ∧ (∀ y, out = OOk y ↔ only_neighbour d g x y) ∧ ((∀ y, out ≠ OOk y) → ∃ er, out = OErr er).
  Proof.
    intros Hp Hv Hx.
    assert (H : ∃ er, p = (l <- listing d x;; single er l)) by (destruct Hp; by eexists).
    destruct H as [er ->]. apply (single_rule er) in Hx as (->&->&Hy&Hn); [|done]. split_and!; auto. eauto.
  Qed.

  Theorem asks_rule p d x b g m out g' m' : asks p d x b → valid zp g x →
    exec zp false p g m out g' m' →
    g' = g ∧ m' = m ∧ (out = OOk false ↔ no_neighbour d g x) ∧
    (out = OOk true ↔ if b then ∃ y, only_neighbour d g x y else ∃ y, near d g x y) ∧
    ((∀ v, out ≠ OOk v) → ∃ er, out = OErr er).
  Proof.
    intros Hp Hv Hx.
    assert (H : if b then ∃ er, p = (l <- listing d x;; zero_or_one er l) else p = (l <- listing d x;; Ret (nonempty l)))
      by (destruct Hp; by try eexists).
    destruct b.
    - destruct H as [er ->]. apply exec_listing in Hx as (l&Hnd&Hl&Hx); [|done].
      assert (H1 : ∀ y, only_neighbour d g x y ↔ l = [y]) by (intros y; by apply list_one).
      assert (H0 : no_neighbour d g x ↔ l = []) by by apply list_none.
      destruct l as [|a [|c l]]; cbn [zero_or_one] in Hx;
        [apply exec_ret_any in Hx|apply exec_ret_any in Hx|apply exec_throw_any in Hx]; destruct Hx as (->&->&->);
        (split_and!; [done|done| | |first [by eauto|by intros Hno; edestruct Hno]]).
      + by rewrite H0.
      + split; [done|]. by intros [y Hy%H1].
      + by rewrite H0.
      + split; [|done]. intros _. exists a. by apply H1.
      + by rewrite H0.
      + split; [done|]. by intros [y Hy%H1].
    - subst p. apply exec_listing in Hx as (l&Hnd&Hl&Hx); [|done].
      assert (H0 : no_neighbour d g x ↔ l = []) by by apply list_none.
      apply exec_ret_any in Hx as (->&->&->). split_and!; [done|done| | |by intros Hno; edestruct Hno].
      + rewrite H0. by destruct l.
      + destruct l as [|a l].
        * split; [done|]. by intros [y Hy%Hl%elem_of_nil].
        * split; [|done]. intros _. exists a. apply Hl. left.
  Qed.

  (** The two phrases of a detail. *)
  Theorem phrases_rule e g m out g' m' : valid zp g (de_phrase e) →
    exec zp false (detail_get_object_and_property_phrases e) g m out g' m' →
    g' = g ∧ m' = m ∧
    (∀ o p, out = OOk (o, p) ↔ only_neighbour Incoming g (de_phrase e) o ∧ only_neighbour Outgoing g (de_phrase e) p) ∧
    ((∀ v, out ≠ OOk v) → ∃ er, out = OErr er).
  Proof.
    intros Hv Hx. unfold detail_get_object_and_property_phrases in Hx.
    apply (exec_listing Incoming) in Hx as (l&Hnd&Hl&Hx); [|done].
    assert (H1 : ∀ y, only_neighbour Incoming g (de_phrase e) y ↔ l = [y]) by (intros y; by apply list_one).
    destruct l as [|a [|c l]]; cbn [single bind] in Hx.
    1,3: apply exec_throw_any in Hx as (->&->&->); split_and!; [done|done| |by eauto]; intros o p; rewrite H1; naive_solver.
    apply (exec_listing Outgoing) in Hx as (l&Hnd'&Hl'&Hx); [|done].
    assert (H2 : ∀ y, only_neighbour Outgoing g (de_phrase e) y ↔ l = [y]) by (intros y; by apply list_one).
    destruct l as [|a' [|c' l]]; cbn [single bind] in Hx.
    1,3: apply exec_throw_any in Hx as (->&->&->); split_and!; [done|done| |by eauto]; intros o p; rewrite H2; naive_solver.
    apply exec_ret_any in Hx as (->&->&->). split_and!; [done|done| |by intros Hno; edestruct Hno]. intros o p. rewrite H1, H2. naive_solver.
  Qed.

  (** A bit that is already taken. *)
  Theorem occupied_rule e c y g m out g' m' : valid zp g (be_char e) → near Outgoing g (be_char e) y →
    exec zp false (bit_point_to_character e c) g m out g' m' → g' = g ∧ out = OErr EBitOccupied.
  Proof.
    intros Hv Hy Hx. unfold bit_point_to_character in Hx. apply (exec_listing Outgoing) in Hx as (l&Hnd&Hl&Hx); [|done].
    destruct l as [|a l]; [by apply Hl, elem_of_nil in Hy|]. by apply exec_throw_any in Hx as (->&->&_).
  Qed.

  (** A wrong number of bits. *)
  Theorem bit_count_rule g out g' m' : 1%N ∈ nodes g →
    (∃ x, (x, 1%N) ∈ edges g) → (¬ ∃ x y, x ≠ y ∧ ∀ z, (z, 1%N) ∈ edges g ↔ z = x ∨ z = y) →
    exec zp false bit_initialize g None out g' m' → g' = g ∧ out = OErr EWrongBitCount.
  Proof.
    intros H1 [x Hx] Hn He. apply exec_load in He. cbv beta iota in He.
    apply exec_bind_any in He as [([]&g1&m1&Hc&He)|(Ho1&o'&Hc&Ho')].
    2: { apply class_stays in Hc as (->&->&Hc); [|done]. by destruct (Ho' tt); apply Hc. }
    apply class_stays in Hc as (->&->&_); [|done].
    apply (exec_listing Incoming) in He as (l&Hnd&Hl&He); [|by left].
    destruct l as [|a [|b [|c l]]].
    - by apply Hl, elem_of_nil in Hx.
    - cbn [bind] in He. by apply exec_throw_any in He as (->&->&_).
    - destruct Hn. exists a, b. split; [intros ->; inversion Hnd; set_solver|].
      intros z. change ((z, 1%N) ∈ edges g) with (near Incoming g bitIdentifier z). rewrite <- Hl. set_solver.
    - cbn [bind] in He. by apply exec_throw_any in He as (->&->&_).
  Qed.

  (** A node that is no bit. *)
  Theorem bit_fetch_rule x z o g out g' m' :
    exec zp false (bit_fetch x) g (Some (z, o)) out g' m' →
    g' = g ∧ (x ≠ be_char z → x ≠ be_char o → out = OErr EWrongBitId) ∧ (∀ e, out = OOk e → be_char e = x).
  Proof.
    intros Hx. unfold bit_fetch in Hx. apply exec_bind_any in Hx as [([z' o']&g1&m1&Hc&Hx)|(Ho1&o'&Hc&Ho')].
    2: { apply exec_load, exec_ret_any in Hc as (->&_). by edestruct Ho'. }
    apply exec_load, exec_ret_any in Hc as ([= -> ->]&->&->).
    destruct (N.eqb_spec x (be_char z)); [|destruct (N.eqb_spec x (be_char o))].
    - apply exec_ret_any in Hx as (->&->&_). split_and!; [done..|]. by intros ? [= <-].
    - apply exec_ret_any in Hx as (->&->&_). split_and!; [done..|]. by intros ? [= <-].
    - apply exec_throw_any in Hx as (->&->&_). done.
  Qed.

  (** Joint details. *)
  Lemma exec_try_listing {B} d x (f : res (list N) → prog B) g m out g' m' : valid zp g x →
    exec zp false (l <- try (listing d x);; f l) g m out g' m' →
    ∃ l, NoDup l ∧ (∀ y, y ∈ l ↔ near d g x y) ∧ exec zp false (f (Ok l)) g m out g' m'.
  Proof.
    intros Hv Hx. destruct d; apply exec_call_any in Hx as [(r&g1&[Hc _]&Hx)|[[? _]|[? _]]]; try done;
      destruct (Hc Hv) as (l&->&Hnd&Hl&->); by exists l.
  Qed.

  Theorem joint_rule object property g m out g' m' :
    valid zp g (pe_detail object) → valid zp g (pe_detail property) →
    exec zp false (detail_provide_entity object property) g m out g' m' →
    (∀ d, valid zp g d → (∀ z, joint_detail g object property z ↔ z = d) →
      g' = g ∧ ∃ e, out = OOk e ∧ de_phrase e = d) ∧
    (∀ d1 d2, d1 ≠ d2 → joint_detail g object property d1 → joint_detail g object property d2 →
      g' = g ∧ out = OErr ETooManyDetails).
  Proof.
    intros Ho Hp Hx. unfold detail_provide_entity in Hx.
    apply (exec_listing Outgoing) in Hx as (ts&Hnt&Hts&Hx); [|done].
    apply (exec_try_listing Incoming) in Hx as (ss&Hns&Hss&Hx); [|done]. cbv beta iota zeta in Hx.
    assert (Hj : ∀ z, z ∈ common_details ts ss ↔ joint_detail g object property z).
    { intros z. rewrite elem_common, Hts, Hss. done. }
    pose proof (NoDup_common _ _ Hnt Hns) as Hnd. split.
    - intros d Hd Hone. apply (list_one _ _ _ Hnd Hj) in Hone. rewrite Hone in Hx.
      unfold detail_read_by_phrase in Hx. apply exec_call_any in Hx as [(r&g1&[Hc _]&Hx)|[[? _]|[? _]]]; try done.
      destruct (Hc Hd) as [-> ->]. cbn [bind] in Hx. apply exec_ret_any in Hx as (->&->&_). split; [done|]. by eexists.
    - intros d1 d2 Hne H1%Hj H2%Hj. destruct (common_details ts ss) as [|a [|b l]].
      + by apply elem_of_nil in H1.
      + apply elem_of_list_singleton in H1, H2. congruence.
      + by apply exec_throw_any in Hx as (->&->&_).
  Qed.

  (** The next remark. *)
  Lemma valid_or_not g x : valid zp g x ∨ ¬ valid zp g x.
  Proof.
    destruct (decide (x ∈ nodes g)); [left; by left|]. destruct (decide (x = 0%N)) as [->|].
    - destruct zp; [right; by intros [?|[? _]]|left; by right].
    - right. by intros [?|[_ ?]].
  Qed.
  Lemma next_position_keeps {B} x (f : res remark_ent → prog B) g m out g' m' :
    exec zp false (r <- try (remark_read_by_position x);; f r) g m out g' m' →
    ∃ r, exec zp false (f r) g m out g' m'.
  Proof.
    intros Hx. apply exec_call_any in Hx as [(r&g1&Hc&Hx)|[[? _]|[? _]]]; try done.
    assert (g1 = g) as ->.
    { destruct (valid_or_not g x) as [Hv|Hv]; [by destruct (proj1 Hc Hv)|by destruct (proj2 Hc Hv)]. }
    destruct r as [[a b]|er]; [|by exists (Err er)].
    apply exec_call_any in Hx as [(r&g1&Hc'&Hx)|[[? _]|[? _]]]; try done.
    assert (g1 = g) as ->.
    { destruct (valid_or_not g a) as [Hv|Hv]; [by destruct (proj1 Hc' Hv)|by destruct (proj2 Hc' Hv)]. }
    destruct r as [[c d]|er]; [by exists (Ok (RemarkEnt c a x b))|by exists (Err er)].
  Qed.

  Lemma exec_listing_bind {B C} d x (h : list N → prog B) (f : B → prog C) g m out g' m' : valid zp g x →
    exec zp false (y <- (l <- listing d x;; h l);; f y) g m out g' m' →
    ∃ l, NoDup l ∧ (∀ y, y ∈ l ↔ near d g x y) ∧ exec zp false (y <- h l;; f y) g m out g' m'.
  Proof.
    intros Hv Hx. destruct d; apply exec_call_any in Hx as [(r&g1&[Hc _]&Hx)|[[? _]|[? _]]]; try done;
      destruct (Hc Hv) as (l&->&Hnd&Hl&->); by exists l.
  Qed.

  Theorem next_remark_rule a g m out g' m' : 1%N ∈ nodes g → valid zp g (re_position a) →
    exec zp false (get_next_remark a) g m out g' m' →
    g' = g ∧ (∀ r, out = OOk r → only_neighbour Outgoing g (re_class r) remarkIdentifier) ∧
    ((∀ r, out ≠ OOk r) → ∃ er, out = OErr er).
  Proof.
    intros H1 Hv Hx. unfold get_next_remark in Hx.
    apply (exec_listing_bind Outgoing) in Hx as (l&_&_&Hx); [|done].
    destruct l as [|y [|? ?]]; cbn [single bind] in Hx;
      [apply exec_throw_any in Hx as (->&->&->); split_and!; [done|done|by eauto]| |apply exec_throw_any in Hx as (->&->&->); split_and!; [done|done|by eauto]].
    apply next_position_keeps in Hx as [r Hx]. cbv zeta in Hx.
    set (e := match r with Ok e => e | Err _ => _ end) in Hx.
    apply exec_bind_any in Hx as [([]&g1&m1&Hc&Hx)|(Ho&o'&Hc&Ho')].
    2: { apply class_stays in Hc as (->&_&Hc); [|done]. by destruct (Ho' tt); apply Hc. }
    apply class_stays in Hc as (->&->&_); [|done].
    destruct (valid_or_not g (re_class e)) as [Hc|Hc].
    - apply (exec_listing_bind Outgoing) in Hx as (l&Hnd&Hl&Hx); [|exact Hc].
      destruct l as [|z [|? ?]]; cbn [single bind] in Hx;
        [apply exec_throw_any in Hx as (->&->&->); split_and!; [done|done|by eauto]| |apply exec_throw_any in Hx as (->&->&->); split_and!; [done|done|by eauto]].
      destruct (N.eqb_spec z remarkIdentifier) as [->|]; [|apply exec_throw_any in Hx as (->&->&->); split_and!; [done|done|by eauto]].
      apply exec_ret_any in Hx as (->&->&->). split_and!; [done| |by intros Hno; edestruct Hno].
      intros ? [= <-]. exact (proj2 (list_one _ _ remarkIdentifier Hnd Hl) eq_refl).
    - apply exec_call_any in Hx as [(r'&g1&[_ Hr]&Hx)|[[? _]|[? _]]]; try done.
      destruct (Hr Hc) as [-> ->]. cbn [bind] in Hx. apply exec_throw_any in Hx as (->&->&->); split_and!; [done|done|by eauto].
  Qed.
End guards.
