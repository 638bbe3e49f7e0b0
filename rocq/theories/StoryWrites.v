(** What the repositories of facts and stories write. *)
From stdpp Require Import gmap.
From Coq Require Import NArith ZArith Lia.
From Verif Require Import Base GoText Model1 Model2 Model3 Model4 Storage Spec SpecMoments SpecGuards SpecWalk SpecEntities Inv
  HistoryProofs InitProofs GuardProofs LookupProofs WriteProofs.
Local Open Scope nat_scope.

Lemma enlarged_refl g : mirrored g → enlarged [] [] [] g g.
Proof.
  intros Hg. split; [constructor|by intros x ?%elem_of_nil|..|done]; intros; rewrite elem_of_nil; tauto.
Qed.
Lemma enlarged_trans n1 e1 r1 n2 e2 r2 g g1 g2 : enlarged n1 e1 r1 g g1 → enlarged n2 e2 r2 g1 g2 →
  enlarged (n1 ++ n2) (e1 ++ e2) (r1 ++ r2) g g2.
Proof.
  intros [A1 A2 A3 A4 A5 A6] [B1 B2 B3 B4 B5 B6]. split.
  - apply NoDup_app. split_and!; [done| |done]. intros x Hx Hx'. apply (B2 x Hx'), A3. by right.
  - intros x [Hx|Hx]%elem_of_app; [by apply A2|]. intros Hg. apply (B2 x Hx), A3. by left.
  - intros x. rewrite B3, A3, elem_of_app. tauto.
  - intros x. rewrite B4, A4, elem_of_app. tauto.
  - intros x y. rewrite B5, A5, elem_of_app. tauto.
  - done.
Qed.
Lemma enlarged_grows n e r g g' : mirrored g → enlarged n e r g g' → grows g g'.
Proof.
  intros Hg [A1 A2 A3 A4 A5 A6]. split.
  - intros x Hx. apply A3. by left.
  - intros x Hx. apply A4. by left.
  - apply map_subseteq_spec. intros x y Hx. apply A5. by left.
  - apply map_subseteq_spec. intros x y Hx. apply A6, A5. left. by apply Hg.
Qed.

Lemma enlarged_node x g : mirrored g → x ∉ nodes g → enlarged [x] [] [] g (add_node x g).
Proof.
  intros Hg Hx. split; cbn [add_node nodes edges fwd].
  - apply NoDup_singleton.
  - by intros y ->%elem_of_list_singleton.
  - intros y. rewrite elem_of_union, elem_of_singleton, elem_of_list_singleton. tauto.
  - intros e. rewrite elem_of_nil. tauto.
  - intros a b. rewrite elem_of_nil. tauto.
  - by apply mirrored_node.
Qed.
Lemma enlarged_edge x y g : mirrored g → enlarged [] [(x, y)] [] g (add_edge x y g).
Proof.
  intros Hg. split; cbn [add_edge nodes edges fwd].
  - constructor.
  - by intros a ?%elem_of_nil.
  - intros a. rewrite elem_of_nil. tauto.
  - intros e. rewrite elem_of_union, elem_of_singleton, elem_of_list_singleton. tauto.
  - intros a b. rewrite elem_of_nil. tauto.
  - done.
Qed.
Lemma enlarged_ref x y g : mirrored g → x ∈ nodes g → y ∈ nodes g → fwd g !! x = None → bwd g !! y = None →
  enlarged [] [] [(x, y)] g (add_ref x y g).
Proof.
  intros Hg Hx Hy Hfx Hby. split; cbn [add_ref nodes edges fwd].
  - constructor.
  - by intros a ?%elem_of_nil.
  - intros a. rewrite elem_of_nil. tauto.
  - intros e. rewrite elem_of_nil. tauto.
  - intros a b. rewrite lookup_insert_Some, elem_of_list_singleton. split.
    + intros [[<- <-]|[Hne H]]; tauto.
    + intros [H|[= -> ->]]; [|tauto]. right. split; [|done]. intros <-. congruence.
  - by apply mirrored_ref.
Qed.

Lemma mirrored_coherent g : mirrored g → coherent g.
Proof. intros Hg x y Hxy. destruct (proj2 (Hg x y) Hxy). split; [by apply Hg|done]. Qed.

Section writes.
  Context {zp : zpolicy} {fk : bool}.
  Notation exec := (exec zp fk).

  (** Broken off: something may have been added. *)
  Definition broken_off {A} (g g' : graph) (m m' : cache) (out : outcome A) : Prop :=
    m' = m ∧ (fk = true ∧ ∀ b, out ≠ OOk b) ∧ ∃ ns es rs, enlarged ns es rs g g'.
  Lemma missed_not {A} (out : outcome A) : missed (fk:=fk) out → fk = true ∧ ∀ b, out ≠ OOk b.
  Proof. intros [? [-> | ->]]; done. Qed.
  Lemma broken_here {A} g m (out : outcome A) : mirrored g → fk = true → (∀ b, out ≠ OOk b) → broken_off g g m m out.
  Proof. intros Hg Hf Ho. split; [done|]. split; [done|]. by eexists _, _, _; apply enlarged_refl. Qed.

  Lemma broken_trans {A} ns es rs g g1 g' m m' (out : outcome A) :
    enlarged ns es rs g g1 → broken_off g1 g' m m' out → broken_off g g' m m' out.
  Proof. intros H1 (->&Ho&n&e&r&H2). split; [done|]. split; [done|]. by eexists _, _, _; eapply enlarged_trans. Qed.

  Lemma step_class {B} (f : N → prog B) k g m out g' m' : mirrored g → valid zp g k → exec (c <- class_new k;; f c) g m out g' m' →
    (∃ c g1, enlarged [c] [(c, k)] [] g g1 ∧ exec (f c) g1 m out g' m') ∨ broken_off g g' m m' out.
  Proof.
    intros Hg Hk Hx. apply exec_class in Hx as [(c&Nc&Hx)|(->&Ho&Hg')]; [| |done].
    - left. eexists c, _. split; [|exact Hx]. eapply (enlarged_trans [c] [] [] []); [by apply enlarged_node|].
      apply enlarged_edge. by apply mirrored_node.
    - right. split; [done|]. split; [by apply missed_not|]. destruct Hg' as [->|[c ->]]; [by eexists _, _, _; apply enlarged_refl|].
      destruct (decide (c ∈ nodes g)) as [Hc|Hc]; [|by eexists _, _, _; apply enlarged_node].
      exists [], [], []. destruct (enlarged_refl g Hg) as [A1 A2 A3 A4 A5 A6]. split; try done.
      intros x. cbn [add_node nodes]. rewrite elem_of_union, elem_of_singleton, elem_of_nil. naive_solver.
      by apply mirrored_node.
  Qed.
  Lemma step_tie {B} (f : prog B) x y g m out g' m' : mirrored g → valid zp g x → valid zp g y →
    exec (st_connect x y;;; f) g m out g' m' →
    (∃ g1, enlarged [] [(x, y)] [] g g1 ∧ exec f g1 m out g' m') ∨ broken_off g g' m m' out.
  Proof.
    intros Hg Hx Hy He. apply exec_tie in He as [He|(->&->&Ho)]; [| |done..].
    - left. eexists. split; [|exact He]. by apply enlarged_edge.
    - right. apply missed_not in Ho as [? ?]. by apply broken_here.
  Qed.
  Lemma step_make {B} (f : N → prog B) g m out g' m' : mirrored g → exec (x <- st_create;; f x) g m out g' m' →
    (∃ x g1, enlarged [x] [] [] g g1 ∧ exec (f x) g1 m out g' m') ∨ broken_off g g' m m' out.
  Proof.
    intros Hg He. apply exec_make in He as [(x&Nx&He)|(->&->&Ho)].
    - left. eexists _, _. split; [|exact He]. by apply enlarged_node.
    - right. apply missed_not in Ho as [? ?]. by apply broken_here.
  Qed.
  Lemma step_refer {B} (f : prog B) x y g m out g' m' : mirrored g → x ∈ nodes g → y ∈ nodes g →
    (∀ z, fwd g !! x ≠ Some z) → (∀ z, fwd g !! z ≠ Some y) →
    exec (st_setref x y;;; f) g m out g' m' →
    (∃ g1, enlarged [] [] [(x, y)] g g1 ∧ exec f g1 m out g' m') ∨ broken_off g g' m m' out.
  Proof.
    intros Hg Hx Hy Hf Hb He.
    assert (Hf' : fwd g !! x = None) by (destruct (fwd g !! x) as [z|] eqn:E; [by destruct (Hf z)|done]).
    assert (Hb' : bwd g !! y = None) by (destruct (bwd g !! y) as [z|] eqn:E; [by destruct (Hb z); apply Hg|done]).
    apply exec_refer in He as [He|(->&->&Ho)]; [| |done..].
    - left. eexists. split; [|exact He]. by apply enlarged_ref.
    - right. apply missed_not in Ho as [? ?]. by apply broken_here.
  Qed.

  Lemma exec_assoc {A B C} (p : prog A) (f : A → prog B) (k : B → prog C) g m out g' m' :
    exec (bind (bind p f) k) g m out g' m' → exec (bind p (λ a, bind (f a) k)) g m out g' m'.
  Proof.
    revert g m. induction p as [a|e| | |c q IH|q IH|m1 q IH]; intros g m Hx; cbn [bind] in *; try exact Hx.
    - apply exec_call_any in Hx as [(r&g1&Hg&Hx)|[[Hf Hx]|(Hf&->&->&->)]].
      + eapply ExCall; [exact Hg|]. by apply IH.
      + eapply ExFault; [done|]. by apply IH.
      + by apply ExKill.
    - inversion Hx; subst. constructor. by apply IH.
    - inversion Hx; subst. constructor. by apply IH.
  Qed.

  Lemma enlarged_nothing_refers n e g g' x y : mirrored g → enlarged n e [] g g' → y ∈ n → fwd g' !! x ≠ Some y.
  Proof.
    intros Hg [A1 A2 A3 A4 A5 A6] Hy [H|H%elem_of_nil]%A5; [|done]. apply (A2 y Hy). by apply (proj2 (Hg x y)).
  Qed.

  Lemma step_four {A B} (h : N → N → N → A) (f : A → prog B) c g m out g' m' : mirrored g → c ∈ nodes g → (∀ z, fwd g !! c ≠ Some z) →
    exec (e <- make_four h c;; f e) g m out g' m' →
    (∃ x y z g1, enlarged [x; y; z] [] [(c, x); (x, y); (y, z)] g g1 ∧ exec (f (h x y z)) g1 m out g' m') ∨ broken_off g g' m m' out.
  Proof.
    intros Hg Hc Hfc Hx. unfold make_four in Hx.
    apply exec_assoc, step_make in Hx as [(x&g1&E1&Hx)|Hb]; [|by right|done]. pose proof (en_mirrored _ _ _ _ _ E1) as Hg1.
    apply exec_assoc, step_make in Hx as [(y&g2&E2&Hx)|Hb]; [|right; by eapply broken_trans|done]. pose proof (en_mirrored _ _ _ _ _ E2) as Hg2.
    pose proof (enlarged_trans _ _ _ _ _ _ _ _ _ E1 E2) as E12. cbn [app] in E12.
    apply exec_assoc, step_make in Hx as [(z&g3&E3&Hx)|Hb]; [|right; by eapply broken_trans|done]. pose proof (en_mirrored _ _ _ _ _ E3) as Hg3.
    pose proof (enlarged_trans _ _ _ _ _ _ _ _ _ E12 E3) as E. cbn [app] in E. clear E1 E2 E3 E12.
    pose proof (en_distinct _ _ _ _ _ E) as Hnd. rewrite !NoDup_cons, !elem_of_cons, !elem_of_nil in Hnd.
    assert (Hne : x ≠ y ∧ x ≠ z ∧ y ≠ z) by naive_solver. destruct Hne as (Hxy&Hxz&Hyz).
    assert (Hnew : ∀ a, a ∈ [x; y; z] → a ∈ nodes g3 ∧ (∀ b, fwd g3 !! a ≠ Some b) ∧ (∀ b, fwd g3 !! b ≠ Some a) ∧ a ≠ c).
    { intros a Ha. pose proof (en_new _ _ _ _ _ E a Ha) as Hna. split_and!.
      - apply (en_nodes _ _ _ _ _ E). by right.
      - intros b [H|H%elem_of_nil]%(en_fwd _ _ _ _ _ E); [|done]. apply Hna. by apply (proj2 (Hg a b)).
      - intros b. exact (enlarged_nothing_refers _ _ g g3 b a Hg E Ha).
      - by intros ->. }
    destruct (Hnew x) as (Nx&Fx&Bx&Cx); [apply elem_of_list_here|].
    destruct (Hnew y) as (Ny&Fy&By&Cy); [apply elem_of_list_further, elem_of_list_here|].
    destruct (Hnew z) as (Nz&Fz&Bz&Cz); [do 2 apply elem_of_list_further; apply elem_of_list_here|]. clear Hnew Hnd.
    assert (Nc : c ∈ nodes g3) by (apply (en_nodes _ _ _ _ _ E); by left).
    assert (Fc : ∀ b, fwd g3 !! c ≠ Some b) by (intros b [H|H%elem_of_nil]%(en_fwd _ _ _ _ _ E); [by destruct (Hfc b)|done]).
    apply exec_assoc, step_refer in Hx as [(g4&E4&Hx)|Hb]; [|right; by eapply broken_trans|done..]. pose proof (en_mirrored _ _ _ _ _ E4) as Hg4.
    pose proof (enlarged_trans _ _ _ _ _ _ _ _ _ E E4) as E5. cbn [app] in E5.
    assert (F4 : ∀ a b, fwd g4 !! a = Some b ↔ fwd g3 !! a = Some b ∨ a = c ∧ b = x).
    { intros a b. rewrite (en_fwd _ _ _ _ _ E4), elem_of_list_singleton, pair_equal_spec. done. }
    assert (N4 : ∀ a, a ∈ nodes g3 → a ∈ nodes g4) by (intros a Ha; apply (en_nodes _ _ _ _ _ E4); by left).
    apply exec_assoc, step_refer in Hx as [(g5&E6&Hx)|Hb]; [|right; by eapply broken_trans|by auto..| |]; [|intros b Hb%F4; naive_solver..].
    pose proof (en_mirrored _ _ _ _ _ E6) as Hg5. pose proof (enlarged_trans _ _ _ _ _ _ _ _ _ E5 E6) as E7. cbn [app] in E7.
    assert (F5 : ∀ a b, fwd g5 !! a = Some b ↔ fwd g4 !! a = Some b ∨ a = x ∧ b = y).
    { intros a b. rewrite (en_fwd _ _ _ _ _ E6), elem_of_list_singleton, pair_equal_spec. done. }
    assert (N5 : ∀ a, a ∈ nodes g3 → a ∈ nodes g5) by (intros a Ha; apply (en_nodes _ _ _ _ _ E6); left; auto).
    apply exec_assoc, step_refer in Hx as [(g6&E8&Hx)|Hb]; [|right; by eapply broken_trans|by auto..| |]; [|intros b Hb%F5; rewrite F4 in Hb; naive_solver..].
    pose proof (enlarged_trans _ _ _ _ _ _ _ _ _ E7 E8) as E9. cbn [app] in E9.
    left. by exists x, y, z, g6.
  Qed.

  Lemma step_provide {B} (f : prog B) g m out g' m' : mirrored g → 1%N ∈ nodes g → exec (class_provide;;; f) g m out g' m' →
    exec f g m out g' m' ∨ broken_off g g' m m' out.
  Proof.
    intros Hg H1 Hx. unfold class_provide in Hx. apply exec_assoc in Hx.
    apply exec_call_any in Hx as [(r&g1&[-> ->]&Hx)|[[Hf Hx]|(Hf&->&->&->)]].
    - left. rewrite bool_decide_true in Hx by done. exact Hx.
    - right. cbn [bind of_res] in Hx. apply exec_throw_any in Hx as (->&->&->). by apply broken_here.
    - right. by apply broken_here.
  Qed.

  Lemma step_entity {A B} (h : N → N → N → N → A) (f : A → prog B) k g m out g' m' : mirrored g → valid zp g k →
    exec (c <- class_new k;; e <- make_four (h c) c;; f e) g m out g' m' →
    (∃ c x y z g1, enlarged [c; x; y; z] [(c, k)] [(c, x); (x, y); (y, z)] g g1 ∧ exec (f (h c x y z)) g1 m out g' m') ∨
    broken_off g g' m m' out.
  Proof.
    intros Hg Hk Hx. apply step_class in Hx as [(c&g1&E1&Hx)|Hb]; [|by right|done..]. pose proof (en_mirrored _ _ _ _ _ E1) as Hg1.
    assert (Hc : c ∈ [c]) by apply elem_of_list_here.
    apply step_four in Hx as [(x&y&z&g2&E2&Hx)|Hb]; [|right; by eapply broken_trans|done| |].
    - left. exists c, x, y, z, g2. split; [|done]. exact (enlarged_trans _ _ _ _ _ _ _ _ _ E1 E2).
    - apply (en_nodes _ _ _ _ _ E1). by right.
    - intros b [H|H%elem_of_nil]%(en_fwd _ _ _ _ _ E1); [|done]. apply (en_new _ _ _ _ _ E1 c Hc). by apply (proj2 (Hg c b)).
  Qed.
  Lemma step_surely {A B} (p : prog A) (f : A → prog B) v g m out g' m' : mirrored g → surely (zp:=zp) (fk:=fk) p g v →
    exec (x <- p;; f x) g m out g' m' → exec (f v) g m out g' m' ∨ broken_off g g' m m' out.
  Proof.
    intros Hg Hp Hx. apply (exec_surely _ _ v) in Hx as [Hx|(?&->&->&?)]; [by left| |done]. right. by apply broken_here.
  Qed.

  (** How a call ends that was to bring about [P]. *)
  Lemma brings_cut {A} (P : outcome A → graph → Prop) g g' m m' out : mirrored g → broken_off g g' m m' out → brings fk P g m out g' m'.
  Proof. intros Hg (->&Ho&n&e&r&E). split_and!; [done|by eapply enlarged_grows|apply E|by right]. Qed.
  Lemma brings_done {A} (P : outcome A → graph → Prop) ns es rs g g' m out : mirrored g → enlarged ns es rs g g' → P out g' →
    brings fk P g m out g' m.
  Proof. intros Hg E HP. split_and!; [done|by eapply enlarged_grows|apply E|by left]. Qed.

  Ltac old E := apply (en_nodes _ _ _ _ _ E); by left.
  Ltac new E := apply (en_nodes _ _ _ _ _ E); right; rewrite ?elem_of_app, ?elem_of_cons; tauto.
  Ltac cut := by apply brings_cut; [|eapply broken_trans].

  Theorem first_fact_rule g m out g' m' : mirrored g → classes_there g → exec fact_create_first_story_fact g m out g' m' →
    brings fk (new_story g) g m out g' m'.
  Proof.
    intros Hg (H1&H7&H8) Hx. unfold fact_create_first_story_fact in Hx.
    apply step_provide in Hx as [Hx|Hb]; [|by apply brings_cut|done..].
    apply (step_entity FactEnt) in Hx as [(c&x&y&z&g1&E1&Hx)|Hb]; [|by apply brings_cut|done|by left].
    pose proof (en_mirrored _ _ _ _ _ E1) as Hg1. unfold story_create in Hx.
    apply exec_assoc, step_provide in Hx as [Hx|Hb]; [|cut|done|old E1].
    apply exec_assoc in Hx.
    apply (step_entity StoryEnt) in Hx as [(c'&x'&y'&z'&g2&E2&Hx)|Hb]; [|cut|done|left; old E1].
    pose proof (en_mirrored _ _ _ _ _ E2) as Hg2. pose proof (enlarged_trans _ _ _ _ _ _ _ _ _ E1 E2) as E. cbn [app] in E.
    unfold fact_point_to_story, story_point_to_fact in Hx. cbn [fe_story se_fact] in Hx.
    apply step_tie in Hx as [(g3&E3&Hx)|Hb]; [|cut|done|left; new E|left; new E].
    pose proof (en_mirrored _ _ _ _ _ E3) as Hg3. pose proof (enlarged_trans _ _ _ _ _ _ _ _ _ E E3) as E4. cbn [app] in E4.
    apply step_tie in Hx as [(g4&E5&Hx)|Hb]; [|cut|done|left; new E4|left; new E4].
    pose proof (enlarged_trans _ _ _ _ _ _ _ _ _ E4 E5) as E6. cbn [app] in E6.
    apply exec_ret_any in Hx as (->&->&->). eapply brings_done; [done|exact E6|].
    exists (FactEnt c x y z), (StoryEnt c' x' y' z'). split; [done|exact E6].
  Qed.

  Lemma next_fact_step f s g m out g' m' : mirrored g → classes_there g → is_fact g f → se_fact s = fe_story f →
    surely (zp:=zp) (fk:=fk) (story_read_by_fact (fe_story f)) g s →
    exec (fact_create_next_fact (fe_remark f)) g m out g' m' → brings fk (next_fact f (fe_story f) g) g m out g' m'.
  Proof.
    intros Hg (H1&H7&H8) Hf Hsf Hs Hx. pose proof (mirrored_coherent g Hg) as Hco. unfold fact_create_next_fact in Hx.
    assert (Hn : fe_position f ∈ nodes g ∧ fe_story f ∈ nodes g).
    { destruct f. destruct Hf as (_&A&B&_). cbn in *. by destruct (proj2 (Hg _ _) B). }
    destruct Hn as [Hnp Hns].
    apply (step_surely _ _ f) in Hx as [Hx|Hb]; [|by apply brings_cut|done|].
    2: { destruct f as [a b c d]. eapply surely_finds; [done|constructor|exact Hf]. }
    apply (step_surely _ _ s) in Hx as [Hx|Hb]; [|by apply brings_cut|done|done].
    apply step_provide in Hx as [Hx|Hb]; [|by apply brings_cut|done..].
    apply (step_entity FactEnt) in Hx as [(c&x&y&z&g1&E1&Hx)|Hb]; [|by apply brings_cut|done|by left].
    pose proof (en_mirrored _ _ _ _ _ E1) as Hg1.
    unfold fact_point_to_story, fact_point_to_position in Hx. cbn [fe_story fe_position] in Hx. rewrite Hsf in Hx.
    apply step_tie in Hx as [(g3&E3&Hx)|Hb]; [|cut|done|left; new E1|left; old E1].
    pose proof (en_mirrored _ _ _ _ _ E3) as Hg3. pose proof (enlarged_trans _ _ _ _ _ _ _ _ _ E1 E3) as E4. cbn [app] in E4.
    apply step_tie in Hx as [(g4&E5&Hx)|Hb]; [|cut|done|left; old E4|left; new E4].
    pose proof (enlarged_trans _ _ _ _ _ _ _ _ _ E4 E5) as E6. cbn [app] in E6.
    apply exec_ret_any in Hx as (->&->&->). eapply brings_done; [done|exact E6|].
    exists (FactEnt c x y z). split; [done|exact E6].
  Qed.

  (** A node that refers to nothing, read as the fact node of a story. *)
  Lemma surely_end x p g : zp = ZNode → mirrored g → 0%N ∉ nodes g → fwd g !! p = Some x → fwd g !! x = None →
    surely (zp:=zp) (fk:=fk) (story_read_by_fact x) g (StoryEnt p x 0 0).
  Proof.
    intros Hz Hg H0 Hp Hf m out g1 m1 Hx. destruct (proj2 (Hg _ _) Hp) as [_ Hxn]. apply (proj1 (Hg _ _)) in Hp.
    assert (Hf0 : fwd g !! 0%N = None).
    { destruct (fwd g !! 0%N) as [y|] eqn:E; [|done]. by destruct (proj2 (Hg _ _) E). }
    unfold story_read_by_fact in Hx.
    apply exec_getref in Hx as [Hx|(Hb&->&->)]; [|by split_and!; [..|apply faulty_answers]|by left].
    rewrite Hp, Hf in Hx. cbn [default from_option id] in Hx.
    apply exec_getref in Hx as [Hx|(Hb&->&->)]; [|by split_and!; [..|apply faulty_answers]|by right].
    rewrite Hf0 in Hx. cbn [default from_option id] in Hx. by eapply surely_ret.
  Qed.

  Theorem next_fact_rule f g m out g' m' : zp = ZNode → mirrored g → classes_there g → 0%N ∉ nodes g →
    is_fact g f → fwd g !! fe_story f = None →
    exec (fact_create_next_fact (fe_remark f)) g m out g' m' → brings fk (next_fact f (fe_story f) g) g m out g' m'.
  Proof.
    intros Hz Hg Hc H0 Hf He. apply (next_fact_step f (StoryEnt (fe_position f) (fe_story f) 0 0)); try done.
    apply surely_end; try done. destruct f. by destruct Hf as (_&_&?&_).
  Qed.

  Lemma surely_no_target x g : valid zp g x → no_neighbour Outgoing g x →
    surely (zp:=zp) (fk:=fk) (l <- st_targets x;; Ret (nonempty l)) g false.
  Proof.
    intros Hv Hy m out g' m' Hx. apply exec_call_any in Hx as [(r&g1&[Hc _]&Hx)|[[? Hx]|(?&->&->&->)]].
    - destruct (Hc Hv) as (l&->&Hnd&Hl&->). cbn [bind of_res] in Hx.
      apply (list_none l _ Hl) in Hy as ->. by eapply surely_ret.
    - cbn [bind of_res] in Hx. apply exec_throw_any in Hx as (->&->&->). split_and!; [done..|]. split; [congruence|done].
    - split_and!; [done..|]. split; [congruence|done].
  Qed.

  Lemma child_step f s g m out g' m' fuel : mirrored g → classes_there g → is_fact g f →
    surely (zp:=zp) (fk:=fk) (story_read_by_fact (fe_story f)) g s → valid zp g (se_tree s) → no_neighbour Outgoing g (se_tree s) →
    exec (fact_create_child_story_fact fuel (fe_remark f)) g m out g' m' → brings fk (child_story (se_tree s) g) g m out g' m'.
  Proof.
    intros Hg (H1&H7&H8) Hf Hs Hv Hno Hx. pose proof (mirrored_coherent g Hg) as Hco. unfold fact_create_child_story_fact in Hx.
    apply (step_surely _ _ f) in Hx as [Hx|Hb]; [|by apply brings_cut|done|].
    2: { destruct f as [a b c d]. eapply surely_finds; [done|constructor|exact Hf]. }
    apply (step_surely _ _ s) in Hx as [Hx|Hb]; [|by apply brings_cut|done|done].
    apply (step_surely _ _ false) in Hx as [Hx|Hb]; [|by apply brings_cut|done|by apply surely_no_target].
    unfold story_create in Hx.
    apply exec_assoc, step_provide in Hx as [Hx|Hb]; [|by apply brings_cut|done|done].
    apply exec_assoc in Hx.
    apply (step_entity StoryEnt) in Hx as [(c&x&y&z&g1&E1&Hx)|Hb]; [|by apply brings_cut|done|by left].
    pose proof (en_mirrored _ _ _ _ _ E1) as Hg1.
    unfold story_point_to_tree, fact_point_to_story, story_point_to_fact in Hx. cbn [se_tree se_fact] in Hx.
    apply step_tie in Hx as [(g2&E2&Hx)|Hb]; [|cut|done|left; new E1|].
    2: { destruct Hv as [?|?]; [left; old E1|by right]. }
    pose proof (en_mirrored _ _ _ _ _ E2) as Hg2. pose proof (enlarged_trans _ _ _ _ _ _ _ _ _ E1 E2) as E3. cbn [app] in E3.
    cbn [bind] in Hx.
    apply step_provide in Hx as [Hx|Hb]; [|cut|done|old E3].
    apply (step_entity FactEnt) in Hx as [(c'&x'&y'&z'&g3&E4&Hx)|Hb]; [|cut|done|left; old E3].
    pose proof (en_mirrored _ _ _ _ _ E4) as Hg3. pose proof (enlarged_trans _ _ _ _ _ _ _ _ _ E3 E4) as E. cbn [app] in E.
    cbn [fe_story] in Hx.
    apply step_tie in Hx as [(g4&E5&Hx)|Hb]; [|cut|done|left; new E|left; new E].
    pose proof (en_mirrored _ _ _ _ _ E5) as Hg4. pose proof (enlarged_trans _ _ _ _ _ _ _ _ _ E E5) as E6. cbn [app] in E6.
    apply step_tie in Hx as [(g5&E7&Hx)|Hb]; [|cut|done|left; new E6|left; new E6].
    pose proof (enlarged_trans _ _ _ _ _ _ _ _ _ E6 E7) as E8. cbn [app] in E8.
    apply exec_ret_any in Hx as (->&->&->). eapply brings_done; [done|exact E8|].
    exists (FactEnt c' x' y' z'), (StoryEnt c x y z). split; [done|exact E8].
  Qed.
  Theorem child_story_rule f g m out g' m' fuel : zp = ZNode → mirrored g → classes_there g → 0%N ∉ nodes g →
    is_fact g f → fwd g !! fe_story f = None → no_neighbour Outgoing g 0 →
    exec (fact_create_child_story_fact fuel (fe_remark f)) g m out g' m' → brings fk (child_story 0 g) g m out g' m'.
  Proof.
    intros Hz Hg Hc H0 Hf He Hno. apply (child_step f (StoryEnt (fe_position f) (fe_story f) 0 0)); try done.
    - apply surely_end; try done. destruct f. by destruct Hf as (_&_&?&_).
    - by right.
  Qed.

  (** The same where the row of the fact goes on, so that a story is found in it. *)
  Theorem next_fact_long f s g m out g' m' : mirrored g → classes_there g → is_fact g f → is_story g s → fe_story f = se_fact s →
    exec (fact_create_next_fact (fe_remark f)) g m out g' m' → brings fk (next_fact f (se_fact s) g) g m out g' m'.
  Proof.
    intros Hg Hc Hf Hs He. rewrite <- He. apply (next_fact_step f s); try done.
    destruct s as [a b c d]. cbn in He. rewrite He. eapply surely_finds; [by apply mirrored_coherent|constructor|exact Hs].
  Qed.
  Theorem child_story_long f s g m out g' m' fuel : mirrored g → classes_there g → is_fact g f → is_story g s → fe_story f = se_fact s →
    no_neighbour Outgoing g (se_tree s) →
    exec (fact_create_child_story_fact fuel (fe_remark f)) g m out g' m' → brings fk (child_story (se_tree s) g) g m out g' m'.
  Proof.
    intros Hg Hc Hf Hs He Hno. apply (child_step f s); try done.
    - destruct s as [a b c d]. cbn in He. rewrite He. eapply surely_finds; [by apply mirrored_coherent|constructor|exact Hs].
    - left. destruct s. destruct Hs as (_&_&Hs&_). cbn in *. by destruct (proj2 (Hg _ _) Hs).
  Qed.

  (** Without node 0 nothing happens. *)
  Lemma strict_end f g : zp = ZStrict → mirrored g → 0%N ∉ nodes g → is_fact g f → fwd g !! fe_story f = None →
    ∀ {B} (k : fact_ent → story_ent → prog B) m out g' m',
    exec (fact <- fact_read_by_remark (fe_remark f);; story <- story_read_by_fact (fe_story fact);; k fact story) g m out g' m' →
    g' = g ∧ m' = m ∧ ∀ b, out ≠ OOk b.
  Proof.
    intros Hz Hg H0 Hf He B k m out g' m' Hx.
    apply (exec_surely _ _ f) in Hx as [Hx|(?&->&->&?)]; [|done|].
    2: { destruct f as [a b c d]. eapply surely_finds; [by apply mirrored_coherent|constructor|exact Hf]. }
    unfold story_read_by_fact in Hx. apply exec_assoc in Hx.
    apply exec_getref in Hx as [Hx|([_ [-> | ->]]&->&->)]; [|done|done|].
    2: { left. destruct f. destruct Hf as (_&_&Hf&_). cbn in *. by destruct (proj2 (Hg _ _) Hf). }
    rewrite He in Hx. cbn [default from_option id] in Hx. apply exec_assoc in Hx.
    apply exec_call_any in Hx as [(r&g1&[_ Hc]&Hx)|[[? Hx]|(?&->&->&->)]]; [| |done].
    - destruct Hc as [-> ->]; [intros [?|[? _]]; congruence|]. cbn [bind of_res] in Hx. by apply exec_throw_any in Hx as (->&->&->).
    - cbn [bind of_res] in Hx. by apply exec_throw_any in Hx as (->&->&->).
  Qed.
  Theorem strict_end_rule f g m out g' m' fuel : zp = ZStrict → mirrored g → 0%N ∉ nodes g → is_fact g f → fwd g !! fe_story f = None →
    exec (fact_create_next_fact (fe_remark f)) g m out g' m' ∨ exec (fact_create_child_story_fact fuel (fe_remark f)) g m out g' m' →
    g' = g ∧ m' = m ∧ ∀ b, out ≠ OOk b.
  Proof. intros Hz Hg H0 Hf He [Hx|Hx]; exact (strict_end f g Hz Hg H0 Hf He _ _ _ _ _ Hx). Qed.
End writes.

(** What the program itself makes is such contents. *)
Lemma reach_stage zp faults fuel t w : reach zp faults fuel t w → settled t →
  mirrored (store w) ∧ classes_there (store w) ∧ 0%N ∉ nodes (store w).
Proof.
  intros Hr Hs. split; [by eapply reach_mirrored|]. destruct (reach_J _ _ _ _ _ Hr) as (d&G&HJ&_).
  pose proof (J_ok _ _ _ _ _ _ HJ) as Hok. destruct (J_settled _ _ _ _ _ _ HJ Hs) as (Hup&_).
  split; [|apply Hok]. unfold classes_there, factIdentifier, storyIdentifier.
  split_and!; (apply (ok_dom _ _ _ Hok); [done|]); eexists; by apply Hup.
Qed.
Lemma reach_fact_ends zp faults fuel t w f : reach zp faults fuel t w → is_fact (store w) f →
  (fe_class f, factIdentifier) ∈ edges (store w) → fwd (store w) !! fe_story f = None.
Proof.
  intros Hr Hf Hc. destruct (reach_J _ _ _ _ _ Hr) as (d&G&HJ&_). pose proof (J_ok _ _ _ _ _ _ HJ) as Hok.
  destruct f as [a b c e]. destruct Hf as (H1&H2&H3&_). cbn in *.
  destruct (fwd (store w) !! e) as [y|] eqn:H4; [|done]. exfalso.
  destruct (ok_ref _ _ _ Hok _ _ H1) as (l1&l2&L1&L2&R1). destruct (ok_ref _ _ _ Hok _ _ H2) as (l2'&l3&L2'&L3&R2).
  destruct (ok_ref _ _ _ Hok _ _ H3) as (l3'&l4&L3'&L4&R3). destruct (ok_ref _ _ _ Hok _ _ H4) as (l4'&l5&L4'&L5&R4).
  rewrite L2 in L2'. rewrite L3 in L3'. rewrite L4 in L4'. injection L2' as <-. injection L3' as <-. injection L4' as <-.
  destruct (ok_edge _ _ _ Hok _ _ Hc) as (la&lk&La&Lk&He&_). rewrite L1 in La. injection La as <-.
  destruct l1; try done; try (by destruct l2; try done; destruct l3; try done; destruct l4; try done; destruct l5).
Qed.

Theorem next_fact_reached faults fuel t w f fk m out g' m' : reach ZNode faults fuel t w → settled t →
  is_fact (store w) f → (fe_class f, factIdentifier) ∈ edges (store w) →
  exec ZNode fk (fact_create_next_fact (fe_remark f)) (store w) m out g' m' →
  brings fk (next_fact f (fe_story f) (store w)) (store w) m out g' m'.
Proof.
  intros Hr Hs Hf Hc. destruct (reach_stage _ _ _ _ _ Hr Hs) as (?&?&?).
  apply next_fact_rule; try done. by eapply reach_fact_ends.
Qed.
Theorem child_story_reached faults fuel t w f fk m out g' m' n : reach ZNode faults fuel t w → settled t →
  is_fact (store w) f → (fe_class f, factIdentifier) ∈ edges (store w) → no_neighbour Outgoing (store w) 0 →
  exec ZNode fk (fact_create_child_story_fact n (fe_remark f)) (store w) m out g' m' →
  brings fk (child_story 0 (store w)) (store w) m out g' m'.
Proof.
  intros Hr Hs Hf Hc Hno. destruct (reach_stage _ _ _ _ _ Hr Hs) as (?&?&?).
  apply (child_story_rule (zp:=ZNode) f _ _ _ _ _ n); try done. by eapply reach_fact_ends.
Qed.
