(** The walk to the last of the stories that follow a story, and what is made after it. *)
From stdpp Require Import gmap.
From Coq Require Import NArith ZArith Lia.
From Verif Require Import Base GoText Model1 Model2 Model3 Model4 Storage Spec SpecMoments SpecGuards SpecWalk SpecEntities SpecSiblings Inv
  HistoryProofs InitProofs GuardProofs LookupProofs WriteProofs StoryWrites.
Local Open Scope nat_scope.

Section siblings.
  Context {zp : zpolicy} {fk : bool}.
  Notation exec := (exec zp fk).
  Notation surely := (surely (zp:=zp) (fk:=fk)).
  Ltac old E := apply (en_nodes _ _ _ _ _ E); by left.
  Ltac new E := apply (en_nodes _ _ _ _ _ E); right; rewrite ?elem_of_app, ?elem_of_cons; tauto.
  Ltac cut := by apply brings_cut; [|eapply broken_trans].

  Lemma surely_some x y g : valid zp g x → near Outgoing g x y → surely (l <- st_targets x;; Ret (nonempty l)) g true.
  Proof.
    intros Hv Hy m out g' m' Hx. apply exec_call_any in Hx as [(r&g1&[Hc _]&Hx)|[[? Hx]|(?&->&->&->)]].
    - destruct (Hc Hv) as (l&->&Hnd&Hl&->). cbn [bind of_res] in Hx.
      apply Hl in Hy. destruct l as [|a l]; [by apply elem_of_nil in Hy|]. by eapply surely_ret.
    - cbn [bind of_res] in Hx. apply exec_throw_any in Hx as (->&->&->). split_and!; [done..|]. split; [congruence|done].
    - split_and!; [done..|]. split; [congruence|done].
  Qed.
  Lemma story_there g s : mirrored g → is_story g s → se_fact s ∈ nodes g ∧ se_position s ∈ nodes g ∧ se_tree s ∈ nodes g.
  Proof.
    intros Hg Hs. destruct s as [a b c d]. destruct Hs as (H1&H2&H3&_). cbn in *.
    destruct (proj2 (Hg _ _) H2), (proj2 (Hg _ _) H3). done.
  Qed.
  Lemma only_near g x y : only_neighbour Outgoing g x y → near Outgoing g x y.
  Proof. intros H. by apply H. Qed.

  Lemma surely_last g n s u fuel : mirrored g → n < fuel → is_story g s → last_story g n s u → surely (fact_last_sibling fuel s) g u.
  Proof.
    intros Hg Hn Hs Hl. revert fuel Hn Hs. induction Hl as [s Hno|n s t u Ht Hst _ IH]; intros [|fuel] Hn Hs; try lia; cbn [fact_last_sibling].
    - destruct (story_there g s Hg Hs) as (_&Hp&_).
      eapply surely_bind; [apply surely_no_target; [by left|done]|]. cbn [negb]. apply surely_ret.
    - destruct (story_there g s Hg Hs) as (_&Hp&_).
      eapply surely_bind; [eapply surely_some; [by left|by apply only_near]|]. cbn [negb].
      eapply surely_bind; [by apply surely_only|].
      eapply surely_bind; [|apply IH; [lia|done]].
      destruct t as [a b c d]. eapply surely_finds; [by apply mirrored_coherent|constructor|exact Hst].
  Qed.
  (** The walk does not end where the positions go on and on. *)
  Lemma never_last g (P : story_ent → Prop) fuel s m out g' m' : mirrored g → endless_stories g P → P s →
    exec (fact_last_sibling fuel s) g m out g' m' → g' = g ∧ m' = m ∧ (fk = false → out = ODiverge) ∧ ∀ u, out ≠ OOk u.
  Proof.
    intros Hg HP. revert s. induction fuel as [|fuel IH]; intros s Hs Hx.
    - cbn [fact_last_sibling] in Hx. inversion Hx; subst; done.
    - cbn [fact_last_sibling] in Hx. destruct (HP s Hs) as (Hst&t&Ht&HPt). destruct (HP t HPt) as (Hstt&_). destruct (story_there g s Hg Hst) as (_&Hp&_).
      apply (exec_surely _ _ true) in Hx as [Hx|(->&->&->&?)]; [|done|eapply surely_some; [by left|by apply only_near]]. cbn [negb] in Hx.
      apply (exec_surely _ _ (se_position t)) in Hx as [Hx|(->&->&->&?)]; [|done|by apply surely_only].
      apply (exec_surely _ _ t) in Hx as [Hx|(->&->&->&?)]; [|done|].
      + by apply (IH t).
      + destruct t as [a b c d]. eapply surely_finds; [by apply mirrored_coherent|constructor|exact Hstt].
  Qed.

  (** New nodes and edges elsewhere do not change the walk. *)
  Lemma row_on ns es rs g g' s : enlarged ns es rs g g' → is_story g s → is_story g' s.
  Proof.
    intros E. unfold is_story. destruct s as [a b c d]. intros (H1&H2&H3&H4). cbn in *.
    split_and!; try (apply (en_fwd _ _ _ _ _ E); by left); done.
  Qed.
  Lemma last_on ns es rs g g' n s u : mirrored g → enlarged ns es rs g g' → (∀ x y, (x, y) ∈ es → x ∉ nodes g) →
    is_story g s → last_story g n s u → last_story g' n s u.
  Proof.
    intros Hg E Hes Hs Hl. assert (∀ t, is_story g t → ∀ y, near Outgoing g' (se_position t) y ↔ near Outgoing g (se_position t) y) as Hn.
    { intros t Ht y. unfold near. rewrite (en_edges _ _ _ _ _ E). split; [|by left]. intros [?|Hy]; [done|].
      apply Hes in Hy. by destruct (story_there g t Hg Ht) as (_&?&_). }
    induction Hl as [s Hno|n s t u Ht Hst Hl IH].
    - apply last_here. intros y Hy. apply (Hn s Hs) in Hy. by apply (Hno y).
    - eapply last_next; [|by eapply row_on|by apply IH]. intros y. rewrite <- (Ht y). by apply Hn.
  Qed.
  Lemma last_is g n s u : is_story g s → last_story g n s u → is_story g u.
  Proof. intros Hs Hl. induction Hl as [|n s t u Ht Hst Hl IH]; [done|by apply IH]. Qed.

  Theorem further_child_rule f s u y n g m out g' m' fuel : mirrored g → classes_there g → is_fact g f → is_story g s → fe_story f = se_fact s →
    near Outgoing g (se_tree s) y → last_story g n s u → n < fuel →
    exec (fact_create_child_story_fact fuel (fe_remark f)) g m out g' m' → brings fk (further_story s u g) g m out g' m'.
  Proof.
    intros Hg (H1&H7&H8) Hf Hs He Hy Hl Hn Hx. pose proof (mirrored_coherent g Hg) as Hco.
    destruct (story_there g s Hg Hs) as (_&_&Ht). pose proof (last_is g n s u Hs Hl) as Hu. destruct (story_there g u Hg Hu) as (_&Hup&_).
    unfold fact_create_child_story_fact in Hx.
    apply (step_surely _ _ f) in Hx as [Hx|Hb]; [|by apply brings_cut|done|].
    2: { destruct f as [a b c d]. eapply surely_finds; [done|constructor|exact Hf]. }
    apply (step_surely _ _ s) in Hx as [Hx|Hb]; [|by apply brings_cut|done|].
    2: { rewrite He. destruct s as [a b c d]. eapply surely_finds; [done|constructor|exact Hs]. }
    apply (step_surely _ _ true) in Hx as [Hx|Hb]; [|by apply brings_cut|done|eapply surely_some; [by left|done]].
    unfold story_create in Hx.
    apply exec_assoc, step_provide in Hx as [Hx|Hb]; [|by apply brings_cut|done|done].
    apply exec_assoc in Hx.
    apply (step_entity StoryEnt) in Hx as [(c&x&p&z&g1&E1&Hx)|Hb]; [|by apply brings_cut|done|by left].
    pose proof (en_mirrored _ _ _ _ _ E1) as Hg1.
    unfold story_point_to_tree, story_point_to_position, fact_point_to_story, story_point_to_fact in Hx. cbn [se_tree se_fact se_position] in Hx.
    apply step_tie in Hx as [(g2&E2&Hx)|Hb]; [|cut|done|left; new E1|left; old E1].
    pose proof (en_mirrored _ _ _ _ _ E2) as Hg2. pose proof (enlarged_trans _ _ _ _ _ _ _ _ _ E1 E2) as E3. cbn [app] in E3.
    apply exec_assoc in Hx. pose proof (row_on _ _ _ _ _ s E3 Hs) as Hs2.
    apply (step_surely _ _ s) in Hx as [Hx|Hb]; [|cut|done|].
    2: { destruct s as [a1 b1 c1 d1]. eapply surely_finds; [by apply mirrored_coherent|constructor|exact Hs2]. }
    apply exec_assoc in Hx.
    apply (step_surely _ _ u) in Hx as [Hx|Hb]; [|cut|done|].
    2: { eapply surely_last; [done|exact Hn|done|]. eapply (last_on _ _ _ g g2); [done|exact E3| |done|done].
      intros x' y' Hi. rewrite ?elem_of_app, ?elem_of_cons, elem_of_nil in Hi.
      destruct Hi as [[= -> ->]|[[= -> ->]|[]]]; apply (en_new _ _ _ _ _ E3); rewrite ?elem_of_app, ?elem_of_cons; tauto. }
    apply exec_assoc in Hx.
    apply step_tie in Hx as [(g3&E4&Hx)|Hb]; [|cut|done|left; old E3|left; new E3].
    pose proof (en_mirrored _ _ _ _ _ E4) as Hg3. pose proof (enlarged_trans _ _ _ _ _ _ _ _ _ E3 E4) as E5. cbn [app] in E5.
    apply step_tie in Hx as [(g4&E6&Hx)|Hb]; [|cut|done|left; old E5|left; new E5].
    pose proof (en_mirrored _ _ _ _ _ E6) as Hg4. pose proof (enlarged_trans _ _ _ _ _ _ _ _ _ E5 E6) as E7. cbn [app] in E7.
    apply step_provide in Hx as [Hx|Hb]; [|cut|done|old E7].
    apply (step_entity FactEnt) in Hx as [(c'&x'&p'&z'&g5&E8&Hx)|Hb]; [|cut|done|left; old E7].
    pose proof (en_mirrored _ _ _ _ _ E8) as Hg5. pose proof (enlarged_trans _ _ _ _ _ _ _ _ _ E7 E8) as E. cbn [app] in E.
    cbn [fe_story] in Hx.
    apply step_tie in Hx as [(g6&E9&Hx)|Hb]; [|cut|done|left; new E|left; new E].
    pose proof (en_mirrored _ _ _ _ _ E9) as Hg6. pose proof (enlarged_trans _ _ _ _ _ _ _ _ _ E E9) as Ea. cbn [app] in Ea.
    apply step_tie in Hx as [(g7&Eb&Hx)|Hb]; [|cut|done|left; new Ea|left; new Ea].
    pose proof (enlarged_trans _ _ _ _ _ _ _ _ _ Ea Eb) as Ec. cbn [app] in Ec.
    apply exec_ret_any in Hx as (->&->&->). eapply brings_done; [done|exact Ec|].
    exists (FactEnt c' x' p' z'), (StoryEnt c x p z). split; [done|exact Ec].
  Qed.
End siblings.
