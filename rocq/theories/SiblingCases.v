(** Storage contents made by hand: a fact and its story [11; 12; 13; 14], which is
    followed by two stories and has a child; in [circle_graph] the last one leads back. *)
From stdpp Require Import gmap.
From Coq Require Import NArith ZArith Lia Ascii.
From Verif Require Import Base GoText Model1 Model2 Model3 Model4 Storage RefStorage RefProofs SpecText Spec SpecMachine SpecGuards SpecWalk SpecEntities SpecSpelling SpecKept SpecSiblings
  PlayProofs InitProofs LookupProofs SpellProofs Claims WalkCases SpellCases KeptCases SiblingProofs.
Local Open Scope N_scope.

Definition lining : prog unit :=
  create_some 22;;; make_row 9 10 11 12;;; st_setref 12 13;;; st_setref 13 14;;;
  make_row 15 16 17 18;;; make_row 19 20 21 22;;; st_connect 13 17;;; st_connect 17 21;;; st_connect 14 18.
Definition line_state : rstate := r_state (run (ref_storage ZStrict) lining [] (RState 1 empty_graph) None).
Definition line_graph : graph := rs_graph line_state.
Definition circle_state : rstate := r_state (run (ref_storage ZStrict) (st_connect 21 13) [] line_state None).
Definition circle_graph : graph := rs_graph circle_state.
Definition L_fact : fact_ent := FactEnt 9 10 11 12.
Definition L_story : story_ent := StoryEnt 11 12 13 14.
Definition L_second : story_ent := StoryEnt 15 16 17 18.
Definition L_third : story_ent := StoryEnt 19 20 21 22.

Lemma line_rinv : rinv line_state.
Proof.
  apply (run_exec ZStrict (ref_storage ZStrict) lining [] rinv rs_graph (RState 1 empty_graph) None false);
    [apply (ref_storage_stands ZStrict)|by intros _|apply (ref_storage_stands ZStrict)].
Qed.
Lemma circle_rinv : rinv circle_state.
Proof.
  eapply (run_exec ZStrict (ref_storage ZStrict) _ [] rinv rs_graph line_state None false);
    [apply (ref_storage_stands ZStrict)|by intros _|apply line_rinv].
Qed.
Lemma exec_on {A} fk s (p : prog A) evs out : rinv s → (fk = false → evs = []) →
  r_out (run (ref_storage ZStrict) p evs s None) = out → ∃ g' m', exec ZStrict fk p (rs_graph s) None out g' m'.
Proof.
  intros Hs Hf <-. eexists _, _.
  apply (run_exec ZStrict (ref_storage ZStrict) p evs rinv rs_graph s None fk); [apply (ref_storage_stands ZStrict)| |exact Hs].
  intros e. destruct fk; [done|]. by rewrite Hf.
Qed.
Lemma mirrored_seen g : map_Forall (λ x y, bwd g !! y = Some x ∧ x ∈ nodes g ∧ y ∈ nodes g) (fwd g) →
  map_Forall (λ y x, fwd g !! x = Some y) (bwd g) → mirrored g.
Proof. intros H H' x y. split; [split|]; [intros Hx; apply (H x y Hx)|apply H'|intros Hx; apply (H x y Hx)]. Qed.
Lemma line_mirrored : mirrored line_graph.
Proof. apply mirrored_seen; apply (bool_decide_unpack _); vm_compute; exact I. Qed.
Lemma circle_mirrored : mirrored circle_graph.
Proof. apply mirrored_seen; apply (bool_decide_unpack _); vm_compute; exact I. Qed.
Lemma line_stage : classes_there line_graph ∧ is_fact line_graph L_fact ∧ is_story line_graph L_story ∧ near Outgoing line_graph (se_tree L_story) 18.
Proof. split; [|split; [row_now|split; [row_now|near_now]]]. repeat split; near_now. Qed.
Lemma line_last : last_story line_graph 2 L_story L_third.
Proof.
  apply (last_next _ _ _ L_second); [out_now|row_now|]. apply (last_next _ _ _ L_third); [out_now|row_now|].
  apply last_here. apply no_out. near_now.
Qed.
Lemma circle_endless : endless_stories circle_graph (λ s, s = L_story ∨ s = L_second ∨ s = L_third).
Proof.
  intros s [-> |[-> | ->]].
  - split; [row_now|]. exists L_second. split; [out_now|right; left; reflexivity].
  - split; [row_now|]. exists L_third. split; [out_now|right; right; reflexivity].
  - split; [row_now|]. exists L_story. split; [out_now|left; reflexivity].
Qed.
