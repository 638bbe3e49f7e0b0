(** Storage contents with two linked stories, made by hand: the first has two
    facts and is the parent of the second. *)
From stdpp Require Import gmap.
From Coq Require Import NArith ZArith Lia.
From Verif Require Import Base GoText Model1 Model2 Model3 Model4 Storage RefStorage RefProofs SpecMachine SpecGuards SpecWalk SpecEntities PlayProofs Claims.
Local Open Scope N_scope.

Fixpoint create_some (n : nat) : prog unit :=
  match n with O => Ret tt | S n => st_create;;; create_some n end.
Definition make_row (a b c d : N) : prog unit := st_setref a b;;; st_setref b c;;; st_setref c d.
Definition couple : prog unit :=
  create_some 20;;;
  make_row 1 2 3 4;;; make_row 5 6 7 8;;; make_row 9 10 11 12;;; make_row 13 14 15 16;;; make_row 17 18 19 20;;;
  st_connect 8 2;;; st_connect 12 2;;; st_connect 2 8;;; st_connect 7 11;;;
  st_connect 20 14;;; st_connect 14 20;;; st_connect 3 15;;; st_connect 16 4.
Definition couple_state : rstate := r_state (run (ref_storage ZStrict) couple [] (RState 1 empty_graph) None).
Definition couple_graph : graph := rs_graph couple_state.

Definition S_one : story_ent := StoryEnt 1 2 3 4.
Definition S_two : story_ent := StoryEnt 13 14 15 16.
Definition F_one : fact_ent := FactEnt 5 6 7 8.
Definition F_two : fact_ent := FactEnt 9 10 11 12.
Definition F_three : fact_ent := FactEnt 17 18 19 20.

Lemma couple_rinv : rinv couple_state.
Proof.
  apply (run_exec ZStrict (ref_storage ZStrict) couple [] rinv rs_graph (RState 1 empty_graph) None false);
    [apply (ref_storage_stands ZStrict)|by intros _|apply (ref_storage_stands ZStrict)].
Qed.
Lemma couple_exec {A} (p : prog A) out :
  r_out (run (ref_storage ZStrict) p [] couple_state None) = out →
  ∃ g' m', exec ZStrict false p couple_graph None out g' m'.
Proof.
  intros <-. eexists _, _.
  apply (run_exec ZStrict (ref_storage ZStrict) p [] rinv rs_graph couple_state None false);
    [apply (ref_storage_stands ZStrict)|by intros _|apply couple_rinv].
Qed.

Lemma couple_coherent : coherent couple_graph.
Proof.
  assert (H : map_Forall (λ x y, bwd couple_graph !! y = Some x ∧ x ∈ nodes couple_graph ∧ y ∈ nodes couple_graph) (fwd couple_graph))
    by (apply (bool_decide_unpack _); vm_compute; exact I).
  intros x y Hxy. apply (H x y Hxy).
Qed.
Lemma only_out g x y : filter (λ e, e.1 = x) (edges g) = {[ (x, y) ]} → only_neighbour Outgoing g x y.
Proof.
  intros H z. cbn [near]. split.
  - intros Hz. assert (Hm : (x, z) ∈ filter (λ e : N * N, e.1 = x) (edges g)) by by apply elem_of_filter.
    rewrite H in Hm. apply elem_of_singleton in Hm. congruence.
  - intros ->. assert (Hm : (x, y) ∈ filter (λ e : N * N, e.1 = x) (edges g)) by (rewrite H; by apply elem_of_singleton).
    by apply elem_of_filter in Hm as [_ ?].
Qed.
Ltac only_now := apply only_out; apply (bool_decide_unpack _); vm_compute; exact I.

Lemma couple_belongs : belongs couple_graph F_one S_one ∧ belongs couple_graph F_two S_one ∧ belongs couple_graph F_three S_two.
Proof. split_and!; (repeat split); try (vm_compute; reflexivity); try exact I; only_now. Qed.
Lemma couple_begins : begins couple_graph S_one F_one ∧ begins couple_graph S_two F_three.
Proof. split; (split; [|split]); try only_now; (repeat split); vm_compute; done. Qed.
Lemma couple_walks : walk couple_graph F_one fact_agg_to_next_fact F_two ∧
  walk couple_graph F_two fact_agg_to_first_fact F_one ∧
  walk couple_graph F_two fact_agg_to_next_story F_three ∧
  walk couple_graph F_three fact_agg_to_parent_story F_one.
Proof.
  destruct couple_belongs as (H1&H2&H3), couple_begins as (H4&H5). split_and!.
  - apply walk_next_fact; [apply H1|apply H2|only_now].
  - by eapply walk_first_fact.
  - eapply walk_next_story; [done| |done]. only_now.
  - eapply walk_parent_story; [done| |done]. only_now.
Qed.
Lemma couple_looks : outlook couple_graph F_one fact_agg_has_next_fact Outgoing 7 ∧
  outlook couple_graph F_two fact_agg_has_next_story Outgoing 3 ∧
  outlook couple_graph F_one fact_agg_has_parent_story Incoming 4.
Proof.
  destruct couple_belongs as (H1&H2&H3). split_and!.
  - apply look_next_fact, H1.
  - by apply (look_next_story _ _ S_one).
  - by apply (look_parent_story _ _ S_one).
Qed.
Lemma claim_walk_on_false : ¬ claim_walk_on ZStrict.
Proof.
  intros H. destruct couple_walks as (Hn&Hf&_).
  destruct (couple_exec (a <- fact_agg_to_next_fact (FactAgg F_one true);; fact_agg_to_first_fact a) OPanic) as (g'&m'&Hx);
    [vm_compute; reflexivity|].
  specialize (H _ _ _ _ _ _ _ _ _ _ couple_coherent Hn Hf Hx). discriminate.
Qed.

Lemma couple_mirrored : mirrored couple_graph.
Proof.
  assert (H : map_Forall (λ x y, bwd couple_graph !! y = Some x ∧ x ∈ nodes couple_graph ∧ y ∈ nodes couple_graph) (fwd couple_graph))
    by (apply (bool_decide_unpack _); vm_compute; exact I).
  assert (H' : map_Forall (λ y x, fwd couple_graph !! x = Some y) (bwd couple_graph))
    by (apply (bool_decide_unpack _); vm_compute; exact I).
  intros x y. split; [split|]; intros Hxy; [apply (H x y Hxy)|apply (H' y x Hxy)|apply (H x y Hxy)].
Qed.
Lemma couple_exec_fault {A} (p : prog A) evs out :
  r_out (run (ref_storage ZStrict) p evs couple_state None) = out →
  ∃ g' m', exec ZStrict true p couple_graph None out g' m'.
Proof.
  intros <-. eexists _, _.
  apply (run_exec ZStrict (ref_storage ZStrict) p evs rinv rs_graph couple_state None true);
    [apply (ref_storage_stands ZStrict)|by intros ?|apply couple_rinv].
Qed.

(** Contents made by the program: class nodes and a first fact with its story.
    The class nodes are 1 to 8, the fact is in 9, 11, 12, 13, the story in 14, 16, 17, 18. *)
Definition lone : prog unit := class_provide;;; fact_create_first_story_fact;;; Ret tt.
Definition lone_state : rstate := r_state (run (ref_storage ZNode) lone [] (RState 1 empty_graph) None).
Definition lone_graph : graph := rs_graph lone_state.
Definition F_lone : fact_ent := FactEnt 9 11 12 13.
Lemma lone_rinv : rinv lone_state.
Proof.
  apply (run_exec ZNode (ref_storage ZNode) lone [] rinv rs_graph (RState 1 empty_graph) None false);
    [apply (ref_storage_stands ZNode)|by intros _|apply (ref_storage_stands ZNode)].
Qed.
Lemma lone_exec {A} zp fk (p : prog A) evs out : (fk = false → evs = []) →
  r_out (run (ref_storage zp) p evs lone_state None) = out →
  ∃ g' m', exec zp fk p lone_graph None out g' m'.
Proof.
  intros Hfk <-. eexists _, _.
  apply (run_exec zp (ref_storage zp) p evs rinv rs_graph lone_state None fk);
    [apply (ref_storage_stands zp)| |apply lone_rinv].
  intros e. destruct fk; [done|]. by rewrite Hfk.
Qed.
Lemma lone_mirrored : mirrored lone_graph.
Proof.
  assert (H : map_Forall (λ x y, bwd lone_graph !! y = Some x ∧ x ∈ nodes lone_graph ∧ y ∈ nodes lone_graph) (fwd lone_graph))
    by (apply (bool_decide_unpack _); vm_compute; exact I).
  assert (H' : map_Forall (λ y x, fwd lone_graph !! x = Some y) (bwd lone_graph))
    by (apply (bool_decide_unpack _); vm_compute; exact I).
  intros x y. split; [split|]; intros Hxy; [apply (H x y Hxy)|apply (H' y x Hxy)|apply (H x y Hxy)].
Qed.
Lemma lone_stage : classes_there lone_graph ∧ 0 ∉ nodes lone_graph ∧ is_fact lone_graph F_lone ∧ fwd lone_graph !! fe_story F_lone = None ∧
  no_neighbour Outgoing lone_graph 0.
Proof.
  split; [repeat split; apply (bool_decide_unpack _); vm_compute; exact I|].
  split; [apply (bool_decide_unpack _); vm_compute; exact I|].
  split; [(repeat split); vm_compute; done|]. split; [vm_compute; done|].
  assert (H : set_Forall (λ e : N * N, e.1 ≠ 0) (edges lone_graph)) by (apply (bool_decide_unpack _); vm_compute; exact I).
  intros y Hy. by apply (H _ Hy).
Qed.
