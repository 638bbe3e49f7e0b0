(** The contents of the cases of [KeptCases] are in order. *)
From stdpp Require Import gmap.
From Coq Require Import NArith ZArith Lia Ascii.
From Verif Require Import Base GoText Model1 Model2 Model3 Model4 Storage RefStorage RefProofs SpecText Spec SpecMachine SpecGuards SpecWalk SpecEntities SpecSpelling SpecKept
  PlayProofs InitProofs LookupProofs SpellProofs Claims WalkCases SpellCases KeptCases OrderProofs.
Local Open Scope N_scope.

Definition neat_here (zero one : N) (g : graph) (b : N) : bool :=
  match fwd g !! b with
  | Some c => negb (c =? zero) && negb (c =? one) &&
    match fwd g !! c with Some d => match fwd g !! d with Some _ => false | None => true end | None => true end
  | None => true
  end.
Lemma neat_seen (zero one : N) g : map_Forall (λ _ b, neat_here zero one g b = true) (fwd g) → neat zero one g.
Proof.
  intros H. split.
  - intros a b c d e (Ha&Hb&Hc&Hd&_). specialize (H a b Ha). cbn beta in H. unfold neat_here in H. rewrite Hb, Hc, Hd in H.
    by rewrite andb_false_r in H.
  - intros v a b d (Ha&Hb&_). specialize (H a b Ha). cbn beta in H. unfold neat_here in H. rewrite Hb in H. apply andb_prop in H as [H _].
    apply andb_prop in H as [H1 H2]. apply negb_true_iff, N.eqb_neq in H1. apply negb_true_iff, N.eqb_neq in H2. by destruct v.
Qed.
Lemma kept_neat : neat 1 2 kept_graph.
Proof. apply neat_seen. apply (bool_decide_unpack _). vm_compute. exact I. Qed.
Lemma kept_in_order : in_order 1 2 kept_graph.
Proof.
  apply (order_seen 1 2 kept_graph (λ x, x = 5 ∨ x = 9 ∨ x = 13 ∨ x = 17)).
  - intros [|].
    + right. exists 3, 4, 5, 6. split; [row_now|]. split; [out_now|left; reflexivity].
    + left. apply no_out. near_now.
  - assert (S9 : says_bit 1 2 kept_graph 9 true) by (exists 7, 8, 10; split; [row_now|out_now]).
    assert (S13 : says_bit 1 2 kept_graph 13 false) by (exists 11, 12, 14; split; [row_now|out_now]).
    assert (S17 : says_bit 1 2 kept_graph 17 false) by (exists 15, 16, 18; split; [row_now|out_now]).
    intros x v [-> |[-> |[-> | ->]]].
    + right. destruct v.
      * exists 9. split; [|right; left; reflexivity]. split; [near_now|]. split; [exact S9|]. intros c Hc.
        destruct (two_out kept_graph 5 9 13) with c as [-> | ->]; [near_now|exact Hc|left; reflexivity|]. right. exists false. split; [exact S13|discriminate].
      * exists 13. split; [|right; right; left; reflexivity]. split; [near_now|]. split; [exact S13|]. intros c Hc.
        destruct (two_out kept_graph 5 9 13) with c as [-> | ->]; [near_now|exact Hc| |left; reflexivity]. right. exists true. split; [exact S9|discriminate].
    + assert (H : only_neighbour Outgoing kept_graph 9 17) by out_now. destruct v.
      * left. exact kept_no_digit.
      * right. exists 17. split; [|right; right; right; reflexivity]. split; [near_now|]. split; [exact S17|]. intros c Hc. left. apply H. exact Hc.
    + left. intros c Hc. exfalso. revert c Hc. apply no_out. near_now.
    + left. intros c Hc. exfalso. revert c Hc. apply no_out. near_now.
Qed.

(** Three characters one after the other, the first and the last the same. *)
Lemma step_run {A} (p : prog A) s m out s' : rinv s → r_out (run (ref_storage ZStrict) p [] s m) = out →
  s' = r_state (run (ref_storage ZStrict) p [] s m) → (∃ m', exec ZStrict false p (rs_graph s) m out (rs_graph s') m') ∧ rinv s'.
Proof.
  intros Hs <- ->. split; [eexists|]; apply (run_exec ZStrict (ref_storage ZStrict) p [] rinv rs_graph s m false);
    try exact Hs; try (by intros _); apply (ref_storage_stands ZStrict).
Qed.
Definition after_15 : rstate := r_state (run (ref_storage ZStrict) (char_provide 15) [] kept_state (Some (B_zero, B_one))).
Definition after_3 : rstate := r_state (run (ref_storage ZStrict) (char_provide 3) [] after_15 (Some (B_zero, B_one))).
Lemma three_runs s0 s1 s2 z o e1 e2 e3 : rinv s0 → s1 = r_state (run (ref_storage ZStrict) (char_provide 15) [] s0 (Some (z, o))) →
  s2 = r_state (run (ref_storage ZStrict) (char_provide 3) [] s1 (Some (z, o))) →
  r_out (run (ref_storage ZStrict) (char_provide 15) [] s0 (Some (z, o))) = OOk (Some e1) →
  r_out (run (ref_storage ZStrict) (char_provide 3) [] s1 (Some (z, o))) = OOk (Some e2) →
  r_out (run (ref_storage ZStrict) (char_provide 15) [] s2 (Some (z, o))) = OOk (Some e3) →
  ∃ g', supplied ZStrict z o [(15%Z, e1); (3%Z, e2); (15%Z, e3)] (rs_graph s0) g'.
Proof.
  intros R0 E1 E2 O1 O2 O3.
  destruct (step_run _ _ _ _ _ R0 O1 E1) as [[m1 H1] R1]. destruct (step_run _ _ _ _ _ R1 O2 E2) as [[m2 H2] R2].
  destruct (step_run _ _ _ _ _ R2 O3 eq_refl) as [[m3 H3] _].
  eexists. eapply supplied_one; [exact H1|]. eapply supplied_one; [exact H2|]. eapply supplied_one; [exact H3|]. apply supplied_none.
Qed.
Lemma kept_supplied : ∃ g', supplied ZStrict B_zero B_one
  [(15%Z, CharEnt 81 83 84 85); (3%Z, K_char); (15%Z, CharEnt 81 83 84 85)] kept_graph g'.
Proof.
  unfold kept_graph. apply (three_runs kept_state after_15 after_3); [exact kept_rinv|unfold after_15; reflexivity|unfold after_3; reflexivity|vm_compute; reflexivity..].
Qed.
