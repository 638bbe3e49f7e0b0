(** Walks from fact to fact. *)
From stdpp Require Import gmap.
From Coq Require Import NArith ZArith Lia.
From Verif Require Import Base GoText Model1 Model2 Model3 Model4 Storage Spec SpecGuards SpecWalk
  HistoryProofs ApiProofs InitProofs GuardProofs LookupProofs.
Local Open Scope nat_scope.

Section walks.
  Context {zp : zpolicy}.
  Notation surely := (surely (zp := zp) (fk := false)).

  Lemma surely_eq {A} (p : prog A) g v m out g' m' : surely p g v → exec zp false p g m out g' m' →
    g' = g ∧ m' = m ∧ out = OOk v.
  Proof. intros Hp Hx. apply Hp in Hx as (->&->&[Ha _]). auto. Qed.

  Lemma surely_story (e : fact_ent) y g : fe_story e ∈ nodes g → only_neighbour Outgoing g (fe_story e) y →
    surely (fact_target_story_or_zero e) g y.
  Proof.
    intros Hv Hy m out g' m' Hx. unfold fact_target_story_or_zero, fact_get_target_story in Hx.
    apply exec_call_any in Hx as [(r&g1&[Hc _]&Hx)|[[? Hx]|(?&->&->&->)]]; [|done|done].
    destruct (Hc (or_introl Hv)) as (l&->&Hnd&Hl&->). cbn [bind of_res] in Hx.
    apply (list_one l _ _ Hnd Hl) in Hy as ->. by eapply surely_ret.
  Qed.
  Lemma exec_step {A B} (q : prog A) v (k : A → prog B) g m o g' m' : surely q g v →
    exec zp false (x <- q;; k x) g m o g' m' → exec zp false (k v) g m o g' m'.
  Proof. intros Hq Hy. by apply (exec_surely _ _ _ _ _ _ _ _ Hq) in Hy as [?|(?&_)]. Qed.
  Lemma exec_panic {A} (k : unit → prog A) g m o g' m' : exec zp false (x <- Panic;; k x) g m o g' m' → g' = g ∧ m' = m ∧ o = OPanic.
  Proof. intros Hy. cbn [bind] in Hy. by inversion Hy. Qed.

  Context {g : graph} (Hg : coherent g).

  Lemma row_nodes x y l : row g (x :: y :: l) → x ∈ nodes g ∧ y ∈ nodes g.
  Proof using Hg. intros [H _]. by apply Hg in H as (_&?&?). Qed.
  Lemma fact_nodes f : is_fact g f → fe_position f ∈ nodes g ∧ fe_story f ∈ nodes g.
  Proof using Hg. intros (_&_&H). by apply row_nodes in H. Qed.
  Lemma story_nodes s : is_story g s → se_fact s ∈ nodes g ∧ se_position s ∈ nodes g ∧ se_tree s ∈ nodes g.
  Proof using Hg. intros (_&H). pose proof (row_nodes _ _ _ H) as [??]. destruct H as [_ H]. by apply row_nodes in H as [??]. Qed.

  Lemma surely_begins s f : begins g s f → surely (story_get_target_fact s) g (fe_story f).
  Proof using Hg. intros (Hs&_&Ho). apply surely_only; [by apply story_nodes|done]. Qed.
  Lemma surely_read_story s : is_story g s →
    surely (story_read_by_fact (se_fact s)) g s ∧ surely (story_read_by_position (se_position s)) g s ∧
    surely (story_read_by_tree (se_tree s)) g s.
  Proof using Hg. intros Hs. destruct s. split_and!; eapply surely_finds; try done; constructor. Qed.
  Lemma surely_read_fact f : is_fact g f →
    surely (fact_read_by_position (fe_position f)) g f ∧ surely (fact_read_by_story (fe_story f)) g f.
  Proof using Hg. intros Hs. destruct f. split; eapply surely_finds; try done; constructor. Qed.

  Theorem walk_rule p f f' m out g' m' : walk g f p f' → exec zp false (p (FactAgg f true)) g m out g' m' →
    g' = g ∧ m' = m ∧ out = OOk (FactAgg f' false).
  Proof using Hg.
    intros Hw. apply surely_eq.
    destruct Hw as [f' Hf Hf' Ho|s f' (Hf&Hs&Ho) Hb|s s' f' (Hf&Hs&Ho) Ho' Hb|s s' f' (Hf&Hs&Ho) Ho' Hb].
    - eapply surely_bind; [apply surely_only; [by apply fact_nodes|done]|].
      eapply surely_bind; [apply surely_ret|]. eapply surely_bind; [by apply surely_read_fact|apply surely_ret].
    - eapply surely_bind; [apply surely_story; [by apply fact_nodes|done]|].
      eapply surely_bind; [by apply surely_read_story|]. eapply surely_bind; [by apply surely_begins|].
      eapply surely_bind; [apply surely_ret|]. eapply surely_bind; [by apply surely_read_fact, Hb|apply surely_ret].
    - eapply surely_bind; [apply surely_story; [by apply fact_nodes|done]|].
      eapply surely_bind; [by apply surely_read_story|].
      eapply surely_bind; [apply surely_only; [by apply story_nodes|done]|].
      eapply surely_bind; [by apply surely_read_story, Hb|]. eapply surely_bind; [by apply surely_begins|].
      eapply surely_bind; [apply surely_ret|]. eapply surely_bind; [by apply surely_read_fact, Hb|apply surely_ret].
    - eapply surely_bind; [apply surely_story; [by apply fact_nodes|done]|].
      eapply surely_bind; [by apply surely_read_story|].
      eapply surely_bind; [apply surely_only; [by apply story_nodes|done]|].
      eapply surely_bind; [by apply surely_read_story, Hb|]. eapply surely_bind; [by apply surely_begins|].
      eapply surely_bind; [apply surely_ret|]. eapply surely_bind; [by apply surely_read_fact, Hb|apply surely_ret].
  Qed.

  (** Further walks: the aggregate found has no storage. *)
  Theorem walk_stuck p f f' m out g' m' : walk g f p f' → exec zp false (p (FactAgg f false)) g m out g' m' →
    g' = g ∧ m' = m ∧ out = OPanic.
  Proof using Hg.
    intros Hw Hx.
    destruct Hw as [f' Hf Hf' Ho|s f' (Hf&Hs&Ho) Hb|s s' f' (Hf&Hs&Ho) Ho' Hb|s s' f' (Hf&Hs&Ho) Ho' Hb].
    - eapply exec_step in Hx; [|apply surely_only; [by apply fact_nodes|done]]. by apply exec_panic in Hx.
    - eapply exec_step in Hx; [|apply surely_story; [by apply fact_nodes|done]].
      eapply exec_step in Hx; [|by apply surely_read_story]. eapply exec_step in Hx; [|by apply surely_begins]. by apply exec_panic in Hx.
    - eapply exec_step in Hx; [|apply surely_story; [by apply fact_nodes|done]].
      eapply exec_step in Hx; [|by apply surely_read_story].
      eapply exec_step in Hx; [|apply surely_only; [by apply story_nodes|done]].
      eapply exec_step in Hx; [|by apply surely_read_story, Hb]. eapply exec_step in Hx; [|by apply surely_begins]. by apply exec_panic in Hx.
    - eapply exec_step in Hx; [|apply surely_story; [by apply fact_nodes|done]].
      eapply exec_step in Hx; [|by apply surely_read_story].
      eapply exec_step in Hx; [|apply surely_only; [by apply story_nodes|done]].
      eapply exec_step in Hx; [|by apply surely_read_story, Hb]. eapply exec_step in Hx; [|by apply surely_begins]. by apply exec_panic in Hx.
  Qed.

  Theorem outlook_rule p f d x st m out g' m' : outlook g f p d x → exec zp false (p (FactAgg f st)) g m out g' m' →
    g' = g ∧ m' = m ∧ ∃ b, out = OOk b ∧ (b = true ↔ ∃ y, near d g x y).
  Proof using Hg.
    intros Hl Hx. assert (H : ∃ q, asks q d x false ∧ x ∈ nodes g ∧ exec zp false q g m out g' m').
    { destruct Hl as [Hf|s (Hf&Hs&Ho)|s (Hf&Hs&Ho)].
      - eexists. split_and!; [constructor|by apply fact_nodes|exact Hx].
      - eapply exec_step in Hx; [|apply surely_story; [by apply fact_nodes|done]].
        eapply exec_step in Hx; [|by apply surely_read_story].
        eexists. split_and!; [constructor|by apply story_nodes|exact Hx].
      - eapply exec_step in Hx; [|apply surely_story; [by apply fact_nodes|done]].
        eapply exec_step in Hx; [|by apply surely_read_story].
        eexists. split_and!; [constructor|by apply story_nodes|exact Hx]. }
    destruct H as (q&Hq&Hv&Hx'). pose proof Hx' as Hx2.
    apply (asks_rule _ _ _ _ _ _ _ _ _ Hq) in Hx' as (->&->&H0&H1&H2); [|by left].
    split_and!; [done..|].
    assert (Hb : ∀ o, o = out → (∃ b, o = OOk b) ∨ ∀ b, o ≠ OOk b) by (intros [] _; eauto).
    destruct (Hb out eq_refl) as [[[] ->]|Ho].
    - exists true. by rewrite <- H1.
    - exists false. split; [done|]. split; [done|]. intros Hy. by apply H1 in Hy.
    - destruct (Ho false). apply H0. intros y Hy. apply (Ho true), H1. by exists y.
  Qed.
End walks.
