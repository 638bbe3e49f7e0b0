(** The executable storage meets the contract. *)
From stdpp Require Import gmap.
From Coq Require Import NArith Lia.
From Verif Require Import Base Storage RefStorage.

Lemma rvalid_spec zp g x : rvalid zp g x = true ↔ valid zp g x.
Proof.
  unfold rvalid, valid. rewrite orb_true_iff, bool_decide_eq_true.
  destruct zp; [intuition congruence|]. rewrite N.eqb_eq. intuition congruence.
Qed.

Lemma list_targets_spec x E y : y ∈ list_targets x E ↔ (x, y) ∈ E.
Proof.
  unfold list_targets. rewrite <- elem_of_elements, elem_of_list_fmap. split.
  - intros ([a b]&->&H). apply elem_of_list_filter in H as [<- ?]. done.
  - intros H. exists (x, y). split; [done|]. by apply elem_of_list_filter.
Qed.

Lemma list_sources_spec x E y : y ∈ list_sources x E ↔ (y, x) ∈ E.
Proof.
  unfold list_sources. rewrite <- elem_of_elements, elem_of_list_fmap. split.
  - intros ([a b]&->&H). apply elem_of_list_filter in H as [<- ?]. done.
  - intros H. exists (y, x). split; [done|]. by apply elem_of_list_filter.
Qed.

Lemma NoDup_map_on {A B} (f : A → B) (l : list A) :
  (∀ x y, x ∈ l → y ∈ l → f x = f y → x = y) → NoDup l → NoDup (map f l).
Proof.
  intros Hinj Hnd. induction Hnd as [|x l Hx Hnd IH]; simpl; constructor.
  - rewrite elem_of_list_fmap. intros (y&Hy&Hin). apply Hinj in Hy; [|left|by right]. by subst.
  - apply IH. intros. apply Hinj; [by right..|done].
Qed.

Lemma list_targets_nodup x E : NoDup (list_targets x E).
Proof.
  apply NoDup_map_on; [|apply NoDup_filter, NoDup_elements].
  intros [a b] [a' b'] [??]%elem_of_list_filter [??]%elem_of_list_filter ?. by simplify_eq/=.
Qed.
Lemma list_sources_nodup x E : NoDup (list_sources x E).
Proof.
  apply NoDup_map_on; [|apply NoDup_filter, NoDup_elements].
  intros [a b] [a' b'] [??]%elem_of_list_filter [??]%elem_of_list_filter ?. by simplify_eq/=.
Qed.

(** The counter is above all nodes. *)
Definition rinv (s : rstate) : Prop :=
  (0 < rs_next s)%N ∧ (∀ x, x ∈ nodes (rs_graph s) → (x < rs_next s)%N) ∧
  (edges (rs_graph s) = ∅ → rs_next s = (N.of_nat (size (nodes (rs_graph s))) + 1)%N).

Lemma guarded_intro {A} (v : Prop) (b : bool) g (r : res A) g' (P : Prop) :
  (b = true ↔ v) → (b = true → P) → (b = false → r = Err EStorage ∧ g' = g) → guarded v g r g' P.
Proof.
  intros Hb H1 H2. split.
  - intros Hv. apply H1. by apply Hb.
  - intros Hv. apply H2. apply not_true_is_false. intros E. by apply Hv, Hb.
Qed.

Lemma ref_storage_stands zp : stands zp (ref_storage zp) rinv rs_graph.
Proof.
  split_and!; [|done|].
  { split_and!; simpl; [lia|by intros x Hx%elem_of_empty|done]. }
  intros s c (Hpos&Hlt&Hcnt). destruct c as [x| |x|x|x y|x|x y|x y|x]; simpl.
  - done.
  - assert (Hn : rs_next s ∉ nodes (rs_graph s)) by (intros H%Hlt; lia). split.
    + split_and!; simpl; [lia| |].
      * intros x [->%elem_of_singleton|H%Hlt]%elem_of_union; lia.
      * intros He. rewrite size_union by set_solver. rewrite size_singleton. rewrite Hcnt by done. lia.
    + exists (rs_next s). split_and!; [done|lia|done|done|done].
  - pose proof (rvalid_spec zp (rs_graph s) x) as Hb.
    destruct (rvalid zp (rs_graph s) x); simpl; (split; [done|]);
      (eapply guarded_intro; [exact Hb|..]; try done).
    intros _. eexists. split_and!; [done|apply list_sources_nodup|apply list_sources_spec|done].
  - pose proof (rvalid_spec zp (rs_graph s) x) as Hb.
    destruct (rvalid zp (rs_graph s) x); simpl; (split; [done|]);
      (eapply guarded_intro; [exact Hb|..]; try done).
    intros _. eexists. split_and!; [done|apply list_targets_nodup|apply list_targets_spec|done].
  - assert (Hb : rvalid zp (rs_graph s) x && rvalid zp (rs_graph s) y = true ↔
      valid zp (rs_graph s) x ∧ valid zp (rs_graph s) y) by (rewrite andb_true_iff, !rvalid_spec; done).
    destruct (rvalid zp (rs_graph s) x && rvalid zp (rs_graph s) y) eqn:Hv; simpl; (split; [done|]);
      (eapply guarded_intro; [exact Hb|done..]).
  - pose proof (rvalid_spec zp (rs_graph s) x) as Hb.
    destruct (rvalid zp (rs_graph s) x); simpl; (split; [done|]);
      (eapply guarded_intro; [exact Hb|..]; done).
  - assert (Hb : rvalid zp (rs_graph s) x && rvalid zp (rs_graph s) y = true ↔
      valid zp (rs_graph s) x ∧ valid zp (rs_graph s) y) by (rewrite andb_true_iff, !rvalid_spec; done).
    destruct (rvalid zp (rs_graph s) x && rvalid zp (rs_graph s) y) eqn:Hv; simpl.
    + split; [|eapply guarded_intro; [exact Hb|done..]].
      case_bool_decide; split_and!; simpl; try lia.
      * done.
      * set_solver.
      * intros z ?%Hlt. lia.
      * set_solver.
    + split; [done|]. eapply guarded_intro; [exact Hb|done..].
  - done.
  - done.
Qed.

(** Running a storage that meets the contract is an execution. *)
Theorem run_exec zp (S : storage) {A} (p : prog A) evs
    (inv : st_state S → Prop) (abs : st_state S → graph) s m fk :
  (∀ s c, inv s → inv (snd (st_step S s c)) ∧
    gstep zp (abs s) c (fst (st_step S s c)) (abs (snd (st_step S s c)))) →
  (fk = false → Forall (λ e, e = Normal) evs) → inv s →
  inv (r_state (run S p evs s m)) ∧
  exec zp fk p (abs s) m (r_out (run S p evs s m)) (abs (r_state (run S p evs s m)))
    (r_cache (run S p evs s m)).
Proof.
  intros Hstep. revert evs s m. induction p as [a|e| | |c k IH|k IH|m' k IH]; intros evs s m Hev Hs; simpl.
  - split; [done|constructor].
  - split; [done|constructor].
  - split; [done|constructor].
  - split; [done|constructor].
  - destruct (Hstep s c Hs) as [Hi Hg].
    assert (Hnorm : ∀ evs', (fk = false → Forall (λ e, e = Normal) evs') →
      inv (r_state (run S (k (st_step S s c).1) evs' (st_step S s c).2 m)) ∧
      exec zp fk (Call c k) (abs s) m (r_out (run S (k (st_step S s c).1) evs' (st_step S s c).2 m))
        (abs (r_state (run S (k (st_step S s c).1) evs' (st_step S s c).2 m)))
        (r_cache (run S (k (st_step S s c).1) evs' (st_step S s c).2 m))).
    { intros evs' Hev'. destruct (IH (st_step S s c).1 evs' (st_step S s c).2 m Hev' Hi). split; [done|].
      by eapply ExCall. }
    destruct evs as [|[] evs].
    + by apply Hnorm.
    + apply Hnorm. intros H. specialize (Hev H). by inversion Hev.
    + assert (fk = true) as ->.
      { apply not_false_is_true. intros H. specialize (Hev H). by inversion Hev. }
      destruct (IH (Err EStorage) evs s m ltac:(done) Hs). split; [done|]. by eapply ExFault.
    + assert (fk = true) as ->.
      { apply not_false_is_true. intros H. specialize (Hev H). by inversion Hev. }
      split; [done|]. by eapply ExKill.
  - destruct (IH m evs s m Hev Hs). split; [done|]. by constructor.
  - destruct (IH evs s m' Hev Hs). split; [done|]. by constructor.
Qed.

Theorem ref_storage_meets zp : meets zp (ref_storage zp).
Proof. exists rinv, rs_graph. apply ref_storage_stands. Qed.
