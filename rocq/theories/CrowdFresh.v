(** The remarks a crowd makes share no node. *)
From stdpp Require Import gmap.
From Coq Require Import NArith ZArith Lia.
From Verif Require Import Base GoText Model1 Model2 Model3 Storage Spec SpecMoments SpecCrowd Inv Entity
  StoryProofs HistoryProofs ApiProofs CrowdProofs.
Local Open Scope nat_scope.

(** The nodes a storage call made. *)
Definition gain (c : call) : res (answer c) → gset N :=
  match c return res (answer c) → gset N with
  | CCreate => λ r, match r with Ok x => {[x]} | Err _ => ∅ end
  | _ => λ _, ∅
  end.

(** What a call knows about the nodes it made, whatever the storage answers. *)
Fixpoint news {A} (p : prog A) (Q : A → gset N → Prop) (M : gset N) : Prop :=
  match p with
  | Ret a => Q a M
  | Throw _ | Panic | Diverge => True
  | Call c k => ∀ r, news (k r) Q (gain c r ∪ M)
  | LoadBits k => ∀ m, news (k m) Q M
  | StoreBits _ k => news k Q M
  end.

Lemma news_bind {A B} (p : prog A) (f : A → prog B) Q1 Q M :
  news p Q1 M → (∀ a M', Q1 a M' → news (f a) Q M') → news (bind p f) Q M.
Proof. revert M. induction p; simpl; intros M Hp Hf; auto. Qed.
Lemma news_any {A} (p : prog A) M : news p (λ _ M', M ⊆ M') M.
Proof.
  assert (H : ∀ M1, M ⊆ M1 → news p (λ _ M', M ⊆ M') M1); [|by apply H].
  induction p; simpl; intros M1 HM; auto. intros r. apply H. set_solver.
Qed.
Lemma news_skip {A B} (p : prog A) (f : A → prog B) Q M :
  (∀ a M', M ⊆ M' → news (f a) Q M') → news (bind p f) Q M.
Proof. intros Hf. eapply news_bind; [apply news_any|]. auto. Qed.
Lemma news_create {A} (f : N → prog A) Q M :
  (∀ x, news (f x) Q ({[x]} ∪ M)) → news (bind st_create f) Q M.
Proof. intros Hf. cbn. intros [x|e]; [apply Hf|done]. Qed.
Lemma news_weaken {A} (p : prog A) (Q Q' : A → gset N → Prop) M :
  news p Q M → (∀ a M', Q a M' → Q' a M') → news p Q' M.
Proof. revert M. induction p; simpl; intros M Hp HQ; auto. Qed.

(** The new remark of a call. *)
Lemma news_remark {A} (f : remark_ent → prog A) Q M :
  (∀ e M', nodes_of e ⊆ M' → news (f e) Q M') →
  news (class_provide;;; c <- class_new remarkIdentifier;; e <- remark_create_entity c;; f e) Q M.
Proof.
  intros Hf. apply news_skip. intros _ M1 _.
  eapply (news_bind _ _ (λ x M', x ∈ M')).
  { apply news_create. intros x. apply news_skip. intros _ M2 H2. simpl. set_solver. }
  intros x M2 Hx.
  eapply (news_bind _ _ (λ e M', nodes_of e ⊆ M')).
  { apply news_create. intros a. apply news_create. intros b. apply news_create. intros c.
    apply news_skip. intros _ M3 H3. apply news_skip. intros _ M4 H4. apply news_skip. intros _ M5 H5.
    unfold nodes_of. simpl. set_solver. }
  auto.
Qed.

Definition hands_out (o : opn) (v : value) (M : gset N) : Prop :=
  creating o = true → ∀ r, v = VRem r → nodes_of r ⊆ M.

Lemma news_value {A} (p : prog A) (e : remark_ent) M :
  nodes_of e ⊆ M → news (p;;; Ret e) (λ r M', nodes_of r ⊆ M') M.
Proof. intros He. apply news_skip. intros _ M1 H1. simpl. set_solver. Qed.

Ltac chain := repeat first [eassumption | etrans; [eassumption|]].

Lemma news_call fuel o M : news (call_of fuel o) (hands_out o) M.
Proof.
  assert (Hr : ∀ p : prog remark_ent, news p (λ r M', nodes_of r ⊆ M') M → news (r <- p;; Ret (VRem r)) (hands_out o) M).
  { intros p Hp. eapply news_bind; [exact Hp|]. by intros r M' H' _ ? [= <-]. }
  destruct (creating o) eqn:Hc.
  2: { eapply news_weaken; [apply news_any|]. intros a M' _ Hc'. congruence. }
  destruct o as [ob pr|a pr|a ob pr|a ob pr| | | | | | | | | |]; try done; cbn [call_of]; apply Hr.
  - unfold create_story. apply news_remark. intros e M1 He. do 5 (apply news_skip; intros ? ? ?). cbn [news]. chain.
  - unfold add_remark_to_fact. apply news_remark. intros e M1 He.
    do 2 (apply news_skip; intros ? ? ?). apply news_skip. intros [ob ?] ? ?.
    do 5 (apply news_skip; intros ? ? ?). cbn [news]. chain.
  - unfold add_fact_to_story. apply news_remark. intros e M1 He. do 4 (apply news_skip; intros ? ? ?). cbn [news]. chain.
  - unfold create_child_story. apply news_remark. intros e M1 He. do 5 (apply news_skip; intros ? ? ?). cbn [news]. chain.
Qed.

Lemma gstep_gain zp g c r g' : specified zp g c → gstep zp g c r g' →
  nodes g ⊆ nodes g' ∧ gain c r ⊆ nodes g' ∧ gain c r ## nodes g.
Proof.
  assert (Hg : ∀ A v (r : res A) P, guarded v g r g' P → Decision v → (v → P → nodes g ⊆ nodes g') → nodes g ⊆ nodes g').
  { intros A v r' P [G1 G2] Dv HP. destruct (decide v) as [Hv|Hv]; [auto|]. by destruct (G2 Hv) as [_ ->]. }
  assert (Hv : ∀ x, Decision (valid zp g x)).
  { intros x. unfold valid. assert (Decision (zp = ZNode)) by (destruct zp; [right|left]; done). apply _. }
  assert (H0 : nodes g ⊆ nodes g' → nodes g ⊆ nodes g' ∧ ∅ ⊆ nodes g' ∧ ∅ ## nodes g).
  { intros H. split_and!; [done|apply empty_subseteq|apply disjoint_empty_l]. }
  destruct c; simpl; intros Hs Hg'; try (apply H0).
  all: try done.
  all: try (eapply Hg; [exact Hg'|apply _|by intros _ (?&?&?&?&->)]).
  all: try (eapply Hg; [exact Hg'|apply _|by intros _ [_ ->]]).
  - by destruct Hg' as [_ ->].
  - destruct Hg' as (x&->&_&Hx&_&->). simpl. clear -Hx. set_solver.
  - eapply Hg; [exact Hg'|apply _|]. intros [Vx Vy] HP. destruct (Hs Vx Vy) as [Fx By]. by destruct (HP Fx By) as [_ ->].
Qed.

Section crowds.
  Context {faults fk : bool} {fuel : nat} {t : trace} {w : world}.
  Context (Hr : reach ZStrict faults fuel t w) (Hs : settled t).

  Record apart (s : scene) (M : nat → gset N) : Prop := {
    ap_own : ∀ i, M i ⊆ nodes (sc_store s);
    ap_apart : ∀ i j, i ≠ j → M i ## M j;
    ap_run : ∀ i o p, sc_running s i = Some (o, p) → news p (hands_out o) (M i);
    ap_old : ∀ r, issued (sc_trace s) r → nodes_of r ⊆ nodes (sc_store s) ∧ ∀ i, nodes_of r ## M i;
    ap_trace : ∃ l, sc_trace s = l ++ t ∧ ∀ l1 l2 i o r r', l = l1 ++ Called i o (OOk (VRem r)) :: l2 →
      creating o = true → issued (l2 ++ t) r' → nodes_of r ## nodes_of r'
  }.

  Lemma apart_end t1 g mm mm' ru M i o p out :
    apart (Scene t1 g mm ru) M → ru i = Some (o, p) → (∀ v, out = OOk v → hands_out o v (M i)) →
    apart (Scene (Called i o out :: t1) g mm' (set_at i None ru)) (set_at i ∅ M).
  Proof.
    intros [A1 A2 A3 A4 (l&Hl&A5)] Hi Hv. simpl in *.
    assert (Hsub : ∀ j, set_at i ∅ M j ⊆ M j).
    { intros j. destruct (decide (j = i)) as [->|Hj]; [rewrite set_at_same; set_solver|by rewrite set_at_other]. }
    assert (Hnew : ∀ r, made (Called i o out) = Some r → nodes_of r ⊆ M i).
    { intros r Hm. destruct out as [[]| | | |]; simpl in Hm; try done. destruct (creating o) eqn:Hc; [|done].
      injection Hm as ->. by eapply Hv. }
    split; simpl.
    - intros j. etrans; [apply Hsub|done].
    - intros a b Hab. specialize (A2 a b Hab). pose proof (Hsub a) as Ha. pose proof (Hsub b) as Hb. clear -A2 Ha Hb. set_solver.
    - intros j oj pj. destruct (decide (j = i)) as [->|Hj]; [by rewrite set_at_same|rewrite !set_at_other by done; auto].
    - intros r [Hm|Ho]%issued_cons.
      + apply Hnew in Hm. split; [by etrans|]. intros j. destruct (decide (j = i)) as [->|Hj].
        * rewrite set_at_same. set_solver.
        * rewrite set_at_other by done. specialize (A2 _ _ Hj). clear -A2 Hm. set_solver.
      + destruct (A4 _ Ho) as [B1 B2]. split; [done|]. intros j. specialize (B2 j). pose proof (Hsub j) as Hj. clear -B2 Hj. set_solver.
    - exists (Called i o out :: l). split; [by rewrite Hl|].
      intros l1 l2 i' o' r r' Heq Hc Hi'. destruct l1 as [|e l1]; simpl in Heq; injection Heq.
      + intros <- -> <- <-. rewrite <- Hl in Hi'. destruct (A4 _ Hi') as [_ B]. specialize (B i).
        pose proof (Hv _ eq_refl Hc _ eq_refl) as Hin. intros x Hx Hy. eapply B; [exact Hy|by apply Hin].
      + intros Heq' _. by eapply A5.
  Qed.

  Lemma apart_local t1 g mm mm' ru M i o p p1 :
    apart (Scene t1 g mm ru) M → ru i = Some (o, p1) → news p (hands_out o) (M i) →
    apart (Scene t1 g mm' (set_at i (Some (o, p)) ru)) M.
  Proof.
    intros [A1 A2 A3 A4 A5] Hi Hp. split; simpl in *; auto.
    intros j oj pj. destruct (decide (j = i)) as [->|Hj]; [rewrite !set_at_same|rewrite !set_at_other by done; auto].
    by intros [= <- <-].
  Qed.

  Lemma apart_step s s' M :
    crowded ZStrict fk fuel t w s → apart s M → crowd ZStrict fk fuel s s' → ∃ M', apart s' M'.
  Proof.
    intros Hcr HA Hst.
    destruct Hst as [t1 g mm ru i o' Hi Hrec|t1 g mm ru i o' c k r g' Hi Hg|t1 g mm ru i o' c k Hfk Hi|
      t1 g mm ru i o' c k Hfk Hi|t1 g mm ru i o' k Hi|t1 g mm ru i o' m k Hi|t1 g mm ru i o' p out Hi Hf|t1 g mm ru i Hi]; simpl in *.
    - exists M. destruct HA as [A1 A2 A3 A4 A5]. split; simpl in *; auto.
      intros j oj pj. destruct (decide (j = i)) as [->|Hj]; [rewrite !set_at_same|rewrite !set_at_other by done; auto].
      intros [= <- <-]. apply news_call.
    - pose proof (crowd_specified Hr Hs _ _ _ _ _ Hcr Hi) as Hsp. simpl in Hsp.
      destruct (gstep_gain _ _ _ _ _ Hsp Hg) as (N1&N2&N3).
      pose proof (ap_run _ _ HA i _ _ Hi) as Hp. simpl in Hp. specialize (Hp r).
      exists (set_at i (gain c r ∪ M i) M). destruct HA as [A1 A2 A3 A4 A5]. simpl in *.
      assert (HM : ∀ j x, x ∈ set_at i (gain c r ∪ M i) M j → x ∈ M j ∨ j = i ∧ x ∈ gain c r).
      { intros j x. destruct (decide (j = i)) as [->|Hj]; [rewrite !set_at_same|rewrite !set_at_other by done; auto].
        intros [?|?]%elem_of_union; auto. }
      split; simpl; auto.
      + intros j x [Hx|[_ Hx]]%HM; [by apply N1, (A1 j)|by apply N2].
      + intros a b Hab x [Hx|[-> Hx]]%HM [Hy|[-> Hy]]%HM; [by eapply (A2 a b)| | |done].
        * eapply N3; [exact Hy|by apply (A1 a)].
        * eapply N3; [exact Hx|by apply (A1 b)].
      + intros j oj pj. destruct (decide (j = i)) as [->|Hj]; [rewrite !set_at_same|rewrite !set_at_other by done; auto].
        by intros [= <- <-].
      + intros r' Hr'. destruct (A4 _ Hr') as [B1 B2]. split; [by etrans|].
        intros j x Hx [Hy|[_ Hy]]%HM; [by eapply (B2 j)|]. eapply N3; [exact Hy|by apply B1].
    - exists M. eapply apart_local; [exact HA|exact Hi|].
      pose proof (ap_run _ _ HA i _ _ Hi) as Hp. simpl in Hp. specialize (Hp (Err EStorage)).
      replace (gain c (Err EStorage) ∪ M i) with (M i) in Hp; [done|]. apply leibniz_equiv. destruct c; simpl; set_solver.
    - eexists. by eapply apart_end.
    - exists M. eapply apart_local; [exact HA|exact Hi|]. apply (ap_run _ _ HA i _ _ Hi).
    - exists M. eapply apart_local; [exact HA|exact Hi|]. apply (ap_run _ _ HA i _ _ Hi).
    - eexists. eapply apart_end; [exact HA|exact Hi|]. intros v ->. pose proof (ap_run _ _ HA i _ _ Hi) as Hp.
      destruct p; simplify_eq/=. done.
    - exists M. destruct HA as [A1 A2 A3 A4 (l&Hl&A5)]. split; simpl in *; auto.
      + intros r [?|?]%issued_cons; [done|auto].
      + exists (Restarted i :: l). split; [by rewrite Hl|]. intros l1 l2 i' o r r' Heq Hc Hi'.
        destruct l1 as [|e l1]; simpl in Heq; injection Heq; [done|]. intros Heq' _. by eapply A5.
  Qed.

  Lemma crowd_apart s : crowded ZStrict fk fuel t w s → ∃ M, apart s M.
  Proof.
    intros Hc. assert (H0 : apart (still t w) (λ _, ∅)).
    { destruct (reach_J _ _ _ _ _ Hr) as (d&G&HJ&_). split; simpl; try done; try set_solver.
      - intros r Hi. split; [|set_solver].
        destruct (J_told _ _ _ _ _ _ HJ _ Hi) as (o&p&Ht).
        destruct (J_tells _ _ _ _ _ _ HJ _ _ _ Ht) as (ow&pw&f&[[[(L1&L2&L3&L4) _] _] _]&_).
        pose proof (J_ok _ _ _ _ _ _ HJ) as Hok.
        assert (Hn : ∀ x l, lab G !! x = Some l → l ≠ LZero → x ∈ nodes (store w)).
        { intros x l Hl Hz. apply (ok_dom _ _ _ Hok); [|by exists l]. intros ->.
          rewrite (ok_zero _ _ _ Hok) in Hl. by injection Hl as <-. }
        apply Hn in L1; [|done]. apply Hn in L2; [|done]. apply Hn in L3; [|done]. apply Hn in L4; [|done].
        unfold nodes_of. set_solver.
      - exists []. split; [done|]. intros [] ? ? ? ? ?; simpl; discriminate. }
    assert (H : ∀ s1 s2, rtc (crowd ZStrict fk fuel) s1 s2 → crowded ZStrict fk fuel t w s1 → (∃ M, apart s1 M) → ∃ M, apart s2 M).
    { induction 1 as [|s1 s2 s3 Hst _ IH]; [done|]. intros Hc1 [M HM]. apply IH.
      - by eapply rtc_r.
      - by eapply apart_step. }
    eapply H; [exact Hc|apply rtc_refl|eauto].
  Qed.

  Lemma crowd_fresh s l1 l2 i o r r' : crowded ZStrict fk fuel t w s →
    sc_trace s = l1 ++ Called i o (OOk (VRem r)) :: l2 ++ t → creating o = true → issued (l2 ++ t) r' →
    nodes_of r ## nodes_of r'.
  Proof.
    intros Hc Ht Ho Hi. destruct (crowd_apart _ Hc) as (M&HA). destruct (ap_trace _ _ HA) as (l&Hl&H).
    eapply (H l1 l2); [|done|done]. rewrite Ht in Hl. rewrite app_comm_cons, app_assoc in Hl.
    by apply app_inv_tail in Hl.
  Qed.
End crowds.
