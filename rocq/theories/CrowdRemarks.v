(** What the calls of the API make and find while others write. *)
From stdpp Require Import gmap.
From Coq Require Import NArith ZArith Lia.
From Verif Require Import Base GoText Codec Model1 Model2 Model3 Storage Spec Inv Wp Steps Entity BitProofs Reads CharProofs
  WordProofs PhraseProofs DetailProofs StoryProofs HistoryProofs CrowdStates CrowdTexts.
Local Open Scope nat_scope.

Lemma keep_edge D G x y lx ly g g' :
  lab G !! x = Some lx → lab G !! y = Some ly → (one_target lx → x ∉ D) → (one_source ly → y ∉ D) →
  keep D G (add_edge x y g) g' → keep D G g g'.
Proof.
  intros Hx Hy Ox Oy K u l Hu Hl. destruct (K u l Hu Hl) as (A1&A2&A3&A4). split_and!; auto.
  - intros Ho v Hv. specialize (A3 Ho v Hv). simpl in A3.
    apply elem_of_union in A3 as [[= -> ->]%elem_of_singleton|?]; [|done]. rewrite Hx in Hl. injection Hl as ->.
    by destruct (Ox Ho).
  - intros Ho v Hv. specialize (A4 Ho v Hv). simpl in A4.
    apply elem_of_union in A4 as [[= -> ->]%elem_of_singleton|?]; [|done]. rewrite Hy in Hl. injection Hl as ->.
    by destruct (Oy Ho).
Qed.

Lemma bare_edge u v x l g : (one_target l → u ≠ x) → (one_source l → v ≠ x) → bare x l g → bare x l (add_edge u v g).
Proof.
  intros Hu Hv [H1 H2]. split; simpl; intros Ho y Hy.
  - apply elem_of_union in Hy as [[= -> ->]%elem_of_singleton|Hy]; [by apply Hu|by eapply H1].
  - apply elem_of_union in Hy as [[= -> ->]%elem_of_singleton|Hy]; [by apply Hv|by eapply H2].
Qed.

Section weaken.
  Context {F : nat}.
  Transparent C.
  Lemma C_weaken {A} (p : prog A) Q G g D D' : D ⊆ D' → C F p Q G g D → C F p Q G g D'.
  Proof. intros HD Hp Hok Hl Hn. eapply cwp_weaken; [exact HD|]. apply Hp; auto. by etrans. Qed.

  Lemma cwp_assoc {A B E} (p : prog A) (q : A → prog B) (f : B → prog E) Q G g D :
    cwp F (bind p (λ x, bind (q x) f)) Q G g D → cwp F (bind (bind p q) f) Q G g D.
  Proof.
    revert G g D. induction p; simpl; intros G g D Hp; auto.
    - intros G1 g1 X1 Hok1 Hk1. destruct (Hp G1 g1 X1 Hok1 Hk1) as [H1 H2]. split; [|by apply H].
      intros r g2 Hg. destruct (H1 r g2 Hg) as (G2&D2&?&?&?&?&?). exists G2, D2. split_and!; auto.
    - destruct Hp. split; [done|]. by apply IHp.
  Qed.
  Lemma C_assoc_in {A B E H} (p : prog A) (q : A → prog B) (r : A → B → prog E) (f : E → prog H) Q G g D :
    C F (bind p (λ x, bind (q x) (λ y, bind (r x y) f))) Q G g D →
    C F (bind (bind p (λ x, bind (q x) (r x))) f) Q G g D.
  Proof.
    intros Hp Hok Hl Hn. specialize (Hp Hok Hl Hn). apply cwp_assoc.
    eapply cwp_bind_mono; [|exact Hp]. intros a G' g' D'. apply cwp_assoc.
  Qed.
End weaken.
Global Opaque C.

Section remarks.
  Context {F : nat} (fuel : nat) (Hfuel : 31 ≤ fuel) (HF : F ≤ fuel).
  Notation C := (C F).
  Notation R := (R ZStrict true F).

  (** ** Details *)

  (** Somebody else's detail may not have its remark yet. *)
  Definition detailP (G : ghost) (g : graph) (d : detail_ent) (o p : list (list Z)) : Prop :=
    detailC G g d o p ∨ de_remark d = 0%N.

  Lemma C_detail_create eo ep o p G g D :
    solo G = false → phraseC G g eo o → phraseC G g ep p →
    C (detail_create_entity eo ep) (λ d G' g', detailC G' g' d o p) G g D.
  Proof.
    intros Hs Ho Hp. apply C_ctx. intros Hok [Hup _].
    pose proof (phraseC_base _ _ _ _ Ho) as ((_&_&_&Lo)&_).
    pose proof (phraseC_base _ _ _ _ Hp) as ((_&_&_&Lp)&_).
    pose proof (phraseC_ok Hok _ _ Ho) as Oo. pose proof (phraseC_ok Hok _ _ Hp) as Op.
    unfold detail_create_entity, phrase_add_target_detail, phrase_add_source_detail.
    apply C_class_new; [done..|]. intros x G1 g1 Hok1 X1 K1 Nx Bx Hxk Hxd.
    apply (C_new F (LDetPhr o p)); [done..|]. intros a G2 g2 Hok2 X2 K2 Na Ba Had.
    assert (X02 : ext G g G2 g2) by by eapply ext_trans.
    assert (Bx2 : blank x (LCls detailIdentifier) G2 g2) by (eapply blank_keep; [exact X2|exact K2|sets|done]).
    assert (a ≠ x) by (intros ->; apply Had; sets).
    pose proof (up_mono X02 Hup) as Hup2.
    apply (C_connect F (LPhrDet o) (LDetPhr o p) (pe_detail eo) a); try done.
    { by apply (ext_lab_lookup X02). }
    { apply Ba. }
    { intros _. split; [sets|]. by apply Ba. }
    { eapply not_root; [exact Hup2|apply Ba|done]. }
    { by rewrite (ext_solo _ _ _ _ X02). }
    intros G3 g3 Hok3 X3 K3.
    assert (X23 : ext G2 g2 G3 g3) by (eapply ext_trans; [apply ext_add_edge|exact X3]).
    assert (X03 : ext G g G3 g3) by by eapply ext_trans.
    assert (Hao : pe_detail eo ≠ a).
    { intros E. rewrite E in Lo. apply (ext_lab_lookup X02) in Lo. destruct Ba as (La&_). congruence. }
    assert (Hap : pe_detail ep ≠ a).
    { intros E. rewrite E in Lp. apply (ext_lab_lookup X02) in Lp. destruct Ba as (La&_). congruence. }
    assert (La3 : lab G3 !! a = Some (LDetPhr o p)) by (apply (ext_lab_lookup X23), Ba).
    assert (Ea3 : ∀ y, (a, y) ∉ edges g3).
    { intros y Hy. destruct (K3 a (LDetPhr o p)) as (_&_&H3&_); [sets|apply Ba|].
      specialize (H3 Logic.I y Hy). simpl in H3. apply elem_of_union in H3 as [[= ? ?]%elem_of_singleton|H3]; [done|].
      destruct Ba as (_&_&_&Ba&_). by eapply (Ba Logic.I y). }
    assert (Fa3 : fwd g3 !! a = None).
    { rewrite (fwd_keep _ _ _ _ a (LDetPhr o p) K3); [apply Ba|sets|apply Ba]. }
    assert (Ra3 : bwd g3 !! a = None).
    { rewrite (bwd_keep _ _ _ _ a (LDetPhr o p) K3); [apply Ba|sets|apply Ba]. }
    assert (Bx3 : blank x (LCls detailIdentifier) G3 g3).
    { eapply blank_keep; [exact X3|exact K3|sets|]. by apply blank_other_edge. }
    apply (C_connect F (LDetPhr o p) (LPhrDet p) a (pe_detail ep)); try done.
    { by apply (ext_lab_lookup X03). }
    { intros _. split; [sets|done]. }
    { eapply not_root; [by apply (up_mono X03)|by apply (ext_lab_lookup X03)|done]. }
    { by rewrite (ext_solo _ _ _ _ X03). }
    intros G4 g4 Hok4 X4 K4.
    assert (X34 : ext G3 g3 G4 g4) by (eapply ext_trans; [apply ext_add_edge|exact X4]).
    assert (Bx4 : blank x (LCls detailIdentifier) G4 g4).
    { eapply blank_keep; [exact X4|exact K4|sets|]. by apply blank_other_edge. }
    assert (Fa4 : fwd g4 !! a = None) by (rewrite (fwd_keep _ _ _ _ a (LDetPhr o p) K4); [done|sets|done]).
    assert (Ra4 : bwd g4 !! a = None) by (rewrite (bwd_keep _ _ _ _ a (LDetPhr o p) K4); [done|sets|done]).
    apply (C_new F (LDetRem o p)); [done..|]. intros b G5 g5 Hok5 X5 K5 Nb Bb Hbd.
    assert (a ≠ b ∧ x ≠ b) as [Hab Hxb] by (split; intros ->; apply Hbd; sets).
    assert (La5 : lab G5 !! a = Some (LDetPhr o p)) by by apply (ext_lab_lookup X5), (ext_lab_lookup X34).
    assert (La4 : lab G4 !! a = Some (LDetPhr o p)) by by apply (ext_lab_lookup X34).
    assert (Bx5 : blank x (LCls detailIdentifier) G5 g5) by (eapply blank_keep; [exact X5|exact K5|sets|done]).
    assert (Fa5 : fwd g5 !! a = None) by (rewrite (fwd_keep _ _ _ _ a (LDetPhr o p) K5); [done|sets|done]).
    assert (Ra5 : bwd g5 !! a = None) by (rewrite (bwd_keep _ _ _ _ a (LDetPhr o p) K5); [done|sets|done]).
    assert (X15 : ext G1 g1 G5 g5).
    { eapply ext_trans; [exact X2|]. eapply ext_trans; [exact X23|]. by eapply ext_trans. }
    apply (C_setref F (LCls detailIdentifier) (LDetPhr o p) x a); [apply Bx5|done|done|sets|sets|apply Bx5|done| |].
    { intros k [= <-]. by apply (ext_edge X15). }
    intros G6 g6 Hok6 X6 K6.
    assert (X56 : ext G5 g5 G6 g6) by (eapply ext_trans; [apply ext_add_ref; [apply Bx5|done]|exact X6]).
    assert (Bb6 : blank b (LDetRem o p) G6 g6).
    { eapply blank_keep; [exact X6|exact K6|sets|by apply blank_other_ref]. }
    assert (Fa6 : fwd g6 !! a = None).
    { rewrite (fwd_keep _ _ _ _ a (LDetPhr o p) K6); [simpl; by rewrite lookup_insert_ne by done|sets|done]. }
    apply (C_setref F (LDetPhr o p) (LDetRem o p) a b); [by apply (ext_lab_lookup X56)|apply Bb6|done|sets|sets|done|apply Bb6|done|].
    intros G7 g7 Hok7 X7 _. apply C_ret. intros _ _.
    assert (X67 : ext G6 g6 G7 g7) by (eapply ext_trans; [apply ext_add_ref; [done|apply Bb6]|exact X7]).
    assert (X47 : ext G4 g4 G7 g7) by (eapply ext_trans; [exact X5|]; by eapply ext_trans).
    assert (X37 : ext G3 g3 G7 g7) by by eapply ext_trans.
    assert (X07 : ext G g G7 g7) by by eapply ext_trans.
    split_and!; simpl.
    - by apply (ext_lab_lookup X37).
    - apply (ext_lab_lookup X67), Bb6.
    - apply (ext_fwd_lookup X7). simpl. apply lookup_insert.
    - exists eo, ep. split_and!; [by apply (phraseC_mono X07)..| |].
      + apply (ext_edge X37), (ext_edge X3). simpl. set_solver.
      + apply (ext_edge X47), (ext_edge X4). simpl. set_solver.
  Qed.

  Lemma C_detail_provide_entity eo ep o p G g D :
    solo G = false → phraseC G g eo o → phraseC G g ep p →
    C (detail_provide_entity eo ep) (λ d G' g', detailP G' g' d o p) G g D.
  Proof.
    intros Hs Ho Hp.
    pose proof (phraseC_base _ _ _ _ Ho) as ((_&_&_&Lo)&_).
    pose proof (phraseC_base _ _ _ _ Hp) as ((_&_&_&Lp)&_).
    unfold detail_provide_entity, phrase_get_target_details, phrase_get_source_details.
    eapply C_seqR; [by eapply R_targets|]. intros ts G1 g1 Hok1 X1 _ [_ Hts].
    eapply (C_seq _ _ _ (λ r G' g', ∀ ss, r = Ok ss → ∀ y, y ∈ ss → (y, pe_detail ep) ∈ edges g')).
    { apply C_try; [|done]. eapply C_conseq; [eapply C_read, R_sources; [by apply (ext_lab_lookup X1)|done]|].
      intros ss G2 g2 _ _ [_ Hss] ? [= <-] y Hy. by apply Hss. }
    intros r G2 g2 Hok2 X2 _ Hr. assert (X02 : ext G g G2 g2) by by eapply ext_trans. cbv zeta.
    set (ss := match r with Ok l => l | Err _ => [] end).
    assert (Hss : ∀ y, y ∈ ss → (y, pe_detail ep) ∈ edges g2).
    { intros y Hy. destruct r; [by eapply Hr|]. by apply elem_of_nil in Hy. }
    destruct (common_details ts ss) as [|c [|c' l]] eqn:Hc.
    - eapply C_conseq; [apply (C_detail_create eo ep o p)|].
      + by rewrite (ext_solo _ _ _ _ X02).
      + by apply (phraseC_mono X02).
      + by apply (phraseC_mono X02).
      + intros d G3 g3 _ _ Hd. by left.
    - assert (Hx : c ∈ common_details ts ss) by (rewrite Hc; left).
      apply elem_common in Hx as [H1%Hts H2%Hss]. apply (ext_edge X2) in H1.
      destruct (ok_edge _ _ _ Hok2 _ _ H1) as (l1&l2&Hl1&Hl2&Hed&_).
      rewrite (ext_lab_lookup X02 _ _ Lo) in Hl1. simplify_eq. destruct l2; simpl in Hed; try done. subst.
      destruct (ok_edge_labs Hok2 _ _ _ _ H2 Hl2 (ext_lab_lookup X02 _ _ Lp)) as [Hed _]. simpl in Hed. subst.
      unfold detail_read_by_phrase. eapply C_seqR; [eapply R_getref; [exact Hl2|done]|].
      intros rf G3 g3 Hok3 X3 _ ->. apply C_ret. intros _ _. cbn beta iota.
      assert (X03 : ext G g G3 g3) by by eapply ext_trans.
      destruct (fwd g3 !! c) as [r'|] eqn:Hf; simpl; [left|by right].
      destruct (ok_ref _ _ _ Hok3 _ _ Hf) as (la&lb&Ha&Hb&Hrr).
      rewrite (ext_lab_lookup X3 _ _ Hl2) in Ha. simplify_eq. destruct lb; simpl in Hrr; try done. destruct Hrr as [<- <-].
      split_and!; simpl; [by apply (ext_lab_lookup X3)|done|done|].
      exists eo, ep. split_and!; [by apply (phraseC_mono X03)..|by apply (ext_edge X3)|by apply (ext_edge X3)].
    - apply C_throw.
  Qed.

  Lemma C_detail_provide ob pr G g D :
    solo G = false → S (length ob) < F → S (length pr) < F →
    C (detail_provide fuel ob pr) (λ d G' g', detailP G' g' d (words_of ob) (words_of pr)) G g D.
  Proof.
    intros Hs Hob Hpr. unfold detail_provide.
    eapply C_seq; [by apply (C_phrase_provide fuel Hfuel HF ob)|]. intros eo G1 g1 Hok1 X1 _ Ho.
    eapply C_seq; [apply (C_phrase_provide fuel Hfuel HF pr); [by rewrite (ext_solo _ _ _ _ X1)|done]|].
    intros ep G2 g2 Hok2 X2 _ Hp. apply C_class_provide. intros _ G3 g3 Hok3 X3 _.
    apply C_detail_provide_entity.
    - by rewrite (ext_solo _ _ _ _ X3), (ext_solo _ _ _ _ X2), (ext_solo _ _ _ _ X1).
    - by apply (phraseC_mono X3), (phraseC_mono X2).
    - by apply (phraseC_mono X3).
  Qed.

  (** ** Remarks *)

  (** A new remark gets its texts; its fact node is kept for later. *)
  Lemma C_link {A} ob pr e (f : unit → prog A) Q G g D :
    solo G = false → S (length ob) < F → S (length pr) < F →
    rem_base G g e (words_of ob) (words_of pr) → re_detail e ∈ D → re_fact e ∈ D →
    bare (re_detail e) (LRemDet (words_of ob) (words_of pr)) g → bare (re_fact e) LRemFact g →
    (∀ G' g', ok F G' g' → ext G g G' g' → remC G' g' e (words_of ob) (words_of pr) →
      bare (re_fact e) LRemFact g' → C (f tt) Q G' g' D) →
    C (d <- detail_provide fuel ob pr;; u <- detail_point_to_remark d (re_detail e);; f u) Q G g D.
  Proof.
    intros Hs Hob Hpr He Dd Df Bd Bf Hf.
    eapply C_seq; [by apply C_detail_provide|]. intros d G1 g1 Hok1 X1 K1 [Hd|Hd].
    2: { apply C_connect_zero. by left. }
    pose proof He as ((_&Ld&_&Lf)&_). pose proof (rem_base_mono X1 _ _ _ He) as He1.
    pose proof He1 as ((_&Ld1&_&Lf1)&_). pose proof Hd as (_&Lr&_).
    pose proof (bare_keep _ _ _ _ _ _ K1 Dd Ld Bd) as Bd1. pose proof (bare_keep _ _ _ _ _ _ K1 Df Lf Bf) as Bf1.
    apply C_ctx. intros _ [Hup1 _].
    apply (C_connect F (LDetRem (words_of ob) (words_of pr)) (LRemDet (words_of ob) (words_of pr)) (de_remark d) (re_detail e));
      try done.
    { intros _. split; [done|]. by apply Bd1. }
    { eapply not_root; [exact Hup1|exact Ld1|done]. }
    { by rewrite (ext_solo _ _ _ _ X1). }
    intros G2 g2 Hok2 X2 K2. assert (X12 : ext G1 g1 G2 g2) by (eapply ext_trans; [apply ext_add_edge|exact X2]).
    apply Hf; [done|by eapply ext_trans| |].
    - split; [by apply (rem_base_mono X12)|]. exists d. split; [by apply (detailC_mono X12)|].
      apply (ext_edge X2). simpl. set_solver.
    - eapply bare_keep; [exact K2|done|exact Lf1|]. apply bare_edge; [|done|done]. intros _ E. rewrite E in Lr. congruence.
  Qed.

  (** The row of a new remark. *)
  Lemma C_new_remark {A} o p (f : remark_ent → prog A) Q G g D :
    solo G = false →
    (∀ e G' g', ok F G' g' → ext G g G' g' → rem_base G' g' e o p →
      bare (re_detail e) (LRemDet o p) g' → bare (re_fact e) LRemFact g' →
      C (f e) Q G' g' ({[re_detail e; re_position e; re_fact e]} ∪ D)) →
    C (class_provide;;; c <- class_new remarkIdentifier;; e <- remark_create_entity c;; f e) Q G g D.
  Proof.
    intros Hs Hf. apply C_class_provide. intros _ G1 g1 Hok1 X1 _.
    apply (C_entity F RemarkEnt remarkIdentifier (LRemDet o p) LRemPos LRemFact); try done.
    { by rewrite (ext_solo _ _ _ _ X1). }
    intros x a b c G2 g2 Hok2 X2 _ Rw.
    apply (Hf (RemarkEnt x a b c)); [done|by eapply ext_trans| |apply Rw|apply Rw].
    split; [apply Rw|apply Rw].
  Qed.

  (** A story with its first fact. *)
  Lemma C_first_story_fact {A} (f : fact_agg → prog A) Q G g D :
    solo G = false →
    (∀ fa s G' g', ok F G' g' → ext G g G' g' → keep D G g g' → fact_base G' g' fa → story_base false G' g' s →
      (fe_story fa, se_fact s) ∈ edges g' → (se_fact s, fe_story fa) ∈ edges g' →
      bare (fe_remark fa) LFactRem g' → C (f (FactAgg fa true)) Q G' g' ({[fe_remark fa]} ∪ D)) →
    C (bind fact_create_first_story_fact f) Q G g D.
  Proof.
    intros Hs Hf. apply C_intro. intros Hok _ Hn. unfold fact_create_first_story_fact, story_create.
    assert (fresh : ∀ x, lab G !! x = None → x ∉ D).
    { intros x Hx Hd. apply Hn in Hd. apply (ok_node_lab Hok) in Hd as [? ?]. congruence. }
    assert (older : ∀ x G' g', ext G g G' g' → lab G' !! x = None → x ∉ D).
    { intros x G' g' X Hx. apply fresh. destruct (lab G !! x) eqn:E; [|done]. apply (ext_lab_lookup X) in E. congruence. }
    apply C_assoc, C_class_provide. intros _ G1 g1 Hok1 X1 K1.
    apply C_assoc_in, (C_entity F FactEnt factIdentifier LFactRem LFactPos LFactStory); try done.
    { by rewrite (ext_solo _ _ _ _ X1). }
    intros x a b c G2 g2 Hok2 X2 K2 Rf.
    assert (X02 : ext G g G2 g2) by by eapply ext_trans.
    apply C_assoc, C_assoc, C_class_provide. intros _ G3 g3 Hok3 X3 K3.
    assert (X03 : ext G g G3 g3) by by eapply ext_trans.
    apply C_assoc, (C_entity F StoryEnt storyIdentifier LStFact LStPos (LStTree false)); try done.
    { by rewrite (ext_solo _ _ _ _ X03). }
    intros x' a' b' c' G4 g4 Hok4 X4 K4 Rs.
    assert (X24 : ext G2 g2 G4 g4) by by eapply ext_trans.
    assert (X04 : ext G g G4 g4) by by eapply ext_trans.
    assert (Hf2 : fact_base G2 g2 (FactEnt x a b c)) by (split; apply Rf).
    assert (Hs4 : story_base false G4 g4 (StoryEnt x' a' b' c')) by (split; apply Rs).
    pose proof (fact_base_mono X24 _ Hf2) as Hf4.
    pose proof Hf2 as ((_&La2&_&Lc2)&_). pose proof Hf4 as ((_&La4&_&Lc4)&_). pose proof Hs4 as ((_&Ls4&_&_)&_).
    simpl in La2, Lc2, La4, Lc4, Ls4.
    assert (K24 : keep ({[a; b; c]} ∪ D) G2 g2 g4) by (eapply keep_trans; [exact X3|exact K3|exact K4]).
    assert (Ba4 : bare a LFactRem g4) by (eapply bare_keep; [exact K24|sets|exact La2|apply Rf]).
    assert (Bc4 : bare c LFactStory g4) by (eapply bare_keep; [exact K24|sets|exact Lc2|apply Rf]).
    assert (c ∉ D) by (eapply older; [exact X1|apply Rf]).
    assert (a' ∉ D) by (eapply older; [exact X03|apply Rs]).
    assert (Hac : a ≠ c ∧ a ≠ a' ∧ c ≠ a') by (split_and!; congruence). destruct Hac as (Hac&Haa&Hca).
    apply C_ctx. intros _ [Hup4 _].
    unfold fact_point_to_story, story_point_to_fact. cbn [fe_story se_fact].
    apply C_assoc, (C_connect F LFactStory LStFact c a'); try done.
    { intros _. split; [sets|]. by apply Bc4. }
    { eapply not_root; [exact Hup4|exact Ls4|done]. }
    { by rewrite (ext_solo _ _ _ _ X04). }
    intros G5 g5 Hok5 X5 K5.
    assert (X45 : ext G4 g4 G5 g5) by (eapply ext_trans; [apply ext_add_edge|exact X5]).
    assert (Ba5 : bare a LFactRem g5).
    { eapply bare_keep; [exact K5|sets|exact La4|]. by apply bare_edge. }
    assert (Bs5 : bare a' LStFact g5).
    { eapply bare_keep; [exact K5|sets|exact Ls4|]. apply bare_edge; [done|done|apply Rs]. }
    apply C_assoc, (C_connect F LStFact LFactStory a' c); try done.
    { by apply (ext_lab_lookup X45). }
    { by apply (ext_lab_lookup X45). }
    { intros _. split; [sets|]. by apply Bs5. }
    { eapply not_root; [exact (up_mono X45 Hup4)|by apply (ext_lab_lookup X45)|done]. }
    { by rewrite (ext_solo _ _ _ _ X45), (ext_solo _ _ _ _ X04). }
    intros G6 g6 Hok6 X6 K6.
    assert (X56 : ext G5 g5 G6 g6) by (eapply ext_trans; [apply ext_add_edge|exact X6]).
    assert (X46 : ext G4 g4 G6 g6) by by eapply ext_trans.
    cbn [bind]. eapply C_weaken; [|eapply (Hf (FactEnt x a b c) (StoryEnt x' a' b' c'))].
    - simpl. sets.
    - done.
    - by eapply ext_trans.
    - eapply keep_trans; [exact X1|exact K1|]. eapply keep_trans; [exact X2|exact K2|].
      eapply keep_trans; [exact X24|eapply keep_sub; [|exact K24]; sets|].
      eapply keep_trans; [exact X45| |].
      + eapply keep_edge; [exact Lc4|exact Ls4|done|done|]. eapply keep_sub; [|exact K5]. sets.
      + eapply keep_edge; [exact (ext_lab_lookup X45 _ _ Ls4)|exact (ext_lab_lookup X45 _ _ Lc4)|done|done|].
        eapply keep_sub; [|exact K6]. sets.
    - by apply (fact_base_mono X46).
    - by apply (story_base_mono X46).
    - apply (ext_edge X56), (ext_edge X5). simpl. set_solver.
    - apply (ext_edge X6). simpl. set_solver.
    - simpl. eapply bare_keep; [exact K6|sets|by apply (ext_lab_lookup X45)|]. by apply bare_edge.
  Qed.

  (** ** The calls that create *)

  Lemma C_create_story ob pr G g D :
    solo G = false → S (length ob) < F → S (length pr) < F →
    C (create_story fuel ob pr)
      (λ e G' g', ∃ f, remF G' g' e (words_of ob) (words_of pr) f ∧ storyP False G' g' f e) G g D.
  Proof.
    intros Hs Hob Hpr. unfold create_story.
    apply (C_new_remark (words_of ob) (words_of pr)); [done|]. intros e G1 g1 Hok1 X1 He Bd Bf.
    apply C_link; try done; [by rewrite (ext_solo _ _ _ _ X1)|sets|sets|].
    intros G2 g2 Hok2 X2 He2 Bf2. pose proof He2 as (((_&_&_&Lf2)&_)&_).
    assert (X02 : ext G g G2 g2) by by eapply ext_trans.
    apply C_first_story_fact; [by rewrite (ext_solo _ _ _ _ X02)|].
    intros fa s G3 g3 Hok3 X3 K3 Hf3 Hs3 E1 E2 Bfr. cbn [fa_fact].
    assert (X03 : ext G g G3 g3) by by eapply ext_trans.
    pose proof (ext_lab_lookup X3 _ _ Lf2) as Lf3. pose proof Hf3 as ((_&Lr3&_&_)&_).
    assert (Bf3 : bare (re_fact e) LRemFact g3) by (eapply bare_keep; [exact K3|sets|exact Lf2|done]).
    assert (Hne : re_fact e ≠ fe_remark fa) by congruence.
    apply C_ctx. intros _ [Hup3 _].
    unfold remark_point_to_fact, fact_point_to_remark.
    apply (C_connect F LRemFact LFactRem); try done.
    { intros _. split; [sets|]. by apply Bf3. }
    { eapply not_root; [exact Hup3|exact Lr3|done]. }
    { by rewrite (ext_solo _ _ _ _ X03). }
    intros G4 g4 Hok4 X4 K4.
    assert (X34 : ext G3 g3 G4 g4) by (eapply ext_trans; [apply ext_add_edge|exact X4]).
    assert (Bfr4 : bare (fe_remark fa) LFactRem g4).
    { eapply bare_keep; [exact K4|sets|exact Lr3|]. by apply bare_edge. }
    apply (C_connect F LFactRem LRemFact); try done.
    { by apply (ext_lab_lookup X34). }
    { by apply (ext_lab_lookup X34). }
    { intros _. split; [sets|]. by apply Bfr4. }
    { eapply not_root; [exact (up_mono X34 Hup3)|by apply (ext_lab_lookup X34)|done]. }
    { by rewrite (ext_solo _ _ _ _ X34), (ext_solo _ _ _ _ X03). }
    intros G5 g5 Hok5 X5 _. apply C_ret. intros _ _.
    assert (X45 : ext G4 g4 G5 g5) by (eapply ext_trans; [apply ext_add_edge|exact X5]).
    assert (X35 : ext G3 g3 G5 g5) by by eapply ext_trans.
    assert (X25 : ext G2 g2 G5 g5) by by eapply ext_trans.
    exists fa. split.
    - split_and!; [by apply (remC_mono X25)|by apply (fact_base_mono X35)|].
      apply (ext_edge X45), (ext_edge X4). simpl. set_solver.
    - exists s, fa, (words_of ob), (words_of pr), false. split_and!; [done|..].
      + by apply (story_base_mono X35).
      + by apply (fact_base_mono X35).
      + apply (rem_base_mono X25), He2.
      + by apply (ext_edge X35).
      + by apply (ext_edge X35).
      + apply (ext_edge X5). simpl. set_solver.
  Qed.

  Lemma C_add_remark_to_fact a oa pa fa pr G g D :
    solo G = false → remF G g a oa pa fa → S (length (text_of oa)) < F → S (length pr) < F →
    C (add_remark_to_fact fuel a pr)
      (λ e G' g', remF G' g' e (words_of (text_of oa)) (words_of pr) fa) G g D.
  Proof.
    intros Hs Ha Hob Hpr. unfold add_remark_to_fact.
    apply (C_new_remark (words_of (text_of oa)) (words_of pr)); [done|]. intros e G1 g1 Hok1 X1 He Bd Bf.
    pose proof (remF_mono X1 _ _ _ _ Ha) as Ha1. pose proof He as ((_&Ld1&_&Lf1)&_).
    apply C_ctx. intros _ [Hup1 _].
    apply C_assoc3.
    eapply (C_seqR _ (get_object_and_property fuel a)).
    { eapply (R_get_object_and_property fuel Hfuel HF); [apply Ha1|done]. }
    intros ? G2 g2 Hok2 X2 K2 ->. cbn beta iota.
    assert (X02 : ext G g G2 g2) by by eapply ext_trans.
    apply C_link; try done.
    { by rewrite (ext_solo _ _ _ _ X02). }
    { by apply (rem_base_mono X2). }
    { sets. }
    { sets. }
    { eapply bare_keep; [exact K2|sets|exact Ld1|done]. }
    { eapply bare_keep; [exact K2|sets|exact Lf1|done]. }
    intros G3 g3 Hok3 X3 He3 Bf3. pose proof He3 as (((_&_&_&Lf3)&_)&_).
    pose proof (remF_mono X3 _ _ _ _ (remF_mono X2 _ _ _ _ Ha1)) as ((((_&_&_&Laf)&_)&_)&Hf3&Haf).
    unfold remark_get_target_fact.
    eapply C_seqR; [by eapply R_single_target|]. intros ? G4 g4 Hok4 X4 K4 ->.
    unfold fact_fetch_by_remark. apply C_assoc.
    eapply C_seqR; [by eapply R_fact_read_by_remark, (fact_base_mono X4)|]. intros ? G5 g5 Hok5 X5 K5 ->. cbn [bind fa_fact].
    assert (X35 : ext G3 g3 G5 g5) by by eapply ext_trans.
    pose proof (fact_base_mono X35 _ Hf3) as Hf5. pose proof Hf5 as ((_&Lr5&_&_)&_).
    assert (Bf5 : bare (re_fact e) LRemFact g5).
    { eapply bare_keep; [exact K5|sets|by apply (ext_lab_lookup X4)|].
      eapply bare_keep; [exact K4|sets|exact Lf3|done]. }
    apply C_ctx. intros _ [Hup5 _]. unfold remark_point_to_fact.
    apply (C_connect F LRemFact LFactRem); try done.
    { by apply (ext_lab_lookup X35). }
    { intros _. split; [sets|]. by apply Bf5. }
    { eapply not_root; [exact Hup5|exact Lr5|done]. }
    { by rewrite (ext_solo _ _ _ _ X35), (ext_solo _ _ _ _ X3), (ext_solo _ _ _ _ X02). }
    intros G6 g6 Hok6 X6 _. apply C_ret. intros _ _.
    assert (X56 : ext G5 g5 G6 g6) by (eapply ext_trans; [apply ext_add_edge|exact X6]).
    split_and!; [by apply (remC_mono X56), (remC_mono X35)|by apply (fact_base_mono X56)|].
    apply (ext_edge X6). simpl. set_solver.
  Qed.

  Lemma C_no_fact {A} a oa pa (f : fact_ent → prog A) Q G g D :
    rem_base G g a oa pa → C (bind (fact_read_by_remark (re_fact a)) f) Q G g D.
  Proof.
    intros Ha. eapply C_seqR; [by eapply (R_fact_of_strict _ _ _ (λ _ _ _, False))|]. by intros.
  Qed.

  (** Both ask for the fact behind a node of the remark. *)
  Lemma C_add_fact_to_story a oa pa ob pr Q G g D :
    solo G = false → rem_base G g a oa pa → S (length ob) < F → S (length pr) < F →
    C (add_fact_to_story fuel a ob pr) Q G g D.
  Proof.
    intros Hs Ha Hob Hpr. unfold add_fact_to_story.
    apply (C_new_remark (words_of ob) (words_of pr)); [done|]. intros e G1 g1 Hok1 X1 He Bd Bf.
    apply C_link; try done; [by rewrite (ext_solo _ _ _ _ X1)|sets|sets|].
    intros G2 g2 Hok2 X2 He2 Bf2. unfold fact_create_next_fact.
    eapply C_assoc, C_no_fact. by apply (rem_base_mono X2), (rem_base_mono X1).
  Qed.
  Lemma C_create_child_story a oa pa ob pr Q G g D :
    solo G = false → rem_base G g a oa pa → S (length ob) < F → S (length pr) < F →
    C (create_child_story fuel a ob pr) Q G g D.
  Proof.
    intros Hs Ha Hob Hpr. unfold create_child_story.
    apply (C_new_remark (words_of ob) (words_of pr)); [done|]. intros e G1 g1 Hok1 X1 He Bd Bf.
    apply C_link; try done; [by rewrite (ext_solo _ _ _ _ X1)|sets|sets|].
    intros G2 g2 Hok2 X2 He2 Bf2. unfold fact_create_child_story_fact.
    eapply C_assoc, C_no_fact. by apply (rem_base_mono X2), (rem_base_mono X1).
  Qed.
End remarks.
