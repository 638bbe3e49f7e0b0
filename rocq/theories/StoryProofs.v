(** The story, fact and remark layers. *)
From stdpp Require Import gmap.
From Coq Require Import NArith ZArith Lia.
From Verif Require Import Base GoText Codec Model1 Model2 Model3 Storage Inv Wp Steps Entity BitProofs
  Reads CharProofs SpecMachine WordProofs PhraseProofs DetailProofs.
Local Open Scope nat_scope.

(** Extension that only adds edges starting at nodes with a label in [P]. *)
Definition extP (P : label → Prop) (G : ghost) (g : graph) (G' : ghost) (g' : graph) : Prop :=
  ext G g G' g' ∧
  ∀ x y, (x, y) ∈ edges g' → (x, y) ∉ edges g → ∃ l, lab G' !! x = Some l ∧ P l.

Lemma extP_refl P G g : extP P G g G g.
Proof. split; [done|]. done. Qed.

Lemma extP_trans P G g G1 g1 G2 g2 :
  extP P G g G1 g1 → extP P G1 g1 G2 g2 → extP P G g G2 g2.
Proof.
  intros [X1 H1] [X2 H2]. split; [by eapply ext_trans|].
  intros x y ? ?. destruct (decide ((x, y) ∈ edges g1)) as [?|?]; [|eauto].
  destruct (H1 x y) as (l&?&?); [done..|]. exists l. eauto using @ext_lab_lookup.
Qed.

Lemma extP_le (P P' : label → Prop) G g G' g' : (∀ l, P l → P' l) → extP P G g G' g' → extP P' G g G' g'.
Proof. intros ? [X H]. split; [done|]. intros x y ? ?. destruct (H x y) as (l&?&?); eauto. Qed.

Lemma extP_ext P G g G' g' : extP P G g G' g' → ext G g G' g'.
Proof. by intros []. Qed.

Lemma extP_exth (P : label → Prop) k G g G' g' : (∀ l, P l → rank l = 0 ∨ k ≤ rank l) → extP P G g G' g' → exth k G g G' g'.
Proof. intros ? [X H]. split; [done|]. intros x y ? ?. destruct (H x y) as (l&?&?); eauto. Qed.

Lemma extP_extn (P : label → Prop) n G g G' g' : (∀ l, rank l ≤ n → P l) → extn n G g G' g' → extP P G g G' g'.
Proof. intros ? [X H]. split; [done|]. intros x y ? ?. destruct (H x y) as (l&?&?); eauto. Qed.

Lemma extP_edges P G g G' g' : ext G g G' g' → edges g' = edges g → extP P G g G' g'.
Proof. intros X He. split; [done|]. intros x y. by rewrite He. Qed.

Lemma extP_add_edge (P : label → Prop) x y l G g : lab G !! x = Some l → P l → extP P G g G (add_edge x y g).
Proof.
  intros Hx Hl. split; [apply ext_add_edge|]. intros a b Hab Hab'. simpl in Hab.
  apply elem_of_union in Hab as [Hab|?]; [|done]. apply elem_of_singleton in Hab. simplify_eq. eauto.
Qed.

(** Where the upper layers add edges, node 0 and positions aside. *)
Definition upper (l : label) : Prop :=
  match l with
  | LCls _ | LDetRem _ _ | LRemFact | LFactRem | LFactStory | LStFact => True
  | _ => False
  end.

Lemma upper_rank l : upper l → rank l = 0 ∨ 5 ≤ rank l.
Proof. destruct l; simpl; try done; auto. Qed.

Lemma upper_exth k G g G' g' : k ≤ 5 → extP upper G g G' g' → exth k G g G' g'.
Proof. intros Hk. apply extP_exth. intros l Hl. apply upper_rank in Hl. lia. Qed.

(** * Complete facts and stories *)

(** A remark with its fact. *)
Definition remF (G : ghost) (g : graph) (e : remark_ent) (o p : list (list Z)) (f : fact_ent) : Prop :=
  remC G g e o p ∧ fact_base G g f ∧ (re_fact e, fe_remark f) ∈ edges g.

(** The story of fact [f] begins with remark [r]; [C] if it is a child story. *)
Definition storyP (C : Prop) (G : ghost) (g : graph) (f : fact_ent) (r : remark_ent) : Prop :=
  ∃ s f0 o p b, (b = true → C) ∧ story_base b G g s ∧ fact_base G g f0 ∧ rem_base G g r o p ∧
    (fe_story f, se_fact s) ∈ edges g ∧ (se_fact s, fe_story f0) ∈ edges g ∧
    (fe_remark f0, re_fact r) ∈ edges g.

Section mono.
  Context {G : ghost} {g : graph} {G' : ghost} {g' : graph} (X : ext G g G' g').
  Lemma remF_mono e o p f : remF G g e o p f → remF G' g' e o p f.
  Proof.
    intros (?&?&?). split_and!; [by apply (remC_mono X)|by apply (fact_base_mono X)|by apply (ext_edge X)].
  Qed.
  Lemma storyP_mono {C C' : Prop} f r : (C → C') → storyP C G g f r → storyP C' G' g' f r.
  Proof.
    intros HC (s&f0&o&p&b&?&?&?&?&?&?&?). exists s, f0, o, p, b.
    split_and!; [by auto|by apply (story_base_mono X)|by apply (fact_base_mono X)|by apply (rem_base_mono X)|
      by apply (ext_edge X)..].
  Qed.
End mono.

(** The targets of node 0, counted up to 2. *)
Definition znum (G : ghost) (g : graph) (n : nat) : Prop :=
  match n with
  | 0 => ∀ y, (0%N, y) ∉ edges g
  | 1 => ∃ y, lab G !! y = Some LFactPos ∧ (∀ z, (0%N, z) ∈ edges g ↔ z = y) ∧ ∀ z, (y, z) ∉ edges g
  | _ => ∃ y y', y ≠ y' ∧ (0%N, y) ∈ edges g ∧ (0%N, y') ∈ edges g
  end.

Lemma znum_keep F n G g G' g' :
  ok F G g → ok F G' g' → extP (λ l, l ≠ LZero ∧ l ≠ LFactPos) G g G' g' → znum G g n → znum G' g' n.
Proof.
  intros Hok Hok' [X HX].
  assert (H0 : ∀ x, (0%N, x) ∈ edges g' → (0%N, x) ∈ edges g).
  { intros x Hx. destruct (decide ((0%N, x) ∈ edges g)) as [|Hn]; [done|].
    destruct (HX _ _ Hx Hn) as (l&Hl&Hl0&_). rewrite (ok_zero _ _ _ Hok') in Hl. congruence. }
  destruct n as [|[|n]]; simpl.
  - intros Hn y Hy. by eapply Hn, H0.
  - intros (y&Ly&Hy&Hz). exists y. split_and!.
    + by apply (ext_lab_lookup X).
    + intros z. rewrite <- Hy. split; [apply H0|apply (ext_edge X)].
    + intros z Hyz. destruct (HX _ _ Hyz (Hz z)) as (l&Hl&_&Hl').
      rewrite (ext_lab_lookup X _ _ Ly) in Hl. congruence.
  - intros (y&y'&?&?&?). exists y, y'. split_and!; [done|by apply (ext_edge X)..].
Qed.

Lemma zp_cases zp : zp = ZStrict ∨ zp = ZNode.
Proof. destruct zp; auto. Qed.

Section stories.
  Context {zp : zpolicy} {fk : bool} {F : nat}.
  Notation wp := (wp zp fk F).
  Notation W := (W zp fk F).
  Notation R := (R zp fk F).
  Notation E0 := (E0 fk).
  Notation prepared := (prepared (fk := fk)).
  Notation calm := (calm (fk := fk)).
  Notation detailD := (detailD (fk := fk)).
  Notation detailQ := (detailQ (fk := fk)).
  Notation detailE := (detailE (fk := fk)).

  Context (fuel : nat) (Hfuel : 31 ≤ fuel) (HF : F ≤ fuel).

  (** ** Readers *)
  Lemma R_get_remark e o p G g : rem_base G g e o p →
    R (get_remark (re_class e)) (λ x _ _, x = e) E0 G g.
  Proof. intros (_&H). destruct e; simpl in *. by apply R_read_x. Qed.
  Lemma R_remark_read_by_fact e o p G g : rem_base G g e o p →
    R (remark_read_by_fact (re_fact e)) (λ x _ _, x = e) E0 G g.
  Proof. intros (_&H). destruct e; simpl in *. by apply R_read_c. Qed.
  Lemma R_fact_read_by_remark f G g : fact_base G g f →
    R (fact_read_by_remark (fe_remark f)) (λ x _ _, x = f) E0 G g.
  Proof. intros (_&H). destruct f; simpl in *. by apply R_read_a. Qed.
  Lemma R_fact_read_by_story f G g : fact_base G g f →
    R (fact_read_by_story (fe_story f)) (λ x _ _, x = f) E0 G g.
  Proof. intros (_&H). destruct f; simpl in *. by apply R_read_c. Qed.
  Lemma R_fact_read_by_position f G g : fact_base G g f →
    R (fact_read_by_position (fe_position f)) (λ x _ _, x = f) E0 G g.
  Proof. intros (_&H). destruct f; simpl in *. by apply R_read_b. Qed.
  Lemma R_story_read_by_fact b s G g : story_base b G g s →
    R (story_read_by_fact (se_fact s)) (λ x _ _, x = s) E0 G g.
  Proof. intros (_&H). destruct s; simpl in *. by apply R_read_a. Qed.

  Lemma R_get_object_and_property e o p G g : remC G g e o p → up G →
    R (get_object_and_property fuel e) (λ x _ _, x = (text_of o, text_of p)) E0 G g.
  Proof.
    intros (((_&Ld&_)&_)&d&Hd&Hed) Hup. unfold get_object_and_property, remark_get_source_detail.
    eapply R_one_source; [exact Ld|exact I|exact Hed| |done]. intros G1 g1 _ X1.
    eapply R_seq; [by eapply R_detail_fetch, (detailC_mono X1)|done|]. intros x G2 g2 _ X2 [H1 H2].
    apply (R_detail_texts fuel Hfuel HF).
    - eapply detailC_same; [done..|]. by apply (detailC_mono X2), (detailC_mono X1).
    - by apply (up_mono X2), (up_mono X1).
  Qed.

  Lemma R_no_targets x l G g :
    lab G !! x = Some l → l ≠ LZero → (∀ l', ¬ edge_ok l l') →
    R (st_targets x) (λ ts _ _, ts = []) E0 G g.
  Proof.
    intros Hx Hl Hno. eapply R_conseq; [by eapply R_targets| |by auto].
    intros ts G' g' Hok' X' [_ Hts]. destruct ts as [|t ts]; [done|]. exfalso.
    assert (Ht : (x, t) ∈ edges g') by (apply Hts; left).
    destruct (ok_edge _ _ _ Hok' _ _ Ht) as (l1&l2&H1&_&He&_).
    rewrite (ext_lab_lookup X' _ _ Hx) in H1. simplify_eq. by eapply Hno.
  Qed.

  Lemma R_has_next_remark e o p G g : rem_base G g e o p →
    R (has_next_remark e) (λ b _ _, b = false) E0 G g.
  Proof.
    intros ((_&_&Lp&_)&_). eapply R_then; [eapply R_no_targets; [exact Lp|done|intros [] H; exact H]|done|].
    intros G1 g1 _ _. by apply R_ret.
  Qed.

  Lemma R_get_next_remark e o p G g : rem_base G g e o p →
    R (get_next_remark e) (λ _ _ _, False) (λ ab G g, E0 ab G g ∨ ab = AErr ERemarkNext) G g.
  Proof.
    intros ((_&_&Lp&_)&_).
    eapply (R_bind _ _ _ _ _ (λ _ _ _, False) (λ ab G g, E0 ab G g ∨ ab = AErr ERemarkNext)); [|done|done].
    unfold remark_get_next_position. eapply R_then; [eapply R_no_targets; [exact Lp|done|intros [] H; exact H]|by left|].
    intros G1 g1 _ _. apply R_throw. by right.
  Qed.

  (** Faults are only considered with a storage that does not know node 0. *)
  Context (Hz : fk = true → zp = ZStrict).

  (** The story of a fact whose story edge is known; a swallowed error leads to
      node 0, which the storage refuses. *)
  Lemma R_target_story {A} f b s (k : story_ent → prog A) (Q : post A) (E : post abn) G g :
    fact_base G g f → story_base b G g s → (fe_story f, se_fact s) ∈ edges g → le_E0 fk E →
    (∀ G' g', ok F G' g' → ext G g G' g' → R (k s) Q E G' g') →
    R (id <- fact_target_story_or_zero f;; st <- story_read_by_fact id;; k st) Q E G g.
  Proof.
    intros ((_&_&_&Lst)&_) Hs He HE Hk. unfold fact_target_story_or_zero, fact_get_target_story.
    apply R_assoc_rev.
    eapply (R_seq _ _ _ _ _ (λ x _ _, x = Ok (se_fact s) ∨ fk = true ∧ ∃ e, x = Err e)); [|done|].
    { eapply R_try; [by eapply R_single_target| |].
      - intros x G' g' _ _ ->. by left.
      - intros ab G' g' _ _ [? ?]. destruct ab; [right; eauto|done..]. }
    intros x G1 g1 _ X1 [->|[Hfk [e ->]]]; cbn [bind].
    - eapply R_then; [by eapply R_story_read_by_fact, (story_base_mono X1)|done|].
      intros G2 g2 Hok2 X2. apply Hk; [done|]. by eapply ext_trans.
    - unfold story_read_by_fact. apply R_assoc_rev.
      eapply R_bind; [apply (R_getref_zero_strict (λ _ _ _, False)); auto|done|].
      intros ab G' g' _ _ ->. by apply HE.
  Qed.

  Lemma R_get_first_fact e o p f C r G g : remF G g e o p f → storyP C G g f r →
    R (get_first_fact e) (λ x _ _, x = r) E0 G g.
  Proof.
    intros ((((_&_&_&Lf)&_)&_)&Hf&He) (s&f0&o0&p0&b&_&Hs&Hf0&Hr&E1&E2&E3).
    unfold get_first_fact, remark_get_target_fact.
    eapply R_one_target; [exact Lf|exact I|exact He| |done]. intros G1 g1 _ X1.
    unfold fact_fetch_by_remark. apply R_assoc_rev.
    eapply R_then; [by eapply R_fact_read_by_remark, (fact_base_mono X1)|done|]. intros G2 g2 _ X2.
    assert (X2' := ext_trans _ _ _ _ _ _ X1 X2). cbn [bind].
    eapply (R_then _ (FactAgg f0 false)); [|done|].
    { unfold fact_agg_to_first_fact. cbn [fa_fact].
      eapply R_target_story; [by eapply (fact_base_mono X2')|by eapply (story_base_mono X2')|by apply (ext_edge X2')|done|].
      intros G3 g3 _ X3. assert (X3' := ext_trans _ _ _ _ _ _ X2' X3).
      pose proof (story_base_mono X3' _ Hs) as ((_&Lsf&_)&_).
      eapply R_one_target; [exact Lsf|exact I|by apply (ext_edge X3')| |done]. intros G4 g4 _ X4.
      assert (X4' := ext_trans _ _ _ _ _ _ X3' X4). cbn [fact_storage fa_storage bind].
      eapply R_then; [by eapply R_fact_read_by_story, (fact_base_mono X4')|done|].
      intros G5 g5 _ X5. by apply R_ret. }
    intros G3 g3 _ X3. assert (X3' := ext_trans _ _ _ _ _ _ X2' X3).
    pose proof (fact_base_mono X3' _ Hf0) as ((_&Lfr&_)&_). cbn [fa_fact].
    eapply R_one_target; [exact Lfr|exact I|by apply (ext_edge X3')| |done]. intros G4 g4 _ X4.
    by eapply R_remark_read_by_fact, (rem_base_mono X4), (rem_base_mono X3').
  Qed.

  (** Only the first remark of the story is written. *)
  Lemma R_get_story_loop r o0 p0 n buffer G g :
    remC G g r o0 p0 → up G →
    R (get_story_loop fuel (S n) r buffer)
      (λ x _ _, x = buffer ++ text_of o0 ++ [space] ++ text_of p0 ++ [space]) E0 G g.
  Proof.
    intros Hr Hup. cbn [get_story_loop].
    eapply R_then; [by eapply R_get_object_and_property|done|].
    intros G1 g1 _ X1. cbn beta iota.
    eapply R_then; [eapply R_has_next_remark|done|].
    { apply (rem_base_mono X1). by destruct Hr. }
    intros G3 g3 _ X3. cbn [negb]. by apply R_ret.
  Qed.

  Lemma R_get_story e o p f C r o0 p0 G g :
    remF G g e o p f → storyP C G g f r → remC G g r o0 p0 → up G →
    R (get_story fuel e) (λ x _ _, x = text_of o0 ++ [space] ++ text_of p0 ++ [space]) E0 G g.
  Proof.
    intros He Hs Hr Hup. unfold get_story.
    eapply R_then; [by eapply R_get_first_fact|done|]. intros G1 g1 _ X1.
    replace (get_story_loop fuel fuel r []) with (get_story_loop fuel (S (pred fuel)) r []) by (f_equal; lia).
    eapply R_conseq; [apply R_get_story_loop; [by apply (remC_mono X1)|by apply (up_mono X1)]| |by auto].
    by intros x G2 g2 _ _ ->.
  Qed.

  (** ** What the mixed-up node leads to: the remark's own fact node has no
      reference going out, so everything is read from node 0 *)
  Lemma R_getref_fact e o p G g : rem_base G g e o p →
    R (st_getref (re_fact e)) (λ r _ _, r = (re_position e, 0%N)) E0 G g.
  Proof using.
    intros ((_&_&Lp&Lf)&(_&_&Hf)).
    eapply R_conseq; [by eapply R_getref| |by auto]. intros r G1 g1 Hok1 X1 ->.
    apply (ext_fwd_lookup X1), (ok_bwd Hok1) in Hf. rewrite Hf.
    destruct (fwd g1 !! re_fact e) as [y|] eqn:Hy; [|done].
    destruct (ok_ref _ _ _ Hok1 _ _ Hy) as (lx&ly&Hx&_&Hr).
    rewrite (ext_lab_lookup X1 _ _ Lf) in Hx. by simplify_eq.
  Qed.

  Lemma R_fact_of_strict e o p (Q : post fact_ent) G g : zp = ZStrict → rem_base G g e o p →
    R (fact_read_by_remark (re_fact e)) Q (λ ab G g, E0 ab G g ∨ ab = AErr EStorage) G g.
  Proof using.
    intros Ez He. eapply R_then; [by eapply R_getref_fact|by left|]. intros G1 g1 _ _. cbn beta iota.
    eapply R_bind; [by apply (R_getref_zero_strict (λ _ _ _, False))|done|].
    intros ab G' g' _ _ ->. by right.
  Qed.

  Lemma R_fact_of_lenient e o p G g : zp = ZNode → rem_base G g e o p →
    R (fact_read_by_remark (re_fact e)) (λ f _ _, f = FactEnt (re_position e) (re_fact e) 0 0) E0 G g.
  Proof using.
    intros Ez He. eapply R_then; [by eapply R_getref_fact|done|]. intros G1 g1 _ _. cbn beta iota.
    eapply R_then; [by apply R_getref_zero|done|]. intros G2 g2 _ _. by apply R_ret.
  Qed.

  Lemma R_story_zero G g : zp = ZNode →
    R (story_read_by_fact 0) (λ s _ _, s = StoryEnt 0 0 0 0) E0 G g.
  Proof using.
    intros Ez. eapply R_then; [by apply R_getref_zero|done|]. intros G1 g1 _ _. cbn beta iota.
    eapply R_then; [by apply R_getref_zero|done|]. intros G2 g2 _ _. by apply R_ret.
  Qed.

  Lemma R_tree_zero G g : zp = ZNode →
    R (story_read_by_tree 0) (λ s _ _, s = StoryEnt 0 0 0 0) E0 G g.
  Proof using.
    intros Ez. eapply R_then; [by apply R_getref_zero|done|]. intros G1 g1 _ _. cbn beta iota.
    eapply R_then; [by apply R_getref_zero|done|]. intros G2 g2 _ _. cbn beta iota.
    eapply R_then; [by apply R_getref_zero|done|]. intros G3 g3 _ _. by apply R_ret.
  Qed.

  (** With a storage that does not know node 0 nothing beyond a fact can be
      looked at. *)
  Definition refused : post abn := λ ab G g, E0 ab G g ∨ ab = AErr EStorage.

  Lemma R_fetch_strict {A} e o p (k : fact_agg → prog A) (Q : post A) G g :
    zp = ZStrict → rem_base G g e o p →
    R (f <- fact_fetch_by_remark (re_fact e);; k f) Q refused G g.
  Proof using.
    intros Ez He. unfold fact_fetch_by_remark. apply R_assoc_rev.
    eapply R_bind; [by eapply (R_fact_of_strict _ _ _ (λ _ _ _, False))|done|]. by intros.
  Qed.
  Lemma R_has_next_fact_strict e o p Q G g : zp = ZStrict → rem_base G g e o p →
    R (has_next_fact e) Q refused G g.
  Proof using. apply R_fetch_strict. Qed.
  Lemma R_get_next_fact_strict e o p Q G g : zp = ZStrict → rem_base G g e o p →
    R (get_next_fact e) Q refused G g.
  Proof using. apply R_fetch_strict. Qed.
  Lemma R_has_next_story_strict e o p Q G g : zp = ZStrict → rem_base G g e o p →
    R (has_next_story e) Q refused G g.
  Proof using. apply R_fetch_strict. Qed.
  Lemma R_get_next_story_strict e o p Q G g : zp = ZStrict → rem_base G g e o p →
    R (get_next_story e) Q refused G g.
  Proof using. apply R_fetch_strict. Qed.

  (** With a storage that answers for node 0 the answer does not depend on the
      remark. *)
  Definition zsome (g : graph) (b : bool) : Prop := b = true ↔ ∃ y, (0%N, y) ∈ edges g.

  Lemma zsome_list g ts : (∀ y, y ∈ ts ↔ (0%N, y) ∈ edges g) → zsome g (nonempty ts).
  Proof using.
    intros Hts. split.
    - destruct ts as [|t ts]; [done|]. intros _. exists t. apply Hts. left.
    - intros [y Hy]. apply Hts in Hy. destruct ts; [by inversion Hy|done].
  Qed.

  Lemma R_has_next_fact_lenient e o p G g : zp = ZNode → rem_base G g e o p →
    R (has_next_fact e) (λ b _ g', zsome g' b) E0 G g.
  Proof using.
    intros Ez He. unfold has_next_fact, fact_fetch_by_remark. apply R_assoc_rev.
    eapply R_then; [by eapply R_fact_of_lenient|done|]. intros G1 g1 _ _. cbn [bind].
    unfold fact_agg_has_next_fact, fact_has_target_fact. cbn [fa_fact fe_position].
    eapply R_bind; [by apply R_targets_zero| |done].
    intros ts G2 g2 _ _ [_ Hts]. apply R_ret. intros _. by apply zsome_list.
  Qed.

  (** ** Writers of the upper layers *)
  Definition U {A} (P : label → Prop) (p : prog A) (Q : post A) (E : post abn) (G : ghost) (g : graph) : Prop :=
    W 6 p (λ a G' g', extP P G g G' g' ∧ Q a G' g') (λ a G' g', (fk = false → extP P G g G' g') ∧ E a G' g') G g.

  Lemma U_bind {A B} P (p : prog A) (f : A → prog B) Q1 E1 Q (E : post abn) G g :
    U P p Q1 E1 G g →
    (∀ a G' g', ok F G' g' → ext G g G' g' → Q1 a G' g' → U P (f a) Q E G' g') →
    (∀ ab G' g', E1 ab G' g' → E ab G' g') →
    U P (bind p f) Q E G g.
  Proof using.
    intros Hp Hf HE. eapply W_bind; [exact Hp|apply le_n|..].
    - intros a G' g' Hok' _ X' [XP HQ1]. eapply W_conseq; [exact (Hf _ _ _ Hok' (extn_ext _ _ _ _ _ X') HQ1)|apply le_n|..].
      + intros b G2 g2 _ _ _ [??]. split; [by eapply extP_trans|done].
      + intros b G2 g2 _ _ _ [??]. split; [|done]. intros Hfk. eapply extP_trans; eauto.
    - intros ab G' g' _ _ _ [??]. split; [done|by apply HE].
  Qed.

  Lemma U_seq {A B} P (p : prog A) (f : A → prog B) Q1 Q (E : post abn) G g :
    U P p Q1 E0 G g → le_E0 fk E →
    (∀ a G' g', ok F G' g' → ext G g G' g' → Q1 a G' g' → U P (f a) Q E G' g') →
    U P (bind p f) Q E G g.
  Proof using. intros Hp HE Hf. eapply U_bind; [exact Hp|done|]. intros ab G' g' ?. by apply HE. Qed.

  Lemma U_ret {A} P (a : A) (Q : post A) E G g : (ok F G g → Q a G g) → U P (Ret a) Q E G g.
  Proof using. intros H. apply W_ret. intros Hok _. split; [apply extP_refl|auto]. Qed.
  Lemma U_throw {A} P e (Q : post A) (E : post abn) G g :
    (ok F G g → E (AErr e) G g) → U P (Throw e) Q E G g.
  Proof using. intros H. apply W_throw. intros Hok _. split; [intros; apply extP_refl|auto]. Qed.

  Lemma U_R {A} P (p : prog A) (Q : post A) (E : post abn) G g :
    R p Q E G g →
    U P p (λ a G' g', G' = G ∧ g' = g ∧ Q a G g) (λ a G' g', G' = G ∧ g' = g ∧ E a G g) G g.
  Proof using.
    intros H. eapply W_conseq; [by apply (R_W _ _ _ 6)|apply le_n|..].
    - intros a G' g' _ _ _ (->&->&?). split_and!; auto using extP_refl.
    - intros a G' g' _ _ _ (->&->&?). split_and!; auto using extP_refl.
  Qed.

  Lemma U_seqR {A B} P (p : prog A) (f : A → prog B) Q1 Q (E : post abn) G g :
    R p Q1 E0 G g → le_E0 fk E →
    (∀ a, ok F G g → Q1 a G g → U P (f a) Q E G g) →
    U P (bind p f) Q E G g.
  Proof using.
    intros Hp HE Hf. eapply U_bind; [by apply U_R| |].
    - intros a G' g' Hok' _ (->&->&?). by apply Hf.
    - intros ab G' g' (->&->&?). by apply HE.
  Qed.

  Lemma U_conseq {A} (P P' : label → Prop) (p : prog A) (Q Q' : post A) (E E' : post abn) G g :
    U P p Q E G g → (∀ l, P l → P' l) →
    (∀ a G' g', ok F G' g' → extP P G g G' g' → Q a G' g' → Q' a G' g') →
    (∀ a G' g', ok F G' g' → (fk = false → extP P G g G' g') → E a G' g' → E' a G' g') →
    U P' p Q' E' G g.
  Proof using.
    intros H HP HQ HE. eapply W_conseq; [exact H|apply le_n|..].
    - intros a G' g' Hok' _ _ [??]. split; [by eapply extP_le|auto].
    - intros a G' g' Hok' _ _ [??]. split; [|auto]. intros Hfk. eapply extP_le; eauto.
  Qed.

  Lemma U_class_provide P {A} (f : unit → prog A) (Q : post A) (E : post abn) G g :
    up G → le_E0 fk E → U P (f tt) Q E G g → U P (bind class_provide f) Q E G g.
  Proof using.
    intros Hup HE Hf. eapply U_seqR; [by apply R_class_provide|done|]. by intros [] _ _.
  Qed.

  Lemma U_connect (P : label → Prop) x y lx ly G g :
    lab G !! x = Some lx → lab G !! y = Some ly → lx ≠ LZero → ly ≠ LZero → edge_ok lx ly → P lx →
    (∀ k, ly ≠ LRoot k) → up G →
    exposed G (add_edge x y g) lx ly y →
    (sole lx → ∀ z, (x, z) ∈ edges g → z = y) →
    (one_source ly → ∀ z, (z, y) ∈ edges g → z = x) →
    (distinct_children lx → ∀ z, (x, z) ∈ edges g → lab G !! z = Some ly → z = y) →
    U P (st_connect x y) (λ _ G' g', G' = G ∧ g' = add_edge x y g) E0 G g.
  Proof using.
    intros Hx Hy ?? He HP Hr Hup ????. eapply W_conseq; [eapply (W_connect 6); eauto|apply le_n|..].
    - clear fuel Hfuel HF. destruct lx; simpl; lia.
    - by eapply not_bit_root.
    - intros [] G' g' _ _ _ (->&->). split; [by eapply extP_add_edge|done].
    - intros ab G' g' _ _ _ [Hfk ?]. split; [|done]. by rewrite Hfk.
  Qed.

  Lemma U_entity {B C} (P : label → Prop) (mk : N → N → N → N → B) k la lb lc f (Q : post C) (E : post abn) G g :
    up G → (2 <= k <= 8)%N → (∀ k, P (LCls k)) →
    ref_ok (LCls k) la → ref_ok la lb → ref_ok lb lc →
    label_ok F la → label_ok F lb → label_ok F lc → plain la → plain lb → plain lc →
    (∀ x a b c G' g', ok F G' g' → ext G g G' g' →
      new_ent k G g x a b c la lb lc G' g' → U P (f (mk x a b c)) Q E G' g') →
    le_E0 fk E →
    U P (class <- class_new k;; e <- create3 mk class;; f e) Q E G g.
  Proof using.
    intros Hup Hk HP R1 R2 R3 L1 L2 L3 P1 P2 P3 Hf HE.
    eapply (W_entity 6 mk k la lb lc); auto.
    - intros x a b c G' g' Hok' _ X Hne. assert (HX := extn_ext _ _ _ _ _ X).
      assert (XP : extP P G g G' g').
      { split; [done|]. intros y z Hyz Hyz'. apply (ne_edge Hne) in Hyz as [[-> _]|?]; [|done].
        destruct (ne_labs Hne) as (?&_). eauto. }
      eapply W_conseq; [exact (Hf _ _ _ _ _ _ Hok' HX Hne)|apply le_n|..].
      + intros r G2 g2 _ _ _ [??]. split; [by eapply extP_trans|done].
      + intros r G2 g2 _ _ _ [??]. split; [|done]. intros Hfk. eapply extP_trans; eauto.
    - intros ab G' g' [Hfk ?]. split; [by rewrite Hfk|by apply HE].
  Qed.

  (** repository.go 24-42 of the story layer *)
  Lemma U_story_create {A} ch (P : label → Prop) (f : story_ent → prog A) (Q : post A) (E : post abn) G g :
    up G → (∀ k, P (LCls k)) → le_E0 fk E →
    (∀ x a b c G' g', ok F G' g' → ext G g G' g' →
      new_ent storyIdentifier G g x a b c LStFact LStPos (LStTree ch) G' g' →
      U P (f (StoryEnt x a b c)) Q E G' g') →
    U P (bind story_create f) Q E G g.
  Proof using.
    intros Hup HP HE Hf. unfold story_create. apply W_assoc_rev. apply U_class_provide; [done..|].
    apply W_assoc_rev.
    eapply (U_entity P StoryEnt storyIdentifier LStFact LStPos (LStTree ch)); auto; done.
  Qed.

  Lemma ne_story k ch G g x a b c G' g' :
    new_ent k G g x a b c LStFact LStPos (LStTree ch) G' g' → k = storyIdentifier →
    story_base ch G' g' (StoryEnt x a b c).
  Proof using. intros H ->. split; [exact (ne_labs H)|exact (ne_refs _ _ _ _ _ _ _ _ _ _ _ _ H)]. Qed.
  Lemma ne_fact k G g x a b c G' g' :
    new_ent k G g x a b c LFactRem LFactPos LFactStory G' g' → k = factIdentifier →
    fact_base G' g' (FactEnt x a b c).
  Proof using. intros H ->. split; [exact (ne_labs H)|exact (ne_refs _ _ _ _ _ _ _ _ _ _ _ _ H)]. Qed.
  Lemma ne_remark k o p G g x a b c G' g' :
    new_ent k G g x a b c (LRemDet o p) LRemPos LRemFact G' g' → k = remarkIdentifier →
    rem_base G' g' (RemarkEnt x a b c) o p.
  Proof using. intros H ->. split; [exact (ne_labs H)|exact (ne_refs _ _ _ _ _ _ _ _ _ _ _ _ H)]. Qed.

  (** A fact and a story linked to each other.  [f] continues with the fact. *)
  Definition storyF (ch : bool) (G : ghost) (g : graph) (f : fact_ent) : Prop :=
    ∃ s, story_base ch G g s ∧ fact_base G g f ∧
      (fe_story f, se_fact s) ∈ edges g ∧ (se_fact s, fe_story f) ∈ edges g.

  (** Nothing hangs on the node yet. *)
  Definition lone (g : graph) (x : N) : Prop := ∀ y, (x, y) ∉ edges g.

  Definition sto (l : label) : Prop :=
    match l with LCls _ | LFactStory | LStFact => True | _ => False end.
  Lemma sto_upper l : sto l → upper l.
  Proof using. by destruct l. Qed.

  Lemma U_first_story_fact G g :
    up G →
    U sto fact_create_first_story_fact
      (λ a G' g', storyF false G' g' (fa_fact a) ∧ lone g' (fe_remark (fa_fact a))) E0 G g.
  Proof.
    intros Hup. apply W_intro. intros Hok _. unfold fact_create_first_story_fact.
    apply U_class_provide; [done..|].
    eapply (U_entity sto FactEnt factIdentifier LFactRem LFactPos LFactStory); auto; try done.
    intros x a b c G1 g1 Hok1 X1 Hne1. pose proof (up_mono X1 Hup) as Hup1.
    assert (Hk1 : (1 <= factIdentifier <= 8)%N) by done.
    apply (U_story_create false); [done|done|done|].
    intros x' a' b' c' G2 g2 Hok2 X2 Hne2. pose proof (up_mono X2 Hup1) as Hup2.
    assert (Hk2 : (1 <= storyIdentifier <= 8)%N) by done.
    pose proof (ne_fact _ _ _ _ _ _ _ _ _ Hne1 eq_refl) as Hf1. pose proof (fact_base_mono X2 _ Hf1) as Hf2.
    pose proof (ne_story _ _ _ _ _ _ _ _ _ _ Hne2 eq_refl) as Hs2.
    pose proof Hf2 as ((_&Lfr&_&Lfs)&_). pose proof Hs2 as ((_&Lsf&_&_)&_). simpl in Lfr, Lfs, Lsf.
    assert (Hold : ∀ y, y = a ∨ y = b ∨ y = c → ∀ z, (y, z) ∉ edges g2).
    { intros y Hy z Hyz. apply (ne_edge Hne2) in Hyz as [[-> _]|Hyz].
      - pose proof (ne_x _ _ _ _ _ _ _ _ _ _ _ _ Hne2) as Hx.
        destruct (ne_labs Hne1) as (_&?&?&?). destruct Hy as [->|[->| ->]]; congruence.
      - by destruct (ne_iso Hok Hup Hk1 Hne1 y Hy z). }
    assert (Hnew : ∀ z, (a', z) ∉ edges g2) by (intros z; by destruct (ne_iso Hok1 Hup1 Hk2 Hne2 a' ltac:(auto) z)).
    assert (Hca : c ≠ a') by congruence.
    unfold fact_point_to_story, story_point_to_fact. cbn [fe_story se_fact].
    eapply U_seq; [eapply (U_connect sto c a' LFactStory LStFact); auto; try done|done|].
    { intros _ z Hyz. by destruct (Hold c ltac:(auto) z). }
    intros [] G3 g3 Hok3 X3 (->&->).
    eapply U_seq; [eapply (U_connect sto a' c LStFact LFactStory); auto; try done|done|].
    { intros _ z Hyz. simpl in Hyz. apply elem_of_union in Hyz as [Hyz|Hyz]; [|by destruct (Hnew z)].
      apply elem_of_singleton in Hyz. congruence. }
    intros [] G4 g4 Hok4 X4 (->&->).
    apply U_ret. intros _. cbn [fa_fact]. split.
    - exists (StoryEnt x' a' b' c'). split_and!.
      + by apply (story_base_mono X4), (story_base_mono X3).
      + by apply (fact_base_mono X4), (fact_base_mono X3).
      + simpl. set_solver.
      + simpl. set_solver.
    - intros y Hy. simpl in Hy. rewrite !elem_of_union, !elem_of_singleton in Hy.
      destruct Hy as [Hy|[Hy|Hy]]; [congruence|congruence|]. by destruct (Hold a ltac:(auto) y).
  Qed.

  (** ** The detail of a new remark *)
  Lemma U_of_W {A} (P : label → Prop) n (p : prog A) Q E G g :
    W n p Q E G g → (∀ l, rank l ≤ n → P l) → n ≤ 6 → U P p Q E G g.
  Proof using.
    intros H HP Hn. eapply W_conseq; [exact H|exact Hn|..].
    - intros a G' g' _ _ X ?. split; [by eapply extP_extn|done].
    - intros a G' g' _ _ X ?. split; [intros _; by eapply extP_extn|done].
  Qed.

  (** As [U_bind], with the extension and other edges in the first part. *)
  Lemma U_bindP {A B} (P1 P : label → Prop) (p : prog A) (f : A → prog B) Q1 E1 Q (E : post abn) G g :
    U P1 p Q1 E1 G g → (∀ l, P1 l → P l) →
    (∀ a G' g', ok F G' g' → extP P1 G g G' g' → Q1 a G' g' → U P (f a) Q E G' g') →
    (∀ ab G' g', ok F G' g' → ext G g G' g' → (fk = false → extP P1 G g G' g') → E1 ab G' g' → E ab G' g') →
    U P (bind p f) Q E G g.
  Proof using.
    intros Hp HP Hf HE. eapply W_bind; [exact Hp|apply le_n|..].
    - intros a G' g' Hok' _ X' [XP HQ1]. eapply W_conseq; [exact (Hf _ _ _ Hok' XP HQ1)|apply le_n|..].
      + intros b G2 g2 _ _ _ [??]. split; [|done]. eapply extP_trans; [|done]. by eapply extP_le.
      + intros b G2 g2 _ _ _ [??]. split; [|done]. intros Hfk. eapply extP_trans; [|eauto]. by eapply extP_le.
    - intros ab G' g' ? _ X' [??]. split; [intros; eapply extP_le; eauto|].
      apply HE; auto. by eapply extn_ext.
  Qed.

  Lemma lone_keep (P : label → Prop) x l G g G' g' :
    extP P G g G' g' → lab G !! x = Some l → ¬ P l → lone g x → lone g' x.
  Proof using.
    intros [X H] Hl HP Hx y Hy. destruct (H _ _ Hy (Hx y)) as (l'&Hl'&?).
    rewrite (ext_lab_lookup X _ _ Hl) in Hl'. by simplify_eq.
  Qed.

  (** Words and phrases before and after. *)
  Definition follows (ob pr : gostring) (G : ghost) (g : graph) (r : moutcome) (G' : ghost) (g' : graph) : Prop :=
    fk = false → tidy ob → tidy pr → ∀ M, pview_of G g M →
      ∃ M', m_detail M (words_of ob) (words_of pr) = (r, M') ∧ pview_of G' g' M'.

  Lemma follows_pre ob pr G0 g0 G g r G' g' :
    ok F G0 g0 → ok F G g → exth 4 G0 g0 G g → follows ob pr G g r G' g' → follows ob pr G0 g0 r G' g'.
  Proof using. intros Hok0 Hok X H Hfk T1 T2 M HM. eapply H; auto. by eapply (pview_high F M G0 g0). Qed.

  Lemma follows_post ob pr G g r G' g' G2 g2 :
    ok F G' g' → ok F G2 g2 → exth 4 G' g' G2 g2 → follows ob pr G g r G' g' → follows ob pr G g r G2 g2.
  Proof using.
    intros Hok0 Hok X H Hfk T1 T2 M HM. destruct (H Hfk T1 T2 M HM) as (M'&?&?). exists M'. split; [done|].
    by eapply (pview_high F M' G' g').
  Qed.

  Lemma calm_upper G g G' g' : ok F G g → ok F G' g' → extP upper G g G' g' → calm G g → calm G' g'.
  Proof using.
    clear fuel HF Hfuel Hz. intros Hok Hok' X H Hfk. eapply det_ok_high; [exact Hok|exact Hok'|by apply upper_exth|auto].
  Qed.

  Definition low (l : label) : Prop := rank l ≤ 5.

  Lemma U_link ob pr e G g :
    up G → prepared G → calm G g → S (length ob) < F → S (length pr) < F →
    rem_base G g e (words_of ob) (words_of pr) → (∀ y, (y, re_detail e) ∉ edges g) →
    U low (detail <- detail_provide fuel ob pr;; detail_point_to_remark detail (re_detail e))
      (λ _ G' g', up G' ∧ ready G' ∧ calm G' g' ∧ remC G' g' e (words_of ob) (words_of pr) ∧
        follows ob pr G g MOk G' g')
      (detailE ob pr G g) G g.
  Proof.
    intros Hup Hp HD Hob Hpr He Hde. apply W_intro. intros Hok _.
    eapply U_bindP; [eapply (U_of_W (λ l, rank l ≤ 4) 4); [by apply (W_detail_provide fuel Hfuel HF); [left|..]|done|lia]
      |unfold low; lia| |done].
    intros d G1 g1 Hok1 X1 (Hup1&Hrd1&HD1&Hd&HM). unfold detail_point_to_remark.
    destruct Hd as [Hd|[Hfk ->]].
    - assert (HX1 := extP_ext _ _ _ _ _ X1). pose proof (rem_base_mono HX1 _ _ _ He) as He1.
      assert (Hde1 : ∀ y, (y, re_detail e) ∉ edges g1).
      { intros y Hy. destruct X1 as [_ X1]. destruct (X1 _ _ Hy (Hde y)) as (l&Hl&Hrk).
        pose proof He1 as ((_&Ld&_)&_). destruct (ok_edge_labs Hok1 _ _ _ _ Hy Hl Ld) as [Hed _].
        destruct l; simpl in *; lia || done. }
      assert (XE : extP upper G1 g1 G1 (add_edge (de_remark d) (re_detail e) g1)).
      { eapply extP_add_edge; [apply Hd|done]. }
      pose proof Hd as (_&Ld&_). pose proof He1 as ((_&Lr&_)&_).
      eapply U_conseq; [eapply (U_connect low (de_remark d) (re_detail e)); [exact Ld|exact Lr|..]; auto; try done| done|..].
      + unfold low. simpl. lia.
      + intros _ z Hyz. by destruct (Hde1 z).
      + intros [] G2 g2 Hok2 X2 (->&->). split_and!; auto.
        * eapply calm_upper; [exact Hok1|exact Hok2|exact XE|exact HD1].
        * apply extP_ext in X2. split; [by apply (rem_base_mono X2)|]. exists d. split; [by apply (detailC_mono X2)|].
          simpl. set_solver.
        * eapply follows_post; [exact Hok1|exact Hok2|by apply upper_exth; [lia|]|exact HM].
      + intros ab G2 g2 _ _ ?. by left.
    - eapply W_conseq; [by apply (W_connect_zero_strict 6 _ (λ _ _ _, False)), Hz|apply le_n|done|].
      intros ab G2 g2 _ _ _ (->&->&->). split; [by rewrite Hfk|]. left. done.
  Qed.

  (** ** Making remarks *)
  Lemma U_new_remark_any {A} (P : label → Prop) o p (f : remark_ent → prog A) (Q : post A) (E : post abn) G g :
    started G g → prepared G → le_E0 fk E → (∀ l, upper l → P l) →
    (∀ e G' g', ok F G' g' → extP upper G g G' g' → up G' → prepared G' → (calm G g → calm G' g') →
      lab G !! re_class e = None → rem_base G' g' e o p →
      (∀ y, (y, re_detail e) ∉ edges g') → lone g' (re_fact e) → U P (f e) Q E G' g') →
    U P (class_provide;;; c <- class_new remarkIdentifier;; e <- remark_create_entity c;; f e) Q E G g.
  Proof.
    intros Hst Hp HE HP Hf. apply W_intro. intros Hok _.
    eapply (U_bindP upper); [|exact HP| |].
    { eapply W_conseq; [by apply (W_class_provide 6)|apply le_n|..].
      - intros [] G1 g1 Hok1 _ X1 (Hup1&Hb1&He1). apply extn_ext in X1. split; [by apply extP_edges|].
        instantiate (1 := λ _ G1 g1, up G1). exact Hup1.
      - intros ab G1 g1 _ _ _ ?. instantiate (1 := E0). split; [|done]. destruct H as [-> _]. done. }
    2: { intros ab G1 g1 _ _ _ ?. by apply HE. }
    intros [] G1 g1 Hok1 X1 Hup1. assert (HX1 := extP_ext _ _ _ _ _ X1).
    eapply (U_entity P RemarkEnt remarkIdentifier (LRemDet o p) LRemPos LRemFact); auto; try done.
    { intros k. by apply HP. }
    intros x a b c G2 g2 Hok2 X2 Hne.
    assert (XE : extP upper G1 g1 G2 g2).
    { split; [done|]. intros y z Hyz Hyz'. apply (ne_edge Hne) in Hyz as [[-> _]|?]; [|done].
      destruct (ne_labs Hne) as (?&_). by exists (LCls remarkIdentifier). }
    assert (XA : extP upper G g G2 g2) by by eapply extP_trans.
    assert (Hk : (1 <= remarkIdentifier <= 8)%N) by done.
    apply Hf; auto.
    - by apply (up_mono X2).
    - eapply prepared_mono; [by apply (extP_ext _ _ _ _ _ XA)|done].
    - intros HD. eapply calm_upper; [exact Hok|exact Hok2|exact XA|exact HD].
    - pose proof (ne_x _ _ _ _ _ _ _ _ _ _ _ _ Hne) as Hx. simpl.
      destruct (lab G !! x) as [l|] eqn:Hl; [|done]. rewrite (ext_lab_lookup HX1 _ _ Hl) in Hx. done.
    - by eapply ne_remark.
    - intros y. simpl. by destruct (ne_iso Hok1 Hup1 Hk Hne a ltac:(auto) y).
    - intros y. simpl. by destruct (ne_iso Hok1 Hup1 Hk Hne c ltac:(auto) y).
  Qed.

  Lemma U_new_remark {A} (P : label → Prop) o p (f : remark_ent → prog A) (Q : post A) (E : post abn) G g :
    started G g → prepared G → calm G g → le_E0 fk E → (∀ l, upper l → P l) →
    (∀ e G' g', ok F G' g' → extP upper G g G' g' → up G' → prepared G' → calm G' g' →
      lab G !! re_class e = None → rem_base G' g' e o p →
      (∀ y, (y, re_detail e) ∉ edges g') → lone g' (re_fact e) → U P (f e) Q E G' g') →
    U P (class_provide;;; c <- class_new remarkIdentifier;; e <- remark_create_entity c;; f e) Q E G g.
  Proof.
    intros Hst Hp HD HE HP Hf. apply (U_new_remark_any P o p); auto.
  Qed.

  Lemma detailE_pre ob pr G g G1 g1 ab G' g' :
    ok F G g → ok F G1 g1 → extP upper G g G1 g1 → detailE ob pr G1 g1 ab G' g' → detailE ob pr G g ab G' g'.
  Proof using.
    clear fuel Hfuel HF Hz. intros Hok Hok1 X [?|(?&?&?&?&H)]; [by left|right]. split_and!; auto.
    eapply (follows_pre ob pr G g G1 g1); [exact Hok|exact Hok1| |exact H].
    apply upper_exth; [lia|done].
  Qed.

  (** Off node 0 and the positions of facts. *)
  Definition free (l : label) : Prop := l ≠ LZero ∧ l ≠ LFactPos.
  Lemma low_free l : low l → free l.
  Proof using. clear fuel Hfuel HF Hz. destruct l; unfold low, free; simpl; try done; lia. Qed.
  Lemma upper_free l : upper l → free l.
  Proof using. destruct l; unfold free; simpl; done. Qed.

  (** The state after a remark was made. *)
  Definition storeQ (ob pr : gostring) (G : ghost) (g : graph) (e : remark_ent) (G' : ghost) (g' : graph) : Prop :=
    up G' ∧ ready G' ∧ calm G' g' ∧ lab G !! re_class e = None ∧ follows ob pr G g MOk G' g'.

  Lemma U_create_story ob pr G g :
    started G g → prepared G → calm G g → S (length ob) < F → S (length pr) < F →
    U free (create_story fuel ob pr)
      (λ e G' g', storeQ ob pr G g e G' g' ∧
        ∃ f, remF G' g' e (words_of ob) (words_of pr) f ∧ storyP False G' g' f e)
      (detailE ob pr G g) G g.
  Proof.
    intros Hst Hp HD Hob Hpr. apply W_intro. intros Hok _. unfold create_story.
    eapply (U_new_remark free (words_of ob) (words_of pr)); auto using upper_free; [by left|].
    intros e G1 g1 Hok1 X1 Hup1 Hp1 HD1 Hfr He1 Hde Hlo.
    apply W_assoc.
    eapply (U_bindP low); [by apply U_link|apply low_free| |].
    2: { intros ab G2 g2 _ _ _ H. by eapply detailE_pre. }
    intros [] G2 g2 Hok2 X2 (Hup2&Hrd2&HD2&He2&HM2).
    assert (Hlo2 : lone g2 (re_fact e)).
    { eapply (lone_keep low); [exact X2|apply He1| |done]. unfold low. simpl. lia. }
    eapply (U_bindP sto); [by apply U_first_story_fact|intros l ?; by apply upper_free, sto_upper| |by left].
    intros a G3 g3 Hok3 X3 (HsF&Hlf).
    destruct HsF as (st&Hst3&Hf3&Hfs&Hsf). destruct a as [fa sf]. cbn [fa_fact] in *.
    assert (HX3 := extP_ext _ _ _ _ _ X3). pose proof (remC_mono HX3 _ _ _ He2) as He3.
    assert (Hlo3 : lone g3 (re_fact e)).
    { eapply (lone_keep sto); [exact X3|apply He2| |done]. simpl. tauto. }
    pose proof He3 as (((_&_&_&Lrf)&_)&_). pose proof Hf3 as ((_&Lfr&_&_)&_).
    pose proof (up_mono HX3 Hup2) as Hup3.
    unfold remark_point_to_fact, fact_point_to_remark.
    eapply (U_bindP upper); [eapply (U_connect upper (re_fact e) (fe_remark fa) LRemFact LFactRem); auto; try done|apply upper_free| |by left].
    { intros _ z Hyz. by destruct (Hlo3 z). }
    intros [] G4 g4 Hok4 X4 (->&->).
    assert (HX4 := extP_ext _ _ _ _ _ X4).
    eapply (U_bindP upper); [eapply (U_connect upper (fe_remark fa) (re_fact e) LFactRem LRemFact); auto; try done|apply upper_free| |by left].
    { intros _ z Hyz. simpl in Hyz. apply elem_of_union in Hyz as [Hyz|Hyz]; [|by destruct (Hlf z)].
      apply elem_of_singleton in Hyz. congruence. }
    intros [] G5 g5 Hok5 X5 (->&->).
    assert (HX5 := extP_ext _ _ _ _ _ X5).
    assert (XA : extP upper G2 g2 G3 (add_edge (fe_remark fa) (re_fact e) (add_edge (re_fact e) (fe_remark fa) g3))).
    { eapply extP_trans; [eapply extP_le; [apply sto_upper|exact X3]|]. by eapply extP_trans. }
    apply U_ret. intros _. split.
    - split_and!; auto.
      + eapply ready_mono; [exact (extP_ext _ _ _ _ _ XA)|done].
      + eapply calm_upper; [exact Hok2|exact Hok5|exact XA|exact HD2].
      + eapply follows_pre; [exact Hok|exact Hok1|apply upper_exth; [lia|exact X1]|].
        eapply follows_post; [exact Hok2|exact Hok5|apply upper_exth; [lia|exact XA]|exact HM2].
    - exists fa. split.
      + split_and!; [by apply (remC_mono HX5), (remC_mono HX4)|by apply (fact_base_mono HX5), (fact_base_mono HX4)|].
        apply (ext_edge HX5). simpl. set_solver.
      + exists st, fa, (words_of ob), (words_of pr), false. split_and!; [done|..].
        * by apply (story_base_mono HX5), (story_base_mono HX4).
        * by apply (fact_base_mono HX5), (fact_base_mono HX4).
        * by apply (rem_base_mono HX5), (rem_base_mono HX4), He3.
        * by apply (ext_edge HX5), (ext_edge HX4).
        * by apply (ext_edge HX5), (ext_edge HX4).
        * simpl. set_solver.
  Qed.

  Lemma U_add_remark_to_fact a oa pa fa pr G g :
    remF G g a oa pa fa → up G → ready G → calm G g →
    S (length (text_of oa)) < F → S (length pr) < F →
    U free (add_remark_to_fact fuel a pr)
      (λ e G' g', storeQ (text_of oa) pr G g e G' g' ∧
        remF G' g' e (words_of (text_of oa)) (words_of pr) fa)
      (detailE (text_of oa) pr G g) G g.
  Proof.
    intros Ha Hup Hrd HD Hob Hpr. apply W_intro. intros Hok _. unfold add_remark_to_fact.
    eapply (U_new_remark free (words_of (text_of oa)) (words_of pr)); auto using upper_free; [by left|by intros _|by left|].
    intros e G1 g1 Hok1 X1 Hup1 Hp1 HD1 Hfr He1 Hde Hlo.
    assert (HX1 := extP_ext _ _ _ _ _ X1).
    apply W_assoc3.
    eapply (U_seqR _ (get_object_and_property fuel a)); [eapply R_get_object_and_property; [apply (remC_mono HX1), Ha|done]|by left|].
    intros ? _ ->. cbn beta iota.
    apply W_assoc.
    eapply (U_bindP low); [by apply U_link|apply low_free| |].
    2: { intros ab G2 g2 _ _ _ H. by eapply detailE_pre. }
    intros [] G2 g2 Hok2 X2 (Hup2&Hrd2&HD2&He2&HM2).
    assert (Hlo2 : lone g2 (re_fact e)).
    { eapply (lone_keep low); [exact X2|apply He1| |done]. unfold low. simpl. lia. }
    assert (HX2 := extP_ext _ _ _ _ _ X2).
    pose proof (remF_mono HX2 _ _ _ _ (remF_mono HX1 _ _ _ _ Ha)) as ((((_&_&_&Laf)&_)&_)&Hf&Haf).
    unfold remark_get_target_fact.
    eapply U_seqR; [by eapply R_single_target|by left|]. intros ? _ ->.
    unfold fact_fetch_by_remark. apply W_assoc_rev.
    eapply U_seqR; [by eapply R_fact_read_by_remark|by left|]. intros ? _ ->. cbn [bind fa_fact].
    pose proof He2 as (((_&_&_&Lrf)&_)&_). pose proof Hf as ((_&Lfr&_&_)&_).
    unfold remark_point_to_fact.
    eapply (U_bindP upper); [eapply (U_connect upper (re_fact e) (fe_remark fa) LRemFact LFactRem); auto; try done|apply upper_free| |by left].
    { intros _ z Hyz. by destruct (Hlo2 z). }
    intros [] G4 g4 Hok4 X4 (->&->). assert (HX4 := extP_ext _ _ _ _ _ X4).
    apply U_ret. intros _. split.
    - split_and!; auto.
      + eapply calm_upper; [exact Hok2|exact Hok4|exact X4|exact HD2].
      + eapply follows_pre; [exact Hok|exact Hok1|apply upper_exth; [lia|exact X1]|].
        eapply follows_post; [exact Hok2|exact Hok4|apply upper_exth; [lia|exact X4]|exact HM2].
    - split_and!; [by apply (remC_mono HX4)|by apply (fact_base_mono HX4)|]. simpl. set_solver.
  Qed.

  (** ** A storage that answers for node 0 *)

  (** Where edges are added then. *)
  Definition zst (l : label) : Prop :=
    match l with LCls _ | LFactStory | LStFact | LZero | LFactPos | LStTree _ => True | _ => False end.

  Lemma U_connect_zero (P : label → Prop) x y lx ly G g :
    zp = ZNode → lab G !! x = Some lx → lab G !! y = Some ly → edge_ok lx ly → P lx →
    (∀ k, ly ≠ LRoot k) → up G → ok F G g →
    exposed G (add_edge x y g) lx ly y →
    (sole lx → ∀ z, (x, z) ∈ edges g → z = y) →
    (one_source ly → ∀ z, (z, y) ∈ edges g → z = x) →
    (distinct_children lx → ∀ z, (x, z) ∈ edges g → lab G !! z = Some ly → z = y) →
    U P (st_connect x y) (λ _ G' g', G' = G ∧ g' = add_edge x y g) E0 G g.
  Proof using.
    intros Ez Hx Hy He HP Hr Hup Hok ????. eapply W_conseq; [eapply (W_connect_zero 6); eauto|apply le_n|..].
    - clear fuel Hfuel HF Hz. destruct lx; simpl; lia.
    - by eapply not_bit_root.
    - intros [] G' g' _ _ _ (->&->). split; [by eapply extP_add_edge|done].
    - intros ab G' g' _ _ _ [Hfk ?]. split; [|done]. by rewrite Hfk.
  Qed.

  Lemma U_next_fact a o p n G g :
    zp = ZNode → rem_base G g a o p → up G → znum G g n →
    U zst (fact_create_next_fact (re_fact a))
      (λ r G' g', fact_base G' g' (fa_fact r) ∧ (fe_story (fa_fact r), 0%N) ∈ edges g' ∧
        znum G' g' (match n with 0 => 1 | _ => 2 end)) E0 G g.
  Proof.
    intros Ez Ha Hup Hn. apply W_intro. intros Hok _. unfold fact_create_next_fact.
    eapply U_seqR; [by eapply R_fact_of_lenient|done|]. intros ? _ ->.
    eapply U_seqR; [by apply R_story_zero|done|]. intros ? _ ->. cbn [se_fact fe_position].
    apply U_class_provide; [done..|].
    eapply (U_entity zst FactEnt factIdentifier LFactRem LFactPos LFactStory); auto; try done.
    intros x a' b c G1 g1 Hok1 X1 Hne1. pose proof (up_mono X1 Hup) as Hup1.
    assert (Hk1 : (1 <= factIdentifier <= 8)%N) by done.
    pose proof (ne_fact _ _ _ _ _ _ _ _ _ Hne1 eq_refl) as Hf1.
    pose proof Hf1 as ((_&_&Lfp&Lfs)&_). simpl in Lfp, Lfs.
    pose proof (ok_zero _ _ _ Hok1) as L0.
    assert (Hiso : ∀ y, y = a' ∨ y = b ∨ y = c → iso g1 y) by (intros y Hy; by eapply (ne_iso Hok Hup Hk1 Hne1)).
    assert (Hn1 : ∀ y, (0%N, y) ∈ edges g1 → (0%N, y) ∈ edges g).
    { intros y Hy. apply (ne_edge Hne1) in Hy as [[<- _]|?]; [|done].
      pose proof (ne_x _ _ _ _ _ _ _ _ _ _ _ _ Hne1) as Hx. by rewrite (ok_zero _ _ _ Hok) in Hx. }
    unfold fact_point_to_story, fact_point_to_position. cbn [fe_story fe_position].
    eapply U_seq; [eapply (U_connect_zero zst c 0%N LFactStory LZero); auto; try done|done|].
    { intros _ z Hyz. by destruct (Hiso c ltac:(auto) z). }
    intros [] G2 g2 Hok2 X2 (->&->).
    eapply U_seq; [eapply (U_connect_zero zst 0%N b LZero LFactPos); auto; try done|done|].
    intros [] G3 g3 Hok3 X3 (->&->).
    apply U_ret. intros _. cbn [fa_fact fe_story]. split_and!.
    - by apply (fact_base_mono X3), (fact_base_mono X2).
    - simpl. set_solver.
    - assert (Hb0 : b ≠ 0%N) by congruence. assert (Hc0 : c ≠ 0%N) by congruence.
      destruct n as [|n].
      + exists b. split_and!; [done| |].
        * intros z. simpl. rewrite !elem_of_union, !elem_of_singleton. split.
          -- intros [?|[?|Hyz]]; [congruence|congruence|]. destruct (Hn z). by apply Hn1.
          -- intros ->. auto.
        * intros z Hyz. simpl in Hyz. rewrite !elem_of_union, !elem_of_singleton in Hyz.
          destruct Hyz as [?|[?|Hyz]]; [congruence|congruence|]. by destruct (Hiso b ltac:(auto) z).
      + assert (∃ y, (0%N, y) ∈ edges g) as [y Hy].
        { destruct n as [|n]; [destruct Hn as (y&_&Hy&_); exists y; by apply Hy|destruct Hn as (y&y'&_&Hy&_); eauto]. }
        exists b, y. split_and!.
        * intros <-. assert (HX := X1). apply (ext_edge X1) in Hy.
          destruct (Hiso b ltac:(auto) 0%N) as [_ Hno]. done.
        * simpl. set_solver.
        * apply (ext_edge X3), (ext_edge X2), (ext_edge X1), Hy.
  Qed.

  (** The targets of node 0 as a list. *)
  Definition zlist (n : nat) (G : ghost) (g : graph) (ts : list N) : Prop :=
    match n with
    | 0 => ts = []
    | 1 => ∃ y, ts = [y] ∧ lab G !! y = Some LFactPos ∧ (0%N, y) ∈ edges g ∧ lone g y
    | _ => ∃ y y' l, ts = y :: y' :: l
    end.

  Lemma znum_list n G g ts : znum G g n → NoDup ts → (∀ y, y ∈ ts ↔ (0%N, y) ∈ edges g) → zlist n G g ts.
  Proof using.
    intros Hn Hnd Hts. destruct n as [|[|n]]; simpl.
    - destruct ts as [|y ts]; [done|]. destruct (Hn y). apply Hts. left.
    - destruct Hn as (y&Ly&Hy&Hl). exists y. split_and!; [|done|by apply Hy|done]. apply NoDup_single; [done| |].
      + by apply Hts, Hy.
      + intros z Hz'. by apply Hts, Hy in Hz'.
    - destruct Hn as (y&y'&Hne&H1&H2). apply Hts in H1, H2. destruct ts as [|u [|v ts]]; [by inversion H1| |eauto].
      apply elem_of_list_singleton in H1, H2. congruence.
  Qed.

  Lemma R_zlist n G g : zp = ZNode → znum G g n →
    R (st_targets 0) (λ ts G' g', G' = G → g' = g → zlist n G g ts) E0 G g.
  Proof using.
    intros Ez Hn. eapply R_conseq; [by apply R_targets_zero| |by auto].
    intros ts G' g' _ _ [Hnd Hts] -> ->. by apply znum_list.
  Qed.

  (** A story read from the position node of a fact. *)
  Lemma R_story_of_position y G g :
    zp = ZNode → lab G !! y = Some LFactPos →
    R (story_read_by_position y) (λ s _ _, se_position s = y) E0 G g.
  Proof.
    intros Ez Ly. unfold story_read_by_position.
    eapply R_seq; [by eapply R_getref|done|]. intros r G1 g1 Hok1 X1 ->. cbn beta iota.
    destruct (bwd g1 !! y) as [f|] eqn:Hf; cbn [default].
    - pose proof Hf as Hf'. apply (ok_inv _ _ _ Hok1) in Hf'. destruct (ok_ref _ _ _ Hok1 _ _ Hf') as (lx&ly&Hx&Hy&Hr).
      rewrite (ext_lab_lookup X1 _ _ Ly) in Hy. simplify_eq.
      eapply R_seq; [eapply R_getref; [exact Hx|by destruct lx]|done|].
      intros r G2 g2 _ _ ->. cbn beta iota. by apply R_ret.
    - eapply R_then; [by apply R_getref_zero|done|].
      intros G2 g2 _ _. cbn beta iota. by apply R_ret.
  Qed.

  Lemma U_child_fact a o p n G g :
    zp = ZNode → rem_base G g a o p → up G → znum G g n →
    U zst (fact_create_child_story_fact fuel (re_fact a))
      (λ r G' g', storyF true G' g' (fa_fact r) ∧ lone g' (fe_remark (fa_fact r)) ∧
        n ≤ 1 ∧ znum G' g' (match n with 0 => 0 | _ => 2 end))
      (λ ab G' g', E0 ab G' g' ∨ ab = AErr EStoryNext ∧ 2 ≤ n ∧ znum G' g' n) G g.
  Proof.
    intros Ez Ha Hup Hn. apply W_intro. intros Hok _. unfold fact_create_child_story_fact.
    eapply U_seqR; [by eapply R_fact_of_lenient|by left|]. intros ? _ ->.
    eapply U_seqR; [by apply R_story_zero|by left|]. intros ? _ ->.
    unfold story_has_target_tree. cbn [se_tree]. apply W_assoc_rev.
    eapply U_seqR; [by apply (R_zlist n)|by left|]. intros ts _ Hts. specialize (Hts eq_refl eq_refl).
    cbn [bind].
    apply (U_story_create true); [done|done|by left|].
    intros x0 a0 b0 c0 G1 g1 Hok1 X1 Hne1. pose proof (up_mono X1 Hup) as Hup1.
    assert (Hk1 : (1 <= storyIdentifier <= 8)%N) by done.
    pose proof (ne_story _ _ _ _ _ _ _ _ _ _ Hne1 eq_refl) as Hs1.
    pose proof Hs1 as ((_&Lsf&Lsp&Lst)&_). simpl in Lsf, Lsp, Lst.
    pose proof (ok_zero _ _ _ Hok1) as L0.
    assert (Hiso1 : ∀ y, y = a0 ∨ y = b0 ∨ y = c0 → iso g1 y) by (intros y Hy; by eapply (ne_iso Hok Hup Hk1 Hne1)).
    assert (Hn1 : znum G1 g1 n).
    { eapply znum_keep; [exact Hok|exact Hok1| |exact Hn]. split; [done|].
      intros y z Hyz Hyz'. apply (ne_edge Hne1) in Hyz as [[-> _]|?]; [|done].
      destruct (ne_labs Hne1) as (?&_). by exists (LCls storyIdentifier). }
    unfold story_point_to_tree. cbn [se_tree].
    eapply U_seq; [eapply (U_connect_zero zst c0 0%N (LStTree true) LZero); auto; try done|by left|].
    intros [] G2 g2 Hok2 X2 (->&->).
    set (g2 := add_edge c0 0%N g1) in *.
    assert (Hn2 : znum G1 g2 n).
    { eapply znum_keep; [exact Hok1|exact Hok2| |exact Hn1]. by eapply extP_add_edge. }
    (* the sibling branch *)
    eapply (U_bindP zst _ _ _
      (λ _ G3 g3, G3 = G1 ∧ n ≤ 1 ∧ znum G1 g3 (match n with 0 => 0 | _ => 2 end) ∧
         ∀ z, (a0, z) ∉ edges g3) (λ ab G' g', E0 ab G' g' ∨ ab = AErr EStoryNext ∧ 2 ≤ n ∧ znum G' g' n));
      [|done| |done].
    { destruct n as [|n].
      - simpl in Hts. subst ts. cbn [nonempty]. apply U_ret. intros _. split_and!; [done|lia|done|].
        intros z Hyz. unfold g2 in Hyz. simpl in Hyz. apply elem_of_union in Hyz as [Hyz|Hyz].
        + apply elem_of_singleton in Hyz. congruence.
        + by destruct (Hiso1 a0 ltac:(auto) z).
      - replace (nonempty ts) with true.
        2: { destruct n; [by destruct Hts as (?&->&_)|by destruct Hts as (?&?&?&->)]. }
        eapply U_seqR; [by apply R_tree_zero|by left|]. intros ? _ ->.
        assert (Hfu : ∃ f', fuel = S (S f')) by (exists (pred (pred fuel)); lia).
        destruct Hfu as [f' Hfu]. rewrite Hfu. clear Hfu.
        cbn [fact_last_sibling se_position]. unfold story_has_target_position at 1. cbn [se_position].
        apply W_assoc_rev. apply W_assoc_rev.
        eapply U_seqR; [by apply (R_zlist (S n) G1 g2)|by left|]. intros ts2 _ Hts2. specialize (Hts2 eq_refl eq_refl).
        cbn [bind]. replace (nonempty ts2) with true.
        2: { destruct n; [by destruct Hts2 as (?&->&_)|by destruct Hts2 as (?&?&?&->)]. }
        cbn [negb]. unfold story_get_target_position at 1. cbn [se_position]. apply W_assoc_rev. apply W_assoc_rev.
        eapply U_seqR; [by apply (R_zlist (S n) G1 g2)|by left|]. clear ts2 Hts2. intros ts2 _ Hts2. specialize (Hts2 eq_refl eq_refl).
        destruct n as [|n].
        2: { destruct Hts2 as (?&?&?&->). cbn [single bind]. apply U_throw. intros _. right.
             split_and!; [done|lia|done]. }
        destruct Hts2 as (y&->&Ly&H0y&Hly). cbn [single bind]. apply W_assoc_rev.
        eapply U_seqR; [by eapply R_story_of_position|by left|]. intros [x3 a3 b3 c3] _ Hpos. simpl in Hpos. subst b3.
        unfold story_has_target_position. cbn [se_position]. apply W_assoc_rev. apply W_assoc_rev.
        eapply U_seqR; [by eapply R_targets|by left|].
        intros ts3 _ [_ Hts3]. assert (ts3 = []) as ->.
        { destruct ts3 as [|t ts3]; [done|]. destruct (Hly t). apply Hts3. left. }
        cbn [nonempty negb bind]. unfold story_point_to_position, story_point_to_tree. cbn [se_position se_tree].
        eapply U_seq; [eapply (U_connect_zero zst y b0 LFactPos LStPos); auto; try done|by left|].
        intros [] G3 g3 Hok3 X3 (->&->).
        eapply U_conseq; [eapply (U_connect_zero zst 0%N c0 LZero (LStTree true)); auto; try done|done| |by left].
        intros [] G4 g4 Hok4 X4 (->&->). split_and!; [done|lia| |].
        + exists y, c0. split_and!; [congruence| |].
          * apply extP_ext in X4. by apply (ext_edge X4), (ext_edge X3).
          * simpl. set_solver.
        + intros z Hyz. unfold g2 in Hyz. simpl in Hyz. rewrite !elem_of_union, !elem_of_singleton in Hyz.
          destruct Hyz as [?|[?|[?|Hyz]]]; [congruence|congruence|congruence|]. by destruct (Hiso1 a0 ltac:(auto) z). }
    intros [] G3 g3 Hok3 X3 (->&Hn'&Hn3&Hlo).
    assert (HX3 := extP_ext _ _ _ _ _ X3).
    apply U_class_provide; [done|by left|].
    eapply (U_entity zst FactEnt factIdentifier LFactRem LFactPos LFactStory); auto; try done; [|by left].
    intros x4 a4 b4 c4 G4 g4 Hok4 X4 Hne4. pose proof (up_mono X4 Hup1) as Hup4.
    assert (Hk4 : (1 <= factIdentifier <= 8)%N) by done.
    pose proof (ne_fact _ _ _ _ _ _ _ _ _ Hne4 eq_refl) as Hf4.
    pose proof Hf4 as ((_&Lfr&_&Lfs)&_). simpl in Lfr, Lfs.
    pose proof (story_base_mono X4 _ (story_base_mono HX3 _ (story_base_mono X2 _ Hs1))) as Hs4.
    assert (Hiso4 : ∀ y, y = a4 ∨ y = b4 ∨ y = c4 → iso g4 y) by (intros y Hy; by eapply (ne_iso Hok3 Hup1 Hk4 Hne4)).
    assert (Hlo4 : lone g4 a0).
    { intros z Hyz. apply (ne_edge Hne4) in Hyz as [[-> _]|Hyz]; [|by destruct (Hlo z)].
      pose proof (ne_x _ _ _ _ _ _ _ _ _ _ _ _ Hne4). congruence. }
    assert (Hn4 : znum G4 g4 (match n with 0 => 0 | _ => 2 end)).
    { eapply znum_keep; [exact Hok3|exact Hok4| |exact Hn3]. split; [done|].
      intros y z Hyz Hyz'. apply (ne_edge Hne4) in Hyz as [[-> _]|?]; [|done].
      destruct (ne_labs Hne4) as (?&_). by exists (LCls factIdentifier). }
    pose proof Hs4 as ((_&Lsf4&_)&_). simpl in Lsf4.
    unfold fact_point_to_story, story_point_to_fact. cbn [fe_story se_fact].
    eapply U_seq; [eapply (U_connect zst c4 a0 LFactStory LStFact); auto; try done|by left|].
    { intros _ z Hyz. by destruct (Hiso4 c4 ltac:(auto) z). }
    intros [] G5 g5 Hok5 X5 (->&->).
    eapply U_seq; [eapply (U_connect zst a0 c4 LStFact LFactStory); auto; try done|by left|].
    { intros _ z Hyz. simpl in Hyz. apply elem_of_union in Hyz as [Hyz|Hyz]; [|by destruct (Hlo4 z)].
      apply elem_of_singleton in Hyz. congruence. }
    intros [] G6 g6 Hok6 X6 (->&->).
    apply U_ret. intros _. cbn [fa_fact]. split_and!; [| |done|].
    - exists (StoryEnt x0 a0 b0 c0). split_and!.
      + by apply (story_base_mono X6), (story_base_mono X5).
      + by apply (fact_base_mono X6), (fact_base_mono X5).
      + simpl. set_solver.
      + simpl. set_solver.
    - intros z Hyz. simpl in Hyz. rewrite !elem_of_union, !elem_of_singleton in Hyz.
      destruct Hyz as [?|[?|Hyz]]; [congruence|congruence|]. by destruct (Hiso4 a4 ltac:(auto) z).
    - eapply znum_keep; [exact Hok4|exact Hok6| |exact Hn4].
      eapply extP_trans; by eapply extP_add_edge.
  Qed.

  (** ** Facts and child stories added through a remark *)
  Definition every (_ : label) : Prop := True.

  (** The calls whose last part fails: a remark is left behind without a fact. *)
  Definition brokenE (e0 : err) (ob pr : gostring) (G : ghost) (g : graph) : post abn := λ ab G' g',
    ab = AErr e0 ∧ up G' ∧ ready G' ∧ calm G' g' ∧ follows ob pr G g MOk G' g'.

  Lemma zst_exth k G g G' g' : k ≤ 5 → extP zst G g G' g' → exth k G g G' g'.
  Proof using. clear fuel Hfuel HF Hz. intros Hk. apply extP_exth. intros [] Hl; simpl in *; try done; lia. Qed.

  Lemma calm_zst G g G' g' : ok F G g → ok F G' g' → extP zst G g G' g' → calm G g → calm G' g'.
  Proof using.
    clear fuel HF Hfuel Hz. intros Hok Hok' X H Hfk. eapply det_ok_high; [exact Hok|exact Hok'|by apply zst_exth|auto].
  Qed.

  Lemma U_add_fact_to_story a oa pa ob pr n G g :
    rem_base G g a oa pa → up G → ready G → calm G g → S (length ob) < F → S (length pr) < F → (fk = false → znum G g n) →
    U every (add_fact_to_story fuel a ob pr)
      (λ e G' g', zp = ZNode ∧ storeQ ob pr G g e G' g' ∧
        (∃ f, remF G' g' e (words_of ob) (words_of pr) f ∧ (fe_story f, 0%N) ∈ edges g') ∧
        znum G' g' (match n with 0 => 1 | _ => 2 end))
      (λ ab G' g', (detailE ob pr G g ab G' g' ∨ zp = ZStrict ∧ brokenE EStorage ob pr G g ab G' g') ∧
        (fk = false → znum G' g' n)) G g.
  Proof.
    intros Ha Hup Hrd HD Hob Hpr Hn. apply W_intro. intros Hok _. unfold add_fact_to_story.
    assert (HE0 : le_E0 fk (λ ab G' g', (detailE ob pr G g ab G' g' ∨ zp = ZStrict ∧ brokenE EStorage ob pr G g ab G' g') ∧
        (fk = false → znum G' g' n))).
    { intros ab G' g' H. split; [by left; left|]. destruct H as [-> _]. done. }
    eapply (U_new_remark every (words_of ob) (words_of pr)); auto; [by left|by intros _|done|].
    intros e G1 g1 Hok1 X1 Hup1 Hp1 HD1 Hfr He1 Hde Hlo.
    assert (HX1 := extP_ext _ _ _ _ _ X1).
    assert (Hn1 : fk = false → znum G1 g1 n).
    { intros Hfk. eapply znum_keep; [exact Hok|exact Hok1| |exact (Hn Hfk)]. eapply extP_le; [exact upper_free|exact X1]. }
    apply W_assoc.
    eapply (U_bindP low); [by apply U_link|done| |].
    2: { intros ab G2 g2 Hok2 _ X2 H. split; [left; eapply detailE_pre; [exact Hok|exact Hok1|exact X1|exact H]|]. intros Hfk.
      eapply znum_keep; [exact Hok1|exact Hok2| |exact (Hn1 Hfk)]. eapply extP_le; [exact low_free|auto]. }
    intros [] G2 g2 Hok2 X2 (Hup2&Hrd2&HD2&He2&HM2).
    assert (HX2 := extP_ext _ _ _ _ _ X2).
    assert (Hlo2 : lone g2 (re_fact e)).
    { eapply (lone_keep low); [exact X2|apply He1| |done]. unfold low. simpl. lia. }
    assert (Hn2 : fk = false → znum G2 g2 n).
    { intros Hfk. eapply znum_keep; [exact Hok1|exact Hok2| |exact (Hn1 Hfk)]. eapply extP_le; [exact low_free|exact X2]. }
    pose proof (rem_base_mono HX2 _ _ _ (rem_base_mono HX1 _ _ _ Ha)) as Ha2.
    assert (HM0 : follows ob pr G g MOk G2 g2).
    { eapply follows_pre; [exact Hok|exact Hok1|apply upper_exth; [lia|exact X1]|exact HM2]. }
    destruct (zp_cases zp) as [Ez|Ez].
    { unfold fact_create_next_fact. apply W_assoc_rev.
      eapply U_bind; [apply U_R; by eapply (R_fact_of_strict _ _ _ (λ _ _ _, False))|by intros ? ? ? ? ? (?&?&?)|].
      intros ab G3 g3 (->&->&[?| ->]); [by apply HE0|]. split; [|done]. right. done. }
    assert (Hfk : fk = false) by (apply not_true_is_false; intros Hfk; apply Hz in Hfk; congruence).
    specialize (Hn2 Hfk).
    eapply (U_bindP zst); [by apply (U_next_fact a oa pa n)|done| |].
    2: { intros ab G3 g3 _ _ _ ?. by apply HE0. }
    intros [fa sf] G3 g3 Hok3 X3 (Hf3&Hs3&Hn3). cbn [fa_fact] in *.
    assert (HX3 := extP_ext _ _ _ _ _ X3). pose proof (remC_mono HX3 _ _ _ He2) as He3.
    assert (Hlo3 : lone g3 (re_fact e)).
    { eapply (lone_keep zst); [exact X3|apply He2| |done]. simpl. tauto. }
    pose proof He3 as (((_&_&_&Lrf)&_)&_). pose proof Hf3 as ((_&Lfr&_&_)&_).
    pose proof (up_mono HX3 Hup2) as Hup3.
    unfold remark_point_to_fact.
    eapply (U_bindP upper); [eapply (U_connect upper (re_fact e) (fe_remark fa) LRemFact LFactRem); auto; try done|done| |].
    { intros _ z Hyz. by destruct (Hlo3 z). }
    2: { intros ab G4 g4 _ _ _ ?. by apply HE0. }
    intros [] G4 g4 Hok4 X4 (->&->). assert (HX4 := extP_ext _ _ _ _ _ X4).
    apply U_ret. intros _. split_and!; [done| | |].
    - split_and!; auto.
      + eapply ready_mono; [exact HX4|]. eapply ready_mono; [exact HX3|exact Hrd2].
      + eapply calm_upper; [exact Hok3|exact Hok4|exact X4|].
        eapply calm_zst; [exact Hok2|exact Hok3|exact X3|exact HD2].
      + eapply follows_post; [exact Hok3|exact Hok4|apply upper_exth; [lia|exact X4]|].
        eapply follows_post; [exact Hok2|exact Hok3|apply zst_exth; [lia|exact X3]|exact HM0].
    - exists fa. split; [|by apply (ext_edge HX4)].
      split_and!; [by apply (remC_mono HX4)|by apply (fact_base_mono HX4)|]. simpl. set_solver.
    - eapply znum_keep; [exact Hok3|exact Hok4| |exact Hn3]. eapply extP_le; [exact upper_free|exact X4].
  Qed.

  Lemma U_create_child_story a oa pa ob pr n G g :
    rem_base G g a oa pa → up G → ready G → calm G g → S (length ob) < F → S (length pr) < F → (fk = false → znum G g n) →
    U every (create_child_story fuel a ob pr)
      (λ e G' g', zp = ZNode ∧ n ≤ 1 ∧ storeQ ob pr G g e G' g' ∧
        (∃ f, remF G' g' e (words_of ob) (words_of pr) f ∧ storyP True G' g' f e) ∧
        znum G' g' (match n with 0 => 0 | _ => 2 end))
      (λ ab G' g', (detailE ob pr G g ab G' g' ∨ zp = ZStrict ∧ brokenE EStorage ob pr G g ab G' g' ∨
          zp = ZNode ∧ 2 ≤ n ∧ brokenE EStoryNext ob pr G g ab G' g') ∧
        (fk = false → znum G' g' n)) G g.
  Proof.
    intros Ha Hup Hrd HD Hob Hpr Hn. apply W_intro. intros Hok _. unfold create_child_story.
    assert (HE0 : le_E0 fk (λ ab G' g', (detailE ob pr G g ab G' g' ∨ zp = ZStrict ∧ brokenE EStorage ob pr G g ab G' g' ∨
          zp = ZNode ∧ 2 ≤ n ∧ brokenE EStoryNext ob pr G g ab G' g') ∧
        (fk = false → znum G' g' n))).
    { intros ab G' g' H. split; [by left; left|]. destruct H as [-> _]. done. }
    eapply (U_new_remark every (words_of ob) (words_of pr)); auto; [by left|by intros _|done|].
    intros e G1 g1 Hok1 X1 Hup1 Hp1 HD1 Hfr He1 Hde Hlo.
    assert (HX1 := extP_ext _ _ _ _ _ X1).
    assert (Hn1 : fk = false → znum G1 g1 n).
    { intros Hfk. eapply znum_keep; [exact Hok|exact Hok1| |exact (Hn Hfk)]. eapply extP_le; [exact upper_free|exact X1]. }
    apply W_assoc.
    eapply (U_bindP low); [by apply U_link|done| |].
    2: { intros ab G2 g2 Hok2 _ X2 H. split; [left; eapply detailE_pre; [exact Hok|exact Hok1|exact X1|exact H]|]. intros Hfk.
      eapply znum_keep; [exact Hok1|exact Hok2| |exact (Hn1 Hfk)]. eapply extP_le; [exact low_free|auto]. }
    intros [] G2 g2 Hok2 X2 (Hup2&Hrd2&HD2&He2&HM2).
    assert (HX2 := extP_ext _ _ _ _ _ X2).
    assert (Hlo2 : lone g2 (re_fact e)).
    { eapply (lone_keep low); [exact X2|apply He1| |done]. unfold low. simpl. lia. }
    assert (Hn2 : fk = false → znum G2 g2 n).
    { intros Hfk. eapply znum_keep; [exact Hok1|exact Hok2| |exact (Hn1 Hfk)]. eapply extP_le; [exact low_free|exact X2]. }
    pose proof (rem_base_mono HX2 _ _ _ (rem_base_mono HX1 _ _ _ Ha)) as Ha2.
    assert (HM0 : follows ob pr G g MOk G2 g2).
    { eapply follows_pre; [exact Hok|exact Hok1|apply upper_exth; [lia|exact X1]|exact HM2]. }
    destruct (zp_cases zp) as [Ez|Ez].
    { unfold fact_create_child_story_fact. apply W_assoc_rev.
      eapply U_bind; [apply U_R; by eapply (R_fact_of_strict _ _ _ (λ _ _ _, False))|by intros ? ? ? ? ? (?&?&?)|].
      intros ab G3 g3 (->&->&[?| ->]); [by apply HE0|]. split; [|done]. right. left. done. }
    assert (Hfk : fk = false) by (apply not_true_is_false; intros Hfk; apply Hz in Hfk; congruence).
    specialize (Hn2 Hfk).
    eapply (U_bindP zst); [by apply (U_child_fact a oa pa n)|done| |].
    2: { intros ab G3 g3 Hok3 HX3 X3 [?|(->&Hn2'&Hn3)]; [by apply HE0|]. specialize (X3 Hfk).
      split; [|done]. right. right. split_and!; [done..|]. split_and!; [done|by apply (up_mono HX3)|eapply ready_mono; [exact HX3|exact Hrd2]| |].
      - eapply calm_zst; [exact Hok2|exact Hok3|exact X3|exact HD2].
      - eapply follows_post; [exact Hok2|exact Hok3|apply zst_exth; [lia|exact X3]|exact HM0]. }
    intros [fa sf] G3 g3 Hok3 X3 (HsF&Hlf&Hn'&Hn3). cbn [fa_fact] in *.
    destruct HsF as (st&Hst3&Hf3&Hfs&Hsf).
    assert (HX3 := extP_ext _ _ _ _ _ X3). pose proof (remC_mono HX3 _ _ _ He2) as He3.
    assert (Hlo3 : lone g3 (re_fact e)).
    { eapply (lone_keep zst); [exact X3|apply He2| |done]. simpl. tauto. }
    pose proof He3 as (((_&_&_&Lrf)&_)&_). pose proof Hf3 as ((_&Lfr&_&_)&_).
    pose proof (up_mono HX3 Hup2) as Hup3.
    unfold remark_point_to_fact, fact_point_to_remark.
    eapply (U_bindP upper); [eapply (U_connect upper (re_fact e) (fe_remark fa) LRemFact LFactRem); auto; try done|done| |].
    { intros _ z Hyz. by destruct (Hlo3 z). }
    2: { intros ab G4 g4 _ _ _ ?. by apply HE0. }
    intros [] G4 g4 Hok4 X4 (->&->). assert (HX4 := extP_ext _ _ _ _ _ X4).
    eapply (U_bindP upper); [eapply (U_connect upper (fe_remark fa) (re_fact e) LFactRem LRemFact); auto; try done|done| |].
    { intros _ z Hyz. simpl in Hyz. apply elem_of_union in Hyz as [Hyz|Hyz]; [|by destruct (Hlf z)].
      apply elem_of_singleton in Hyz. congruence. }
    2: { intros ab G5 g5 _ _ _ ?. by apply HE0. }
    intros [] G5 g5 Hok5 X5 (->&->).
    assert (HX5 := extP_ext _ _ _ _ _ X5).
    assert (XA : extP upper G3 g3 G3 (add_edge (fe_remark fa) (re_fact e) (add_edge (re_fact e) (fe_remark fa) g3))).
    { by eapply extP_trans. }
    apply U_ret. intros _. split_and!; [done|done| | |].
    - split_and!; auto.
      + eapply ready_mono; [exact (extP_ext _ _ _ _ _ XA)|]. eapply ready_mono; [exact HX3|exact Hrd2].
      + eapply calm_upper; [exact Hok3|exact Hok5|exact XA|].
        eapply calm_zst; [exact Hok2|exact Hok3|exact X3|exact HD2].
      + eapply follows_post; [exact Hok3|exact Hok5|apply upper_exth; [lia|exact XA]|].
        eapply follows_post; [exact Hok2|exact Hok3|apply zst_exth; [lia|exact X3]|exact HM0].
    - exists fa. split.
      + split_and!; [by apply (remC_mono HX5), (remC_mono HX4)|by apply (fact_base_mono HX5), (fact_base_mono HX4)|].
        apply (ext_edge HX5). simpl. set_solver.
      + exists st, fa, (words_of ob), (words_of pr), true. split_and!; [done|..].
        * by apply (story_base_mono HX5), (story_base_mono HX4).
        * by apply (fact_base_mono HX5), (fact_base_mono HX4).
        * by apply (rem_base_mono HX5), (rem_base_mono HX4), He3.
        * by apply (ext_edge HX5), (ext_edge HX4).
        * by apply (ext_edge HX5), (ext_edge HX4).
        * simpl. set_solver.
    - eapply znum_keep; [exact Hok3|exact Hok5| |exact Hn3]. eapply extP_le; [exact upper_free|exact XA].
  Qed.
End stories.
