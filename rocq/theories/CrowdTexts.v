(** What each layer provides while others write. *)
From stdpp Require Import gmap.
From Coq Require Import NArith ZArith Lia.
From Verif Require Import Base GoText Codec Model1 Model2 Model3 Storage Inv Wp Steps Entity BitProofs Reads CharProofs
  WordProofs PhraseProofs DetailProofs StoryProofs CrowdStates.
Local Open Scope nat_scope.

Section assoc.
  Context {F : nat}.
  Transparent C.

  Lemma cwp_bind_mono {A B} (p : prog A) (f f' : A → prog B) Q G g D :
    (∀ a G g D, cwp F (f a) Q G g D → cwp F (f' a) Q G g D) →
    cwp F (bind p f) Q G g D → cwp F (bind p f') Q G g D.
  Proof.
    intros Hf. revert G g D. induction p; simpl; intros G g D Hp; auto.
    - intros G1 g1 X1 Hok1 Hk1. destruct (Hp G1 g1 X1 Hok1 Hk1) as [H1 H2]. split; [|by apply H].
      intros r g2 Hg. destruct (H1 r g2 Hg) as (G2&D2&?&?&?&?&?). exists G2, D2. split_and!; auto.
    - destruct Hp. split; [done|]. by apply IHp.
  Qed.

  Lemma cwp_assoc_rev {A B E} (p : prog A) (q : A → prog B) (f : B → prog E) Q G g D :
    cwp F (bind (bind p q) f) Q G g D → cwp F (bind p (λ x, bind (q x) f)) Q G g D.
  Proof.
    revert G g D. induction p; simpl; intros G g D Hp; auto.
    - intros G1 g1 X1 Hok1 Hk1. destruct (Hp G1 g1 X1 Hok1 Hk1) as [H1 H2]. split; [|by apply H].
      intros r g2 Hg. destruct (H1 r g2 Hg) as (G2&D2&?&?&?&?&?). exists G2, D2. split_and!; auto.
    - destruct Hp. split; [done|]. by apply IHp.
  Qed.

  Lemma C_assoc3 {A B E H} (p : prog A) (q : A → prog B) (r : B → prog E) (f : E → prog H) Q G g D :
    C F (bind (bind p (λ x, bind (q x) r)) f) Q G g D →
    C F (bind p (λ x, bind (q x) (λ y, bind (r y) f))) Q G g D.
  Proof.
    intros Hp Hok Hl Hn. specialize (Hp Hok Hl Hn). apply cwp_assoc_rev in Hp.
    eapply cwp_bind_mono; [|exact Hp]. intros a G' g' D'. apply cwp_assoc_rev.
  Qed.
  Lemma C_assoc_rev {A B E} (p : prog A) (q : A → prog B) (f : B → prog E) Q G g D :
    C F (bind (bind p q) f) Q G g D → C F (bind p (λ x, bind (q x) f)) Q G g D.
  Proof. intros Hp Hok Hl Hn. by apply cwp_assoc_rev, Hp. Qed.
  Lemma C_ctx {A} (p : prog A) Q G g D : (ok F G g → live G → C F p Q G g D) → C F p Q G g D.
  Proof. intros H Hok Hl Hn. by apply H. Qed.
End assoc.
Global Opaque C.

Lemma not_root G y l : up G → lab G !! y = Some l → (∀ k, l ≠ LRoot k) → y ≠ bitIdentifier.
Proof. intros Hup Hy Hl Hb. by eapply (not_bit_root G y l False). Qed.

Section texts.
  Context {F : nat}.
  Notation C := (C F).
  Notation R := (R ZStrict true F).

  Lemma C_has x l e G g D : lab G !! x = Some l → l ≠ LZero →
    C (ts <- st_targets x;; zero_or_one e ts) (λ _ _ _, True) G g D.
  Proof.
    intros Hx Hl. eapply C_seqR; [by eapply R_targets|]. intros ts G1 g1 _ _ _ _.
    destruct ts as [|? [|]]; [by apply C_ret|by apply C_ret|apply C_throw].
  Qed.
  Lemma C_single x l e G g D : lab G !! x = Some l → l ≠ LZero →
    C (ts <- st_targets x;; single e ts) (λ y G' g', (x, y) ∈ edges g') G g D.
  Proof.
    intros Hx Hl. eapply C_seqR; [by eapply R_targets|]. intros ts G1 g1 _ _ _ [_ Hts].
    destruct ts as [|? [|]]; [apply C_throw| |apply C_throw]. apply C_ret. intros _ _. apply Hts. left.
  Qed.
  Lemma C_class_provide {A} (f : unit → prog A) Q G g D :
    (∀ u G' g', ok F G' g' → ext G g G' g' → keep D G g g' → C (f u) Q G' g' D) →
    C (bind class_provide f) Q G g D.
  Proof.
    intros Hf. apply C_ctx. intros _ [Hup _]. eapply C_seqR; [by apply R_class_provide|]. auto.
  Qed.

  (** ** Characters *)
  Lemma C_char_head z o b G g D :
    solo G = false → bits G = BReady z o →
    C (char_provide_head_entity (bit_of z o b)) (λ e G' g', charC G' g' e (Z.b2z b)) G g D.
  Proof.
    intros Hs Hbi. apply C_ctx. intros Hok _. pose proof (ready_label Hok z o b Hbi) as Lbit.
    assert (Hodd : Z.odd (Z.b2z b) = b) by by destruct b.
    assert (Hr2 : (Z.b2z b < 2)%Z) by (destruct b; simpl; lia).
    assert (Hr : rune_ok (Z.b2z b)) by (destruct b; unfold rune_ok; simpl; lia).
    unfold char_provide_head_entity.
    eapply C_seq; [by eapply C_has|]. intros h G0 g0 Hok0 X0 _ _.
    pose proof (ext_lab_lookup X0 _ _ Lbit) as Lbit0. destruct h; cbn [negb].
    - eapply C_seq; [by eapply C_single|]. intros y G1 g1 Hok1 X1 _ Hy.
      destruct (ok_edge _ _ _ Hok1 _ _ Hy) as (l1&l2&H1&H2&Hed&Hexp).
      rewrite (ext_lab_lookup X1 _ _ Lbit0) in H1. simplify_eq. destruct l2; simpl in Hed; try done. subst r.
      simpl in Hexp. destruct Hexp as (e&He&<-).
      eapply C_conseq; [by eapply C_read, R_char_read_by_bit, charC_base|].
      intros e' G2 g2 _ X2 ->. by apply (charC_mono X2).
    - revert Hr Hodd Hr2.
      assert (Hlab : edge_ok (LBitCh b) (LCharBit (Z.b2z b))) by done. revert Hlab.
      generalize (Z.b2z b). intros r Hlab Hr Hodd Hr2.
      apply (C_entity F CharEnt characterIdentifier (LCharBit r) (LCharChar r) (LCharWord r)); try done.
      { by rewrite (ext_solo _ _ _ _ X0). }
      intros x a bb c G1 g1 Hok1 X1 _ Rw. pose proof (row_labs _ _ _ _ _ _ _ _ _ _ _ _ Rw) as Hlabs.
      pose proof Hlabs as (Lx&La&Lb&Lc). apply C_ctx. intros _ [Hup1 _].
      pose proof (ext_lab_lookup X1 _ _ Lbit0) as Lbit1.
      assert (Hs1 : solo G1 = false) by by rewrite (ext_solo _ _ _ _ X1), (ext_solo _ _ _ _ X0).
      apply (C_connect F (LCharBit r) (LBitCh b) a (be_char (bit_of z o b))); try done.
      { intros _. split; [sets|]. by apply (row_bare_a _ _ _ _ _ _ _ _ _ _ _ _ Rw). }
      { eapply not_root; [exact Hup1|exact Lbit1|done]. }
      intros G2 g2 Hok2 X2 _. assert (X12 : ext G1 g1 G2 g2) by (eapply ext_trans; [apply ext_add_edge|exact X2]).
      set (n := CharEnt x a bb c).
      assert (Hbn : char_base G2 g2 n r).
      { split; [by apply (labs4_mono X12)|]. split; [by apply (refs3_mono X12), (row_refs _ _ _ _ _ _ _ _ _ _ _ _ Rw)|].
        exists z, o. split; [by apply (ext_ready X12), (ext_ready X1), (ext_ready X0)|]. rewrite Hodd.
        apply (ext_edge X2). simpl. set_solver. }
      unfold bit_point_to_character. apply C_assoc.
      eapply C_seqR; [eapply R_targets; [by apply (ext_lab_lookup X12)|done]|].
      intros ts G3 g3 Hok3 X3 _ _. destruct ts as [|? ?]; [|apply C_throw].
      assert (X13 : ext G1 g1 G3 g3) by by eapply ext_trans.
      set (g4 := add_edge (be_char (bit_of z o b)) a g3).
      assert (X4 : ext G3 g3 G3 g4) by apply ext_add_edge.
      assert (Hcn : charC G3 g4 n r).
      { eapply (charC_head _ _ n r z o); [by apply (char_base_mono X4), (char_base_mono X3)|done| |].
        - by apply (ext_ready X13), (ext_ready X1), (ext_ready X0).
        - rewrite Hodd. simpl. set_solver. }
      apply (C_connect F (LBitCh b) (LCharBit r) (be_char (bit_of z o b)) a); try done.
      { by apply (ext_lab_lookup X13). }
      { by apply (ext_lab_lookup X13). }
      { by exists n. }
      { eapply not_root; [by apply (up_mono X13)|by apply (ext_lab_lookup X13)|done]. }
      { by rewrite (ext_solo _ _ _ _ X13). }
      intros G5 g5 Hok5 X5 _. apply C_ret. intros _ _. by apply (charC_mono X5).
  Qed.

  Lemma C_char_tail z o e v b G g D :
    solo G = false → bits G = BReady z o → charC G g e v → (1 <= v)%Z → rune_ok (2 * v + Z.b2z b) →
    C (char_create_tail_entity (bit_of z o b) e) (λ c G' g', charC G' g' c (2 * v + Z.b2z b)) G g D.
  Proof.
    intros Hs Hbi He Hv Hr. apply C_ctx. intros Hok _. pose proof (ready_label Hok z o b Hbi) as Lbit.
    assert (Z.odd (2 * v + Z.b2z b) = b) as Hodd.
    { rewrite Z.add_comm, Z.odd_add_mul_2. by destruct b. }
    assert (2 <= 2 * v + Z.b2z b)%Z as Hr2 by (destruct b; simpl; lia).
    assert (v = (2 * v + Z.b2z b) / 2)%Z as Hhalf by (destruct b; simpl; lia).
    revert Hr Hodd Hr2 Hhalf. generalize (2 * v + Z.b2z b)%Z. intros r Hr Hodd Hr2 Hhalf.
    apply (C_entity F CharEnt characterIdentifier (LCharBit r) (LCharChar r) (LCharWord r)); try done.
    intros x a bb c G1 g1 Hok1 X1 _ Rw. pose proof (row_labs _ _ _ _ _ _ _ _ _ _ _ _ Rw) as Hlabs.
    pose proof Hlabs as (Lx&La&Lb&Lc). apply C_ctx. intros _ [Hup1 _].
    pose proof (ext_lab_lookup X1 _ _ Lbit) as Lbit1.
    assert (Hs1 : solo G1 = false) by by rewrite (ext_solo _ _ _ _ X1).
    apply (C_connect F (LCharBit r) (LBitCh b) a (be_char (bit_of z o b))); try done.
    { intros _. split; [sets|]. by apply (row_bare_a _ _ _ _ _ _ _ _ _ _ _ _ Rw). }
    { eapply not_root; [exact Hup1|exact Lbit1|done]. }
    intros G2 g2 Hok2 X2 K2. assert (X12 : ext G1 g1 G2 g2) by (eapply ext_trans; [apply ext_add_edge|exact X2]).
    set (n := CharEnt x a bb c).
    assert (Hbn : char_base G2 g2 n r).
    { split; [by apply (labs4_mono X12)|]. split; [by apply (refs3_mono X12), (row_refs _ _ _ _ _ _ _ _ _ _ _ _ Rw)|].
      exists z, o. split; [by apply (ext_ready X12), (ext_ready X1)|]. rewrite Hodd.
      apply (ext_edge X2). simpl. set_solver. }
    assert (He2 : charC G2 g2 e v) by by apply (charC_mono X12), (charC_mono X1).
    set (g3 := add_edge (ce_char e) bb g2).
    assert (X3 : ext G2 g2 G2 g3) by apply ext_add_edge.
    assert (Hcn : charC G2 g3 n r).
    { eapply (charC_tail _ _ n e r).
      - by apply (char_base_mono X3).
      - done.
      - rewrite <- Hhalf. by apply (charC_mono X3).
      - simpl. set_solver. }
    pose proof (charC_base _ _ _ _ He2) as ((_&_&Lev&_)&_).
    assert (Hbb : bare bb (LCharChar r) g2).
    { eapply bare_keep; [exact K2|sets|done|].
      pose proof (row_bare_b _ _ _ _ _ _ _ _ _ _ _ _ Rw) as [B1 B2].
      split; [done|]. intros _ y Hy. apply elem_of_union in Hy as [[= _ Hy]%elem_of_singleton|Hy]; [congruence|].
      by apply (B2 Logic.I y). }
    apply (C_connect F (LCharChar v) (LCharChar r) (ce_char e) bb); try done.
    { by apply (ext_lab_lookup X12). }
    { by exists n. }
    { intros _. split; [sets|]. by apply Hbb. }
    { eapply not_root; [by apply (up_mono X12)|by apply (ext_lab_lookup X12)|done]. }
    { by rewrite (ext_solo _ _ _ _ X12). }
    intros G4 g4 Hok4 X4 _. apply C_ret. intros _ _. by apply (charC_mono X4).
  Qed.

  Lemma C_char_next e v b G g D :
    solo G = false → charC G g e v → (1 <= v)%Z → rune_ok (2 * v + Z.b2z b) →
    C (char_provide_next_element (Some e) b)
      (λ x G' g', ∃ c, x = Some c ∧ charC G' g' c (2 * v + Z.b2z b)) G g D.
  Proof.
    intros Hs He Hv Hr. apply C_ctx. intros Hok (Hup&z&o&Hb).
    unfold char_provide_next_element. cbn [deref bind]. apply C_assoc3.
    eapply C_seqR; [by apply (R_char_lookup e v b)|]. intros [c|] G1 g1 Hok1 X1 _; cbn beta iota.
    { intros [Hc _]. apply C_ret. intros _ _. eauto. }
    intros _. apply C_class_provide. intros _ G2 g2 Hok2 X2 _.
    assert (X02 : ext G g G2 g2) by by eapply ext_trans.
    eapply C_seqR; [apply (R_bit_provide z o); [by apply (ext_ready X02)|by apply (up_mono X02)]|].
    intros ? G3 g3 Hok3 X3 _ ->. assert (X03 : ext G g G3 g3) by by eapply ext_trans.
    eapply C_seq; [eapply (C_char_tail z o e v b)|].
    { by rewrite (ext_solo _ _ _ _ X03). }
    { by apply (ext_ready X03). }
    { by apply (charC_mono X03). }
    { done. }
    { done. }
    intros c G4 g4 Hok4 X4 _ Hc. apply C_ret. intros _ _. eauto.
  Qed.

  Lemma C_char_first b G g D :
    solo G = false →
    C (char_provide_first_element b)
      (λ x G' g', ∀ e, x = Some e → charC G' g' e (Z.b2z b)) G g D.
  Proof.
    intros Hs. apply C_ctx. intros Hok (Hup&z&o&Hb).
    eapply C_seqR; [by apply (R_bit_provide z o)|]. intros ? G1 g1 Hok1 X1 _ ->.
    apply C_class_provide. intros _ G2 g2 Hok2 X2 _. assert (X02 : ext G g G2 g2) by by eapply ext_trans.
    eapply (C_seq _ _ _ (λ x G' g', ∀ e, x = Ok e → charC G' g' e (Z.b2z b))).
    { apply C_try; [|done]. eapply C_conseq; [eapply (C_char_head z o b)|].
      - by rewrite (ext_solo _ _ _ _ X02).
      - by apply (ext_ready X02).
      - by intros e G3 g3 _ _ He ? [= <-]. }
    intros x G3 g3 _ _ _ Hx. apply C_ret. intros _ _ e. destruct x; simpl; [|done]. intros [= <-]. by apply Hx.
  Qed.

  (** An element that may be missing. *)
  Definition perhaps {A} (P : A → Prop) (x : option A) : Prop := ∀ a, x = Some a → P a.

  Lemma C_char_loop el v path G g D :
    solo G = false → perhaps (perhaps (λ e, charC G g e v)) el → (1 <= v)%Z → rune_ok (msb_val v path) →
    C (char_provide_loop el path)
      (λ x G' g', perhaps (perhaps (λ c, charC G' g' c (msb_val v path))) x) G g D.
  Proof.
    revert el v G g D. induction path as [|b path IH]; intros el v G g D Hs He Hv Hr.
    - apply C_ret. intros _ _. exact He.
    - rewrite msb_val_cons in *. cbn [char_provide_loop].
      assert (Hv' : (1 <= 2 * v + Z.b2z b)%Z) by (destruct b; simpl; lia).
      assert (Hr' : rune_ok (2 * v + Z.b2z b)).
      { pose proof (msb_val_ge (2 * v + Z.b2z b) path). unfold rune_ok in *. lia. }
      apply C_deref. intros e ->.
      eapply (C_seq _ _ _ (λ x G' g', ∀ y, x = Ok y → perhaps (λ c, charC G' g' c (2 * v + Z.b2z b)) y)).
      { apply C_try; [|done]. destruct e as [e|].
        - eapply C_conseq; [eapply (C_char_next e v b); auto; by apply (He _ eq_refl)|].
          intros x G1 g1 _ _ (c&->&Hc) ? [= <-] ? [= <-]. done.
        - cbn [char_provide_next_element deref bind]. apply C_panic. }
      intros x G1 g1 Hok1 X1 _ Hx. apply IH; auto.
      + by rewrite (ext_solo _ _ _ _ X1).
      + intros y. destruct x; simpl; [|done]. intros [= <-]. by apply Hx.
  Qed.

  Lemma C_char_provide r G g D :
    solo G = false → rune_ok r →
    C (char_provide r) (λ x G' g', perhaps (λ e, charC G' g' e r) x) G g D.
  Proof.
    intros Hs Hr. unfold char_provide.
    assert (r = 0 ∨ 1 <= r)%Z as [->|Hr1] by (unfold rune_ok in Hr; lia).
    - rewrite char_collect_zero. cbn [of_res bind].
      eapply C_seq; [by apply (C_char_first false)|]. intros x G1 g1 _ _ _ Hx.
      cbn [char_provide_loop bind deref]. apply C_ret. intros _ _. exact Hx.
    - destruct (char_collect_pos r Hr1) as (t&->&Ht). cbn [of_res bind].
      eapply C_seq; [by apply (C_char_first true)|]. intros x G1 g1 Hok1 X1 _ Hx.
      eapply C_seq; [eapply (C_char_loop _ 1 t)|].
      { by rewrite (ext_solo _ _ _ _ X1). }
      { intros y [= <-]. exact Hx. }
      { lia. }
      { by rewrite Ht. }
      intros y G2 g2 _ _ _ Hy. rewrite Ht in Hy. apply C_unit, C_deref. intros e ->. apply C_ret. intros _ _.
      by apply (Hy _ eq_refl).
  Qed.

  Context (fuel : nat) (Hfuel : 31 ≤ fuel) (HF : F ≤ fuel).

  (** ** Words *)
  Lemma C_word_head a r G g D :
    solo G = false → perhaps (λ c, charC G g c r) a → wtext_ok F [r] →
    C (word_provide_head_entity a) (λ e G' g', wordC G' g' e [r]) G g D.
  Proof.
    intros Hs Ha Hw. apply C_deref. intros c ->. specialize (Ha _ eq_refl).
    pose proof (charC_base _ _ _ _ Ha) as ((_&_&Lcc&Lcw)&_).
    eapply C_seq; [by eapply C_has|]. intros h G0 g0 Hok0 X0 _ _.
    pose proof (ext_lab_lookup X0 _ _ Lcw) as Lcw0. destruct h; cbn [negb].
    - eapply C_seq; [by eapply C_single|]. intros y G1 g1 Hok1 X1 _ Hy.
      destruct (ok_edge _ _ _ Hok1 _ _ Hy) as (l1&l2&H1&H2&Hed&Hexp).
      rewrite (ext_lab_lookup X1 _ _ Lcw0) in H1. simplify_eq. destruct l2; simpl in Hed; try done. subst.
      simpl in Hexp. destruct Hexp as (e&He&<-).
      eapply C_conseq; [by eapply C_read, R_word_read_by_character, wordC_base|].
      intros e' G2 g2 _ X2 ->. by apply (wordC_mono X2).
    - apply (C_entity F WordEnt wordIdentifier (LWordChar [r]) (LWordWord [r]) (LWordPhr [r])); try done.
      { by rewrite (ext_solo _ _ _ _ X0). }
      intros x na nb nc G1 g1 Hok1 X1 _ Rw. pose proof (row_labs _ _ _ _ _ _ _ _ _ _ _ _ Rw) as Hlabs.
      pose proof Hlabs as (Lx&La&Lb&Lc). apply C_ctx. intros _ [Hup1 _].
      assert (X01 : ext G g G1 g1) by by eapply ext_trans.
      pose proof (ext_lab_lookup X1 _ _ Lcw0) as Lcw1.
      assert (Hs1 : solo G1 = false) by by rewrite (ext_solo _ _ _ _ X01).
      apply (C_connect F (LWordChar [r]) (LCharWord r) na (ce_word c)); try done.
      { intros _. split; [sets|]. by apply (row_bare_a _ _ _ _ _ _ _ _ _ _ _ _ Rw). }
      { eapply not_root; [exact Hup1|exact Lcw1|done]. }
      intros G2 g2 Hok2 X2 _. assert (X12 : ext G1 g1 G2 g2) by (eapply ext_trans; [apply ext_add_edge|exact X2]).
      assert (X02 : ext G g G2 g2) by by eapply ext_trans.
      set (n := WordEnt x na nb nc).
      assert (Hbn : word_base G2 g2 n [r]).
      { split; [by apply (labs4_mono X12)|]. split; [by apply (refs3_mono X12), (row_refs _ _ _ _ _ _ _ _ _ _ _ _ Rw)|].
        exists c, r. split_and!; [done|by apply (charC_mono X02)|]. apply (ext_edge X2). simpl. set_solver. }
      set (g3 := add_edge (ce_word c) na g2).
      assert (X3 : ext G2 g2 G2 g3) by apply ext_add_edge.
      assert (Hcn : wordC G2 g3 n [r]).
      { eapply (wordC_head _ _ n r c); [by apply (word_base_mono X3)|by apply (charC_mono X3), (charC_mono X02)|].
        simpl. set_solver. }
      apply (C_connect F (LCharWord r) (LWordChar [r]) (ce_word c) na); try done.
      { by apply (ext_lab_lookup X12). }
      { by apply (ext_lab_lookup X12). }
      { by exists n. }
      { eapply not_root; [by apply (up_mono X12)|by apply (ext_lab_lookup X12)|done]. }
      { by rewrite (ext_solo _ _ _ _ X12). }
      intros G5 g5 Hok5 X5 _. apply C_ret. intros _ _. by apply (wordC_mono X5).
  Qed.

  Lemma C_word_tail a e rs r G g D :
    solo G = false → perhaps (λ c, charC G g c r) a → wordC G g e rs → wtext_ok F (rs ++ [r]) →
    C (word_create_tail_entity a e)
      (λ d G' g', wordC G' g' d (rs ++ [r]) ∧ (we_word e, we_word d) ∈ edges g') G g D.
  Proof.
    intros Hs Ha He Hw.
    assert (Hlast : last (rs ++ [r]) = Some r) by apply last_snoc.
    assert (Hedge : edge_ok (LWordWord rs) (LWordWord (rs ++ [r]))) by by exists r.
    assert (Hmk : ∀ G g n, word_base G g n (rs ++ [r]) → wordC G g e rs → (we_word e, we_word n) ∈ edges g →
      wordC G g n (rs ++ [r])) by (intros; by eapply wordC_tail).
    revert Hw Hlast Hedge Hmk. generalize (rs ++ [r]). intros t Hw Hlast Hedge Hmk.
    apply (C_entity F WordEnt wordIdentifier (LWordChar t) (LWordWord t) (LWordPhr t)); try done.
    intros x na nb nc G1 g1 Hok1 X1 _ Rw. apply C_deref. intros c ->. specialize (Ha _ eq_refl).
    pose proof (charC_base _ _ _ _ Ha) as ((_&_&_&Lcw)&_).
    pose proof (row_labs _ _ _ _ _ _ _ _ _ _ _ _ Rw) as Hlabs.
    pose proof Hlabs as (Lx&La&Lb&Lc). apply C_ctx. intros _ [Hup1 _].
    pose proof (ext_lab_lookup X1 _ _ Lcw) as Lcw1.
    assert (Hs1 : solo G1 = false) by by rewrite (ext_solo _ _ _ _ X1).
    apply (C_connect F (LWordChar t) (LCharWord r) na (ce_word c)); try done.
    { intros _. split; [sets|]. by apply (row_bare_a _ _ _ _ _ _ _ _ _ _ _ _ Rw). }
    { eapply not_root; [exact Hup1|exact Lcw1|done]. }
    intros G2 g2 Hok2 X2 K2. assert (X12 : ext G1 g1 G2 g2) by (eapply ext_trans; [apply ext_add_edge|exact X2]).
    assert (X02 : ext G g G2 g2) by by eapply ext_trans.
    set (n := WordEnt x na nb nc).
    assert (Hbn : word_base G2 g2 n t).
    { split; [by apply (labs4_mono X12)|]. split; [by apply (refs3_mono X12), (row_refs _ _ _ _ _ _ _ _ _ _ _ _ Rw)|].
      exists c, r. split_and!; [done|by apply (charC_mono X02)|]. apply (ext_edge X2). simpl. set_solver. }
    set (g3 := add_edge (we_word e) nb g2).
    assert (X3 : ext G2 g2 G2 g3) by apply ext_add_edge.
    assert (He3 : wordC G2 g3 e rs) by by apply (wordC_mono X3), (wordC_mono X02).
    assert (Hcn : wordC G2 g3 n t).
    { apply Hmk; [by apply (word_base_mono X3)|done|]. simpl. set_solver. }
    pose proof (wordC_base _ _ _ _ He3) as ((_&_&Lev&_)&_).
    assert (Hbb : bare nb (LWordWord t) g2).
    { eapply bare_keep; [exact K2|sets|done|].
      pose proof (row_bare_b _ _ _ _ _ _ _ _ _ _ _ _ Rw) as [B1 B2].
      split; [done|]. intros _ y Hy. apply elem_of_union in Hy as [[= _ Hy]%elem_of_singleton|Hy]; [congruence|].
      by apply (B2 Logic.I y). }
    apply (C_connect F (LWordWord rs) (LWordWord t) (we_word e) nb); try done.
    { by apply (ext_lab_lookup X12). }
    { by exists n. }
    { intros _. split; [sets|]. by apply Hbb. }
    { eapply not_root; [by apply (up_mono X12)|by apply (ext_lab_lookup X12)|done]. }
    { by rewrite (ext_solo _ _ _ _ X12). }
    intros G4 g4 Hok4 X4 _. apply C_ret. intros _ _. split; [by apply (wordC_mono X4)|].
    apply (ext_edge X4). simpl. set_solver.
  Qed.

  Lemma C_word_next e rs r G g D :
    solo G = false → wordC G g e rs → rune_ok r → wtext_ok F (rs ++ [r]) →
    C (word_provide_next_element fuel e r) (λ d G' g', wordC G' g' d (rs ++ [r])) G g D.
  Proof.
    intros Hs He Hr Hw. apply C_ctx. intros Hok [Hup _].
    unfold word_provide_next_element. apply C_assoc3.
    eapply C_seqR; [by apply (R_word_lookup fuel Hfuel e rs r)|]. intros [c|] G1 g1 Hok1 X1 _; cbn beta iota.
    { intros [Hc _]. by apply C_ret. }
    intros _. apply C_class_provide. intros _ G2 g2 Hok2 X2 _.
    assert (X02 : ext G g G2 g2) by by eapply ext_trans.
    eapply C_seq; [apply (C_char_provide r); [by rewrite (ext_solo _ _ _ _ X02)|done]|].
    intros a G3 g3 Hok3 X3 _ Ha. assert (X03 : ext G g G3 g3) by by eapply ext_trans.
    eapply C_seq; [apply (C_word_tail a e rs r)|].
    { by rewrite (ext_solo _ _ _ _ X03). }
    { done. }
    { by apply (wordC_mono X03). }
    { done. }
    intros d G4 g4 Hok4 X4 _ [Hd Hed]. apply C_reconnect; [done|].
    intros G5 g5 Hok5 X5 _. apply C_ret. intros _ _. by apply (wordC_mono X5).
  Qed.

  Lemma C_word_first r G g D :
    solo G = false → rune_ok r → wtext_ok F [r] →
    C (word_provide_first_element r) (λ e G' g', wordC G' g' e [r]) G g D.
  Proof.
    intros Hs Hr Hw. eapply C_seq; [by apply (C_char_provide r)|]. intros a G1 g1 Hok1 X1 _ Ha.
    apply C_class_provide. intros _ G2 g2 Hok2 X2 _. apply C_word_head; [|intros c ->|done].
    - by rewrite (ext_solo _ _ _ _ X2), (ext_solo _ _ _ _ X1).
    - by apply (charC_mono X2), (Ha _ eq_refl).
  Qed.

  Lemma C_word_loop el rs0 rs G g D :
    solo G = false → perhaps (λ e, wordC G g e rs0) el → Forall rune_ok rs → wtext_ok F (rs0 ++ rs) →
    C (word_provide_loop fuel el rs) (λ x G' g', perhaps (λ d, wordC G' g' d (rs0 ++ rs)) x) G g D.
  Proof.
    revert el rs0 G g D. induction rs as [|r rs IH]; intros el rs0 G g D Hs He Hrs Hw.
    - rewrite app_nil_r. apply C_ret. intros _ _. exact He.
    - inversion Hrs as [|? ? Hr Hrs']; subst. cbn [word_provide_loop].
      assert (Hw1 : wtext_ok F (rs0 ++ [r])).
      { destruct Hw as (H1&H2&H3). split_and!.
        - by intros [_ ?]%app_eq_nil.
        - rewrite app_length in *. simpl in *. lia.
        - rewrite Forall_app in *. destruct H3 as [? H3]. split; [done|]. inversion H3; auto. }
      replace (rs0 ++ r :: rs) with ((rs0 ++ [r]) ++ rs) in * by by rewrite <- app_assoc.
      apply C_deref. intros e ->. specialize (He _ eq_refl).
      eapply (C_seq _ _ _ (λ x G' g', ∀ d, x = Ok d → wordC G' g' d (rs0 ++ [r]))).
      { apply C_try; [|done]. eapply C_conseq; [by apply (C_word_next e rs0 r)|].
        by intros d G1 g1 _ _ Hd ? [= <-]. }
      intros x G1 g1 Hok1 X1 _ Hx. apply IH; auto.
      + by rewrite (ext_solo _ _ _ _ X1).
      + intros y. destruct x; simpl; [|done]. intros [= <-]. by apply Hx.
  Qed.

  Lemma C_word_provide s G g D :
    solo G = false → length s < F →
    C (word_provide fuel s) (λ e G' g', wordC G' g' e (runes_of s)) G g D.
  Proof.
    intros Hs Hlen. unfold word_provide, word_collect.
    pose proof (runes_of_scalar s) as Hsc. pose proof (runes_of_length s) as Hl.
    destruct (runes_of s) as [|r rs] eqn:Hru; cbn [of_res bind]; [apply C_throw|].
    inversion Hsc as [|? ? Hr Hrs]; subst. simpl in Hl.
    assert (Hw : wtext_ok F (r :: rs)) by (split_and!; [done|simpl; lia|done]).
    assert (Hw1 : wtext_ok F [r]) by (split_and!; [done|simpl; lia|by apply Forall_singleton]).
    eapply C_seq; [apply (C_word_first r); [done|by eapply scalar_rune|done]|]. intros e G1 g1 Hok1 X1 _ He.
    eapply C_seq; [apply (C_word_loop (Some e) [r] rs)|].
    { by rewrite (ext_solo _ _ _ _ X1). }
    { by intros ? [= <-]. }
    { eapply Forall_impl; [exact Hrs|]. intros ? ?. by eapply scalar_rune. }
    { done. }
    intros x G2 g2 _ _ _ Hx. apply C_unit, C_deref. intros d ->. apply C_ret. intros _ _. by apply Hx.
  Qed.

  (** ** Phrases *)
  Lemma C_phrase_head w rs G g D :
    solo G = false → wordC G g w rs → ptext_ok F [rs] →
    C (phrase_provide_head_entity w) (λ e G' g', phraseC G' g' e [rs]) G g D.
  Proof.
    intros Hs Ha Hw.
    pose proof (wordC_base _ _ _ _ Ha) as ((_&_&_&Lcw)&_).
    eapply C_seq; [by eapply C_has|]. intros h G0 g0 Hok0 X0 _ _.
    pose proof (ext_lab_lookup X0 _ _ Lcw) as Lcw0. destruct h; cbn [negb].
    - eapply C_seq; [by eapply C_single|]. intros y G1 g1 Hok1 X1 _ Hy.
      destruct (ok_edge _ _ _ Hok1 _ _ Hy) as (l1&l2&H1&H2&Hed&Hexp).
      rewrite (ext_lab_lookup X1 _ _ Lcw0) in H1. simplify_eq. destruct l2; simpl in Hed; try done. subst.
      simpl in Hexp. destruct Hexp as (e&He&<-).
      eapply C_conseq; [by eapply C_read, R_phrase_read_by_word, phraseC_base|].
      intros e' G2 g2 _ X2 ->. by apply (phraseC_mono X2).
    - apply (C_entity F PhraseEnt phraseIdentifier (LPhrWord [rs]) (LPhrPhr [rs]) (LPhrDet [rs])); try done.
      { by rewrite (ext_solo _ _ _ _ X0). }
      intros x na nb nc G1 g1 Hok1 X1 _ Rw. pose proof (row_labs _ _ _ _ _ _ _ _ _ _ _ _ Rw) as Hlabs.
      pose proof Hlabs as (Lx&La&Lb&Lc). apply C_ctx. intros _ [Hup1 _].
      assert (X01 : ext G g G1 g1) by by eapply ext_trans.
      pose proof (ext_lab_lookup X1 _ _ Lcw0) as Lcw1.
      assert (Hs1 : solo G1 = false) by by rewrite (ext_solo _ _ _ _ X01).
      apply (C_connect F (LPhrWord [rs]) (LWordPhr rs) na (we_phrase w)); try done.
      { intros _. split; [sets|]. by apply (row_bare_a _ _ _ _ _ _ _ _ _ _ _ _ Rw). }
      { eapply not_root; [exact Hup1|exact Lcw1|done]. }
      intros G2 g2 Hok2 X2 _. assert (X12 : ext G1 g1 G2 g2) by (eapply ext_trans; [apply ext_add_edge|exact X2]).
      assert (X02 : ext G g G2 g2) by by eapply ext_trans.
      set (n := PhraseEnt x na nb nc).
      assert (Hbn : phrase_base G2 g2 n [rs]).
      { split; [by apply (labs4_mono X12)|]. split; [by apply (refs3_mono X12), (row_refs _ _ _ _ _ _ _ _ _ _ _ _ Rw)|].
        exists w, rs. split_and!; [done|by apply (wordC_mono X02)|]. apply (ext_edge X2). simpl. set_solver. }
      set (g3 := add_edge (we_phrase w) na g2).
      assert (X3 : ext G2 g2 G2 g3) by apply ext_add_edge.
      assert (Hcn : phraseC G2 g3 n [rs]).
      { eapply (phraseC_head _ _ n rs w); [by apply (phrase_base_mono X3)|by apply (wordC_mono X3), (wordC_mono X02)|].
        simpl. set_solver. }
      apply (C_connect F (LWordPhr rs) (LPhrWord [rs]) (we_phrase w) na); try done.
      { by apply (ext_lab_lookup X12). }
      { by apply (ext_lab_lookup X12). }
      { by exists n. }
      { eapply not_root; [by apply (up_mono X12)|by apply (ext_lab_lookup X12)|done]. }
      { by rewrite (ext_solo _ _ _ _ X12). }
      intros G5 g5 Hok5 X5 _. apply C_ret. intros _ _. by apply (phraseC_mono X5).
  Qed.

  Lemma C_phrase_tail w e ws rs G g D :
    solo G = false → wordC G g w rs → phraseC G g e ws → ptext_ok F (ws ++ [rs]) →
    C (phrase_create_tail_entity w e) (λ d G' g', phraseC G' g' d (ws ++ [rs])) G g D.
  Proof.
    intros Hs Ha He Hw.
    assert (Hlast : last (ws ++ [rs]) = Some rs) by apply last_snoc.
    assert (Hedge : edge_ok (LPhrPhr ws) (LPhrPhr (ws ++ [rs]))) by by exists rs.
    assert (Hmk : ∀ G g n, phrase_base G g n (ws ++ [rs]) → phraseC G g e ws → (pe_phrase e, pe_phrase n) ∈ edges g →
      phraseC G g n (ws ++ [rs])) by (intros; by eapply phraseC_tail).
    revert Hw Hlast Hedge Hmk. generalize (ws ++ [rs]). intros t Hw Hlast Hedge Hmk.
    apply (C_entity F PhraseEnt phraseIdentifier (LPhrWord t) (LPhrPhr t) (LPhrDet t)); try done.
    intros x na nb nc G1 g1 Hok1 X1 _ Rw.
    pose proof (wordC_base _ _ _ _ Ha) as ((_&_&_&Lcw)&_).
    pose proof (row_labs _ _ _ _ _ _ _ _ _ _ _ _ Rw) as Hlabs.
    pose proof Hlabs as (Lx&La&Lb&Lc). apply C_ctx. intros _ [Hup1 _].
    pose proof (ext_lab_lookup X1 _ _ Lcw) as Lcw1.
    assert (Hs1 : solo G1 = false) by by rewrite (ext_solo _ _ _ _ X1).
    apply (C_connect F (LPhrWord t) (LWordPhr rs) na (we_phrase w)); try done.
    { intros _. split; [sets|]. by apply (row_bare_a _ _ _ _ _ _ _ _ _ _ _ _ Rw). }
    { eapply not_root; [exact Hup1|exact Lcw1|done]. }
    intros G2 g2 Hok2 X2 K2. assert (X12 : ext G1 g1 G2 g2) by (eapply ext_trans; [apply ext_add_edge|exact X2]).
    assert (X02 : ext G g G2 g2) by by eapply ext_trans.
    set (n := PhraseEnt x na nb nc).
    assert (Hbn : phrase_base G2 g2 n t).
    { split; [by apply (labs4_mono X12)|]. split; [by apply (refs3_mono X12), (row_refs _ _ _ _ _ _ _ _ _ _ _ _ Rw)|].
      exists w, rs. split_and!; [done|by apply (wordC_mono X02)|]. apply (ext_edge X2). simpl. set_solver. }
    set (g3 := add_edge (pe_phrase e) nb g2).
    assert (X3 : ext G2 g2 G2 g3) by apply ext_add_edge.
    assert (He3 : phraseC G2 g3 e ws) by by apply (phraseC_mono X3), (phraseC_mono X02).
    assert (Hcn : phraseC G2 g3 n t).
    { apply Hmk; [by apply (phrase_base_mono X3)|done|]. simpl. set_solver. }
    pose proof (phraseC_base _ _ _ _ He3) as ((_&_&Lev&_)&_).
    assert (Hbb : bare nb (LPhrPhr t) g2).
    { eapply bare_keep; [exact K2|sets|done|].
      pose proof (row_bare_b _ _ _ _ _ _ _ _ _ _ _ _ Rw) as [B1 B2].
      split; [done|]. intros _ y Hy. apply elem_of_union in Hy as [[= _ Hy]%elem_of_singleton|Hy]; [congruence|].
      by apply (B2 Logic.I y). }
    apply (C_connect F (LPhrPhr ws) (LPhrPhr t) (pe_phrase e) nb); try done.
    { by apply (ext_lab_lookup X12). }
    { by exists n. }
    { intros _. split; [sets|]. by apply Hbb. }
    { eapply not_root; [by apply (up_mono X12)|by apply (ext_lab_lookup X12)|done]. }
    { by rewrite (ext_solo _ _ _ _ X12). }
    intros G4 g4 Hok4 X4 _. apply C_ret. intros _ _. by apply (phraseC_mono X4).
  Qed.

  Lemma word_text_ok s e G g : wordC G g e (runes_of s) → length s < F → wtext_ok F (runes_of s).
  Proof.
    intros He Hl. apply runes_wtext; [|done]. intros ->. by apply wordC_nonempty in He.
  Qed.

  Lemma C_phrase_next e ws s G g D :
    solo G = false → phraseC G g e ws → length s < F → S (length ws) < F →
    C (phrase_provide_next_element fuel e s) (λ d G' g', phraseC G' g' d (ws ++ [runes_of s])) G g D.
  Proof.
    intros Hs He Hl Hws. apply C_ctx. intros Hok [Hup _].
    unfold phrase_provide_next_element. apply C_assoc3.
    eapply C_seqR; [by apply (R_phrase_lookup fuel Hfuel HF e ws s)|]. intros [c|] G1 g1 Hok1 X1 _; cbn beta iota.
    { intros (_&Hc&_). by apply C_ret. }
    intros _. apply C_class_provide. intros _ G2 g2 Hok2 X2 _.
    assert (X02 : ext G g G2 g2) by by eapply ext_trans.
    eapply C_seq; [apply (C_word_provide s); [by rewrite (ext_solo _ _ _ _ X02)|done]|].
    intros w G3 g3 Hok3 X3 _ Hw. assert (X03 : ext G g G3 g3) by by eapply ext_trans.
    apply (C_phrase_tail w e ws (runes_of s)).
    { by rewrite (ext_solo _ _ _ _ X03). }
    { done. }
    { by apply (phraseC_mono X03). }
    destruct (phraseC_ok Hok _ _ He) as (H1&H2&H3). split_and!.
    - by intros [_ ?]%app_eq_nil.
    - rewrite app_length. simpl. lia.
    - apply Forall_app. split; [done|]. apply Forall_singleton. eapply word_text_ok; [exact Hw|lia].
  Qed.

  Lemma C_phrase_first s G g D :
    solo G = false → S (length s) < F →
    C (phrase_provide_first_element fuel s) (λ e G' g', phraseC G' g' e [runes_of s]) G g D.
  Proof.
    intros Hs Hl. eapply C_seq; [apply (C_word_provide s); [done|lia]|]. intros w G1 g1 Hok1 X1 _ Hw.
    apply C_class_provide. intros _ G2 g2 Hok2 X2 _. apply C_phrase_head.
    - by rewrite (ext_solo _ _ _ _ X2), (ext_solo _ _ _ _ X1).
    - by apply (wordC_mono X2).
    - split_and!; [done|simpl; lia|]. apply Forall_singleton. eapply word_text_ok; [exact Hw|lia].
  Qed.

  Lemma C_phrase_loop el ws path G g D :
    solo G = false → perhaps (λ e, phraseC G g e ws) el → Forall (λ s, length s < F) path →
    length ws + length path < F →
    C (phrase_provide_loop fuel el path)
      (λ x G' g', perhaps (λ d, phraseC G' g' d (ws ++ map runes_of path)) x) G g D.
  Proof.
    revert el ws G g D. induction path as [|s path IH]; intros el ws G g D Hs He Hl Hn.
    - cbn [map]. rewrite app_nil_r. apply C_ret. intros _ _. exact He.
    - apply Forall_cons in Hl as [Hs' Hl]. cbn [phrase_provide_loop map]. simpl in Hn.
      replace (ws ++ runes_of s :: map runes_of path) with ((ws ++ [runes_of s]) ++ map runes_of path)
        by by rewrite <- app_assoc.
      apply C_deref. intros e ->. specialize (He _ eq_refl).
      eapply (C_seq _ _ _ (λ x G' g', ∀ d, x = Ok d → phraseC G' g' d (ws ++ [runes_of s]))).
      { apply C_try; [|done]. eapply C_conseq; [apply (C_phrase_next e ws s); [done|done|done|lia]|].
        by intros d G1 g1 _ _ Hd ? [= <-]. }
      intros x G1 g1 Hok1 X1 _ Hx. apply IH; auto.
      + by rewrite (ext_solo _ _ _ _ X1).
      + intros y. destruct x; simpl; [|done]. intros [= <-]. by apply Hx.
      + rewrite app_length. simpl. lia.
  Qed.

  Lemma C_phrase_provide s G g D :
    solo G = false → S (length s) < F →
    C (phrase_provide fuel s) (λ e G' g', phraseC G' g' e (words_of s)) G g D.
  Proof.
    intros Hs Hlen. unfold phrase_provide, phrase_collect, words_of.
    pose proof (split_space_length s) as Hl. pose proof (split_space_lengths s) as Hls.
    destruct (split_space s) as [|first rest]; cbn [of_res bind map]; [apply C_throw|]. simpl in Hl.
    assert (Hf : length first <= length s) by (apply Hls; left).
    assert (Hrest : Forall (λ w, length w < F) rest).
    { apply Forall_forall. intros w Hw. assert (length w <= length s) by (apply Hls; by right). lia. }
    eapply C_seq; [apply (C_phrase_first first); [done|lia]|]. intros e G1 g1 Hok1 X1 _ He.
    eapply C_seq; [apply (C_phrase_loop (Some e) [runes_of first] rest)|].
    { by rewrite (ext_solo _ _ _ _ X1). }
    { by intros ? [= <-]. }
    { done. }
    { simpl. eapply Nat.le_lt_trans; [exact Hl|exact Hlen]. }
    intros x G2 g2 _ _ _ Hx. apply C_unit, C_deref. intros d ->. apply C_ret. intros _ _. by apply Hx.
  Qed.
End texts.
