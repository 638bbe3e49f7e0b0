(** Creating calls next to others. *)
From stdpp Require Import gmap.
From Coq Require Import NArith ZArith Lia.
From Verif Require Import Base GoText Model1 Model2 Model3 Storage Spec SpecMoments SpecCrowd BitProofs CallProofs CrowdLogic.
Local Open Scope nat_scope.

(** ** Entities of the right kinds *)
Definition charT (e : char_ent) (K : kinds) : Prop :=
  nk CharacterBit (ce_bit e) K ∧ nk CharacterCharacter (ce_char e) K ∧ nk CharacterWord (ce_word e) K.
Definition wordT (e : word_ent) (K : kinds) : Prop :=
  nk WordCharacter (we_char e) K ∧ nk WordWord (we_word e) K ∧ nk WordPhrase (we_phrase e) K.
Definition phraseT (e : phrase_ent) (K : kinds) : Prop :=
  nk PhraseWord (pe_word e) K ∧ nk PhrasePhrase (pe_phrase e) K ∧ nk PhraseDetail (pe_detail e) K.
Definition detailT (e : detail_ent) (K : kinds) : Prop :=
  nk DetailPhrase (de_phrase e) K ∧ nk DetailRemark (de_remark e) K.
Definition remarkT (e : remark_ent) (K : kinds) : Prop :=
  nk RemarkClass (re_class e) K ∧
  nk RemarkDetail (re_detail e) K ∧ nk RemarkPosition (re_position e) K ∧ nk RemarkFact (re_fact e) K.
Definition factT (e : fact_ent) (K : kinds) : Prop :=
  nk FactRemark (fe_remark e) K ∧ nk FactPosition (fe_position e) K ∧ nk FactStory (fe_story e) K.
Definition storyT (e : story_ent) (K : kinds) : Prop :=
  nk StoryFact (se_fact e) K ∧ nk StoryPosition (se_position e) K ∧ nk StoryTree (se_tree e) K.
Definition if_some {A} (P : A → kinds → Prop) (x : option A) (K : kinds) : Prop := ∀ a, x = Some a → P a K.
Definition if_ok {A} (P : A → kinds → Prop) (x : res A) (K : kinds) : Prop := ∀ a, x = Ok a → P a K.

Lemma charT_mono e K K' : charT e K → K ⊆ K' → charT e K'.
Proof. intros (?&?&?) ?. split_and!; by eapply nk_mono. Qed.
Lemma wordT_mono e K K' : wordT e K → K ⊆ K' → wordT e K'.
Proof. intros (?&?&?) ?. split_and!; by eapply nk_mono. Qed.
Lemma phraseT_mono e K K' : phraseT e K → K ⊆ K' → phraseT e K'.
Proof. intros (?&?&?) ?. split_and!; by eapply nk_mono. Qed.
Lemma detailT_mono e K K' : detailT e K → K ⊆ K' → detailT e K'.
Proof. intros (?&?) ?. split_and!; by eapply nk_mono. Qed.
Lemma remarkT_mono e K K' : remarkT e K → K ⊆ K' → remarkT e K'.
Proof. intros (?&?&?&?) ?. split_and!; by eapply nk_mono. Qed.
Lemma factT_mono e K K' : factT e K → K ⊆ K' → factT e K'.
Proof. intros (?&?&?) ?. split_and!; by eapply nk_mono. Qed.
Lemma storyT_mono e K K' : storyT e K → K ⊆ K' → storyT e K'.
Proof. intros (?&?&?) ?. split_and!; by eapply nk_mono. Qed.

Lemma nks_mono k l (K K' : kinds) : Forall (λ x, nk k x K) l → K ⊆ K' → Forall (λ x, nk k x K') l.
Proof. intros H HK. eapply Forall_impl; [exact H|]. intros x Hx. exact (nk_mono _ _ _ _ Hx HK). Qed.
Lemma list_mono {A} (P : A → kinds → Prop) l K K' :
  (∀ a K K', P a K → K ⊆ K' → P a K') → Forall (λ e, P e K) l → K ⊆ K' → Forall (λ e, P e K') l.
Proof. intros Hm H HK. eapply Forall_impl; [exact H|]. intros x Hx. exact (Hm _ _ _ Hx HK). Qed.

(** Side conditions on kinds. *)
Ltac kinds := let k := fresh in intros k; destruct k; cbn; congruence.
(** Carry what is known over to the present kinds. *)
Ltac carry := eauto using nk_mono, charT_mono, wordT_mono, phraseT_mono, detailT_mono, remarkT_mono, factT_mono, storyT_mono.

Section writes.
  Context {g0 : graph} {K0 : kinds} {z o : bit_ent} (HB : base g0 K0 z o).
  Notation T := (@T g0 K0 z o _).
  Notation TT := (@TT g0 K0 z o _).
  Notation own x := (x ∉ nodes g0).

  Lemma TT_class_provide K : TT class_provide (λ _ _, True) K.
  Proof.
    intros _. apply T_look; [done| |done]. intros K1 g r HK HI [-> _]. simpl.
    rewrite bool_decide_eq_true_2; [by intros ? ?|].
    eapply I_old_node; [done..|]. apply (ba_dom _ _ _ _ HB). rewrite (ba_root _ _ _ _ HB); [eauto|lia].
  Qed.

  Lemma TT_bit_initialize K : TT bit_initialize (λ zo _, zo = (z, o)) K.
  Proof.
    intros HK0 m [-> | ->]; [|by intros ? ?]. revert HK0.
    eapply TT_seq; [apply TT_class_provide|]. intros _ K1 H1 _ _.
    apply T_look; [done| |done]. intros K2 g r H2 HI Hg. destruct r as [l|]; [|done].
    assert (N1 : 1%N ∈ nodes g).
    { eapply I_old_node; [done..|]. apply (ba_dom _ _ _ _ HB). rewrite (ba_root _ _ _ _ HB); [eauto|lia]. }
    destruct Hg as [Hg _]. destruct (Hg (or_introl N1)) as (?&[= <-]&Hnd&Hl&_). clear Hg.
    assert (Hless := ba_less _ _ _ _ HB).
    assert (l = [be_class z; be_class o] ∨ l = [be_class o; be_class z]) as Hcases.
    { apply two_elements; auto.
      - intros Heq. rewrite Heq in Hless. lia.
      - intros x. rewrite Hl, <- (ba_bits _ _ _ _ HB). split.
        + intros He. apply (i_in _ _ HI _ _ (Root 1)); [done| |done]. apply (ba_root _ _ _ _ HB). lia.
        + apply HI. }
    assert (Hread : ∀ b, b ∈ [z; o] → ∀ (f : N * N → prog (bit_ent * bit_ent)) Q K',
      (∀ a K'', T (f (a, be_char b)) Q K'' ∅ ∅) →
      T (bind (st_getref (be_class b)) f) Q K' ∅ ∅).
    { intros b Hb f Q K' Hf. apply T_look; [done| |done]. intros K3 g3 r H3 HI3 Hg.
      destruct r as [[a c]|]; [|done].
      assert (Fb : fwd g0 !! be_class b = Some (be_char b)).
      { apply elem_of_cons in Hb as [->|Hb%elem_of_list_singleton]; [|subst b]; [exact (ba_z _ _ _ _ HB)|exact (ba_o _ _ _ _ HB)]. }
      assert (Nb : be_class b ∈ nodes g0).
      { destruct (ba_ref _ _ _ _ HB _ _ Fb) as (?&?&?&_). apply (ba_dom _ _ _ _ HB). eauto. }
      destruct Hg as [Hg _]. destruct (Hg (or_introl (I_old_node HB _ _ _ HI3 Nb))) as [[= -> ->] _].
      rewrite (i_fwd _ _ HI3 _ Nb), Fb. simpl. apply Hf. }
    assert (Hz : z = BitEnt false (be_class z) (be_char z)).
    { assert (H := ba_vz _ _ _ _ HB). destruct z; simpl in *. by subst. }
    assert (Ho : o = BitEnt true (be_class o) (be_char o)).
    { assert (H := ba_vo _ _ _ _ HB). destruct o; simpl in *. by subst. }
    assert (Hend : (BitEnt false (be_class z) (be_char z), BitEnt true (be_class o) (be_char o)) = (z, o)) by congruence.
    destruct Hcases as [-> | ->]; cbn -[st_getref N.ltb].
    - rewrite (proj2 (N.ltb_lt _ _) Hless). apply T_bind, Hread; [by left|]. intros a Ka.
      apply Hread; [by right; left|]. intros b Kb Kc _. rewrite Hend. split; [by right|]. by intros ? ?.
    - rewrite (proj2 (N.ltb_ge _ _)) by lia. apply T_bind, Hread; [by left|]. intros a Ka.
      apply Hread; [by right; left|]. intros b Kb Kc _. rewrite Hend. split; [by right|]. by intros ? ?.
  Qed.

  Lemma TT_bit_provide b K : TT (bit_provide b) (λ e K, nk BitCharacter (be_char e) K) K.
  Proof.
    eapply TT_seq; [apply TT_bit_initialize|]. intros _ K1 H1 ->. intros HK1 K2 H2. right.
    apply (lookup_weaken K0); [|by etrans]. destruct b; [apply (ba_ko _ _ _ _ HB)|apply (ba_kz _ _ _ _ HB)].
  Qed.

  (** ** Rows of nodes *)
  Lemma T_class_new {A} kx r (f : N → prog A) Q K F B :
    class_root kx = Some r → r ≠ 1%N → K0 ⊆ K →
    (∀ x K', K ⊆ K' → K' !! x = Some kx → own x → x ∉ F → x ∉ B →
      T (f x) Q K' ({[x]} ∪ F) ({[x]} ∪ B)) →
    T (bind (class_new r) f) Q K F B.
  Proof.
    intros Hr Hr1 HK Hf. apply T_bind. unfold class_new.
    apply (T_create HB kx); [by destruct kx|]. intros x K1 H1 Hx Ox Fx Bx.
    apply (T_connect HB kx (Root r)).
    - by right.
    - right. apply (lookup_weaken K0); [|by etrans]. apply (ba_root _ _ _ _ HB). destruct kx; simplify_eq/=; lia.
    - destruct kx; simplify_eq/=; done.
    - by intros _.
    - simpl. intros ?%N.eqb_eq. done.
    - intros K2 H2. eapply T_up; [by apply Hf|done].
  Qed.

  Definition row4 {A} (mk : N → N → N → N → A) (x : N) : prog A :=
    (a <- st_create;; b <- st_create;; c <- st_create;;
     st_setref x a;;; st_setref a b;;; st_setref b c;;; Ret (mk x a b c))%prog.

  Lemma next_nonzero a b : next_field a = Some b → b ≠ Zero.
  Proof. destruct a; by intros [= <-]. Qed.

  Lemma TT_row {A C} kx ka kb kc r (mk : N → N → N → N → A) (f : A → prog C) P K :
    class_root kx = Some r → r ≠ 1%N →
    next_field kx = Some ka → next_field ka = Some kb → next_field kb = Some kc →
    (∀ x a b c K', K ⊆ K' →
      K' !! x = Some kx → K' !! a = Some ka → K' !! b = Some kb → K' !! c = Some kc →
      own x → own a → own b → own c → TT (f (mk x a b c)) P K') →
    TT (bind (class_new r) (λ x, bind (row4 mk x) f)) P K.
  Proof.
    intros Hr Hr1 Ha Hb Hc Hf HK0.
    apply (T_class_new kx); [done..|]. intros x K1 H1 Kx Ox _ _. apply T_bind. unfold row4.
    apply (T_create HB ka); [by eapply next_nonzero|]. intros a K2 H2 Ka Oa Fa _.
    apply (T_create HB kb); [by eapply next_nonzero|]. intros b K3 H3 Kb Ob Fb _.
    apply (T_create HB kc); [by eapply next_nonzero|]. intros c K4 H4 Kc Oc Fc _.
    assert (Kx4 : K4 !! x = Some kx) by (eapply lookup_weaken; [exact Kx|by do 2 (etrans; [done|])]).
    assert (Ka4 : K4 !! a = Some ka) by (eapply lookup_weaken; [exact Ka|by etrans]).
    assert (Kb4 : K4 !! b = Some kb) by (eapply lookup_weaken; [exact Kb|done]).
    rewrite !elem_of_union, !elem_of_singleton in Fa, Fb, Fc.
    apply (T_setref HB kx ka); [done..| | |]; [set_solver|set_solver|].
    apply (T_setref HB ka kb); [done..| | |]; [set_solver|set_solver|].
    apply (T_setref HB kb kc); [done..| | |]; [set_solver|set_solver|].
    intros K5 H5. eapply T_weaken; [apply empty_subseteq..|].
    assert (K ⊆ K5) by (do 4 (etrans; [done|]); done).
    apply Hf; try done; try (eapply lookup_weaken; [|exact H5]; done). by etrans.
  Qed.

  (** ** Characters *)
  Lemma TT_char_by_bit x K : nk CharacterBit x K → TT (char_read_by_bit x) charT K.
  Proof.
    intros Hx. eapply TT_seq; [by apply TT_getref|]. intros [a b] K1 H1 [_ Hb]; simpl in Hb.
    eapply TT_seq; [by apply TT_getref|]. intros [c d] K2 H2 [_ Hd]; simpl in Hd.
    apply TT_ret. intros K3 H3. split_and!; simpl; carry.
  Qed.
  Lemma TT_char_by_character x K : nk CharacterCharacter x K → TT (char_read_by_character x) charT K.
  Proof.
    intros Hx. eapply TT_seq; [by apply TT_getref|]. intros [a b] K1 H1 [Ha Hb]; simpl in Ha, Hb.
    eapply TT_seq; [by apply TT_getref|]. intros [c d] K2 H2 _.
    apply TT_ret. intros K3 H3. split_and!; simpl; carry.
  Qed.

  Lemma TT_true_targets x K : TT (st_targets x) (λ _ _, True) K.
  Proof. by apply TT_invoke. Qed.
  Lemma TT_true {A} (p : prog A) P K : TT p P K → TT p (λ _ _, True) K.
  Proof. intros H. by eapply TT_conseq. Qed.

  Lemma TT_bit_has_target e K : TT (bit_has_target_character e) (λ _ _, True) K.
  Proof.
    eapply TT_seq; [apply TT_true_targets|]. intros l K1 H1 _.
    by destruct l as [|? [|]]; simpl; try apply TT_ret.
  Qed.

  Lemma TT_connect a b x y K :
    nk a x K → nk b y K → joins a b = true →
    (frozen_out a = true → own x) → (frozen_in b = true → own y) →
    TT (st_connect x y) (λ _ _, True) K.
  Proof.
    intros Hx Hy Hj Ho Hi HK0.
    assert (H : T (bind (st_connect x y) Ret) (λ _ _ _ _, True) K ∅ ∅).
    { by apply (T_connect HB a b). }
    intros K1 g H1 HI Hfr. destruct (H K1 g H1 HI Hfr) as (Hs&Hr&He). split; [done|]. split.
    - intros r g' Hg. destruct (Hr r g' Hg) as (K2&F2&B2&?&?&?&?). exists K2, F2, B2. split_and!; try done.
      by destruct r.
    - done.
  Qed.

  Lemma TT_bit_point e x K :
    nk BitCharacter (be_char e) K → nk CharacterBit x K → TT (bit_point_to_character e x) (λ _ _, True) K.
  Proof.
    intros He Hx. eapply TT_seq; [apply TT_true_targets|]. intros l K1 H1 _.
    destruct l; [|by intros ?]. eapply (TT_connect BitCharacter CharacterBit); carry; done.
  Qed.
  Lemma TT_bit_target e K :
    nk BitCharacter (be_char e) K → TT (bit_get_target_character e) (nk CharacterBit) K.
  Proof.
    intros He. eapply TT_seq; [apply (TT_targets BitCharacter CharacterBit); [kinds|done]|].
    intros l K1 H1 Hl. apply TT_single. intros x K2 H2 Hx. rewrite Forall_forall in Hl. carry.
  Qed.

  Lemma TT_char_head bit K :
    nk BitCharacter (be_char bit) K → TT (char_provide_head_entity bit) charT K.
  Proof.
    intros Hb. eapply TT_seq; [apply TT_bit_has_target|]. intros h K1 H1 _. destruct h; cbn [negb].
    - eapply TT_seq; [apply TT_bit_target; carry|]. intros x K2 H2 Hx. by apply TT_char_by_bit.
    - apply (TT_row CharacterClass CharacterBit CharacterCharacter CharacterWord); [done..|].
      intros x a b c K2 H2 Kx Ka Kb Kc Ox Oa Ob Oc.
      eapply TT_seq; [apply (TT_connect CharacterBit BitCharacter); simpl; [by right|carry|done..]|].
      intros _ K3 H3 _.
      eapply TT_seq; [apply TT_bit_point; [carry|right; by eapply lookup_weaken]|].
      intros _ K4 H4 _. apply TT_ret. intros K5 H5.
      assert (K2 ⊆ K5) by (do 2 (etrans; [done|]); done).
      split_and!; right; by eapply lookup_weaken.
  Qed.

  Lemma TT_char_tail bit prev K :
    nk BitCharacter (be_char bit) K → charT prev K → TT (char_create_tail_entity bit prev) charT K.
  Proof.
    intros Hb (_&Hp&_).
    apply (TT_row CharacterClass CharacterBit CharacterCharacter CharacterWord); [done..|].
    intros x a b c K2 H2 Kx Ka Kb Kc Ox Oa Ob Oc.
    eapply TT_seq; [apply (TT_connect CharacterBit BitCharacter); simpl; [by right|carry|done..]|].
    intros _ K3 H3 _.
    eapply TT_seq; [apply (TT_connect CharacterCharacter CharacterCharacter); simpl;
      [carry|right; by eapply lookup_weaken|done..]|].
    intros _ K4 H4 _. apply TT_ret. intros K5 H5.
    assert (K2 ⊆ K5) by (do 2 (etrans; [done|]); done).
    split_and!; right; by eapply lookup_weaken.
  Qed.

  Lemma TT_char_read_all l K :
    Forall (λ x, nk CharacterCharacter x K) l → TT (char_read_all l) (λ es K', Forall (λ e, charT e K') es) K.
  Proof.
    revert K. induction l as [|x l IH]; intros K Hl; cbn [char_read_all]; [by apply TT_ret|].
    inversion Hl as [|? ? Hx Hl']; subst.
    eapply TT_seq; [by apply TT_char_by_character|]. intros e K1 H1 He.
    eapply TT_seq; [apply IH; by eapply nks_mono|]. intros es K2 H2 Hes.
    apply TT_ret. intros K3 H3. constructor; [by eapply charT_mono; [|etrans]|].
    by eapply list_mono; [apply charT_mono|exact Hes|].
  Qed.

  (** ** Programs that only look, apart from the bit layer *)
  Lemma TT_bind_true {A B} (p : prog A) (f : A → prog B) K :
    TT p (λ _ _, True) K → (∀ a K', TT (f a) (λ _ _, True) K') → TT (bind p f) (λ _ _, True) K.
  Proof. intros Hp Hf. eapply TT_seq; [exact Hp|]. intros; apply Hf. Qed.
  Lemma TT_try_true {A} (p : prog A) K : TT p (λ _ _, True) K → TT (try p) (λ _ _, True) K.
  Proof. intros Hp. by apply TT_try. Qed.
  Lemma TT_init_true K : TT bit_initialize (λ _ _, True) K.
  Proof. eapply TT_true, TT_bit_initialize. Qed.
  Lemma TT_ret_true {A} (a : A) K : TT (Ret a) (λ _ _, True) K.
  Proof. by apply TT_ret. Qed.
  Lemma TT_abort {A} e K : TT (@Throw A e) (λ _ _, True) K.
  Proof. by intros ?. Qed.
  Lemma TT_panic {A} K : TT (@Panic A) (λ _ _, True) K.
  Proof. by intros ?. Qed.
  Lemma TT_diverge {A} K : TT (@Diverge A) (λ _ _, True) K.
  Proof. by intros ?. Qed.
End writes.

Ltac looks HB :=
  repeat first
    [ match goal with |- ∀ _, _ => intros ? end
    | match goal with
      | |- TT bit_initialize _ _ => apply (TT_init_true HB)
      | |- TT class_provide _ _ => apply (TT_class_provide HB)
      | |- TT (bind _ _) _ _ => apply TT_bind_true
      | |- TT (try _) _ _ => apply TT_try_true
      | |- TT (invoke _) _ _ => apply TT_invoke; exact Logic.I
      | |- TT (Ret _) _ _ => apply TT_ret_true
      | |- TT (Throw _) _ _ => apply TT_abort
      | |- TT Panic _ _ => apply TT_panic
      | |- TT Diverge _ _ => apply TT_diverge
      | |- TT (match ?x with _ => _ end) _ _ => destruct x
      | |- TT (let _ := _ in _) _ _ => cbv zeta
      | |- _ => solve [auto with looks]
      | |- TT ?t _ _ => let f := head_of t in unfold f
      end ].
Create HintDb looks.

Section looks.
  Context {g0 : graph} {K0 : kinds} {z o : bit_ent} (HB : base g0 K0 z o).
  Notation TT := (@TT g0 K0 z o _).

  Lemma looks_char_extract_loop n el l K : TT (char_extract_loop n el l) (λ _ _, True) K.
  Proof. revert el l K. induction n; cbn [char_extract_loop]; looks HB. Qed.
End looks.
