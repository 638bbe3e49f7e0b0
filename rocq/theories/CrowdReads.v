(** Reading next to others. *)
From stdpp Require Import gmap.
From Coq Require Import NArith ZArith Lia.
From Verif Require Import Base GoText Model1 Model2 Model3 Storage Spec SpecMoments SpecCrowd BitProofs CallProofs
  CrowdLogic CrowdWrites.
Local Open Scope nat_scope.

Section reads.
  Context {g0 : graph} {K0 : kinds} {z o : bit_ent} (HB : base g0 K0 z o).
  Notation I := (@I g0 K0).
  Notation good := (@good z o).
  Notation nk0 k x := (nk k x K0).
  Notation nko0 k x := (nko k x K0).

  (** ** Questions others cannot change the answer to *)
  Definition kept (F : node_kind → bool) (x : N) : Prop := x = 0%N ∨ ∃ k, K0 !! x = Some k ∧ F k = true.
  Definition FQ (c : call) : Prop :=
    match c with
    | CHas x => K0 !! x ≠ None
    | CGetRef x => kept (λ _, true) x
    | CSources x => kept frozen_in x
    | CTargets x => kept frozen_out x
    | _ => False
    end.

  Lemma no_zero K g : I K g → 0%N ∉ nodes g.
  Proof. intros HI [? H]%(i_dom _ _ HI). by rewrite (i_none _ _ HI) in H. Qed.
  Lemma no_zero0 : 0%N ∉ nodes g0.
  Proof. intros [? H]%(ba_dom _ _ _ _ HB). by rewrite (ba_none _ _ _ _ HB) in H. Qed.
  Lemma not_valid g : 0%N ∉ nodes g → ¬ valid ZStrict g 0.
  Proof. by intros H [?|[? _]]. Qed.

  Lemma FQ_looks c : FQ c → only_looks c.
  Proof. by destruct c. Qed.
  Lemma FQ_same K g c r g' : I K g → FQ c → gstep ZStrict g c r g' → g' = g ∧ gstep ZStrict g0 c r g0.
  Proof.
    intros HI Hc Hg. assert (g' = g) as -> by (eapply look_same; [by apply FQ_looks|done]). split; [done|].
    assert (Hold : ∀ x k, K0 !! x = Some k → x ∈ nodes g0 ∧ x ∈ nodes g).
    { intros x k Hk. assert (x ∈ nodes g0) by (apply (ba_dom _ _ _ _ HB); eauto). split; [done|].
      by eapply (I_old_node HB). }
    destruct c as [x| |x|x| |x| | |]; try done; simpl in Hc, Hg |- *.
    - destruct Hg as [-> _]. destruct (K0 !! x) as [k|] eqn:E; [|done]. destruct (Hold _ _ E).
      by rewrite !bool_decide_eq_true_2.
    - destruct Hc as [->|(k&Hk&Hf)].
      + destruct Hg as [_ Hg]. destruct (Hg (not_valid _ (no_zero _ _ HI))) as [-> _].
        split; [|done]. by intros []%(not_valid _ no_zero0).
      + destruct (Hold _ _ Hk) as [H0 H1]. destruct Hg as [Hg _]. destruct (Hg (or_introl H1)) as (l&->&Hnd&Hl&_).
        split; [|by intros []; left]. intros _. exists l. split_and!; [done..| |done]. intros y. rewrite Hl.
        split; [intros; by eapply (i_in _ _ HI)|apply HI].
    - destruct Hc as [->|(k&Hk&Hf)].
      + destruct Hg as [_ Hg]. destruct (Hg (not_valid _ (no_zero _ _ HI))) as [-> _].
        split; [|done]. by intros []%(not_valid _ no_zero0).
      + destruct (Hold _ _ Hk) as [H0 H1]. destruct Hg as [Hg _]. destruct (Hg (or_introl H1)) as (l&->&Hnd&Hl&_).
        split; [|by intros []; left]. intros _. exists l. split_and!; [done..| |done]. intros y. rewrite Hl.
        split; [intros; by eapply (i_out _ _ HI)|apply HI].
    - destruct Hc as [->|(k&Hk&_)].
      + destruct Hg as [_ Hg]. destruct (Hg (not_valid _ (no_zero _ _ HI))) as [-> _].
        split; [|done]. by intros []%(not_valid _ no_zero0).
      + destruct (Hold _ _ Hk) as [H0 H1]. destruct Hg as [Hg _]. destruct (Hg (or_introl H1)) as (->&_).
        split; [|by intros []; left]. intros _. rewrite (i_fwd _ _ HI) by done. by rewrite (i_bwd _ _ HI).
  Qed.

  (** ** Programs that ask nothing else *)
  Fixpoint Z {A} (p : prog A) (P : A → Prop) : Prop :=
    match p with
    | Ret a => P a
    | Throw _ | Panic | Diverge => True
    | Call c k => FQ c ∧ (∀ r, gstep ZStrict g0 c r g0 → Z (k r) P) ∧ Z (k (Err EStorage)) P
    | LoadBits k => ∀ m, good m → Z (k m) P
    | StoreBits m k => good m ∧ Z k P
    end.

  Lemma Z_seq {A B} (p : prog A) (f : A → prog B) P Q : Z p P → (∀ a, P a → Z (f a) Q) → Z (bind p f) Q.
  Proof. induction p; simpl; naive_solver. Qed.
  Lemma Z_try {A} (p : prog A) (P : res A → Prop) : Z p (λ a, P (Ok a)) → (∀ e, P (Err e)) → Z (try p) P.
  Proof. induction p; simpl; naive_solver. Qed.
  Lemma Z_conseq {A} (p : prog A) (P Q : A → Prop) : Z p P → (∀ a, P a → Q a) → Z p Q.
  Proof. induction p; simpl; naive_solver. Qed.
  Lemma Z_deref {A} (x : option A) (P : A → Prop) : (∀ a, x = Some a → P a) → Z (deref x) P.
  Proof. destruct x; simpl; auto. Qed.
  Lemma Z_prev {A} (p : prog A) (P : A → Prop) : Z p P → Z (try p) (λ r, ∀ a, nil_on_err r = Some a → P a).
  Proof. intros Hp. apply Z_try; [|by intros ?]. eapply Z_conseq; [exact Hp|]. by intros a ? ? [= <-]. Qed.

  Lemma Z_getref k x : nk0 k x →
    Z (st_getref x) (λ r, nko0 (prev_field k) (fst r) ∧ nko0 (next_field k) (snd r)).
  Proof.
    intros Hx. split_and!; [|intros r Hg|done].
    { destruct Hx; [by left|right; eauto]. }
    destruct r as [[a b]|]; [|done]. destruct Hx as [->|Hk].
    { destruct Hg as [_ Hg]. by destruct (Hg (not_valid _ no_zero0)). }
    destruct Hg as [Hg _]. destruct Hg as ([= -> ->]&_). { left. apply (ba_dom _ _ _ _ HB). eauto. }
    simpl. split.
    - destruct (bwd g0 !! x) as [y|] eqn:E; simpl.
      + apply (ba_back _ _ _ _ HB) in E. destruct (ba_ref _ _ _ _ HB _ _ E) as (a&b&Ha&Hb&Hn). simplify_eq.
        rewrite (prev_next _ _ Hn). by right.
      + destruct (prev_field k); [by left|done].
    - destruct (fwd g0 !! x) as [y|] eqn:E; simpl.
      + destruct (ba_ref _ _ _ _ HB _ _ E) as (a&b&Ha&Hb&Hn). simplify_eq. rewrite Hn. by right.
      + destruct (next_field k); [by left|done].
  Qed.
  Lemma Z_getref_zero P : Z (st_getref 0) P.
  Proof.
    split_and!; [by left|intros r Hg|done]. destruct Hg as [_ Hg]. by destruct (Hg (not_valid _ no_zero0)) as [-> _].
  Qed.

  Lemma Z_targets k k2 x : frozen_out k = true → (∀ k', joins k k' = true → k' ≠ Zero → k' = k2) → nk0 k x →
    Z (st_targets x) (Forall (λ y, nk0 k2 y)).
  Proof.
    intros Hf Hj Hx. split_and!; [|intros r Hg|done].
    { destruct Hx; [by left|right; eauto]. }
    destruct r as [l|]; [|done]. destruct Hx as [->|Hk].
    { destruct Hg as [_ Hg]. by destruct (Hg (not_valid _ no_zero0)). }
    destruct Hg as [Hg _]. destruct Hg as (?&[= <-]&_&Hl&_). { left. apply (ba_dom _ _ _ _ HB). eauto. }
    apply Forall_forall. intros y Hy%Hl. destruct (ba_edge _ _ _ _ HB _ _ Hy) as (a&b&Ha&Hb&Hab). simplify_eq.
    right. rewrite Hb. f_equal. apply Hj; [done|]. intros ->. by apply (ba_zero _ _ _ _ HB y).
  Qed.
  Lemma Z_sources k k2 x : frozen_in k = true → (∀ k', joins k' k = true → k' ≠ Zero → k' = k2) → nk0 k x →
    Z (st_sources x) (Forall (λ y, nk0 k2 y)).
  Proof.
    intros Hf Hj Hx. split_and!; [|intros r Hg|done].
    { destruct Hx; [by left|right; eauto]. }
    destruct r as [l|]; [|done]. destruct Hx as [->|Hk].
    { destruct Hg as [_ Hg]. by destruct (Hg (not_valid _ no_zero0)). }
    destruct Hg as [Hg _]. destruct Hg as (?&[= <-]&_&Hl&_). { left. apply (ba_dom _ _ _ _ HB). eauto. }
    apply Forall_forall. intros y Hy%Hl. destruct (ba_edge _ _ _ _ HB _ _ Hy) as (a&b&Ha&Hb&Hab). simplify_eq.
    right. rewrite Ha. f_equal. apply Hj; [done|]. intros ->. by apply (ba_zero _ _ _ _ HB y).
  Qed.
  Lemma Z_single {A} e (l : list A) (P : A → Prop) : Forall P l → Z (single e l) P.
  Proof. destruct l as [|x [|y l]]; try done. simpl. by inversion 1. Qed.

  Lemma Z_class_provide : Z class_provide (λ _, True).
  Proof.
    assert (H1 : K0 !! 1%N = Some (Root 1)) by (apply (ba_root _ _ _ _ HB); lia).
    split_and!; [by cbn; rewrite H1| |done]. intros r [-> _]. simpl.
    rewrite bool_decide_eq_true_2; [done|]. apply (ba_dom _ _ _ _ HB). eauto.
  Qed.

  Lemma Z_bit_initialize : Z bit_initialize (λ zo, zo = (z, o)).
  Proof.
    intros m [-> | ->]; [|done]. eapply Z_seq; [apply Z_class_provide|]. intros _ _.
    assert (H1 : K0 !! 1%N = Some (Root 1)) by (apply (ba_root _ _ _ _ HB); lia).
    assert (Hless := ba_less _ _ _ _ HB).
    assert (Hz : z = BitEnt false (be_class z) (be_char z)).
    { assert (H := ba_vz _ _ _ _ HB). destruct z; simpl in *. by subst. }
    assert (Ho : o = BitEnt true (be_class o) (be_char o)).
    { assert (H := ba_vo _ _ _ _ HB). destruct o; simpl in *. by subst. }
    assert (Hend : (BitEnt false (be_class z) (be_char z), BitEnt true (be_class o) (be_char o)) = (z, o)) by congruence.
    assert (Hread : ∀ b, b ∈ [z; o] → Z (st_getref (be_class b)) (λ r, snd r = be_char b)).
    { intros b Hb.
      assert (Fb : fwd g0 !! be_class b = Some (be_char b)).
      { apply elem_of_cons in Hb as [->|Hb%elem_of_list_singleton]; [|subst b]; [exact (ba_z _ _ _ _ HB)|exact (ba_o _ _ _ _ HB)]. }
      destruct (ba_ref _ _ _ _ HB _ _ Fb) as (k&?&Hk&_).
      split_and!; [right; eauto|intros [[a c]|] Hg; [|done]|done]. destruct Hg as [Hg _].
      destruct Hg as ([= -> ->]&_). { left. apply (ba_dom _ _ _ _ HB). eauto. }
      simpl. by rewrite Fb. }
    split_and!; [right; eauto|intros [l|] Hg; [|done]|done].
    destruct Hg as [Hg _]. destruct Hg as (?&[= <-]&Hnd&Hl&_). { left. apply (ba_dom _ _ _ _ HB). eauto. }
    assert (l = [be_class z; be_class o] ∨ l = [be_class o; be_class z]) as Hcases.
    { apply two_elements; auto; [intros Heq; rewrite Heq in Hless; lia|].
      intros x. rewrite Hl. apply (ba_bits _ _ _ _ HB). }
    destruct Hcases as [-> | ->]; cbn -[st_getref N.ltb].
    - rewrite (proj2 (N.ltb_lt _ _) Hless).
      eapply (Z_seq _ _ (λ zo, zo = (z, o))); [|intros ? ->; split; [by right|done]].
      eapply Z_seq; [apply Hread; by left|]. intros [a b] Hb; simpl in Hb; subst b.
      eapply Z_seq; [apply Hread; by right; left|]. intros [? b] Hb; simpl in Hb; subst b. exact Hend.
    - rewrite (proj2 (N.ltb_ge _ _)) by lia.
      eapply (Z_seq _ _ (λ zo, zo = (z, o))); [|intros ? ->; split; [by right|done]].
      eapply Z_seq; [apply Hread; by left|]. intros [a b] Hb; simpl in Hb; subst b.
      eapply Z_seq; [apply Hread; by right; left|]. intros [? b] Hb; simpl in Hb; subst b. exact Hend.
  Qed.
  Lemma Z_bit_fetch x : Z (bit_fetch x) (λ _, True).
  Proof.
    eapply Z_seq; [apply Z_bit_initialize|]. intros ? ->. by repeat case_match.
  Qed.

  Notation char0 e := (charT e K0).
  Notation word0 e := (wordT e K0).
  Notation phrase0 e := (phraseT e K0).
  Notation detail0 e := (detailT e K0).
  Notation remark0 e := (remarkT e K0).
  Notation fact0 e := (factT e K0).
  Notation story0 e := (storyT e K0).

  (** ** Characters *)
  Lemma Z_char_by_character x : nk0 CharacterCharacter x → Z (char_read_by_character x) (λ e, char0 e).
  Proof.
    intros Hx. eapply Z_seq; [by apply Z_getref|]. intros [a b] [Ha Hb]; simpl in Ha, Hb.
    eapply Z_seq; [by apply Z_getref|]. intros [? ?] _. done.
  Qed.
  Lemma Z_char_fetch x : nk0 CharacterWord x → Z (char_fetch x) (λ a, ∀ e, a = Some e → char0 e).
  Proof.
    intros Hx. eapply (Z_seq _ _ (λ e, char0 e)); [|by intros e He ? [= <-]].
    eapply Z_seq; [by apply Z_getref|]. intros [a b] [Ha _]; simpl in Ha.
    eapply Z_seq; [by apply Z_getref|]. intros [c d] [Hc _]; simpl in Hc.
    eapply Z_seq; [by apply Z_getref|]. intros [? ?] _. done.
  Qed.
  Lemma Z_char_bit_value el : (∀ e, el = Some e → char0 e) → Z (char_extract_bit_value el) (λ _, True).
  Proof.
    intros Hel. eapply Z_seq; [apply Z_deref; exact Hel|]. intros e (He&_&_).
    eapply (Z_seq _ _ (λ _, True)).
    { eapply Z_seq; [apply (Z_targets CharacterBit BitCharacter _ eq_refl); [kinds|exact He]|].
      intros l Hl. eapply Z_conseq; [by apply Z_single|]. done. }
    intros x _. eapply Z_seq; [apply Z_bit_fetch|]. done.
  Qed.
  Lemma Z_char_loop n el l : (∀ e, el = Some e → char0 e) → Z (char_extract_loop n el l) (λ _, True).
  Proof.
    revert el l. induction n as [|n IH]; intros el l Hel; cbn [char_extract_loop]; [done|].
    eapply (Z_seq _ _ (λ _, True)).
    { eapply Z_seq; [apply Z_deref; exact Hel|]. intros e (_&He&_).
      eapply Z_seq; [apply (Z_sources CharacterCharacter CharacterCharacter _ eq_refl); [kinds|exact He]|]. done. }
    intros [] _; cbn [negb]; [|done].
    eapply Z_seq; [apply (Z_prev _ (λ el, ∀ e, el = Some e → char0 e))|].
    { eapply Z_seq; [apply Z_deref; exact Hel|]. intros e (_&He&_).
      eapply (Z_seq _ _ (λ x, nk0 CharacterCharacter x)).
      { eapply Z_seq; [apply (Z_sources CharacterCharacter CharacterCharacter _ eq_refl); [kinds|exact He]|].
        intros xs Hxs. by apply Z_single. }
      intros x Hx. eapply Z_seq; [by apply Z_char_by_character|]. by intros e' He' ? [= <-]. }
    intros r Hr. eapply Z_seq; [apply Z_deref; exact Hr|]. intros el' Hel'.
    eapply Z_seq; [by apply Z_char_bit_value|]. intros b _. by apply IH.
  Qed.
  Lemma Z_char_extract n a : (∀ e, a = Some e → char0 e) → Z (char_extract n a) (λ _, True).
  Proof.
    intros Ha. eapply Z_seq; [by apply Z_char_bit_value|]. intros b _.
    eapply Z_seq; [by apply Z_char_loop|]. done.
  Qed.

  (** ** Words *)
  Lemma Z_word_value n e : word0 e → Z (word_extract_character_value n e) (λ _, True).
  Proof.
    intros (He&_&_).
    eapply (Z_seq _ _ (λ x, nk0 CharacterWord x)).
    { eapply Z_seq; [apply (Z_targets WordCharacter CharacterWord _ eq_refl); [kinds|exact He]|]. intros l Hl. by apply Z_single. }
    intros x Hx. eapply Z_seq; [by apply Z_char_fetch|]. intros a Ha. by apply Z_char_extract.
  Qed.
  Lemma Z_word_by_word x : nk0 WordWord x → Z (word_read_by_word x) (λ e, word0 e).
  Proof.
    intros Hx. eapply Z_seq; [by apply Z_getref|]. intros [a b] [Ha Hb]; simpl in Ha, Hb.
    eapply Z_seq; [by apply Z_getref|]. intros [? ?] _. done.
  Qed.
  Lemma Z_word_fetch x : nk0 WordPhrase x → Z (word_fetch x) (λ e, word0 e).
  Proof.
    intros Hx. eapply Z_seq; [by apply Z_getref|]. intros [a b] [Ha _]; simpl in Ha.
    eapply Z_seq; [by apply Z_getref|]. intros [c d] [Hc _]; simpl in Hc.
    eapply Z_seq; [by apply Z_getref|]. intros [? ?] _. done.
  Qed.
  Lemma Z_word_loop m n e l : word0 e → Z (word_extract_loop m n e l) (λ _, True).
  Proof.
    revert e l. induction n as [|n IH]; intros e l He; cbn [word_extract_loop]; [done|].
    assert (Hs : Z (st_sources (we_word e)) (Forall (λ y, nk0 WordWord y))).
    { apply (Z_sources WordWord WordWord _ eq_refl); [kinds|apply He]. }
    eapply (Z_seq _ _ (λ _, True)). { eapply Z_seq; [exact Hs|]. done. }
    intros [] _; cbn [negb]; [|done].
    eapply Z_seq; [apply (Z_prev _ (λ e, word0 e))|].
    { eapply (Z_seq _ _ (λ x, nk0 WordWord x)); [|by apply Z_word_by_word].
      eapply Z_seq; [exact Hs|]. intros xs Hxs. by apply Z_single. }
    intros r Hr. eapply Z_seq; [apply Z_deref; exact Hr|]. intros e' He'.
    eapply Z_seq; [by apply Z_word_value|]. intros b _. by apply IH.
  Qed.
  Lemma Z_word_extract n e : word0 e → Z (word_extract n e) (λ _, True).
  Proof.
    intros He. eapply Z_seq; [by apply Z_word_value|]. intros b _.
    eapply Z_seq; [by apply Z_word_loop|]. done.
  Qed.

  (** ** Phrases *)
  Lemma Z_phrase_value n e : phrase0 e → Z (phrase_extract_word_value n e) (λ _, True).
  Proof.
    intros (He&_&_).
    eapply (Z_seq _ _ (λ x, nk0 WordPhrase x)).
    { eapply Z_seq; [apply (Z_targets PhraseWord WordPhrase _ eq_refl); [kinds|exact He]|]. intros l Hl. by apply Z_single. }
    intros x Hx. eapply Z_seq; [by apply Z_word_fetch|]. intros a Ha. by apply Z_word_extract.
  Qed.
  Lemma Z_phrase_by_phrase x : nk0 PhrasePhrase x → Z (phrase_read_by_phrase x) (λ e, phrase0 e).
  Proof.
    intros Hx. eapply Z_seq; [by apply Z_getref|]. intros [a b] [Ha Hb]; simpl in Ha, Hb.
    eapply Z_seq; [by apply Z_getref|]. intros [? ?] _. done.
  Qed.
  Lemma Z_phrase_fetch x : nk0 PhraseDetail x → Z (phrase_fetch x) (λ e, phrase0 e).
  Proof.
    intros Hx. eapply Z_seq; [by apply Z_getref|]. intros [a b] [Ha _]; simpl in Ha.
    eapply Z_seq; [by apply Z_getref|]. intros [c d] [Hc _]; simpl in Hc.
    eapply Z_seq; [by apply Z_getref|]. intros [? ?] _. done.
  Qed.
  Lemma Z_phrase_loop m n e l : phrase0 e → Z (phrase_extract_loop m n e l) (λ _, True).
  Proof.
    revert e l. induction n as [|n IH]; intros e l He; cbn [phrase_extract_loop]; [done|].
    assert (Hs : Z (st_sources (pe_phrase e)) (Forall (λ y, nk0 PhrasePhrase y))).
    { apply (Z_sources PhrasePhrase PhrasePhrase _ eq_refl); [kinds|apply He]. }
    eapply (Z_seq _ _ (λ _, True)). { eapply Z_seq; [exact Hs|]. done. }
    intros [] _; cbn [negb]; [|done].
    eapply Z_seq; [apply (Z_prev _ (λ e, phrase0 e))|].
    { eapply (Z_seq _ _ (λ x, nk0 PhrasePhrase x)); [|by apply Z_phrase_by_phrase].
      eapply Z_seq; [exact Hs|]. intros xs Hxs. by apply Z_single. }
    intros r Hr. eapply Z_seq; [apply Z_deref; exact Hr|]. intros e' He'.
    eapply Z_seq; [by apply Z_phrase_value|]. intros b _. by apply IH.
  Qed.
  Lemma Z_phrase_extract n e : phrase0 e → Z (phrase_extract n e) (λ _, True).
  Proof.
    intros He. eapply Z_seq; [by apply Z_phrase_value|]. intros b _.
    eapply Z_seq; [by apply Z_phrase_loop|]. done.
  Qed.

  (** ** Remarks *)
  Lemma Z_texts n r : remark0 r → Z (get_object_and_property n r) (λ _, True).
  Proof.
    intros (_&Hr&_&_).
    eapply (Z_seq _ _ (λ x, nk0 DetailRemark x)).
    { eapply Z_seq; [apply (Z_sources RemarkDetail DetailRemark _ eq_refl); [kinds|exact Hr]|]. intros l Hl. by apply Z_single. }
    intros x Hx. eapply (Z_seq _ _ (λ d, nk0 DetailPhrase (de_phrase d))).
    { eapply Z_seq; [by apply Z_getref|]. intros [a b] [Ha _]; simpl in Ha.
      eapply Z_seq; [by apply Z_getref|]. intros [? ?] _. done. }
    intros d Hd. eapply (Z_seq _ _ (λ ab, nk0 PhraseDetail (fst ab) ∧ nk0 PhraseDetail (snd ab))).
    { eapply Z_seq; [apply (Z_sources DetailPhrase PhraseDetail _ eq_refl); [kinds|exact Hd]|]. intros l Hl.
      eapply Z_seq; [by apply Z_single|]. intros a Ha.
      eapply Z_seq; [apply (Z_targets DetailPhrase PhraseDetail _ eq_refl); [kinds|exact Hd]|]. intros l' Hl'.
      eapply Z_seq; [by apply Z_single|]. intros b Hb'. done. }
    intros [a b] [Ha Hb']; simpl in Ha, Hb'.
    eapply Z_seq; [by apply Z_phrase_fetch|]. intros pa Hpa.
    eapply Z_seq; [by apply Z_phrase_extract|]. intros ? _.
    eapply Z_seq; [by apply Z_phrase_fetch|]. intros pb Hpb.
    eapply Z_seq; [by apply Z_phrase_extract|]. intros ? _. done.
  Qed.

  Lemma Z_positions r : remark0 r → Z (st_targets (re_position r)) (λ l, l = []).
  Proof.
    intros (_&_&Hr&_). split_and!; [|intros rr Hg|done].
    { destruct Hr; [by left|right; eauto]. }
    destruct rr as [l|]; [|done]. destruct Hr as [Hr|Hk].
    { rewrite Hr in Hg. destruct Hg as [_ Hg]. by destruct (Hg (not_valid _ no_zero0)). }
    destruct Hg as [Hg _]. destruct Hg as (?&[= <-]&_&Hl&_). { left. apply (ba_dom _ _ _ _ HB). eauto. }
    destruct l as [|y l]; [done|]. assert (Hy : y ∈ y :: l) by left. apply Hl in Hy.
    destruct (ba_edge _ _ _ _ HB _ _ Hy) as (a&b&Ha&Hb&Hab). simplify_eq. by destruct b.
  Qed.
  Lemma Z_has_next_remark r : remark0 r → Z (has_next_remark r) (λ b, b = false).
  Proof. intros Hr. eapply Z_seq; [by apply Z_positions|]. by intros ? ->. Qed.
  Lemma Z_get_next_remark r P : remark0 r → Z (get_next_remark r) P.
  Proof.
    intros Hr. eapply (Z_seq _ _ (λ _, False)); [|done].
    eapply Z_seq; [by apply Z_positions|]. by intros ? ->.
  Qed.

  Lemma Z_astray {A} x (f : fact_agg → prog A) P : nk0 RemarkFact x → Z (bind (fact_fetch_by_remark x) f) P.
  Proof.
    intros Hx. eapply (Z_seq _ _ (λ _, False)); [|done]. eapply (Z_seq _ _ (λ _, False)); [|done].
    eapply Z_seq; [by apply Z_getref|]. intros [a b] [_ Hb]; simpl in Hb. rewrite Hb.
    eapply (Z_seq _ _ (λ _, False)); [apply Z_getref_zero|done].
  Qed.

  Lemma Z_get_remark x : nk0 RemarkClass x → Z (get_remark x) (λ r, remark0 r).
  Proof.
    intros Hx. eapply Z_seq; [by apply Z_getref|]. intros [? a] [_ Ha]; simpl in Ha.
    eapply Z_seq; [by apply Z_getref|]. intros [? b] [_ Hb]; simpl in Hb.
    eapply Z_seq; [by apply Z_getref|]. intros [? c] [_ Hc]; simpl in Hc. by split_and!.
  Qed.

  Lemma Z_story_or_zero f : nk0 FactStory (fe_story f) → Z (fact_target_story_or_zero f) (λ x, nk0 StoryFact x).
  Proof.
    intros Hf. eapply (Z_seq _ _ (λ r, ∀ x, r = Ok x → nk0 StoryFact x)).
    - apply Z_try; [|done]. eapply Z_seq; [apply (Z_targets FactStory StoryFact _ eq_refl); [kinds|exact Hf]|].
      intros l Hl. eapply Z_conseq; [by apply Z_single|]. by intros x Hx ? [= <-].
    - intros [x|] Hx; [by apply Hx|by left].
  Qed.

  Lemma Z_get_first_fact r : remark0 r → Z (get_first_fact r) (λ r', remark0 r').
  Proof.
    intros (_&_&_&Hr).
    eapply (Z_seq _ _ (λ x, nk0 FactRemark x)).
    { eapply Z_seq; [apply (Z_targets RemarkFact FactRemark _ eq_refl); [kinds|exact Hr]|]. intros l Hl. by apply Z_single. }
    intros x Hx. eapply (Z_seq _ _ (λ a, nk0 FactStory (fe_story (fa_fact a)))).
    { eapply (Z_seq _ _ (λ f, nk0 FactStory (fe_story f))); [|done].
      eapply Z_seq; [by apply Z_getref|]. intros [? a] [_ Ha]; simpl in Ha.
      eapply Z_seq; [by apply Z_getref|]. intros [? b] [_ Hb]; simpl in Hb. done. }
    intros fa Hfa. eapply (Z_seq _ _ (λ a, nk0 FactRemark (fe_remark (fa_fact a)))).
    { eapply Z_seq; [by apply Z_story_or_zero|]. intros s Hs.
      eapply (Z_seq _ _ (λ e, nk0 StoryFact (se_fact e))).
      { eapply Z_seq; [apply (Z_getref StoryFact); exact Hs|]. intros [? a] [_ Ha]; simpl in Ha.
        eapply Z_seq; [apply (Z_getref StoryPosition); exact Ha|]. intros [? b] _. exact Hs. }
      intros e He. eapply (Z_seq _ _ (λ x, nk0 FactStory x)).
      { eapply Z_seq; [apply (Z_targets StoryFact FactStory _ eq_refl); [kinds|exact He]|]. intros l Hl. by apply Z_single. }
      intros y Hy. eapply (Z_seq _ _ (λ _, True)). { unfold fact_storage. by case_match. }
      intros _ _. eapply (Z_seq _ _ (λ f, nk0 FactRemark (fe_remark f))); [|done].
      eapply Z_seq; [apply (Z_getref FactStory); exact Hy|]. intros [a ?] [Ha _]; simpl in Ha.
      eapply Z_seq; [apply (Z_getref FactPosition); exact Ha|]. intros [b ?] [Hb _]; simpl in Hb.
      eapply Z_seq; [apply (Z_getref FactRemark); exact Hb|]. intros [? ?] _. exact Hb. }
    intros fb Hfb. eapply (Z_seq _ _ (λ x, nk0 RemarkFact x)).
    { eapply Z_seq; [apply (Z_targets FactRemark RemarkFact _ eq_refl); [kinds|exact Hfb]|]. intros l Hl. by apply Z_single. }
    intros y Hy.
    eapply Z_seq; [apply (Z_getref RemarkFact); exact Hy|]. intros [a ?] [Ha _]; simpl in Ha.
    eapply Z_seq; [apply (Z_getref RemarkPosition); exact Ha|]. intros [b ?] [Hb _]; simpl in Hb.
    eapply Z_seq; [apply (Z_getref RemarkDetail); exact Hb|]. intros [c ?] [Hc _]; simpl in Hc. by split_and!.
  Qed.

  Lemma Z_get_story n r : remark0 r → Z (get_story n r) (λ _, True).
  Proof.
    intros Hr. eapply Z_seq; [by apply Z_get_first_fact|]. intros f Hf.
    destruct n; cbn [get_story_loop]; [done|].
    eapply Z_seq; [by apply Z_texts|]. intros [ob pr] _. cbv zeta.
    eapply Z_seq; [by apply Z_has_next_remark|]. by intros ? ->.
  Qed.

  Lemma Z_reading n t o' :
    (∀ r, issued t r → remark0 r) → reads_from t o' → Z (call_of n o') (λ _, True).
  Proof.
    intros Ht Ho. destruct o'; cbn in Ho.
    1-4: by destruct Ho as [? _].
    1: { destruct Ho as (r&Hr&->). eapply Z_seq; [apply Z_get_remark; by apply Ht|]. done. }
    all: destruct Ho as [_ (r0&[= <-]&Hr%Ht)]; cbn [call_of].
    - eapply Z_seq; [by apply Z_texts|]. done.
    - eapply Z_seq; [by apply Z_has_next_remark|]. done.
    - eapply Z_seq; [by apply (Z_get_next_remark _ (λ _, True))|]. done.
    - eapply (Z_seq _ _ (λ _, True)); [|done]. apply Z_astray, Hr.
    - eapply (Z_seq _ _ (λ _, True)); [|done]. apply Z_astray, Hr.
    - eapply Z_seq; [by apply Z_get_first_fact|]. done.
    - eapply (Z_seq _ _ (λ _, True)); [|done]. apply Z_astray, Hr.
    - eapply (Z_seq _ _ (λ _, True)); [|done]. apply Z_astray, Hr.
    - eapply Z_seq; [by apply Z_get_story|]. done.
  Qed.
End reads.
