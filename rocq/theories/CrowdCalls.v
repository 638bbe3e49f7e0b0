(** The API calls next to others. *)
From stdpp Require Import gmap.
From Coq Require Import NArith ZArith Lia.
From Verif Require Import Base GoText Model1 Model2 Model3 Storage Spec SpecMoments SpecCrowd BitProofs CallProofs
  CrowdLogic CrowdWrites.
Local Open Scope nat_scope.

Lemma some_mono {A} (P : A → kinds → Prop) x K K' :
  (∀ a K K', P a K → K ⊆ K' → P a K') → if_some P x K → K ⊆ K' → if_some P x K'.
Proof. intros Hm Hx HK a ->. by eapply Hm; [apply Hx|]. Qed.
Lemma some_some {A} (P : A → kinds → Prop) a K : P a K → if_some P (Some a) K.
Proof. by intros H ? [= <-]. Qed.
Lemma some_none {A} (P : A → kinds → Prop) K : if_some P None K.
Proof. by intros ? ?. Qed.

Section calls.
  Context {g0 : graph} {K0 : kinds} {z o : bit_ent} (HB : base g0 K0 z o).
  Notation T := (@T g0 K0 z o _).
  Notation TT := (@TT g0 K0 z o _).
  Notation own x := (x ∉ nodes g0).

  Lemma TT_deref {A} (P : A → kinds → Prop) x K :
    (∀ a K K', P a K → K ⊆ K' → P a K') → if_some P x K → TT (deref x) P K.
  Proof. intros Hm Hx. destruct x as [a|]; [|by intros ?]. apply TT_ret. intros K' HK. by eapply Hm; [apply Hx|]. Qed.
  Lemma TT_nil_on_err {A} (P : A → kinds → Prop) (p : prog A) K :
    TT p P K → TT (try p) (λ r, if_some P (nil_on_err r)) K.
  Proof. intros Hp. apply TT_try; [|by intros e K' H ? ?]. eapply TT_conseq; [exact Hp|]. by intros a K' H HP ? [= <-]. Qed.
  Lemma TT_of_res {A} (r : res A) K : TT (of_res r) (λ _ _, True) K.
  Proof. looks HB. Qed.

  (** ** Characters *)
  Lemma TT_char_find b es K : Forall (λ e, charT e K) es → TT (char_find b es) (if_some charT) K.
  Proof.
    revert K. induction es as [|e es IH]; intros K Hes; cbn [char_find].
    { apply TT_ret. intros. apply some_none. }
    inversion Hes as [|? ? He Hes']; subst.
    eapply TT_seq; [instantiate (1 := λ _ _, True); looks HB|]. intros x K1 H1 _.
    eapply TT_seq; [instantiate (1 := λ _ _, True); looks HB|]. intros y K2 H2 _.
    destruct (Bool.eqb b (be_value y)).
    - apply TT_ret. intros K3 H3. apply some_some. eapply charT_mono; [exact He|]. by do 2 (etrans; [done|]).
    - apply IH. eapply list_mono; [apply charT_mono|exact Hes'|by etrans].
  Qed.

  Lemma TT_char_targets e K : charT e K →
    TT (char_get_target_characters e) (λ l K', Forall (λ x, nk CharacterCharacter x K') l) K.
  Proof. intros (_&He&_). apply (TT_targets CharacterCharacter); [kinds|done]. Qed.

  Lemma TT_char_next el b K : if_some charT el K → TT (char_provide_next_element el b) (if_some charT) K.
  Proof.
    intros Hel. eapply TT_seq; [apply TT_deref; [apply charT_mono|done]|]. intros c K1 H1 Hc.
    eapply TT_seq; [by apply TT_char_targets|]. intros l K2 H2 Hl.
    eapply TT_seq; [by apply TT_char_read_all|]. intros es K3 H3 Hes.
    eapply TT_seq; [by apply TT_char_find|]. intros [e|] K4 H4 He.
    { apply TT_ret. intros K5 H5. eapply some_mono; [apply charT_mono|exact He|done]. }
    eapply TT_seq; [apply (TT_class_provide HB)|]. intros _ K5 H5 _.
    eapply TT_seq; [apply (TT_bit_provide HB)|]. intros bit K6 H6 Hbit.
    eapply TT_seq; [apply (TT_char_tail HB)|].
    { exact Hbit. }
    { eapply charT_mono; [exact Hc|]. by do 4 (etrans; [done|]). }
    intros e K7 H7 He'. apply TT_ret. intros K8 H8. apply some_some. by eapply charT_mono.
  Qed.

  Lemma TT_char_first b K : TT (char_provide_first_element b) (if_some charT) K.
  Proof.
    eapply TT_seq; [apply (TT_bit_provide HB)|]. intros bit K1 H1 Hbit.
    eapply TT_seq; [apply (TT_class_provide HB)|]. intros _ K2 H2 _.
    eapply TT_seq; [apply TT_nil_on_err, (TT_char_head HB); by eapply nk_mono; [exact Hbit|]|]. intros r K3 H3 Hr.
    apply TT_ret. intros K4 H4. eapply some_mono; [apply charT_mono|exact Hr|done].
  Qed.

  Lemma some_charT_mono x K K' : if_some charT x K → K ⊆ K' → if_some charT x K'.
  Proof. intros. eapply some_mono; [apply charT_mono|done|done]. Qed.

  Lemma TT_char_loop el path K :
    if_some (if_some charT) el K → TT (char_provide_loop el path) (if_some (if_some charT)) K.
  Proof.
    revert el K. induction path as [|b path IH]; intros el K Hel; cbn [char_provide_loop].
    { apply TT_ret. intros K1 H1. eapply some_mono; [apply some_charT_mono|exact Hel|done]. }
    eapply TT_seq; [apply TT_deref; [apply some_charT_mono|exact Hel]|]. intros c K1 H1 Hc.
    eapply TT_seq; [by apply TT_nil_on_err, TT_char_next|]. intros r K2 H2 Hr. by apply IH.
  Qed.

  Lemma TT_char_provide n K : TT (char_provide n) (if_some charT) K.
  Proof.
    eapply TT_seq; [apply TT_of_res|]. intros [|b path] K1 H1 _; [by intros ?|].
    eapply TT_seq; [apply TT_char_first|]. intros el K2 H2 Hel.
    eapply TT_seq; [apply TT_char_loop; by apply some_some|]. intros r K3 H3 Hr.
    apply TT_deref; [apply some_charT_mono|done].
  Qed.

  (** ** Words *)
  Lemma looks_word_extract_loop m n el l K : TT (word_extract_loop m n el l) (λ _ _, True) K.
  Proof.
    pose proof (looks_char_extract_loop HB) as Hc.
    revert el l K. induction n; cbn [word_extract_loop]; looks HB.
  Qed.
  Lemma looks_word_extract n e K : TT (word_extract n e) (λ _ _, True) K.
  Proof. pose proof (looks_char_extract_loop HB) as Hc. pose proof looks_word_extract_loop. looks HB. Qed.

  Lemma TT_word_by_character x K : nk WordCharacter x K → TT (word_read_by_character x) wordT K.
  Proof.
    intros Hx. eapply TT_seq; [by apply TT_getref|]. intros [a b] K1 H1 [_ Hb]; simpl in Hb.
    eapply TT_seq; [by apply TT_getref|]. intros [c d] K2 H2 [_ Hd]; simpl in Hd.
    apply TT_ret. intros K3 H3. split_and!; simpl; carry.
  Qed.
  Lemma TT_word_by_word x K : nk WordWord x K → TT (word_read_by_word x) wordT K.
  Proof.
    intros Hx. eapply TT_seq; [by apply TT_getref|]. intros [a b] K1 H1 [Ha Hb]; simpl in Ha, Hb.
    eapply TT_seq; [by apply TT_getref|]. intros [c d] K2 H2 _.
    apply TT_ret. intros K3 H3. split_and!; simpl; carry.
  Qed.

  Lemma TT_char_target_word c K : charT c K → TT (char_get_target_word c) (nk WordCharacter) K.
  Proof.
    intros (_&_&Hc). eapply TT_seq; [apply (TT_targets CharacterWord WordCharacter); [kinds|done]|].
    intros l K1 H1 Hl. apply TT_single. intros x K2 H2 Hx. rewrite Forall_forall in Hl. by eapply nk_mono; [apply Hl|].
  Qed.

  Lemma TT_word_head a K : if_some charT a K → TT (word_provide_head_entity a) wordT K.
  Proof.
    intros Ha. eapply TT_seq; [apply TT_deref; [apply charT_mono|done]|]. intros c K1 H1 Hc.
    eapply TT_seq; [instantiate (1 := λ _ _, True); looks HB|]. intros h K2 H2 _.
    destruct h; cbn [negb].
    - eapply TT_seq; [apply TT_char_target_word; by eapply charT_mono|]. intros x K3 H3 Hx. by apply TT_word_by_character.
    - destruct Hc as (_&_&Hc).
      apply (TT_row HB WordClass WordCharacter WordWord WordPhrase); [done..|].
      intros x b c' d K3 H3 Kx Ka Kb Kc Ox Oa Ob Oc.
      eapply TT_seq; [apply (TT_connect HB WordCharacter CharacterWord); simpl; [by right| |done..]|].
      { eapply nk_mono; [exact Hc|by etrans]. }
      intros _ K4 H4 _.
      eapply TT_seq; [apply (TT_connect HB CharacterWord WordCharacter); simpl;
        [|right; by eapply lookup_weaken|done..]|].
      { eapply nk_mono; [exact Hc|]. by do 2 (etrans; [done|]). }
      intros _ K5 H5 _. apply TT_ret. intros K6 H6.
      assert (K3 ⊆ K6) by (do 2 (etrans; [done|]); done).
      split_and!; right; by eapply lookup_weaken.
  Qed.

  (** The new word is fresh: its edge is connected twice. *)
  Lemma TT_word_tail a prev K :
    if_some charT a K → wordT prev K →
    TT (word_create_tail_entity a prev) (λ e K, wordT e K ∧ own (we_word e)) K.
  Proof.
    intros Ha (_&Hp&_).
    apply (TT_row HB WordClass WordCharacter WordWord WordPhrase); [done..|].
    intros x b c' d K1 H1 Kx Ka Kb Kc Ox Oa Ob Oc.
    eapply TT_seq; [apply TT_deref; [apply charT_mono|by eapply some_charT_mono]|]. intros c K2 H2 (_&_&Hc).
    eapply TT_seq; [apply (TT_connect HB WordCharacter CharacterWord); simpl;
      [right; by eapply lookup_weaken|done..]|].
    intros _ K3 H3 _.
    eapply TT_seq; [apply (TT_connect HB WordWord WordWord); simpl; [| |done..]|].
    { eapply nk_mono; [exact Hp|]. by do 2 (etrans; [done|]). }
    { right. eapply lookup_weaken; [exact Kb|by etrans]. }
    intros _ K4 H4 _. apply TT_ret. intros K5 H5.
    assert (K1 ⊆ K5) by (do 3 (etrans; [done|]); done).
    split; [|done]. split_and!; right; by eapply lookup_weaken.
  Qed.

  Lemma TT_word_read_all l K :
    Forall (λ x, nk WordWord x K) l → TT (word_read_all l) (λ es K', Forall (λ e, wordT e K') es) K.
  Proof.
    revert K. induction l as [|x l IH]; intros K Hl; cbn [word_read_all]; [by apply TT_ret|].
    inversion Hl as [|? ? Hx Hl']; subst.
    eapply TT_seq; [by apply TT_word_by_word|]. intros e K1 H1 He.
    eapply TT_seq; [apply IH; by eapply nks_mono|]. intros es K2 H2 Hes.
    apply TT_ret. intros K3 H3. constructor; [by eapply wordT_mono; [|etrans]|].
    by eapply list_mono; [apply wordT_mono|exact Hes|].
  Qed.

  Lemma looks_word_value n e K : TT (word_extract_character_value n e) (λ _ _, True) K.
  Proof. pose proof (looks_char_extract_loop HB) as Hc. looks HB. Qed.

  Lemma TT_word_find n v es K : Forall (λ e, wordT e K) es → TT (word_find n v es) (if_some wordT) K.
  Proof.
    revert K. induction es as [|e es IH]; intros K Hes; cbn [word_find].
    { apply TT_ret. intros. apply some_none. }
    inversion Hes as [|? ? He Hes']; subst.
    eapply TT_seq; [apply looks_word_value|]. intros x K1 H1 _.
    destruct (v =? x)%Z.
    - apply TT_ret. intros K3 H3. apply some_some. eapply wordT_mono; [exact He|by etrans].
    - apply IH. by eapply list_mono; [apply wordT_mono|exact Hes'|].
  Qed.

  Lemma TT_word_next n e v K : wordT e K → TT (word_provide_next_element n e v) wordT K.
  Proof.
    intros He. eapply TT_seq; [apply (TT_targets WordWord WordWord); [kinds|apply He]|]. intros l K2 H2 Hl.
    eapply TT_seq; [by apply TT_word_read_all|]. intros es K3 H3 Hes.
    eapply TT_seq; [by apply TT_word_find|]. intros [f|] K4 H4 Hf.
    { apply TT_ret. intros K5 H5. by eapply wordT_mono; [apply Hf|]. }
    eapply TT_seq; [apply (TT_class_provide HB)|]. intros _ K5 H5 _.
    eapply TT_seq; [apply TT_char_provide|]. intros c K6 H6 Hc.
    assert (K ⊆ K6) as H06 by (do 4 (etrans; [done|]); done).
    eapply TT_seq; [apply TT_word_tail; [done|by eapply wordT_mono]|]. intros f K7 H7 [Hf' Of].
    eapply TT_seq; [apply (TT_connect HB WordWord WordWord); [|apply Hf'|done..]|].
    { destruct He as (_&He&_). eapply nk_mono; [exact He|by etrans]. }
    intros _ K8 H8 _. apply TT_ret. intros K9 H9. eapply wordT_mono; [exact Hf'|by etrans].
  Qed.

  Lemma TT_word_first v K : TT (word_provide_first_element v) wordT K.
  Proof.
    eapply TT_seq; [apply TT_char_provide|]. intros c K1 H1 Hc.
    eapply TT_seq; [apply (TT_class_provide HB)|]. intros _ K2 H2 _.
    apply TT_word_head. by eapply some_charT_mono.
  Qed.

  Lemma TT_word_loop n el path K : if_some wordT el K → TT (word_provide_loop n el path) (if_some wordT) K.
  Proof.
    revert el K. induction path as [|b path IH]; intros el K Hel; cbn [word_provide_loop].
    { apply TT_ret. intros K1 H1. by eapply some_mono; [apply wordT_mono|exact Hel|]. }
    eapply TT_seq; [apply TT_deref; [apply wordT_mono|exact Hel]|]. intros c K1 H1 Hc.
    eapply TT_seq; [by apply TT_nil_on_err, TT_word_next|]. intros r K2 H2 Hr. by apply IH.
  Qed.

  Lemma TT_word_provide n s K : TT (word_provide n s) wordT K.
  Proof.
    eapply TT_seq; [apply TT_of_res|]. intros [|b path] K1 H1 _; [by intros ?|].
    eapply TT_seq; [apply TT_word_first|]. intros el K2 H2 Hel.
    eapply TT_seq; [apply TT_word_loop; by apply some_some|]. intros r K3 H3 Hr.
    apply TT_deref; [apply wordT_mono|done].
  Qed.

  (** ** Phrases *)
  Lemma looks_phrase_value n e K : TT (phrase_extract_word_value n e) (λ _ _, True) K.
  Proof. pose proof looks_word_extract. looks HB. Qed.
  Lemma looks_phrase_extract_loop m n el l K : TT (phrase_extract_loop m n el l) (λ _ _, True) K.
  Proof.
    pose proof looks_phrase_value as Hc.
    revert el l K. induction n; cbn [phrase_extract_loop]; looks HB.
  Qed.
  Lemma looks_phrase_extract n e K : TT (phrase_extract n e) (λ _ _, True) K.
  Proof. pose proof looks_phrase_value as Hc. pose proof looks_phrase_extract_loop. looks HB. Qed.

  Lemma TT_phrase_by_word x K : nk PhraseWord x K → TT (phrase_read_by_word x) phraseT K.
  Proof.
    intros Hx. eapply TT_seq; [by apply TT_getref|]. intros [a b] K1 H1 [_ Hb]; simpl in Hb.
    eapply TT_seq; [by apply TT_getref|]. intros [c d] K2 H2 [_ Hd]; simpl in Hd.
    apply TT_ret. intros K3 H3. split_and!; simpl; carry.
  Qed.
  Lemma TT_phrase_by_phrase x K : nk PhrasePhrase x K → TT (phrase_read_by_phrase x) phraseT K.
  Proof.
    intros Hx. eapply TT_seq; [by apply TT_getref|]. intros [a b] K1 H1 [Ha Hb]; simpl in Ha, Hb.
    eapply TT_seq; [by apply TT_getref|]. intros [c d] K2 H2 _.
    apply TT_ret. intros K3 H3. split_and!; simpl; carry.
  Qed.

  Lemma TT_word_target_phrase c K : wordT c K → TT (word_get_target_phrase c) (nk PhraseWord) K.
  Proof.
    intros (_&_&Hc). eapply TT_seq; [apply (TT_targets WordPhrase PhraseWord); [kinds|done]|].
    intros l K1 H1 Hl. apply TT_single. intros x K2 H2 Hx. rewrite Forall_forall in Hl. by eapply nk_mono; [apply Hl|].
  Qed.

  Lemma TT_phrase_head w K : wordT w K → TT (phrase_provide_head_entity w) phraseT K.
  Proof.
    intros Hw.
    eapply TT_seq; [instantiate (1 := λ _ _, True); looks HB|]. intros h K2 H2 _.
    destruct h; cbn [negb].
    - eapply TT_seq; [apply TT_word_target_phrase; by eapply wordT_mono|]. intros x K3 H3 Hx. by apply TT_phrase_by_word.
    - destruct Hw as (_&_&Hc).
      apply (TT_row HB PhraseClass PhraseWord PhrasePhrase PhraseDetail); [done..|].
      intros x b c' d K3 H3 Kx Ka Kb Kc Ox Oa Ob Oc.
      eapply TT_seq; [apply (TT_connect HB PhraseWord WordPhrase); simpl; [by right| |done..]|].
      { eapply nk_mono; [exact Hc|by etrans]. }
      intros _ K4 H4 _.
      eapply TT_seq; [apply (TT_connect HB WordPhrase PhraseWord); simpl;
        [|right; by eapply lookup_weaken|done..]|].
      { eapply nk_mono; [exact Hc|]. by do 2 (etrans; [done|]). }
      intros _ K5 H5 _. apply TT_ret. intros K6 H6.
      assert (K3 ⊆ K6) by (do 2 (etrans; [done|]); done).
      split_and!; right; by eapply lookup_weaken.
  Qed.

  Lemma TT_phrase_tail w prev K :
    wordT w K → phraseT prev K → TT (phrase_create_tail_entity w prev) phraseT K.
  Proof.
    intros (_&_&Hw) (_&Hp&_).
    apply (TT_row HB PhraseClass PhraseWord PhrasePhrase PhraseDetail); [done..|].
    intros x b c' d K1 H1 Kx Ka Kb Kc Ox Oa Ob Oc.
    eapply TT_seq; [apply (TT_connect HB PhraseWord WordPhrase); simpl; [by right| |done..]|].
    { by eapply nk_mono. }
    intros _ K3 H3 _.
    eapply TT_seq; [apply (TT_connect HB PhrasePhrase PhrasePhrase); simpl; [| |done..]|].
    { eapply nk_mono; [exact Hp|]. by etrans. }
    { right. by eapply lookup_weaken. }
    intros _ K4 H4 _. apply TT_ret. intros K5 H5.
    assert (K1 ⊆ K5) by (do 2 (etrans; [done|]); done).
    split_and!; right; by eapply lookup_weaken.
  Qed.

  Lemma TT_phrase_read_all l K :
    Forall (λ x, nk PhrasePhrase x K) l → TT (phrase_read_all l) (λ es K', Forall (λ e, phraseT e K') es) K.
  Proof.
    revert K. induction l as [|x l IH]; intros K Hl; cbn [phrase_read_all]; [by apply TT_ret|].
    inversion Hl as [|? ? Hx Hl']; subst.
    eapply TT_seq; [by apply TT_phrase_by_phrase|]. intros e K1 H1 He.
    eapply TT_seq; [apply IH; by eapply nks_mono|]. intros es K2 H2 Hes.
    apply TT_ret. intros K3 H3. constructor; [by eapply phraseT_mono; [|etrans]|].
    by eapply list_mono; [apply phraseT_mono|exact Hes|].
  Qed.

  Lemma TT_phrase_find n v es K : Forall (λ e, phraseT e K) es → TT (phrase_find n v es) (if_some phraseT) K.
  Proof.
    revert K. induction es as [|e es IH]; intros K Hes; cbn [phrase_find].
    { apply TT_ret. intros. apply some_none. }
    inversion Hes as [|? ? He Hes']; subst.
    eapply TT_seq; [apply looks_phrase_value|]. intros x K1 H1 _.
    destruct (gostring_eqb v x).
    - apply TT_ret. intros K3 H3. apply some_some. eapply phraseT_mono; [exact He|by etrans].
    - apply IH. by eapply list_mono; [apply phraseT_mono|exact Hes'|].
  Qed.

  Lemma TT_phrase_next n e v K : phraseT e K → TT (phrase_provide_next_element n e v) phraseT K.
  Proof.
    intros He. eapply TT_seq; [apply (TT_targets PhrasePhrase PhrasePhrase); [kinds|apply He]|]. intros l K2 H2 Hl.
    eapply TT_seq; [by apply TT_phrase_read_all|]. intros es K3 H3 Hes.
    eapply TT_seq; [by apply TT_phrase_find|]. intros [f|] K4 H4 Hf.
    { apply TT_ret. intros K5 H5. by eapply phraseT_mono; [apply Hf|]. }
    eapply TT_seq; [apply (TT_class_provide HB)|]. intros _ K5 H5 _.
    eapply TT_seq; [apply TT_word_provide|]. intros c K6 H6 Hc.
    assert (K ⊆ K6) as H06 by (do 4 (etrans; [done|]); done).
    apply TT_phrase_tail; [done|by eapply phraseT_mono].
  Qed.

  Lemma TT_phrase_first n v K : TT (phrase_provide_first_element n v) phraseT K.
  Proof.
    eapply TT_seq; [apply TT_word_provide|]. intros c K1 H1 Hc.
    eapply TT_seq; [apply (TT_class_provide HB)|]. intros _ K2 H2 _.
    apply TT_phrase_head. by eapply wordT_mono.
  Qed.

  Lemma TT_phrase_loop n el path K : if_some phraseT el K → TT (phrase_provide_loop n el path) (if_some phraseT) K.
  Proof.
    revert el K. induction path as [|b path IH]; intros el K Hel; cbn [phrase_provide_loop].
    { apply TT_ret. intros K1 H1. by eapply some_mono; [apply phraseT_mono|exact Hel|]. }
    eapply TT_seq; [apply TT_deref; [apply phraseT_mono|exact Hel]|]. intros c K1 H1 Hc.
    eapply TT_seq; [by apply TT_nil_on_err, TT_phrase_next|]. intros r K2 H2 Hr. by apply IH.
  Qed.

  Lemma TT_phrase_provide n s K : TT (phrase_provide n s) phraseT K.
  Proof.
    eapply TT_seq; [apply TT_of_res|]. intros [|b path] K1 H1 _; [by intros ?|].
    eapply TT_seq; [apply TT_phrase_first|]. intros el K2 H2 Hel.
    eapply TT_seq; [apply TT_phrase_loop; by apply some_some|]. intros r K3 H3 Hr.
    apply TT_deref; [apply phraseT_mono|done].
  Qed.

  (** ** Details *)
  Lemma TT_detail_create ob pr K : phraseT ob K → phraseT pr K → TT (detail_create_entity ob pr) detailT K.
  Proof.
    intros (_&_&Ho) (_&_&Hp) HK0.
    apply (T_class_new HB DetailClass); [done..|]. intros x K1 H1 Kx Ox _ _.
    apply (T_create HB DetailPhrase); [done|]. intros a K2 H2 Ka Oa Fa _.
    apply (T_connect HB PhraseDetail DetailPhrase); [|by right|done..|].
    { eapply nk_mono; [exact Ho|by etrans]. }
    apply (T_connect HB DetailPhrase PhraseDetail); [by right| |done..|].
    { eapply nk_mono; [exact Hp|by etrans]. }
    apply (T_create HB DetailRemark); [done|]. intros b K3 H3 Kb Ob Fb _.
    assert (Kx3 : K3 !! x = Some DetailClass) by (eapply lookup_weaken; [exact Kx|by etrans]).
    assert (Ka3 : K3 !! a = Some DetailPhrase) by (eapply lookup_weaken; [exact Ka|done]).
    rewrite !elem_of_union, !elem_of_singleton in Fa, Fb.
    apply (T_setref HB DetailClass DetailPhrase); [done..| | |]; [set_solver|set_solver|].
    apply (T_setref HB DetailPhrase DetailRemark); [done..| | |]; [set_solver|set_solver|].
    intros K4 H4. split; right; by eapply lookup_weaken.
  Qed.

  Lemma TT_detail_by_phrase x K : nk DetailPhrase x K → TT (detail_read_by_phrase x) detailT K.
  Proof.
    intros Hx. eapply TT_seq; [by apply TT_getref|]. intros [a b] K1 H1 [_ Hb]; simpl in Hb.
    apply TT_ret. intros K2 H2. split; simpl; carry.
  Qed.

  Lemma common_first xs ys x : x ∈ common_details xs ys → x ∈ xs.
  Proof.
    unfold common_details. intros (y&Hy&Hx)%elem_of_list_In%in_flat_map.
    apply filter_In in Hx as [_ ->%N.eqb_eq]. by apply elem_of_list_In.
  Qed.

  Lemma TT_detail_entity ob pr K : phraseT ob K → phraseT pr K → TT (detail_provide_entity ob pr) detailT K.
  Proof.
    intros Ho Hp.
    eapply TT_seq; [apply (TT_targets PhraseDetail DetailPhrase); [kinds|apply Ho]|]. intros l K1 H1 Hl.
    eapply TT_seq; [instantiate (1 := λ _ _, True); looks HB|]. intros r K2 H2 _.
    pose proof (common_first l (match r with Ok l => l | Err _ => [] end)) as Hcom.
    cbv zeta. destruct (common_details _ _) as [|c [|]]; [| |by intros ?].
    - apply TT_detail_create; (eapply phraseT_mono; [done|by etrans]).
    - apply TT_detail_by_phrase. rewrite Forall_forall in Hl. eapply nk_mono; [|exact H2].
      apply Hl, Hcom. by left.
  Qed.

  Lemma TT_detail_provide n ob pr K : TT (detail_provide n ob pr) detailT K.
  Proof.
    eapply TT_seq; [apply TT_phrase_provide|]. intros a K1 H1 Ha.
    eapply TT_seq; [apply TT_phrase_provide|]. intros b K2 H2 Hb.
    eapply TT_seq; [apply (TT_class_provide HB)|]. intros _ K3 H3 _.
    apply TT_detail_entity; [eapply phraseT_mono; [exact Ha|by etrans]|by eapply phraseT_mono].
  Qed.

  Lemma looks_detail_texts n d K : TT (detail_get_object_and_property n d) (λ _ _, True) K.
  Proof. pose proof looks_phrase_extract. looks HB. Qed.

  (** ** Stories and facts *)
  Lemma T_unit {A} (p : prog A) Q K F B : T (bind p Ret) Q K F B → T p Q K F B.
  Proof.
    revert K F B. induction p; simpl; intros K F B HT; auto.
    - intros K1 g H1 HI Hfr. destruct (HT K1 g H1 HI Hfr) as (Hs&Hr&He). split; [done|]. split; [|by apply H].
      intros r g' Hg. destruct (Hr r g' Hg) as (K2&F2&B2&?&?&?&?). exists K2, F2, B2. split_and!; auto.
    - destruct HT. split; [done|]. by apply IHp.
  Qed.

  Lemma TT_unit {A C} (p : prog A) (q : A → prog C) P K :
    TT (bind p (λ x, bind (q x) Ret)) P K → TT (bind p q) P K.
  Proof.
    intros H HK. specialize (H HK). revert H. clear HK. generalize (∅ : gset N) at 1 3. generalize (∅ : gset N).
    revert K. induction p; simpl; intros K B F HT; auto using T_unit.
    - intros K1 g H1 HI Hfr. destruct (HT K1 g H1 HI Hfr) as (Hs&Hr&He). split; [done|]. split; [|by apply H].
      intros r g' Hg. destruct (Hr r g' Hg) as (K2&F2&B2&?&?&?&?). exists K2, F2, B2. split_and!; auto.
    - destruct HT. split; [done|]. by apply IHp.
  Qed.

  Lemma TT_story_create K :
    TT story_create (λ e K, storyT e K ∧ own (se_fact e) ∧ own (se_position e) ∧ own (se_tree e)) K.
  Proof.
    eapply TT_seq; [apply (TT_class_provide HB)|]. intros _ K1 H1 _.
    apply TT_unit.
    apply (TT_row HB StoryClass StoryFact StoryPosition StoryTree storyIdentifier StoryEnt Ret); [done..|].
    intros x a b c K2 H2 Kx Ka Kb Kc Ox Oa Ob Oc. apply TT_ret. intros K3 H3. split; [|done].
    split_and!; right; by eapply lookup_weaken.
  Qed.

  Lemma TT_first_story_fact K :
    TT fact_create_first_story_fact (λ a K, factT (fa_fact a) K ∧ own (fe_remark (fa_fact a))) K.
  Proof.
    eapply TT_seq; [apply (TT_class_provide HB)|]. intros _ K1 H1 _.
    apply (TT_row HB FactClass FactRemark FactPosition FactStory); [done..|].
    intros x a b c K2 H2 Kx Ka Kb Kc Ox Oa Ob Oc.
    eapply TT_seq; [apply TT_story_create|]. intros s K3 H3 (Hs&Os&_).
    eapply TT_seq; [apply (TT_connect HB FactStory StoryFact);
      [right; by eapply lookup_weaken|apply Hs|done..]|].
    intros _ K4 H4 _.
    eapply TT_seq; [apply (TT_connect HB StoryFact FactStory); [| |done..]|].
    { destruct Hs as (Hs&_). by eapply nk_mono. }
    { right. eapply lookup_weaken; [exact Kc|by etrans]. }
    intros _ K5 H5 _. apply TT_ret. intros K6 H6. split; [|done].
    assert (K2 ⊆ K6) by (do 3 (etrans; [done|]); done).
    split_and!; right; by eapply lookup_weaken.
  Qed.

  (** Lookups that go astray end at node 0 and fail. *)
  Lemma TT_getref_zero {A} (f : N * N → prog A) P K : TT (bind (st_getref 0) f) P K.
  Proof.
    eapply (TT_seq _ _ (λ _ _, False)); [|done].
    intros _. apply T_look; [done| |done]. intros K1 g r HK HI Hg. destruct r as [[a b]|e]; [|done].
    destruct (valid_dec g 0%N) as [Hv|Hv]; destruct Hg as [_ Hg2]; [|by destruct (Hg2 Hv)].
    destruct Hv as [Hv|[? _]]; [|done]. apply (i_dom _ _ HI) in Hv as [? Hv]. by rewrite (i_none _ _ HI) in Hv.
  Qed.
  Lemma TT_fact_astray x K : nk RemarkFact x K → TT (fact_read_by_remark x) (λ _ _, False) K.
  Proof.
    intros Hx. eapply TT_seq; [by apply TT_getref|]. intros [a b] K1 H1 [_ ->]. apply TT_getref_zero.
  Qed.

  Lemma TT_fact_by_remark x K : nk FactRemark x K → TT (fact_read_by_remark x) factT K.
  Proof.
    intros Hx. eapply TT_seq; [by apply TT_getref|]. intros [a b] K1 H1 [_ Hb]; simpl in Hb.
    eapply TT_seq; [by apply TT_getref|]. intros [c d] K2 H2 [_ Hd]; simpl in Hd.
    apply TT_ret. intros K3 H3. split_and!; simpl; carry.
  Qed.

  (** ** Remarks *)
  Definition remark_tail (r : remark_ent) : Prop := own (re_detail r) ∧ own (re_fact r).

  Lemma TT_remark_row {A} (f : remark_ent → prog A) P K :
    (∀ r K', K ⊆ K' → remarkT r K' → remark_tail r → TT (f r) P K') →
    TT (class_provide;;; x <- class_new remarkIdentifier;; r <- remark_create_entity x;; f r) P K.
  Proof.
    intros Hf. eapply TT_seq; [apply (TT_class_provide HB)|]. intros _ K1 H1 _.
    apply (TT_row HB RemarkClass RemarkDetail RemarkPosition RemarkFact); [done..|].
    intros x a b c K2 H2 Kx Ka Kb Kc Ox Oa Ob Oc. apply Hf; [by etrans|split_and!; by right|done].
  Qed.

  Lemma TT_detail_point d r K : detailT d K → remarkT r K → remark_tail r →
    TT (detail_point_to_remark d (re_detail r)) (λ _ _, True) K.
  Proof.
    intros (_&Hd) (_&Hr&_) [Or _]. apply (TT_connect HB DetailRemark RemarkDetail); done.
  Qed.
  Lemma TT_remark_point r x K : remarkT r K → remark_tail r → nk FactRemark x K →
    TT (remark_point_to_fact r x) (λ _ _, True) K.
  Proof.
    intros (_&_&_&Hr) [_ Or] Hx. apply (TT_connect HB RemarkFact FactRemark); done.
  Qed.

  Lemma TT_create_story n ob pr K : TT (create_story n ob pr) remarkT K.
  Proof.
    apply TT_remark_row. intros r K1 H1 Hr Or.
    eapply TT_seq; [apply TT_detail_provide|]. intros d K2 H2 Hd.
    eapply TT_seq; [apply TT_detail_point; [done|by eapply remarkT_mono|done]|]. intros _ K3 H3 _.
    eapply TT_seq; [apply TT_first_story_fact|]. intros f K4 H4 [Hf Of].
    assert (K1 ⊆ K4) by (do 2 (etrans; [done|]); done).
    eapply TT_seq; [apply TT_remark_point; [by eapply remarkT_mono|done|apply Hf]|]. intros _ K5 H5 _.
    eapply TT_seq; [apply (TT_connect HB FactRemark RemarkFact); [| |done..]|].
    { destruct Hf as (Hf&_). by eapply nk_mono. }
    { destruct Hr as (_&_&_&Hr). eapply nk_mono; [exact Hr|by etrans]. }
    intros _ K6 H6 _. apply TT_ret. intros K7 H7. eapply remarkT_mono; [exact Hr|].
    do 3 (etrans; [done|]); done.
  Qed.

  Lemma TT_remark_target r K : remarkT r K → TT (remark_get_target_fact r) (nk FactRemark) K.
  Proof.
    intros (_&_&_&Hr). eapply TT_seq; [apply (TT_targets RemarkFact FactRemark); [kinds|done]|].
    intros l K1 H1 Hl. apply TT_single. intros x K2 H2 Hx. rewrite Forall_forall in Hl. by eapply nk_mono; [apply Hl|].
  Qed.

  Lemma TT_add_remark n a pr K : remarkT a K → TT (add_remark_to_fact n a pr) remarkT K.
  Proof.
    intros Ha. apply TT_remark_row. intros r K1 H1 Hr Or.
    eapply TT_seq; [instantiate (1 := λ _ _, True); looks HB|]. intros x K2 H2 _.
    eapply TT_seq; [instantiate (1 := λ _ _, True); looks HB|]. intros d K3 H3 _.
    eapply TT_seq; [apply looks_detail_texts|]. intros [ob ?] K4 H4 _.
    eapply TT_seq; [apply TT_detail_provide|]. intros d' K5 H5 Hd.
    assert (K1 ⊆ K5) as H15 by (do 3 (etrans; [done|]); done).
    eapply TT_seq; [apply TT_detail_point; [done|by eapply remarkT_mono|done]|]. intros _ K6 H6 _.
    assert (K1 ⊆ K6) as H16 by by etrans.
    eapply TT_seq; [apply TT_remark_target; eapply remarkT_mono; [exact Ha|by etrans]|]. intros f K7 H7 Hf.
    eapply (TT_seq _ _ (λ a K, factT (fa_fact a) K)).
    { eapply TT_seq; [by apply TT_fact_by_remark|]. intros e K8 H8 He. apply TT_ret. intros; carry. }
    intros fa K8 H8 Hfa.
    assert (K1 ⊆ K8) as H18 by (do 2 (etrans; [done|]); done).
    eapply TT_seq; [apply TT_remark_point; [by eapply remarkT_mono|done|apply Hfa]|]. intros _ K9 H9 _.
    apply TT_ret. intros K10 H10. eapply remarkT_mono; [exact Hr|]. by do 2 (etrans; [done|]).
  Qed.

  (** AddFactToStory and CreateChildStory fail. *)
  Lemma TT_add_fact n a ob pr K : remarkT a K → TT (add_fact_to_story n a ob pr) remarkT K.
  Proof.
    intros Ha. apply TT_remark_row. intros r K1 H1 Hr Or.
    eapply TT_seq; [apply TT_detail_provide|]. intros d K2 H2 Hd.
    eapply TT_seq; [apply TT_detail_point; [done|by eapply remarkT_mono|done]|]. intros _ K3 H3 _.
    eapply (TT_seq _ _ (λ _ _, False)); [|done].
    eapply TT_seq; [apply TT_fact_astray|done]. destruct Ha as (_&_&_&Ha). eapply nk_mono; [exact Ha|].
    by do 2 (etrans; [done|]).
  Qed.
  Lemma TT_child_story n a ob pr K : remarkT a K → TT (create_child_story n a ob pr) remarkT K.
  Proof.
    intros Ha. apply TT_remark_row. intros r K1 H1 Hr Or.
    eapply TT_seq; [apply TT_detail_provide|]. intros d K2 H2 Hd.
    eapply TT_seq; [apply TT_detail_point; [done|by eapply remarkT_mono|done]|]. intros _ K3 H3 _.
    eapply (TT_seq _ _ (λ _ _, False)); [|done].
    eapply TT_seq; [apply TT_fact_astray|done]. destruct Ha as (_&_&_&Ha). eapply nk_mono; [exact Ha|].
    by do 2 (etrans; [done|]).
  Qed.

  Lemma looks_get_texts n r K : TT (get_object_and_property n r) (λ _ _, True) K.
  Proof. pose proof looks_detail_texts. looks HB. Qed.
  Lemma looks_story_loop n m r s K : TT (get_story_loop n m r s) (λ _ _, True) K.
  Proof.
    pose proof looks_get_texts as H.
    revert r s K. induction m; cbn [get_story_loop]; looks HB.
  Qed.

  (** Every call of the API. *)
  Definition remark_value (v : value) (K : kinds) : Prop := ∀ r, v = VRem r → remarkT r K.

  Lemma TT_value {A} (p : prog A) P mk K :
    TT p P K → (∀ a K, P a K → remark_value (mk a) K) → TT (x <- p;; Ret (mk x)) remark_value K.
  Proof.
    intros Hp Hm. eapply TT_seq; [exact Hp|]. intros a K1 H1 Ha. apply TT_ret. intros K2 H2 r Hr.
    eapply remarkT_mono; [by eapply Hm|done].
  Qed.

  Lemma TT_creating n o' K :
    creating o' = true → (∀ r, receiver o' = Some r → remarkT r K) → TT (call_of n o') remark_value K.
  Proof.
    intros Hc Hr. destruct o'; try done; cbn [call_of receiver] in *;
      (eapply TT_value; [|by intros a Ka Ha ? [= <-]]).
    - apply TT_create_story.
    - by apply TT_add_remark, Hr.
    - by apply TT_add_fact, Hr.
    - by apply TT_child_story, Hr.
  Qed.
  Lemma TT_reading n o' K : creating o' = false → TT (call_of n o') (λ _ _, True) K.
  Proof.
    intros Hc. pose proof looks_get_texts as H1. pose proof looks_story_loop as H2.
    destruct o'; try done; unfold call_of; looks HB.
  Qed.
End calls.
