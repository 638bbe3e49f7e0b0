(** The number of storage calls a read makes. *)
From stdpp Require Import gmap.
From Coq Require Import NArith ZArith Lia.
From Verif Require Import Base GoText Codec Model1 Model2 Model3 Storage SpecText Spec SpecPlay SpecCost Inv Wp Steps Entity BitProofs Reads
  CharProofs WordProofs PhraseProofs DetailProofs StoryProofs HistoryProofs ApiProofs RefProofs PlayProofs LaterProofs FuelProofs.
Local Open Scope nat_scope.

(** ** Counting

    [tally p m n Q]: whatever the storage answers, if [p] started with bit cache
    [m] after [n] calls returns, then [Q] holds of its result, cache and number
    of calls. *)
Fixpoint tally {A} (p : prog A) (m : cache) (n : nat) (Q : A → cache → nat → Prop) : Prop :=
  match p with
  | Ret a => Q a m n
  | Throw _ | Panic | Diverge => True
  | Call c k => ∀ r, tally (k r) m (S n) Q
  | LoadBits k => tally (k m) m n Q
  | StoreBits m' k => tally k m' n Q
  end.
Lemma tally_mono {A} (p : prog A) m n (Q Q' : A → cache → nat → Prop) :
  tally p m n Q → (∀ a m n, Q a m n → Q' a m n) → tally p m n Q'.
Proof. intros H HQ. revert m n H. induction p; intros m0 n0 H1; cbn [tally] in *; eauto. Qed.
Lemma tally_bind {A B} (p : prog A) (f : A → prog B) m n Q :
  tally p m n (λ a m n, tally (f a) m n Q) → tally (bind p f) m n Q.
Proof. revert m n. induction p; intros m0 n0 H1; cbn [bind tally] in *; eauto. Qed.
Lemma tally_try {A} (p : prog A) m n (Q : res A → cache → nat → Prop) :
  tally p m n (λ a, Q (Ok a)) → (∀ e m n, Q (Err e) m n) → tally (try p) m n Q.
Proof. intros H HE. revert m n H. induction p; intros m0 n0 H1; cbn [try tally] in *; eauto. Qed.
Lemma tally_sound S {A} (p : prog A) evs s m (Q : A → cache → nat → Prop) a n :
  tally p m n Q → r_out (run S p evs s m) = OOk a → ∃ m', Q a m' (n + calls S p evs s m).
Proof.
  revert evs s m n. induction p as [b|e| | |c k IH|k IH|m1 k IH]; intros evs s m n Ht Ho; cbn [tally run calls r_out] in *; try done.
  - simplify_eq. exists m. by rewrite Nat.add_0_r.
  - destruct evs as [|[] evs]; cbn [tail] in *; try done; (eapply IH in Ho as [m' HQ]; [|apply Ht]); exists m';
      by rewrite <- Nat.add_succ_comm.
  - eauto.
  - eauto.
Qed.

(** ** Reading with at most 31 steps per character *)
Definition word_b (fuel : nat) (word : word_ent) : prog gostring :=
  characterValue <- word_extract_character_value 31 word;;
  path <- word_extract_loop 31 fuel word [characterValue];;
  Ret (string_of_runes (rev path)).
Definition phrase_value_b (fuel : nat) (e : phrase_ent) : prog gostring :=
  targetWordIdentifier <- phrase_get_target_word e;;
  targetWord <- word_fetch targetWordIdentifier;;
  word_b fuel targetWord.
Fixpoint phrase_loop_b (wfuel fuel : nat) (phrase : phrase_ent) (path : list gostring) : prog (list gostring) :=
  match fuel with
  | O => Diverge
  | S fuel' =>
    hasPreviousElement <- phrase_has_source_phrase phrase;;
    if negb hasPreviousElement then Ret path
    else
      previous <- try (phrase_get_previous_element phrase);;
      phrase' <- deref (nil_on_err previous);;
      wordValue <- phrase_value_b wfuel phrase';;
      phrase_loop_b wfuel fuel' phrase' (path ++ [wordValue])
  end.
Definition phrase_b (fuel : nat) (phrase : phrase_ent) : prog gostring :=
  wordValue <- phrase_value_b fuel phrase;;
  path <- phrase_loop_b fuel fuel phrase [wordValue];;
  Ret (join_space (rev path)).
Definition detail_b (fuel : nat) (d : detail_ent) : prog (gostring * gostring) :=
  '(objectIdentifier, propertyIdentifier) <- detail_get_object_and_property_phrases d;;
  objectPhrase <- phrase_fetch objectIdentifier;;
  objectPhraseValue <- phrase_b fuel objectPhrase;;
  propertyPhrase <- phrase_fetch propertyIdentifier;;
  propertyPhraseValue <- phrase_b fuel propertyPhrase;;
  Ret (objectPhraseValue, propertyPhraseValue).
Definition texts_b (fuel : nat) (a : remark_ent) : prog (gostring * gostring) :=
  detailIdentifier <- remark_get_source_detail a;;
  detail <- detail_fetch detailIdentifier;;
  detail_b fuel detail.

Section small.
  Context {fuel : nat} (Hfuel : 31 ≤ fuel).
  Lemma below_word_b e : below (word_b fuel e) (word_extract fuel e).
  Proof.
    unfold word_b, word_extract. apply below_bind; [by apply below_character_value|]. intros z.
    apply below_bind; [by apply below_word_loop|]. intros. apply below_refl.
  Qed.
  Lemma below_value_b e : below (phrase_value_b fuel e) (phrase_extract_word_value fuel e).
  Proof. unfold phrase_value_b, phrase_extract_word_value. mono. apply below_word_b. Qed.
  Lemma below_loop_b f e path : below (phrase_loop_b fuel f e path) (phrase_extract_loop fuel f e path).
  Proof.
    revert e path. induction f as [|f IH]; intros e path; [apply below_diverge|]. cbn [phrase_loop_b phrase_extract_loop].
    mono. apply below_value_b.
  Qed.
  Lemma below_phrase_b e : below (phrase_b fuel e) (phrase_extract fuel e).
  Proof. unfold phrase_b, phrase_extract. apply below_bind; [apply below_value_b|]. intros z.
    apply below_bind; [apply below_loop_b|]. intros. apply below_refl. Qed.
  Lemma below_texts_b a : below (texts_b fuel a) (get_object_and_property fuel a).
  Proof.
    unfold texts_b, get_object_and_property, detail_b, detail_get_object_and_property. mono; apply below_phrase_b.
  Qed.
End small.

Section reads_b.
  Context {zp : zpolicy} {fk : bool} {F : nat}.
  Notation R := (R zp fk F).
  Notation E0 := (E0 fk).
  Context (fuel : nat) (HF : F ≤ fuel).

  Lemma R_word_b e rs G g :
    wordC G g e rs → up G →
    R (word_b fuel e) (λ x _ _, x = string_of_runes rs) E0 G g.
  Proof.
    intros H Hup. apply R_intro. intros Hok.
    destruct (wordC_ok Hok _ _ H) as (_&Hlen&_).
    destruct (R_word_extract_loop (zp := zp) (fk := fk) (F := F) 31 (le_n _) e rs G g H Hup) as (l&r&Heq&Hloop).
    unfold word_b.
    eapply R_then; [eapply (R_word_extract_character_value 31 (le_n _) e rs r); auto; by rewrite Heq, last_snoc|done|].
    intros G1 g1 Hok1 X1.
    eapply R_then; [apply Hloop; [done|]|done|].
    { rewrite Heq, app_length, rev_length in Hlen. simpl in Hlen. lia. }
    intros G2 g2 Hok2 X2. apply R_ret. intros _. cbn [app rev]. by rewrite Heq.
  Qed.

  Lemma R_phrase_value_b e ws rs G g :
    phraseC G g e ws → up G → last ws = Some rs →
    R (phrase_value_b fuel e) (λ x _ _, x = string_of_runes rs) E0 G g.
  Proof.
    intros H Hup Hr. destruct (phraseC_last _ _ H) as (w&rs'&Hr'&Hw&He). simplify_eq.
    pose proof (phraseC_base _ _ _ _ H) as ((_&Lc&_)&_).
    eapply R_one_target; [exact Lc|exact I|exact He| |done]. intros G1 g1 Hok1 X1.
    eapply R_then; [by eapply R_word_read_by_phrase, (word_base_mono X1), wordC_base|done|].
    intros G2 g2 Hok2 X2. apply R_word_b.
    - by apply (wordC_mono X2), (wordC_mono X1).
    - by apply (up_mono X2), (up_mono X1).
  Qed.

  Lemma R_phrase_loop_b e ws G g :
    phraseC G g e ws → up G → ∃ l w,
      ws = rev l ++ [w] ∧
      ∀ f path G1 g1, ext G g G1 g1 → length l < f →
        R (phrase_loop_b fuel f e path) (λ p _ _, p = path ++ map string_of_runes l) E0 G1 g1.
  Proof.
    intros H Hup. induction H as [e r c Hb Hc Hl|e p rs r Hb Hp IH Hl].
    - exists [], r. split; [done|]. intros f path G1 g1 X1 Hf.
      destruct f as [|f]; [simpl in Hf; lia|]. cbn [phrase_loop_b].
      eapply (R_then _ false); [eapply R_phrase_has_source|done|].
      { apply (phraseC_mono X1). by eapply phraseC_head. }
      { split; [done|]. intros (rs0&r'&Hne&Heq). destruct rs0 as [|? [|]]; done. }
      intros G2 g2 Hok2 X2. apply R_ret. intros _. by rewrite app_nil_r.
    - pose proof (phraseC_tail _ _ _ _ _ _ Hb Hp Hl) as H.
      destruct IH as (l&r0&->&Hloop). exists (r0 :: l), r. split; [done|].
      intros f path G1 g1 X1 Hf. destruct f as [|f]; [simpl in Hf; lia|]. cbn [phrase_loop_b].
      simpl in Hf.
      eapply (R_then _ true); [eapply R_phrase_has_source|done|].
      { by apply (phraseC_mono X1). }
      { split; [|done]. intros _. exists (rev l ++ [r0]), r. split; [|done]. by destruct (rev l). }
      intros G2 g2 Hok2 X2. cbn [negb].
      assert (X2' : ext G g G2 g2) by (eapply ext_trans; eauto).
      pose proof (phrase_base_mono X2' _ _ Hb) as ((_&_&Lw&_)&_).
      eapply (R_seq _ _ _ _ _ (λ x _ _, x = Ok p ∨ fk = true ∧ ∃ e, x = Err e)); [|done|].
      + eapply R_try.
        * eapply R_one_source; [exact Lw|exact I|by apply (ext_edge X2')| |done].
          intros G3 g3 Hok3 X3. eapply R_phrase_read_by_phrase.
          by apply (phrase_base_mono X3), (phrase_base_mono X2'), phraseC_base.
        * intros w G' g' _ _ ->. by left.
        * intros ab G' g' _ _ [??]. destruct ab; [|done..]. right. eauto.
      + intros x G3 g3 Hok3 X3 Hx.
        assert (X3' : ext G g G3 g3) by (eapply ext_trans; eauto).
        destruct Hx as [->|[Hfk [e' ->]]]; cbn [nil_on_err deref bind]; [|by apply R_panic].
        eapply R_then; [eapply (R_phrase_value_b p _ r0)|done|].
        { by apply (phraseC_mono X3'). }
        { by apply (up_mono X3'). }
        { by rewrite last_snoc. }
        intros G4 g4 Hok4 X4. cbn [map].
        replace (path ++ string_of_runes r0 :: map string_of_runes l)
          with ((path ++ [string_of_runes r0]) ++ map string_of_runes l) by by rewrite <- app_assoc.
        apply Hloop; [|lia]. eapply ext_trans; eauto.
  Qed.

  Lemma R_phrase_b e ws G g :
    phraseC G g e ws → up G →
    R (phrase_b fuel e) (λ x _ _, x = text_of ws) E0 G g.
  Proof.
    intros H Hup. apply R_intro. intros Hok.
    destruct (phraseC_ok Hok _ _ H) as (_&Hlen&_).
    destruct (R_phrase_loop_b e ws G g H Hup) as (l&w&Heq&Hloop).
    unfold phrase_b.
    eapply R_then; [eapply (R_phrase_value_b e ws w); auto; by rewrite Heq, last_snoc|done|].
    intros G1 g1 Hok1 X1.
    eapply R_then; [apply Hloop; [done|]|done|].
    { rewrite Heq, app_length, rev_length in Hlen. simpl in Hlen. lia. }
    intros G2 g2 Hok2 X2. apply R_ret. intros _. cbn [app rev]. rewrite Heq. unfold text_of.
    by rewrite map_app, map_rev.
  Qed.

  Lemma R_detail_b d o p G g : detailC G g d o p → up G →
    R (detail_b fuel d) (λ x _ _, x = (text_of o, text_of p)) E0 G g.
  Proof.
    intros (Lp&_&_&eo&ep&Ho&Hp&Eo&Ep) Hup. unfold detail_b.
    eapply (R_then _ (pe_detail eo, pe_detail ep)); [|done|].
    { unfold detail_get_object_and_property_phrases.
      apply R_assoc.
      eapply R_one_source; [exact Lp|exact I|exact Eo| |done]. intros G1 g1 _ X1.
      apply R_assoc.
      eapply R_one_target; [by apply (ext_lab_lookup X1)|exact I|by apply (ext_edge X1)| |done].
      intros G2 g2 _ X2. by apply R_ret. }
    intros G1 g1 _ X1.
    eapply R_then; [by eapply R_phrase_read_by_detail, (phrase_base_mono X1), phraseC_base|done|].
    intros G2 g2 _ X2. assert (X2' := ext_trans _ _ _ _ _ _ X1 X2).
    eapply R_then; [apply (R_phrase_b); [by apply (phraseC_mono X2')|by apply (up_mono X2')]|done|].
    intros G3 g3 _ X3. assert (X3' := ext_trans _ _ _ _ _ _ X2' X3).
    eapply R_then; [by eapply R_phrase_read_by_detail, (phrase_base_mono X3'), phraseC_base|done|].
    intros G4 g4 _ X4. assert (X4' := ext_trans _ _ _ _ _ _ X3' X4).
    eapply R_then; [apply (R_phrase_b); [by apply (phraseC_mono X4')|by apply (up_mono X4')]|done|].
    intros G5 g5 _ X5. by apply R_ret.
  Qed.

  Lemma R_texts_b e o p G g : remC G g e o p → up G →
    R (texts_b fuel e) (λ x _ _, x = (text_of o, text_of p)) E0 G g.
  Proof.
    intros (((_&Ld&_)&_)&d&Hd&Hed) Hup. unfold texts_b, remark_get_source_detail.
    eapply R_one_source; [exact Ld|exact I|exact Hed| |done]. intros G1 g1 _ X1.
    eapply R_seq; [by eapply R_detail_fetch, (detailC_mono X1)|done|]. intros x G2 g2 _ X2 [H1 H2].
    apply R_detail_b.
    - eapply detailC_same; [done..|]. by apply (detailC_mono X2), (detailC_mono X1).
    - by apply (up_mono X2), (up_mono X1).
  Qed.
End reads_b.

(** ** Costs

    Initialising the bit cache takes at most 25 calls. *)
Definition pot (m : cache) : nat := match m with None => 25 | Some _ => 0 end.
Notation spends p m n c := (tally p m n (λ _ m' n', n' + pot m' ≤ n + pot m + c)).

Lemma tally_invoke c m n (Q : answer c → cache → nat → Prop) : (∀ a, Q a m (S n)) → tally (invoke c) m n Q.
Proof. intros H [a|e]; [apply H|exact I]. Qed.
Lemma tally_single {A} e (l : list A) m n (Q : A → cache → nat → Prop) : (∀ x, Q x m n) → tally (single e l) m n Q.
Proof. intros H. destruct l as [|x [|y l]]; cbn [single tally]; [exact I|apply H|exact I]. Qed.
Lemma tally_deref {A} (o : option A) m n (Q : A → cache → nat → Prop) : (∀ x, o = Some x → Q x m n) → tally (deref o) m n Q.
Proof. intros H. destruct o as [x|]; cbn [deref tally]; [by apply H|exact I]. Qed.

Ltac count1 :=
  match goal with
  | |- tally (bind _ _) _ _ _ => apply tally_bind
  | |- tally (invoke _) _ _ _ => apply tally_invoke; intros ?
  | |- tally (st_has _) _ _ _ => apply tally_invoke; intros ?
  | |- tally st_create _ _ _ => apply tally_invoke; intros ?
  | |- tally (st_sources _) _ _ _ => apply tally_invoke; intros ?
  | |- tally (st_targets _) _ _ _ => apply tally_invoke; intros ?
  | |- tally (st_setref _ _) _ _ _ => apply tally_invoke; intros ?
  | |- tally (st_getref _) _ _ _ => apply tally_invoke; intros ?
  | |- tally (st_connect _ _) _ _ _ => apply tally_invoke; intros ?
  | |- tally (single _ _) _ _ _ => apply tally_single; intros ?
  | |- tally (deref _) _ _ _ => apply tally_deref; intros ? ?
  | |- tally (Ret _) _ _ _ => cbn [tally]
  | |- tally (Throw _) _ _ _ => exact I
  | |- tally Panic _ _ _ => exact I
  | |- tally Diverge _ _ _ => exact I
  | |- tally (StoreBits _ _) _ _ _ => cbn [tally]
  | |- tally (match ?x with _ => _ end) _ _ _ => destruct x
  | |- tally (let '(_, _) := ?x in _) _ _ _ => destruct x
  end.
Ltac count := repeat (cbv beta; count1).

Lemma cost_class_provide m n : tally class_provide m n (λ _ m' n', m' = m ∧ n' ≤ n + 16).
Proof. unfold class_provide, class_create_all, class_create_next, class_create. count; (split; [done|lia]). Qed.
Lemma cost_bit_fetch x m n : spends (bit_fetch x) m n 0.
Proof.
  unfold bit_fetch, bit_initialize. apply tally_bind. cbn [tally].
  destruct m as [[z o]|]; [count; simpl; lia|].
  apply tally_bind. eapply tally_mono; [apply cost_class_provide|]. intros u m1 n1 [-> H1]. clear u.
  unfold class_all_bits, class_new. count; simpl in *; lia.
Qed.

(** Use of a proved cost. *)
Ltac spend H := eapply tally_mono; [apply H|]; intros ? ? ? ?; cbv beta in *.

Lemma cost_bit_value el m n : spends (char_extract_bit_value el) m n 1.
Proof. unfold char_extract_bit_value, char_get_target_bit. count. spend cost_bit_fetch. count. lia. Qed.
Lemma cost_char_loop k el path m n : spends (char_extract_loop (S k) el path) m n (5 * k + 1).
Proof.
  revert el path m n. induction k as [|k IH]; intros el path m n.
  - cbn [char_extract_loop]. unfold char_has_previous_element, char_has_source_character. count; [lia|].
    apply tally_try; [|intros; exact I]. unfold char_get_previous_element, char_get_source_character, char_read_by_character.
    count. spend cost_bit_value. exact I.
  - cbn [char_extract_loop]. unfold char_has_previous_element, char_has_source_character. count; [lia|].
    apply tally_try; [|intros; exact I]. unfold char_get_previous_element, char_get_source_character, char_read_by_character.
    count. spend cost_bit_value. spend IH. lia.
Qed.
Lemma cost_char a m n : spends (char_extract 31 a) m n 152.
Proof.
  unfold char_extract. count. spend cost_bit_value. count. spend (cost_char_loop 30). count. lia.
Qed.
Lemma cost_character_value e m n : spends (word_extract_character_value 31 e) m n 156.
Proof.
  unfold word_extract_character_value, word_get_target_character, char_fetch, char_read_by_word. count. spend cost_char. lia.
Qed.
Lemma cost_word_loop f e path m n :
  tally (word_extract_loop 31 f e path) m n
    (λ path' m' n', n' + pot m' + 160 * length path ≤ n + pot m + 160 * length path' + 1).
Proof.
  revert e path m n. induction f as [|f IH]; intros e path m n; [exact I|].
  cbn [word_extract_loop]. unfold word_has_source_word. count; [lia|].
  apply tally_try; [|intros; exact I]. unfold word_get_previous_element, word_get_source_word, word_read_by_word.
  count. spend cost_character_value. spend IH. rewrite app_length in *. simpl length in *. lia.
Qed.

(** A code point takes at least one byte. *)
Lemma runes_bytes rs : length rs ≤ length (string_of_runes rs).
Proof.
  induction rs as [|r rs IH]; [done|]. unfold string_of_runes in *. cbn [map concat length]. rewrite app_length.
  enough (1 ≤ length (encode_rune r)) by lia. unfold encode_rune. repeat case_match; simpl; lia.
Qed.
Lemma cost_word f e m n :
  tally (word_b f e) m n (λ s m' n', n' + pot m' ≤ n + pot m + 160 * length s).
Proof.
  unfold word_b. count. spend cost_character_value. count. spend cost_word_loop. count.
  match goal with |- context [string_of_runes (rev ?l)] => pose proof (runes_bytes (rev l)) as Hb; rewrite rev_length in Hb end.
  simpl length in *. lia.
Qed.
Lemma cost_phrase_value f e m n :
  tally (phrase_value_b f e) m n (λ s m' n', n' + pot m' ≤ n + pot m + 160 * length s + 4).
Proof.
  unfold phrase_value_b, phrase_get_target_word, word_fetch, word_read_by_phrase. count. spend cost_word. lia.
Qed.
Definition weight (ws : list gostring) : nat := foldr (λ w n, 160 * length w + 8 + n) 0 ws.
Lemma weight_app l l' : weight (l ++ l') = weight l + weight l'.
Proof. induction l as [|w l IH]; simpl in *; lia. Qed.
Lemma weight_rev l : weight (rev l) = weight l.
Proof. induction l as [|w l IH]; simpl in *; [done|]. rewrite weight_app. simpl. lia. Qed.
Lemma weight_join l : weight l ≤ 160 * length (join_space l) + 8.
Proof.
  induction l as [|w [|w' l] IH]; [simpl; lia|simpl; lia|].
  change (join_space (w :: w' :: l)) with (w ++ space :: join_space (w' :: l)).
  rewrite app_length. cbn [length]. change (weight (w :: w' :: l)) with (160 * length w + 8 + weight (w' :: l)). lia.
Qed.
Lemma cost_phrase_loop wf f e path m n :
  tally (phrase_loop_b wf f e path) m n
    (λ path' m' n', n' + pot m' + weight path ≤ n + pot m + weight path' + 1).
Proof.
  revert e path m n. induction f as [|f IH]; intros e path m n; [exact I|].
  cbn [phrase_loop_b]. unfold phrase_has_source_phrase. count; [lia|].
  apply tally_try; [|intros; exact I]. unfold phrase_get_previous_element, phrase_get_source_phrase, phrase_read_by_phrase.
  count. spend cost_phrase_value. spend IH. rewrite weight_app in *. simpl weight in *. lia.
Qed.
Lemma cost_phrase f e m n :
  tally (phrase_b f e) m n (λ s m' n', n' + pot m' ≤ n + pot m + 160 * length s + 5).
Proof.
  unfold phrase_b. count. spend cost_phrase_value. count. spend cost_phrase_loop. count.
  match goal with |- context [join_space (rev ?l)] => pose proof (weight_join (rev l)) as Hb; rewrite weight_rev in Hb end.
  simpl weight in *. lia.
Qed.
Lemma cost_texts f a m n :
  tally (texts_b f a) m n (λ op m' n', n' + pot m' ≤ n + pot m + 160 * (length (fst op) + length (snd op)) + 21).
Proof.
  unfold texts_b, remark_get_source_detail, detail_fetch, detail_read_by_remark, detail_b,
    detail_get_object_and_property_phrases, phrase_fetch, phrase_read_by_detail.
  count. spend cost_phrase. count. spend cost_phrase. count. simpl. lia.
Qed.

(** ** Histories *)
Lemma calls_bind S {A B} (p : prog A) (f : A → prog B) s m :
  calls S (bind p f) [] s m = calls S p [] s m +
    match r_out (run S p [] s m) with
    | OOk a => calls S (f a) [] (r_state (run S p [] s m)) (r_cache (run S p [] s m))
    | _ => 0
    end.
Proof.
  revert s m. induction p as [b|e| | |c k IH|k IH|m1 k IH]; intros s m; cbn [bind calls run r_out r_state r_cache tail]; try done.
  - by rewrite IH.
Qed.
Lemma run_bind S {A B} (p : prog A) (f : A → prog B) s m a :
  r_out (run S p [] s m) = OOk a →
  run S (bind p f) [] s m = run S (f a) [] (r_state (run S p [] s m)) (r_cache (run S p [] s m)).
Proof.
  revert s m. induction p as [b|e| | |c k IH|k IH|m1 k IH]; intros s m Ho; cbn [bind run r_out r_state r_cache tail] in *; try done.
  - by simplify_eq.
  - by apply IH.
  - by apply IH.
  - by apply IH.
Qed.

(** No run makes more than [n] calls. *)
Fixpoint atmost (n : nat) {A} (p : prog A) : Prop :=
  match p with
  | Call c k => match n with 0 => False | S n' => ∀ r, atmost n' (k r) end
  | LoadBits k => ∀ m, atmost n (k m)
  | StoreBits m k => atmost n k
  | _ => True
  end.
Lemma atmost_calls n S {A} (p : prog A) evs s m : atmost n p → calls S p evs s m ≤ n.
Proof.
  revert n evs s m. induction p as [b|e| | |c k IH|k IH|m1 k IH]; intros n evs s m Hn; cbn [atmost calls] in *; try lia.
  - destruct n as [|n]; [done|]. destruct evs as [|[] evs]; try lia; apply le_n_S, IH, Hn.
  - by apply IH.
  - by apply IH.
Qed.
Lemma atmost_mono n n' {A} (p : prog A) : n ≤ n' → atmost n p → atmost n' p.
Proof.
  revert n n'. induction p as [b|e| | |c k IH|k IH|m1 k IH]; intros n n' Hn H; cbn [atmost] in *; eauto.
  destruct n as [|n]; [done|]. destruct n' as [|n']; [lia|]. intros r. eapply IH; [|apply H]. lia.
Qed.
Lemma atmost_bind n k {A B} (p : prog A) (f : A → prog B) :
  atmost n p → (∀ a, atmost k (f a)) → atmost (n + k) (bind p f).
Proof.
  intros Hp Hf. revert n Hp. induction p as [b|e| | |c k' IH|k' IH|m1 k' IH]; intros n Hp; cbn [bind atmost] in *; eauto.
  - eapply atmost_mono; [|apply Hf]. lia.
  - destruct n as [|n]; [done|]. simpl. intros r. by apply IH.
Qed.
Lemma atmost_try n {A} (p : prog A) : atmost n p → atmost n (try p).
Proof.
  revert n. induction p as [b|e| | |c k IH|k IH|m1 k IH]; intros n Hp; cbn [try atmost] in *; eauto.
  destruct n as [|n]; [done|]. eauto.
Qed.
Lemma atmost_step n c {B} (f : answer c → prog B) : (∀ a, atmost n (f a)) → atmost (S n) (bind (invoke c) f).
Proof. intros H [a|e]; cbn [of_res bind]; [apply H|exact I]. Qed.

Ltac bound1 :=
  match goal with
  | |- True => exact I
  | |- atmost _ (Ret _) => exact I
  | |- atmost _ (Throw _) => exact I
  | |- atmost _ Panic => exact I
  | |- ∀ _, _ => intros ?
  | |- atmost (S _) (Call _ _) => cbn [atmost]
  | |- atmost _ ?p =>
    match p with
    | context [of_res ?r] => is_var r; destruct r; cbn [of_res]
    | context [single _ ?l] => is_var l; destruct l as [|? [|? ?]]; cbn [single]
    | context [match ?x with _ => _ end] => is_var x; destruct x
    | context [if ?x then _ else _] => destruct x
    end
  end.
Ltac bound := repeat (cbn [bind try single of_res fa_storage fa_fact]; bound1).

Lemma textless_calls fuel o : textless o → atmost 20 (call_of fuel o).
Proof.
  destruct o as [| | | |x|a|a|a|a|a|a|a|a|]; try done; intros _; cbn [call_of].
  all: unfold get_remark, has_next_remark, get_next_remark, has_next_fact, get_next_fact, get_first_fact,
    has_next_story, get_next_story, remark_get_next_position, remark_get_target_fact, fact_fetch_by_remark,
    fact_agg_has_next_fact, fact_agg_to_next_fact, fact_agg_to_first_fact, fact_agg_has_next_story,
    fact_agg_to_next_story, fact_target_story_or_zero, fact_get_target_story, fact_has_target_fact,
    fact_get_target_fact, fact_get_first_remark, fact_storage, story_has_target_position,
    story_get_target_position, story_get_target_fact, remark_read_by_class, remark_read_by_position,
    remark_read_by_fact, fact_read_by_remark, fact_read_by_position, fact_read_by_story, story_read_by_fact,
    story_read_by_position, class_provide, class_create_all, class_create_next, class_create, class_is,
    st_has, st_create, st_sources, st_targets, st_getref, st_setref, st_connect, invoke.
  all: bound.
Qed.

Section storages.
  Context {zp : zpolicy} {faults : bool} {fuel : nat} {S : storage} {x : machine S}.
  Context (HS : meets zp S) (Hx : plays zp faults fuel S x).

  Lemma plays_text_cost r o p j evs v : tells (k_trace x) r o p →
    r_out (now fuel x j (GetObjectAndProperty r) evs) = OOk v →
    calls S (call_of fuel (GetObjectAndProperty r)) evs (k_state x) (k_mem x j) ≤ 160 * (length o + length p) + 46.
  Proof.
    intros Ht Hv. pose proof (plays_texts_faults HS Hx r o p j evs v Ht Hv) as ->.
    destruct HS as (inv&abs&Hst). destruct (plays_reach Hst faults fuel x Hx) as [Hi Hr].
    destruct (reach_J _ _ _ _ _ Hr) as (d&G&HJ&_).
    destruct (J_tells _ _ _ _ _ _ HJ _ _ _ Ht) as (ow&pw&f&[Hrc _]&<-&<-&_).
    destruct (J_settled _ _ _ _ _ _ HJ (ex_intro _ _ (tells_issued _ _ _ _ Ht))) as (Hup&_&H31).
    set (p := op <- texts_b fuel r;; Ret (VText (fst op) (snd op))).
    assert (Hd : r_out (run S p evs (k_state x) (k_mem x j)) ≠ ODiverge).
    { destruct (run_exec zp S p evs inv abs (k_state x) (k_mem x j) (negb (all_normal evs))) as [_ He];
        [apply Hst|intros Hn%negb_false_iff; by apply all_normal_spec|done|].
      intros Hd. rewrite Hd in He.
      assert (HR : R zp (negb (all_normal evs)) fuel p (λ _ _ _, True) (λ ab _ _, ab ≠ ADiverge) G (abs (k_state x))).
      { eapply R_bind; [by eapply R_texts_b| |by intros ab ? ? ? ? []].
        intros ? ? ? _ _ _. by apply R_ret. }
      eapply R_sound in He as (_&_&He); [|exact HR|apply HJ|apply HJ]. by apply He. }
    assert (Hb : below p (call_of fuel (GetObjectAndProperty r))).
    { apply below_bind; [by apply below_texts_b|]. intros ?. apply below_refl. }
    destruct (below_run S _ _ Hb evs (k_state x) (k_mem x j) Hd) as [Hrun ->].
    unfold now in Hv. rewrite Hrun in Hv.
    assert (Htl : tally p (k_mem x j) 0 (λ v' m' n', ∃ a b, v' = VText a b ∧
      n' + pot m' ≤ pot (k_mem x j) + 160 * (length a + length b) + 21)).
    { apply tally_bind. eapply tally_mono; [apply cost_texts|]. intros op m1 n1 H. cbv beta in H. cbn [tally]. exists (fst op), (snd op). split; [done|]. lia. }
    destruct (tally_sound S p evs (k_state x) (k_mem x j) _ _ 0 Htl Hv) as (m'&a&b&Hab&Hn).
    injection Hab as -> ->. clear -Hn. assert (pot (k_mem x j) ≤ 25) by (destruct (k_mem x j); simpl; lia). lia.
  Qed.
End storages.

Lemma ret_run S {A B} (p : prog A) (f : A → B) s m : 
  r_out (run S (bind p (λ a, Ret (f a))) [] s m) = match r_out (run S p [] s m) with
    | OOk a => OOk (f a) | OErr e => OErr e | OPanic => OPanic | ODiverge => ODiverge | OKilled => OKilled end ∧
  r_state (run S (bind p (λ a, Ret (f a))) [] s m) = r_state (run S p [] s m) ∧
  r_cache (run S (bind p (λ a, Ret (f a))) [] s m) = r_cache (run S p [] s m).
Proof.
  revert s m. induction p as [b|e| | |c k IH|k IH|m1 k IH]; intros s m; cbn [bind run r_out r_state r_cache tail]; auto.
Qed.
Lemma ret_calls S {A B} (p : prog A) (f : A → B) s m : calls S (bind p (λ a, Ret (f a))) [] s m = calls S p [] s m.
Proof. rewrite calls_bind. destruct (r_out _); cbn [calls]; lia. Qed.

Lemma perform_plays zp faults fuel S x i o : plays zp faults fuel S x →
  (∀ r, receiver o = Some r → issued (k_trace x) r) → texts o = [] → (∀ r, o ≠ GetStory r) →
  plays zp faults fuel S (perform fuel x (Do i o [])).
Proof.
  intros Hx H1 H2 H3. apply plays_act; [done|]. split; [|done]. refine (conj H1 (conj _ _)).
  - rewrite H2. constructor.
  - intros r ->. by destruct (H3 r).
Qed.

Lemma plays_story_cost zp faults fuel S x r r0 o p j :
  meets zp S → plays zp faults fuel S x → opened false (k_trace x) r r0 → tells (k_trace x) r0 o p →
  calls S (call_of fuel (GetStory r)) [] (k_state x) (k_mem x j) ≤ 160 * (length o + length p) + 67.
Proof.
  intros HS Hx Ho Ht. destruct (opened_issued _ _ _ _ Ho) as [Hr Hr0].
  pose proof (plays_first_fact HS Hx r r0 j Ho) as H1.
  set (x1 := perform fuel x (Do j (GetFirstFact r) [])).
  assert (Hx1 : plays zp faults fuel S x1).
  { apply perform_plays; [done|by intros ? [= <-]|done|done]. }
  assert (Ht1 : tells (k_trace x1) r0 o p) by by apply tells_later.
  pose proof (plays_texts HS Hx1 r0 o p j Ht1) as H2.
  set (x2 := perform fuel x1 (Do j (GetObjectAndProperty r0) [])).
  assert (Hx2 : plays zp faults fuel S x2).
  { apply perform_plays; [done| |done|done]. intros ? [= <-]. by apply (tells_issued _ _ _ _ Ht1). }
  assert (Ht2 : tells (k_trace x2) r0 o p) by by apply tells_later.
  destruct (plays_next_remark HS Hx2 r0 j) as [H3 _]; [by apply (tells_issued _ _ _ _ Ht2)|].
  pose proof (plays_text_cost HS Hx1 r0 o p j [] _ Ht1 H2) as C2.
  pose proof (atmost_calls 20 S _ [] (k_state x) (k_mem x j) (textless_calls fuel (GetFirstFact r) I)) as C1.
  assert (C3 : calls S (has_next_remark r0) [] (k_state x2) (k_mem x2 j) ≤ 1).
  { apply atmost_calls. unfold has_next_remark, st_targets, invoke. bound. }
  (* the states in between *)
  unfold now in H1, H2, H3. cbn [call_of] in *. rewrite ret_calls in *.
  destruct (ret_run S (get_first_fact r) VRem (k_state x) (k_mem x j)) as (A1&A2&A3).
  destruct (ret_run S (get_object_and_property fuel r0) (λ op, VText (fst op) (snd op)) (k_state x1) (k_mem x1 j)) as (B1&B2&B3).
  destruct (ret_run S (has_next_remark r0) VBool (k_state x2) (k_mem x2 j)) as (D1&D2&D3).
  assert (S1 : k_state x1 = r_state (run S (get_first_fact r) [] (k_state x) (k_mem x j)) ∧
    k_mem x1 j = r_cache (run S (get_first_fact r) [] (k_state x) (k_mem x j))).
  { unfold x1. cbn [perform k_state k_mem]. unfold now. cbn [call_of]. rewrite H1, A2, A3. split; [done|]. unfold keep. by rewrite Nat.eqb_refl. }
  assert (S2 : k_state x2 = r_state (run S (get_object_and_property fuel r0) [] (k_state x1) (k_mem x1 j)) ∧
    k_mem x2 j = r_cache (run S (get_object_and_property fuel r0) [] (k_state x1) (k_mem x1 j))).
  { unfold x2. cbn [perform k_state k_mem]. unfold now. cbn [call_of]. rewrite H2, B2, B3. split; [done|]. unfold keep. by rewrite Nat.eqb_refl. }
  rewrite H1 in A1. rewrite H2 in B1. rewrite H3 in D1. clear H1 H2 H3 A2 A3 B2 B3 D2 D3.
  destruct (r_out (run S (get_first_fact r) [] (k_state x) (k_mem x j))) as [a| | | |] eqn:E1; try done.
  destruct (r_out (run S (get_object_and_property fuel r0) [] (k_state x1) (k_mem x1 j))) as [[a2 b2]| | | |] eqn:E2; try done.
  destruct (r_out (run S (has_next_remark r0) [] (k_state x2) (k_mem x2 j))) as [b| | | |] eqn:E3; try done.
  simplify_eq.
  destruct S1 as [S1 M1], S2 as [S2 M2]. unfold get_story. rewrite calls_bind, E1, <- S1, <- M1.
  destruct fuel as [|f] eqn:Ef; cbn [get_story_loop]; [cbn [calls]; lia|]. rewrite <- Ef in *.
  rewrite calls_bind, E2, <- S2, <- M2. cbn [fst snd] in *. rewrite calls_bind, E3. cbn [negb calls]. lia.
Qed.
