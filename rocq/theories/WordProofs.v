(** The word layer. *)
From stdpp Require Import gmap.
From Coq Require Import NArith ZArith Lia.
From Verif Require Import Base GoText Codec Model1 Model2 Model3 Storage Inv Wp Steps Entity BitProofs
  Reads CharProofs SpecMachine.
Local Open Scope nat_scope.

Lemma last_snoc_Some {A} (l : list A) x y : last (l ++ [x]) = Some y → x = y.
Proof. rewrite last_snoc. congruence. Qed.

Section facts.
  Context {F : nat} {G : ghost} {g : graph} (Hok : ok F G g).

  Lemma wordC_ok e rs : wordC G g e rs → wtext_ok F rs.
  Proof.
    intros H. apply wordC_base in H as ((_&H&_)&_). by eapply (ok_label _ _ _ Hok) in H.
  Qed.

  Lemma word_base_eq e r e' r' : word_base G g e r → word_base G g e' r' →
    we_char e = we_char e' ∨ we_word e = we_word e' ∨ we_phrase e = we_phrase e' → e = e'.
  Proof.
    intros (_&H&_) (_&H'&_). destruct e, e'; simpl in *. intros [->|[->| ->]].
    - by destruct (refs3_a Hok _ _ _ _ _ _ _ H H') as (->&->&->).
    - by destruct (refs3_b Hok _ _ _ _ _ _ _ H H') as (->&->&->).
    - by destruct (refs3_c Hok _ _ _ _ _ _ _ H H') as (->&->&->).
  Qed.

  Lemma wordC_eq e r e' r' : wordC G g e r → wordC G g e' r' →
    we_char e = we_char e' ∨ we_word e = we_word e' ∨ we_phrase e = we_phrase e' → e = e'.
  Proof. intros H H'. apply (word_base_eq _ r _ r'); by apply wordC_base. Qed.

  Lemma wordC_text e rs rs' : wordC G g e rs → wordC G g e rs' → rs = rs'.
  Proof.
    intros ((_&H&_)&_)%wordC_base ((_&H'&_)&_)%wordC_base. congruence.
  Qed.

  Lemma wordC_head_inv e r : wordC G g e [r] →
    ∃ c, charC G g c r ∧ (ce_word c, we_char e) ∈ edges g.
  Proof.
    intros H. remember [r] as t eqn:Heq. destruct H as [e r' c Hb Hc Hl|e e' rs r' Hb He' Hl].
    { simplify_eq. eauto. }
    destruct rs as [|r0 rs]; [by apply wordC_nonempty in He'|by destruct rs].
  Qed.

  Lemma wordC_tail_inv e rs r : rs ≠ [] → wordC G g e (rs ++ [r]) →
    ∃ e', wordC G g e' rs ∧ (we_word e', we_word e) ∈ edges g.
  Proof.
    intros Hrs H. remember (rs ++ [r]) as t eqn:Heq.
    destruct H as [e r' c Hb Hc Hl|e e' rs' r' Hb He' Hl].
    - destruct rs as [|? [|]]; done.
    - apply app_inj_tail in Heq as [-> ->]. eauto.
  Qed.

  Lemma wordC_last e rs : wordC G g e rs →
    ∃ c r, last rs = Some r ∧ charC G g c r ∧ (we_char e, ce_word c) ∈ edges g.
  Proof. intros (_&_&H)%wordC_base. exact H. Qed.
End facts.

(** A link of the new state that was there before leads to a word that was there
    before. *)
Section back.
  Context {F : nat} {G : ghost} {g : graph} {G' : ghost} {g' : graph}
    (Hok : ok F G g) (Hok' : ok F G' g') (X : ext G g G' g').

  Lemma wordC_back e rs : wordC G' g' e rs →
    wordC G g e rs ∨
    ∃ x y, (x, y) ∈ edges g' ∧ (x, y) ∉ edges g ∧
      ((∃ r, rs = [r] ∧ y = we_char e ∧ lab G' !! x = Some (LCharWord r)) ∨
       (∃ rs0 r, rs = rs0 ++ [r] ∧ y = we_word e ∧ lab G' !! x = Some (LWordWord rs0))).
  Proof.
    destruct 1 as [e r c Hb Hc Hl|e p rs r Hb Hp Hl].
    - pose proof (charC_base _ _ _ _ Hc) as ((_&_&_&Lx)&_).
      destruct (decide ((ce_word c, we_char e) ∈ edges g)) as [Hin|Hn].
      + left. pose proof Hb as ((_&Lb&_)&_).
        apply (lab_back X) in Lb; [|by eapply (ok_edge_r Hok)].
        apply (lab_back X) in Lx; [|by eapply (ok_edge_l Hok)].
        destruct (ok_edge_labs Hok _ _ _ _ Hin Lx Lb) as [_ (e0&He0&Heq)].
        assert (e0 = e) as ->; [|done].
        eapply (word_base_eq Hok'); [by eapply wordC_base, (wordC_mono X)|done|]. auto.
      + right. eexists _, _. split; [exact Hl|]. split; [exact Hn|]. left. eauto.
    - pose proof (wordC_base _ _ _ _ Hp) as ((_&_&Lx&_)&_).
      destruct (decide ((we_word p, we_word e) ∈ edges g)) as [Hin|Hn].
      + left. pose proof Hb as ((_&_&Lb&_)&_).
        apply (lab_back X) in Lb; [|by eapply (ok_edge_r Hok)].
        apply (lab_back X) in Lx; [|by eapply (ok_edge_l Hok)].
        destruct (ok_edge_labs Hok _ _ _ _ Hin Lx Lb) as [_ (e0&He0&Heq)].
        assert (e0 = e) as ->; [|done].
        eapply (word_base_eq Hok'); [by eapply wordC_base, (wordC_mono X)|done|]. auto.
      + right. eexists _, _. split; [exact Hl|]. split; [exact Hn|]. right. eauto.
  Qed.
End back.

(** ** What decides whether a head word is shared *)

(** [r'] continues [r] by one bit. *)
Definition child (r r' : Z) : Prop := (2 <= r')%Z ∧ r = (r' / 2)%Z.

(** None, exactly one, or two continuations of [r] are stored. *)
Definition kids0 (G : ghost) (g : graph) (r : Z) : Prop := ∀ r', child r r' → ¬ linked G g r'.
Definition kids1 (G : ghost) (g : graph) (r : Z) : Prop :=
  ∃ r', child r r' ∧ linked G g r' ∧ ∀ r'', child r r'' → linked G g r'' → r'' = r'.
Definition kids2 (G : ghost) (g : graph) (r : Z) : Prop :=
  ∃ r' r'', r' ≠ r'' ∧ child r r' ∧ child r r'' ∧ linked G g r' ∧ linked G g r''.

(** There are [n] one-letter words for [r]. *)
Definition nheads (G : ghost) (g : graph) (r : Z) (n : nat) : Prop :=
  ∃ l, NoDup l ∧ length l = n ∧ ∀ e, e ∈ l ↔ wordC G g e [r].

(** [e] is the only one-letter word for [r]. *)
Definition sole_head (G : ghost) (g : graph) (r : Z) (e : word_ent) : Prop :=
  wordC G g e [r] ∧ ∀ e', wordC G g e' [r] → e' = e.

Lemma nheads_sole G g r n e : nheads G g r n → sole_head G g r e → n = 1.
Proof.
  intros (l&Hnd&<-&Hl) [He Hs]. rewrite (NoDup_single l e); [done|done|by apply Hl|].
  intros y Hy. by apply Hs, Hl.
Qed.

Lemma nheads_one G g r : nheads G g r 1 → ∃ e, sole_head G g r e.
Proof.
  intros (l&Hnd&Hlen&Hl). destruct l as [|e [|]]; simplify_eq/=. exists e. split; [apply Hl; left|].
  intros e' He'. apply Hl in He'. by apply elem_of_list_singleton in He'.
Qed.

(** Below the only head, a text has at most one word. *)
Lemma sole_word F G g r h rs e e' : ok F G g → solo G = true → sole_head G g r h →
  wordC G g e (r :: rs) → wordC G g e' (r :: rs) → e = e'.
Proof.
  intros Hok Hlone [_ Hs]. revert e e'. induction rs as [|a rs IH] using rev_ind; intros e e' He He'.
  - by rewrite (Hs _ He), (Hs _ He').
  - rewrite app_comm_cons in He, He'.
    destruct (wordC_tail_inv e (r :: rs) a ltac:(done) He) as (p&Hp&Hl).
    destruct (wordC_tail_inv e' (r :: rs) a ltac:(done) He') as (p'&Hp'&Hl').
    rewrite <- (IH _ _ Hp Hp') in Hl'.
    apply (wordC_eq Hok _ _ _ _ He He'). right; left.
    pose proof (wordC_base _ _ _ _ He) as ((_&_&L&_)&_).
    pose proof (wordC_base _ _ _ _ He') as ((_&_&L'&_)&_).
    pose proof (wordC_base _ _ _ _ Hp) as ((_&_&Lp&_)&_).
    by eapply (ok_children _ _ _ Hok Hlone).
Qed.

(** ** The state of the machine a graph stands for *)
Definition wview_of (G : ghost) (g : graph) (V : wview) : Prop :=
  (∀ r, r ∈ vP V ↔ linked G g r) ∧ ∀ r, nheads G g r (hd_count V r).

Lemma prefs_of_elem n r v : (0 <= r < 2 ^ Z.of_nat n)%Z → 0 < n → v ∈ prefs_of n r ↔ pref v r.
Proof.
  revert r. induction n as [|n IH]; intros r Hr Hn; [lia|]. cbn [prefs_of].
  rewrite elem_of_union, elem_of_singleton.
  rewrite Nat2Z.inj_succ, Z.pow_succ_r in Hr by lia.
  destruct (Z.ltb_spec r 2) as [Hr2|Hr2].
  - rewrite elem_of_empty. split.
    + intros [->|[]]. apply pref_refl. lia.
    + intros (k&Hk&->&Hz). left.
      destruct (decide (k = 0%Z)) as [->|]; [by rewrite Z.pow_0_r, Z.div_1_r|].
      assert (2 <= 2 ^ k)%Z. { change 2%Z with (2 ^ 1)%Z at 1. apply Z.pow_le_mono_r; lia. }
      assert (r / 2 ^ k = 0)%Z by (apply Z.div_small; lia). lia.
  - destruct n as [|n]; [simpl in Hr; lia|]. rewrite IH by lia. split.
    + intros [->|Hp]; [apply pref_refl; lia|by apply pref_half].
    + intros (k&Hk&->&Hz).
      destruct (decide (k = 0%Z)) as [->|]; [left; by rewrite Z.pow_0_r, Z.div_1_r|right].
      exists (k - 1)%Z. split_and!; [lia| |lia].
      rewrite Z.div_div by lia. f_equal. rewrite <- Z.pow_succ_r by lia. f_equal. lia.
Qed.

Global Opaque prefs_of.

Lemma child_cases r r' : child r r' ↔ (1 <= r ∧ (r' = 2 * r ∨ r' = 2 * r + 1))%Z.
Proof. unfold child. split; [intros [? ->]|intros [? [-> | ->]]]; lia. Qed.

Section view_facts.
  Context {G : ghost} {g : graph} {V : wview} (HV : wview_of G g V).

  Lemma view_kids0 r : (0 <= r)%Z → kids0 G g r → kid_count V r = 0.
  Proof.
    intros Hr H. unfold kid_count. destruct (Z.eqb_spec r 0) as [|Hr0]; [done|].
    rewrite !bool_decide_false; [done|..]; rewrite (proj1 HV); apply H, child_cases; lia.
  Qed.
  Lemma view_kids1 r : kids1 G g r → kid_count V r = 1.
  Proof.
    intros (r'&Hc&Hl&Hu). unfold kid_count. apply child_cases in Hc as [Hr Hc].
    destruct (Z.eqb_spec r 0) as [|_]; [lia|]. destruct Hc as [-> | ->].
    - rewrite bool_decide_true by by apply HV. rewrite bool_decide_false; [done|].
      rewrite (proj1 HV). intros Hl'. apply Hu in Hl'; [lia|]. apply child_cases. lia.
    - rewrite bool_decide_false; [by rewrite bool_decide_true by by apply HV|].
      rewrite (proj1 HV). intros Hl'. apply Hu in Hl'; [lia|]. apply child_cases. lia.
  Qed.
  Lemma view_kids2 r : kids2 G g r → kid_count V r = 2.
  Proof.
    intros (r'&r''&Hne&Hc&Hc'&Hl&Hl'). unfold kid_count.
    apply child_cases in Hc as [Hr Hc], Hc' as [_ Hc'].
    destruct (Z.eqb_spec r 0) as [|_]; [lia|].
    rewrite !bool_decide_true; [done|..]; apply HV; destruct Hc as [-> | ->], Hc' as [-> | ->]; try lia; done.
  Qed.
End view_facts.

(** New edges that do not start at these nodes leave the words and code points
    alone. *)
Section same.
  Context {F : nat} {G : ghost} {g : graph} {G' : ghost} {g' : graph}
    (Hok : ok F G g) (Hok' : ok F G' g') (X : ext G g G' g').

  Lemma linked_same r :
    (∀ x y l, (x, y) ∈ edges g' → (x, y) ∉ edges g → lab G' !! x = Some l →
      match l with LBitCh _ | LCharChar _ => False | _ => True end) →
    linked G' g' r → linked G g r.
  Proof.
    intros Hn [e He]. destruct (charC_back Hok Hok' X _ _ He) as [?|(x&y&Hin&Hout&Hc)]; [by exists e|].
    destruct Hc as [(_&_&b&Hx)|(_&_&Hx)]; by destruct (Hn _ _ _ Hin Hout Hx).
  Qed.

  Lemma word_same e rs :
    (∀ x y l, (x, y) ∈ edges g' → (x, y) ∉ edges g → lab G' !! x = Some l →
      match l with LCharWord _ | LWordWord _ => False | _ => True end) →
    wordC G' g' e rs → wordC G g e rs.
  Proof.
    intros Hn He. destruct (wordC_back Hok Hok' X _ _ He) as [?|(x&y&Hin&Hout&Hc)]; [done|].
    destruct Hc as [(?&_&_&Hx)|(?&?&_&_&Hx)]; by destruct (Hn _ _ _ Hin Hout Hx).
  Qed.

  Lemma head_same e r :
    (∀ x y l, (x, y) ∈ edges g' → (x, y) ∉ edges g → lab G' !! x = Some l →
      match l with LCharWord _ => False | _ => True end) →
    wordC G' g' e [r] → wordC G g e [r].
  Proof.
    intros Hn He. destruct (wordC_back Hok Hok' X _ _ He) as [?|(x&y&Hin&Hout&Hc)]; [done|].
    destruct Hc as [(?&_&_&Hx)|(rs0&r'&Heq&_&Hx)]; [by destruct (Hn _ _ _ Hin Hout Hx)|].
    destruct rs0 as [|? [|]]; try done. exfalso.
    apply (ok_label _ _ _ Hok') in Hx as [Hx _]. done.
  Qed.

  Lemma nheads_same r n : (∀ e, wordC G' g' e [r] → wordC G g e [r]) → nheads G g r n → nheads G' g' r n.
  Proof using X.
    clear Hok Hok'. intros H (l&?&?&Hl). exists l. split_and!; auto. intros e. rewrite Hl. split.
    - apply (wordC_mono X).
    - apply H.
  Qed.

  Lemma view_same V :
    (∀ x y l, (x, y) ∈ edges g' → (x, y) ∉ edges g → lab G' !! x = Some l →
      match l with LBitCh _ | LCharChar _ | LCharWord _ => False | _ => True end) →
    wview_of G g V → wview_of G' g' V.
  Proof.
    intros Hn [H1 H2]. split.
    - intros r. rewrite H1. split; [intros [e He]; exists e; by apply (charC_mono X)|].
      apply linked_same. intros x y l ?? Hl. specialize (Hn x y l). destruct l; auto.
    - intros r. eapply nheads_same; [|by apply H2]. intros e. apply head_same.
      intros x y l ?? Hl. specialize (Hn x y l). destruct l; auto.
  Qed.
End same.

Section words.
  Context {zp : zpolicy} {fk : bool} {F : nat}.
  Notation wp := (wp zp fk F).
  Notation W := (W zp fk F).
  Notation R := (R zp fk F).
  Notation E0 := (E0 fk).
  Notation prepared := (prepared (fk := fk)).
  Notation link_frame := (link_frame (fk := fk)).

  Context (fuel : nat) (Hfuel : 31 ≤ fuel) (HF : F ≤ fuel).

  (** ** Readers *)
  Lemma R_word_read_by_character e r G g : word_base G g e r →
    R (word_read_by_character (we_char e)) (λ x _ _, x = e) E0 G g.
  Proof. intros (_&H&_). destruct e; simpl in *. by apply R_read_a. Qed.
  Lemma R_word_read_by_word e r G g : word_base G g e r →
    R (word_read_by_word (we_word e)) (λ x _ _, x = e) E0 G g.
  Proof. intros (_&H&_). destruct e; simpl in *. by apply R_read_b. Qed.
  Lemma R_word_read_by_phrase e r G g : word_base G g e r →
    R (word_read_by_phrase (we_phrase e)) (λ x _ _, x = e) E0 G g.
  Proof. intros (_&H&_). destruct e; simpl in *. by apply R_read_c. Qed.

  Lemma R_word_extract_character_value e rs r G g :
    wordC G g e rs → up G → last rs = Some r →
    R (word_extract_character_value fuel e) (λ x _ _, x = r) E0 G g.
  Proof.
    clear HF. intros H Hup Hr. destruct (wordC_last _ _ H) as (c&r'&Hr'&Hc&He). simplify_eq.
    pose proof (wordC_base _ _ _ _ H) as ((_&Lc&_)&_).
    eapply R_one_target; [exact Lc|exact I|exact He| |done]. intros G1 g1 Hok1 X1.
    eapply (R_then _ (Some c)); [|done|].
    { eapply R_then; [by eapply R_char_read_by_word, (char_base_mono X1), charC_base|done|].
      intros. by apply R_ret. }
    intros G2 g2 Hok2 X2. apply R_char_extract; auto.
    - by apply (charC_mono X2), (charC_mono X1).
    - by apply (up_mono X2), (up_mono X1).
  Qed.

  Lemma R_word_has_source e rs b G g :
    wordC G g e rs → (b = true ↔ ∃ rs0 r, rs0 ≠ [] ∧ rs = rs0 ++ [r]) →
    R (word_has_source_word e) (λ x _ _, x = b) E0 G g.
  Proof.
    intros H Hb. pose proof (wordC_base _ _ _ _ H) as ((_&_&Lw&_)&_).
    eapply R_seq; [by eapply R_sources|done|]. intros ts G2 g2 Hok2 X2 [_ Hts].
    apply R_ret. intros _. destruct b.
    - destruct (proj1 Hb eq_refl) as (rs0&r&Hne&->).
      destruct (wordC_tail_inv _ _ _ Hne H) as (p&_&Hp).
      destruct ts as [|t ts]; [exfalso|done].
      assert (Ht : we_word p ∈ []); [|by apply elem_of_nil in Ht]. apply Hts. by apply (ext_edge X2).
    - destruct ts as [|t ts]; [done|exfalso].
      assert (Ht : (t, we_word e) ∈ edges g2) by (apply Hts; left).
      destruct (ok_edge _ _ _ Hok2 _ _ Ht) as (lt&lc&Lt&Lc2&He&Hexp).
      rewrite (ext_lab_lookup X2 _ _ Lw) in Lc2. simplify_eq.
      destruct lt; simpl in He; try done. destruct He as [r ->].
      assert (wtext_ok F rs0) as [? _] by by eapply (ok_label _ _ _ Hok2) in Lt.
      enough (false = true) by done. apply Hb. eauto.
  Qed.

  Lemma R_word_extract_loop e rs G g :
    wordC G g e rs → up G → ∃ l r,
      rs = rev l ++ [r] ∧
      ∀ f path G1 g1, ext G g G1 g1 → length l < f →
        R (word_extract_loop fuel f e path) (λ p _ _, p = path ++ l) E0 G1 g1.
  Proof.
    clear HF. intros H Hup. induction H as [e r c Hb Hc Hl|e p rs r Hb Hp IH Hl].
    - exists [], r. split; [done|]. intros f path G1 g1 X1 Hf.
      destruct f as [|f]; [simpl in Hf; lia|]. cbn [word_extract_loop].
      eapply (R_then _ false); [eapply R_word_has_source|done|].
      { apply (wordC_mono X1). by eapply wordC_head. }
      { split; [done|]. intros (rs0&r'&Hne&Heq). destruct rs0 as [|? [|]]; done. }
      intros G2 g2 Hok2 X2. apply R_ret. intros _. by rewrite app_nil_r.
    - pose proof (wordC_tail _ _ _ _ _ _ Hb Hp Hl) as H.
      destruct IH as (l&r0&->&Hloop). exists (r0 :: l), r. split; [done|].
      intros f path G1 g1 X1 Hf. destruct f as [|f]; [simpl in Hf; lia|]. cbn [word_extract_loop].
      simpl in Hf.
      eapply (R_then _ true); [eapply R_word_has_source|done|].
      { by apply (wordC_mono X1). }
      { split; [|done]. intros _. exists (rev l ++ [r0]), r. split; [|done]. by destruct (rev l). }
      intros G2 g2 Hok2 X2. cbn [negb].
      assert (X2' : ext G g G2 g2) by (eapply ext_trans; eauto).
      pose proof (word_base_mono X2' _ _ Hb) as ((_&_&Lw&_)&_).
      eapply (R_seq _ _ _ _ _ (λ x _ _, x = Ok p ∨ fk = true ∧ ∃ e, x = Err e)); [|done|].
      + eapply R_try.
        * eapply R_one_source; [exact Lw|exact I|by apply (ext_edge X2')| |done].
          intros G3 g3 Hok3 X3. eapply R_word_read_by_word.
          by apply (word_base_mono X3), (word_base_mono X2'), wordC_base.
        * intros w G' g' _ _ ->. by left.
        * intros ab G' g' _ _ [??]. destruct ab; [|done..]. right. eauto.
      + intros x G3 g3 Hok3 X3 Hx.
        assert (X3' : ext G g G3 g3) by (eapply ext_trans; eauto).
        destruct Hx as [->|[Hfk [e' ->]]]; cbn [nil_on_err deref bind]; [|by apply R_panic].
        eapply R_then; [eapply (R_word_extract_character_value p _ r0)|done|].
        { by apply (wordC_mono X3'). }
        { by apply (up_mono X3'). }
        { by rewrite last_snoc. }
        intros G4 g4 Hok4 X4.
        replace (path ++ r0 :: l) with ((path ++ [r0]) ++ l) by by rewrite <- app_assoc.
        apply Hloop; [|lia]. eapply ext_trans; eauto.
  Qed.

  Lemma R_word_extract e rs G g :
    wordC G g e rs → up G →
    R (word_extract fuel e) (λ x _ _, x = string_of_runes rs) E0 G g.
  Proof.
    intros H Hup. apply R_intro. intros Hok.
    destruct (wordC_ok Hok _ _ H) as (_&Hlen&_).
    destruct (R_word_extract_loop e rs G g H Hup) as (l&r&Heq&Hloop).
    unfold word_extract.
    eapply R_then; [eapply (R_word_extract_character_value e rs r); auto; by rewrite Heq, last_snoc|done|].
    intros G1 g1 Hok1 X1.
    eapply R_then; [apply Hloop; [done|]|done|].
    { rewrite Heq, app_length, rev_length in Hlen. simpl in Hlen. lia. }
    intros G2 g2 Hok2 X2. apply R_ret. intros _. cbn [app rev]. by rewrite Heq.
  Qed.

  (** ** Finding a child *)
  Lemma word_children e rs G g ids :
    ok F G g → wordC G g e rs →
    (∀ y, y ∈ ids → (we_word e, y) ∈ edges g) →
    ∃ es, ids = map we_word es ∧ Forall (λ c, ∃ r, wordC G g c (rs ++ [r])) es.
  Proof.
    intros Hok He. induction ids as [|y ids IH]; intros Hin.
    - exists []. split; [done|constructor].
    - destruct IH as (es&->&Hes); [intros; apply Hin; by right|].
      assert (Hy : (we_word e, y) ∈ edges g) by (apply Hin; left).
      destruct (ok_edge _ _ _ Hok _ _ Hy) as (lx&ly&Hx&Hly&Hxy&Hexp).
      pose proof (wordC_base _ _ _ _ He) as ((_&_&Lc&_)&_). rewrite Lc in Hx. simplify_eq.
      destruct ly; simpl in Hxy; try done. simpl in Hexp. destruct Hexp as (c&Hc&<-).
      destruct Hxy as [r ->].
      exists (c :: es). split; [done|]. constructor; eauto.
  Qed.

  Lemma R_word_read_all es G g :
    Forall (λ c, ∃ r, wordC G g c r) es →
    R (word_read_all (map we_word es)) (λ x _ _, x = es) E0 G g.
  Proof.
    revert G g. induction es as [|e es IH]; intros G g H; [by apply R_ret|].
    inversion H as [|? ? [r Hr] Hes]; subst. cbn [map word_read_all].
    eapply R_then; [by eapply R_word_read_by_word, wordC_base|done|].
    intros G1 g1 Hok1 X1. eapply R_then; [apply IH|done|].
    - eapply Forall_impl; [exact Hes|]. intros c [r' ?]. exists r'. by apply (wordC_mono X1).
    - intros. by apply R_ret.
  Qed.

  Lemma R_word_find r es G g :
    up G → Forall (λ c, ∃ rs, wordC G g c rs) es →
    R (word_find fuel r es) (λ x _ _, match x with
      | Some c => c ∈ es ∧ ∃ rs, wordC G g c rs ∧ last rs = Some r
      | None => ∀ c rs, c ∈ es → wordC G g c rs → last rs ≠ Some r
      end) E0 G g.
  Proof.
    intros Hup H.
    enough (∀ G1 g1, ok F G1 g1 → ext G g G1 g1 → R (word_find fuel r es) (λ x _ _, match x with
      | Some c => c ∈ es ∧ ∃ rs, wordC G g c rs ∧ last rs = Some r
      | None => ∀ c rs, c ∈ es → wordC G g c rs → last rs ≠ Some r
      end) E0 G1 g1) as Hall by (apply R_intro; intros; by apply Hall).
    induction es as [|e es IH]; intros G1 g1 Hok1 X1.
    { apply R_ret. intros _ c rs Hc. by apply elem_of_nil in Hc. }
    inversion H as [|? ? [rs Hr] Hes]; subst. cbn [word_find].
    destruct (wordC_last _ _ Hr) as (ch&r0&Hr0&Hch&He).
    eapply R_then; [eapply (R_word_extract_character_value e rs r0); auto|done|].
    { by apply (wordC_mono X1). }
    { by apply (up_mono X1). }
    intros G2 g2 Hok2 X2.
    destruct (Z.eqb_spec r r0) as [->|Hne].
    - apply R_ret. intros _. split; [left|]. eauto.
    - eapply R_post; [apply IH; [done|done|by eapply ext_trans]|by intros ???|].
      intros [c|] _ _ _ _; cbn beta iota.
      + intros [??]. split; [by right|done].
      + intros HN c rs' Hc Hr'. apply elem_of_cons in Hc as [->|Hc]; [|by eapply HN].
        rewrite (wordC_text _ _ _ Hr' Hr). congruence.
  Qed.

  (** Look for the child with the given last letter. *)
  Lemma R_word_lookup e rs r G g :
    up G → wordC G g e rs →
    R (ids <- word_get_target_words e;; es <- word_read_all ids;; word_find fuel r es)
      (λ found G' g', match found with
       | Some c => wordC G' g' c (rs ++ [r]) ∧ (we_word e, we_word c) ∈ edges g'
       | None => ∀ c, wordC G g c (rs ++ [r]) → (we_word e, we_word c) ∉ edges g
       end) E0 G g.
  Proof.
    intros Hup He. pose proof (wordC_base _ _ _ _ He) as ((_&_&Lc&_)&_).
    eapply R_seq; [by eapply R_targets|done|]. intros ids G1 g1 Hok1 X1 [_ Hids].
    destruct (word_children e rs G1 g1 ids Hok1 (wordC_mono X1 _ _ He)) as (es&->&Hes).
    { intros y. apply Hids. }
    assert (Hes' : Forall (λ c, ∃ r, wordC G1 g1 c r) es).
    { eapply Forall_impl; [exact Hes|]. intros ? (?&?). eauto. }
    eapply R_then; [by apply R_word_read_all|done|]. intros G2 g2 Hok2 X2.
    assert (Hes2 : Forall (λ c, ∃ r, wordC G2 g2 c (rs ++ [r])) es).
    { eapply Forall_impl; [exact Hes|]. intros ? (r'&?). exists r'. by apply (wordC_mono X2). }
    assert (X12 : ext G g G2 g2) by (eapply ext_trans; eauto).
    eapply R_post; [apply R_word_find|by intros ???|].
    { by apply (up_mono X2), (up_mono X1). }
    { eapply Forall_impl; [exact Hes2|]. intros ? (?&?). eauto. }
    intros [c|] G3 g3 Hok3 X3; cbn beta iota.
    - intros [Hc (rs'&Hr&Hlast)]. rewrite Forall_forall in Hes2.
      destruct (Hes2 c Hc) as (r'&Hr'). rewrite (wordC_text _ _ _ Hr Hr') in Hlast.
      apply last_snoc_Some in Hlast as ->. split; [by apply (wordC_mono X3)|].
      apply (ext_edge X3), (ext_edge X2), Hids. by apply elem_of_list_fmap_1.
    - intros HNone c Hc Hedge.
      assert (Hin : we_word c ∈ map we_word es) by by apply Hids, (ext_edge X1).
      apply elem_of_list_fmap in Hin as (c'&Heq&Hc').
      assert (c = c') as ->.
      { rewrite Forall_forall in Hes2. destruct (Hes2 c' Hc') as (r'&Hr').
        eapply (wordC_eq Hok2); [by apply (wordC_mono X12)|done|auto]. }
      eapply HNone; [done|by apply (wordC_mono X12)|]. by rewrite last_snoc.
  Qed.

  (** ** Deciding about the head word *)
  Lemma W_char_has_target_word c r G g :
    charC G g c r →
    W 2 (char_has_target_word c)
      (λ b G' g', G' = G ∧ g' = g ∧ if b : bool then kids1 G g r else kids0 G g r)
      (λ ab G' g', E0 ab G' g' ∨ ab = AErr ECharTargetWords ∧ G' = G ∧ g' = g ∧ kids2 G g r) G g.
  Proof.
    intros Hc. apply W_intro. intros Hok [_ Hlone].
    pose proof (charC_base _ _ _ _ Hc) as ((_&_&Lc&_)&_).
    eapply W_seq; [by eapply (W_targets 2)|by left|lia|].
    intros ts G' g' _ _ _ (->&->&Hnd&Hts).
    destruct (char_children c r G g ts Hok Hc) as (es&->&Hes); [intros y; by apply Hts|].
    rewrite Forall_forall in Hes.
    assert (Hall : ∀ r', child r r' → linked G g r' → ∃ e, e ∈ es ∧ charC G g e r').
    { intros r' [Hr2 Hhalf] [e He]. exists e. split; [|done].
      destruct (charC_parent (F := F) e r (Z.odd r') G g Hok) as (p&Hp&Hl).
      - assert (r' = 2 * r + Z.b2z (Z.odd r'))%Z as <-; [|done].
        pose proof (Zmod_odd r'). destruct (Z.odd r'); simpl in *; lia.
      - lia.
      - rewrite (charC_unique Hok Hlone _ _ _ Hp Hc) in Hl.
        apply Hts in Hl. apply elem_of_list_fmap in Hl as (e'&Heq&He').
        destruct (Hes e' He') as (r''&Hr''&_).
        assert (e = e') as ->; [|done].
        eapply (char_base_eq Hok); [by apply charC_base|by apply charC_base|auto]. }
    destruct es as [|e1 [|e2 es]]; cbn [map zero_or_one].
    - apply W_ret. intros _ _. split_and!; auto. intros r' Hr' Hl.
      destruct (Hall r' Hr' Hl) as (e&He&_). by apply elem_of_nil in He.
    - apply W_ret. intros _ _. split_and!; auto.
      destruct (Hes e1 ltac:(left)) as (r1&H1&?&?). exists r1. split; [done|]. split; [by exists e1|].
      intros r' Hr' Hl. destruct (Hall r' Hr' Hl) as (e&He&He').
      apply elem_of_list_singleton in He as ->.
      pose proof (charC_base _ _ _ _ H1) as ((_&L1&_)&_).
      pose proof (charC_base _ _ _ _ He') as ((_&L2&_)&_). congruence.
    - apply W_throw. intros _ _. right. split_and!; auto.
      destruct (Hes e1 ltac:(left)) as (r1&H1&?&?). destruct (Hes e2 ltac:(right; left)) as (r2&H2&?&?).
      exists r1, r2. split_and!; try done; [|by exists e1|by exists e2].
      intros ->. rewrite (charC_unique Hok Hlone _ _ _ H1 H2) in Hnd. cbn [map] in Hnd.
      apply NoDup_cons in Hnd as [Hnd _]. apply Hnd. left.
  Qed.

  Lemma word_heads c r G g ids :
    ok F G g → solo G = true → charC G g c r →
    (∀ y, y ∈ ids ↔ (ce_word c, y) ∈ edges g) →
    ∃ es, ids = map we_char es ∧ ∀ e, e ∈ es ↔ wordC G g e [r].
  Proof.
    intros Hok Hlone Hc Hids.
    pose proof (charC_base _ _ _ _ Hc) as ((_&_&_&Lw)&_).
    assert (∃ es, ids = map we_char es ∧ Forall (λ e, wordC G g e [r]) es) as (es&->&Hes).
    { assert (Hin : ∀ y, y ∈ ids → (ce_word c, y) ∈ edges g) by (intros; by apply Hids).
      clear Hids. induction ids as [|y ids IH].
      - exists []. split; [done|constructor].
      - destruct IH as (es&->&Hes); [intros; apply Hin; by right|].
        assert (Hy : (ce_word c, y) ∈ edges g) by (apply Hin; left).
        destruct (ok_edge _ _ _ Hok _ _ Hy) as (lx&ly&Hx&Hly&Hxy&Hexp).
        rewrite Lw in Hx. simplify_eq.
        destruct ly; simpl in Hxy; try done. subst rs. simpl in Hexp. destruct Hexp as (e&He&<-).
        exists (e :: es). split; [done|]. by constructor. }
    exists es. split; [done|]. rewrite Forall_forall in Hes. intros e. split; [apply Hes|].
    intros He. destruct (wordC_head_inv _ _ He) as (c'&Hc'&Hl).
    rewrite (charC_unique Hok Hlone _ _ _ Hc' Hc) in Hl. apply Hids in Hl.
    apply elem_of_list_fmap in Hl as (e'&Heq&He').
    assert (e = e') as ->; [|done]. eapply (wordC_eq Hok _ _ _ _ He (Hes _ He')). auto.
  Qed.

  Lemma W_char_get_target_word c r G g :
    charC G g c r →
    W 2 (target <- char_get_target_word c;; word_read_by_character target)
      (λ e G' g', G' = G ∧ g' = g ∧ sole_head G g r e)
      (λ ab G' g', E0 ab G' g' ∨
        ab = AErr ECharTargetWords ∧ G' = G ∧ g' = g ∧ ∀ n, nheads G g r n → n ≠ 1) G g.
  Proof.
    intros Hc. apply W_intro. intros Hok [_ Hlone].
    pose proof (charC_base _ _ _ _ Hc) as ((_&_&_&Lw)&_).
    unfold char_get_target_word. apply W_assoc_rev.
    eapply W_seq; [by eapply (W_targets 2)|by left|lia|].
    intros ts G' g' _ _ _ (->&->&Hnd&Hts).
    destruct (word_heads c r G g ts Hok Hlone Hc Hts) as (es&->&Hes).
    assert (Hnd' : NoDup es) by by eapply NoDup_fmap_1.
    assert (Hn : ∀ n, nheads G g r n → n = length es).
    { intros n (l&Hl1&<-&Hl2). apply Permutation_length, NoDup_Permutation; [done..|].
      intros e. by rewrite Hl2, Hes. }
    destruct es as [|e1 [|e2 es]]; cbn [map single bind].
    - apply W_throw. intros _ _. right. split_and!; auto. intros n Hn'%Hn. by rewrite Hn'.
    - assert (He1 : wordC G g e1 [r]) by (apply Hes; left).
      eapply W_post; [by eapply (R_W _ _ _ 2), R_word_read_by_character, wordC_base|lia|intros ??? (_&_&?); by left|].
      intros e G' g' _ _ _ (->&->&->). split_and!; auto. split; [done|].
      intros e' He'%Hes. by apply elem_of_list_singleton in He'.
    - apply W_throw. intros _ _. right. split_and!; auto. intros n Hn'%Hn. by rewrite Hn'.
  Qed.

  (** ** Creating words *)

  (** The head word just made. *)
  Definition new_head (V : wview) (r : Z) : wview := WV (vP V) (<[r:=S (hd_count V r)]> (vH V)).

  (** Nothing hangs on it yet. *)
  Definition fresh_word (e : word_ent) (g : graph) : Prop :=
    ∀ y, (we_word e, y) ∉ edges g ∧ (we_phrase e, y) ∉ edges g.

  Lemma W_word_new_head c r G g :
    up G → charC G g c r → wtext_ok F [r] →
    W 2 (class <- class_new wordIdentifier;;
         wordEntity <- word_create_entity class;;
         word_point_to_character wordEntity (ce_word c);;;
         char_point_to_word c (we_char wordEntity);;;
         Ret wordEntity)
      (λ e G' g', wordC G' g' e [r] ∧ fresh_word e g' ∧
        ∀ V, wview_of G g V → wview_of G' g' (new_head V r)) E0 G g.
  Proof.
    intros Hup Hc Hr. apply W_intro. intros Hok _.
    eapply (W_entity 2 WordEnt wordIdentifier (LWordChar [r]) (LWordWord [r]) (LWordPhr [r])); auto; try done.
    intros x a bb d G1 g1 Hok1 Hq1 X1 Hne.
    pose proof (ne_labs Hne) as Hlabs. pose proof Hlabs as (Lx&La&Lb&Ld).
    assert (HX1 := extn_ext _ _ _ _ _ X1). pose proof (up_mono HX1 Hup) as Hup1.
    assert (Hk : (1 <= wordIdentifier <= 8)%N) by done.
    pose proof (charC_mono HX1 _ _ Hc) as Hc1.
    pose proof (charC_base _ _ _ _ Hc1) as ((_&_&_&Lcw)&_).
    eapply W_seq; [|done|apply le_n|].
    { eapply (W_connect 2 a (ce_word c) (LWordChar [r]) (LCharWord r)); auto; try done.
      - intros _ y Hy. by destruct (ne_iso Hok Hup Hk Hne a ltac:(auto) y).
      - eapply not_bit_root; [exact Hup1|exact Lcw|done]. }
    intros ? G2 g2 Hok2 _ X2 (->&->). assert (HX2 := extn_ext _ _ _ _ _ X2).
    set (n := WordEnt x a bb d). set (g2 := add_edge a (ce_word c) g1) in *.
    set (g3 := add_edge (ce_word c) a g2).
    assert (X3 : ext G1 g2 G1 g3) by apply ext_add_edge.
    assert (Hbn : word_base G1 g2 n [r]).
    { split; [exact Hlabs|]. split; [by apply (refs3_mono HX2), (ne_refs _ _ _ _ _ _ _ _ _ _ _ _ Hne)|].
      exists c, r. split; [done|]. split; [by apply (charC_mono HX2)|]. simpl. set_solver. }
    assert (Hwn : wordC G1 g3 n [r]).
    { eapply (wordC_head _ _ n r c).
      - by apply (word_base_mono X3).
      - by apply (charC_mono X3), (charC_mono HX2).
      - simpl. set_solver. }
    eapply W_seq; [|done|apply le_n|].
    { eapply (W_connect 2 (ce_word c) a (LCharWord r) (LWordChar [r])); auto; try done.
      - simpl. exists n. done.
      - eapply not_bit_root; [exact Hup1|exact La|done]. }
    intros ? G4 g4 Hok4 _ X4 (->&->). fold g3 in Hok4. fold g3.
    assert (X : ext G g G1 g3) by (eapply ext_trans; [exact HX1|]; eapply ext_trans; [exact HX2|exact X3]).
    apply W_ret. intros _ _. split_and!; [exact Hwn| |].
    { intros y. pose proof (ne_iso Hok Hup Hk Hne bb ltac:(auto) y) as [H1 _].
      pose proof (ne_iso Hok Hup Hk Hne d ltac:(auto) y) as [H2 _]. simpl.
      rewrite !not_elem_of_union, !not_elem_of_singleton.
      split_and!; try done; intros [=]; subst; congruence. }
    assert (Hnews : ∀ p q, (p, q) ∈ edges g3 → (p, q) ∉ edges g →
      p = ce_word c ∧ q = a ∨ p = a ∨ p = x).
    { intros p q Hpq Hpq'. simpl in Hpq.
      apply elem_of_union in Hpq as [Hpq|Hpq]; [apply elem_of_singleton in Hpq; simplify_eq; auto|].
      apply elem_of_union in Hpq as [Hpq|Hpq]; [apply elem_of_singleton in Hpq; simplify_eq; auto|].
      apply (ne_edge Hne) in Hpq as [[-> ->]|?]; auto. done. }
    intros V [HP HH]. split.
    - intros r'. simpl. rewrite HP. split; [intros [e He]; exists e; by apply (charC_mono X)|].
      apply (linked_same Hok Hok4 X). intros p q l Hpq Hpq' Hl.
      destruct (Hnews p q Hpq Hpq') as [[-> ->]|[->| ->]]; simplify_eq; done.
    - intros r'. unfold hd_count, new_head. simpl. destruct (decide (r' = r)) as [->|Hr'].
      + rewrite lookup_insert. simpl. destruct (HH r) as (l&Hnd&Hlen&Hl). exists (n :: l).
        split; [|split; [simpl; by rewrite Hlen|]].
        * apply NoDup_cons. split; [|done]. intros Hin%Hl.
          apply wordC_base in Hin as ((_&Hin&_)&_). simpl in Hin.
          pose proof (ne_a _ _ _ _ _ _ _ _ _ _ _ _ Hne). congruence.
        * intros e. rewrite elem_of_cons, Hl. split.
          -- intros [->|He]; [done|by apply (wordC_mono X)].
          -- intros He. destruct (wordC_back Hok Hok4 X _ _ He) as [?|(p&q&Hpq&Hpq'&Hcase)]; [auto|left].
             destruct Hcase as [(r0&Hr0&->&Hp)|(rs0&r0&Heq&->&Hp)].
             ++ destruct (Hnews p _ Hpq Hpq') as [[-> Heq]|[->| ->]]; simplify_eq.
                eapply (wordC_eq Hok4 _ _ _ _ He Hwn). auto.
             ++ destruct rs0 as [|? [|]]; try done.
                apply (ok_label _ _ _ Hok4) in Hp as [Hp _]. done.
      + rewrite lookup_insert_ne by done. eapply (nheads_same X); [|apply HH].
        intros e He. destruct (wordC_back Hok Hok4 X _ _ He) as [?|(p&q&Hpq&Hpq'&Hcase)]; [done|exfalso].
        destruct Hcase as [(r0&Hr0&->&Hp)|(rs0&r0&Heq&->&Hp)].
        * destruct (Hnews p _ Hpq Hpq') as [[-> Heq]|[->| ->]]; simplify_eq.
        * destruct rs0 as [|? [|]]; try done.
          apply (ok_label _ _ _ Hok4) in Hp as [Hp _]. done.
  Qed.

  Lemma W_word_create_tail c e rs r G g :
    up G → charC G g c r → wordC G g e rs → wtext_ok F (rs ++ [r]) →
    (∀ d, wordC G g d (rs ++ [r]) → (we_word e, we_word d) ∉ edges g) →
    W 2 (newWord <- word_create_tail_entity (Some c) e;;
         word_point_to_word e (we_word newWord);;;
         Ret newWord)
      (λ d G' g', wordC G' g' d (rs ++ [r]) ∧ fresh_word d g' ∧
        ∀ V, wview_of G g V → wview_of G' g' V) E0 G g.
  Proof.
    intros Hup Hc He Hr Hno. apply W_intro. intros Hok _.
    eapply (W_seq _ _ _ _ 2 _ _ (λ d G' g', wordC G' g' d (rs ++ [r]) ∧
      (we_word e, we_word d) ∈ edges g' ∧ fresh_word d g' ∧
        ∀ V, wview_of G g V → wview_of G' g' V)); [|done|lia|].
    2: { intros d G1 g1 Hok1 [_ Hl1] X1 (Hd&Hed&Hfr&HV). assert (HX1 := extn_ext _ _ _ _ _ X1).
      pose proof (wordC_base _ _ _ _ (wordC_mono HX1 _ _ He)) as ((_&_&Le&_)&_).
      pose proof (wordC_base _ _ _ _ Hd) as ((_&_&Ld&_)&_).
      assert (Heq : add_edge (we_word e) (we_word d) g1 = g1).
      { destruct g1. unfold add_edge. simpl in *. f_equal. set_solver. }
      eapply W_seq; [|done|apply le_n|].
      { eapply (W_connect 2 (we_word e) (we_word d) (LWordWord rs) (LWordWord (rs ++ [r]))); auto; try done.
        - by exists r.
        - simpl. exists d. by rewrite Heq.
        - intros _ z Hz. by eapply (ok_source _ _ _ Hok1); [done..|].
        - intros _ z Hz Lz. by eapply (ok_children _ _ _ Hok1 Hl1).
        - eapply not_bit_root; [by apply (up_mono HX1)|exact Ld|done]. }
      intros ? ? ? _ _ _ (->&->). rewrite Heq. apply W_ret. intros _ _. split_and!; auto. }
    unfold word_create_tail_entity. cbn [deref bind].
    eapply (W_entity 2 WordEnt wordIdentifier (LWordChar (rs ++ [r])) (LWordWord (rs ++ [r]))
      (LWordPhr (rs ++ [r]))); auto; try done.
    intros x a bb d G1 g1 Hok1 Hq1 X1 Hne.
    pose proof (ne_labs Hne) as Hlabs. pose proof Hlabs as (Lx&La&Lb&Ld).
    assert (HX1 := extn_ext _ _ _ _ _ X1). pose proof (up_mono HX1 Hup) as Hup1.
    assert (Hk : (1 <= wordIdentifier <= 8)%N) by done.
    pose proof (charC_mono HX1 _ _ Hc) as Hc1.
    pose proof (charC_base _ _ _ _ Hc1) as ((_&_&_&Lcw)&_).
    pose proof (wordC_base _ _ _ _ (wordC_mono HX1 _ _ He)) as ((_&_&Lew&_)&_).
    eapply W_seq; [|done|apply le_n|].
    { eapply (W_connect 2 a (ce_word c) (LWordChar (rs ++ [r])) (LCharWord r)); auto; try done.
      - simpl. by rewrite last_snoc.
      - intros _ y Hy. by destruct (ne_iso Hok Hup Hk Hne a ltac:(auto) y).
      - eapply not_bit_root; [exact Hup1|exact Lcw|done]. }
    intros ? G2 g2 Hok2 _ X2 (->&->). assert (HX2 := extn_ext _ _ _ _ _ X2).
    set (n := WordEnt x a bb d). set (g2 := add_edge a (ce_word c) g1) in *.
    set (g3 := add_edge (we_word e) bb g2).
    assert (X3 : ext G1 g2 G1 g3) by apply ext_add_edge.
    assert (Hbn : word_base G1 g2 n (rs ++ [r])).
    { split; [exact Hlabs|]. split; [by apply (refs3_mono HX2), (ne_refs _ _ _ _ _ _ _ _ _ _ _ _ Hne)|].
      exists c, r. split; [by rewrite last_snoc|]. split; [by apply (charC_mono HX2)|]. simpl. set_solver. }
    assert (Hwn : wordC G1 g3 n (rs ++ [r])).
    { eapply (wordC_tail _ _ n e rs r).
      - by apply (word_base_mono X3).
      - by apply (wordC_mono X3), (wordC_mono HX2), (wordC_mono HX1).
      - simpl. set_solver. }
    assert (Hbnew : ∀ y, (y, bb) ∉ edges g2 ∧ (bb, y) ∉ edges g2).
    { intros y. pose proof (ne_iso Hok Hup Hk Hne bb ltac:(auto) y) as [H1 H2]. simpl.
      rewrite !not_elem_of_union, !not_elem_of_singleton.
      split; (split; [intros [=]|done]); subst; congruence. }
    eapply W_seq; [|done|apply le_n|].
    { eapply (W_connect 2 (we_word e) bb (LWordWord rs) (LWordWord (rs ++ [r]))); auto; try done.
      - by exists r.
      - simpl. exists n. done.
      - intros _ y Hy. by destruct (Hbnew y).
      - intros _ y Hy Ly. exfalso.
        assert (Hy' : (we_word e, y) ∈ edges g).
        { simpl in Hy. apply elem_of_union in Hy as [Hy|Hy].
          - apply elem_of_singleton in Hy as [= Hy1 Hy2]. congruence.
          - apply (ne_edge Hne) in Hy as [[? ?]|?]; [congruence|done]. }
        destruct (ok_edge _ _ _ Hok _ _ Hy') as (l1&l2&Hl1&Hl2&Hed&Hexp).
        pose proof (wordC_base _ _ _ _ He) as ((_&_&Lev0&_)&_).
        rewrite Lev0 in Hl1. simplify_eq.
        pose proof (ext_lab_lookup HX1 _ _ Hl2) as Hl2'. rewrite Ly in Hl2'. simplify_eq.
        simpl in Hexp. destruct Hexp as (c'&Hc'&<-). by eapply Hno.
      - eapply not_bit_root; [exact Hup1|exact Lb|done]. }
    intros ? G4 g4 Hok4 _ X4 (->&->). fold g3 in Hok4. fold g3.
    assert (X : ext G g G1 g3) by (eapply ext_trans; [exact HX1|]; eapply ext_trans; [exact HX2|exact X3]).
    apply W_ret. intros _ _. split_and!; [exact Hwn| | |].
    { simpl. set_solver. }
    { intros y. pose proof (ne_iso Hok Hup Hk Hne bb ltac:(auto) y) as [H1 _].
      pose proof (ne_iso Hok Hup Hk Hne d ltac:(auto) y) as [H2 _]. simpl.
      pose proof (ne_b _ _ _ _ _ _ _ _ _ _ _ _ Hne) as Hfb.
      pose proof (ne_c _ _ _ _ _ _ _ _ _ _ _ _ Hne) as Hfc.
      pose proof (wordC_base _ _ _ _ He) as ((_&_&Le&_)&_).
      rewrite !not_elem_of_union, !not_elem_of_singleton.
      split_and!; try done; intros [=]; subst; congruence. }
    intros V. apply (view_same Hok Hok4 X). intros p q l Hpq Hpq' Hl. simpl in Hpq.
    apply elem_of_union in Hpq as [Hpq|Hpq]; [apply elem_of_singleton in Hpq; by simplify_eq|].
    apply elem_of_union in Hpq as [Hpq|Hpq]; [apply elem_of_singleton in Hpq; by simplify_eq|].
    apply (ne_edge Hne) in Hpq as [[-> ->]|?]; [by simplify_eq|done].
  Qed.

  (** ** Providing words *)
  Lemma view_char e r G g G' g' V :
    ok F G g → ok F G' g' → extn 1 G g G' g' → fk = false → rune_ok r →
    link_frame (λ r', pref r' r) G g G' g' → charC G' g' e r →
    wview_of G g V → wview_of G' g' (m_char V r).
  Proof.
    intros Hok Hok' [X Hn] Hfk Hr Hl He [HP HH].
    assert (Hp : ∀ v, v ∈ prefs_of 31 r ↔ pref v r).
    { intros v. apply prefs_of_elem; [|lia]. unfold rune_ok in Hr. simpl. lia. }
    split.
    - intros v. simpl. rewrite elem_of_union, Hp, HP. split.
      + intros [Hv|[c Hc]]; [by eapply pref_linked|]. exists c. by apply (charC_mono X).
      + intros Hv. destruct (Hl Hfk v Hv); auto.
    - intros r'. eapply (nheads_same X); [|apply HH]. intros c. apply (head_same Hok Hok' X).
      intros x y l Hxy Hxy' Hlx. destruct (Hn x y Hxy Hxy') as (l'&Hl'&Hrk). simplify_eq.
      destruct l; simpl in *; lia || done.
  Qed.

  (** Ends of providing the word [w]: faults, or a refusal. *)
  Definition wordE (w : list Z) (G : ghost) (g : graph) : post abn := λ ab G' g',
    E0 ab G' g' ∨
    ab = AErr ECharTargetWords ∧ up G' ∧ ready G' ∧
    (fk = false → ∀ V, wview_of G g V → ∃ V', m_word V w = (None, V') ∧ wview_of G' g' V').

  Definition wordQ (w : list Z) (G : ghost) (g : graph) : post word_ent := λ e G' g',
    up G' ∧ ready G' ∧ wordC G' g' e w ∧
    (fk = false → ∀ V, wview_of G g V → ∃ b V',
      m_word V w = (Some b, V') ∧ wview_of G' g' V' ∧ (b = true → fresh_word e g')).

  Lemma W_word_provide_first r G g :
    started G g → prepared G → rune_ok r → wtext_ok F [r] →
    W 2 (word_provide_first_element r) (wordQ [r] G g) (wordE [r] G g) G g.
  Proof.
    intros Hst Hp Hr Hw. apply W_intro. intros Hok _.
    eapply W_seq; [by apply W_char_provide|by left|lia|].
    intros x G1 g1 Hok1 _ X1 (Hup1&Hrd1&Hlf&Hx).
    eapply W_seq; [by apply (W_class_provide_up 2)|by left|lia|]. intros ? ? ? _ _ _ (->&->).
    destruct Hx as [(c&->&Hc)|[Hfk ->]].
    2: { cbn [word_provide_head_entity deref bind]. apply W_panic. intros _ _. by left. }
    cbn [word_provide_head_entity deref bind].
    assert (Hview : fk = false → ∀ V, wview_of G g V → wview_of G1 g1 (m_char V r)).
    { intros Hfk V HV. eapply view_char; [exact Hok|exact Hok1|exact X1|exact Hfk|exact Hr|exact Hlf|exact Hc|exact HV]. }
    eapply W_bind; [by apply (W_char_has_target_word c r)|lia|..].
    2: { intros ab G2 g2 Hok2 _ X2 [?|(->&->&->&Hk)]; [by left|right]. split_and!; auto.
      intros Hfk V HV. exists (m_char V r). split; [|by apply Hview]. cbn [m_word].
      by rewrite (view_kids2 (Hview Hfk V HV) r Hk). }
    intros b ? ? _ _ _ (->&->&Hk). destruct b; cbn [negb].
    - eapply W_conseq; [by apply (W_char_get_target_word c r)|lia|..].
      + intros e ? ? _ _ _ (->&->&Hs). split_and!; auto; [apply Hs|].
        intros Hfk V HV. pose proof (Hview Hfk V HV) as HV1. exists false, (m_char V r). cbn [m_word].
        rewrite (view_kids1 HV1 r Hk). split_and!; [|done|done].
        by rewrite (nheads_sole _ _ _ _ _ (proj2 HV1 r) Hs).
      + intros ab ? ? _ _ _ [?|(->&->&->&Hn)]; [by left|right]. split_and!; auto.
        intros Hfk V HV. pose proof (Hview Hfk V HV) as HV1. exists (m_char V r). cbn [m_word].
        rewrite (view_kids1 HV1 r Hk). split; [|done].
        destruct (Nat.eqb_spec (hd_count (m_char V r) r) 1) as [Heq|_]; [|done].
        by destruct (Hn _ (proj2 HV1 r)).
    - eapply W_conseq; [by apply (W_word_new_head c r)|lia|..].
      + intros e G2 g2 _ _ X2 (He&Hfr&HV2). assert (HX2 := extn_ext _ _ _ _ _ X2). split_and!; auto.
        * by apply (up_mono HX2).
        * by eapply ready_mono.
        * intros Hfk V HV. pose proof (Hview Hfk V HV) as HV1.
          exists true, (new_head (m_char V r) r). cbn [m_word]. unfold rune_ok in Hr.
          rewrite (view_kids0 HV1 r ltac:(lia) Hk). split_and!; [done| |done].
          by apply HV2.
      + intros; by left.
  Qed.

  Lemma W_word_provide_next e rs r G g :
    up G → ready G → wordC G g e rs → rune_ok r → wtext_ok F (rs ++ [r]) →
    W 2 (word_provide_next_element fuel e r)
      (λ d G' g', wordC G' g' d (rs ++ [r]) ∧ (fresh_word e g → fresh_word d g') ∧
        (fk = false → ∀ V, wview_of G g V → wview_of G' g' (m_char V r))) E0 G g.
  Proof.
    intros Hup Hrd He Hr Hw. apply W_intro. intros Hok _.
    apply W_assoc3. eapply W_seqR; [by apply (R_word_lookup e rs r)|done|].
    intros [d|] _ _; cbn beta iota.
    - intros [Hd Hed]. apply W_ret. intros _ _. split_and!; auto.
      + intros Hfr. by destruct (Hfr (we_word d)).
      + intros Hfk V HV.
        destruct (wordC_last _ _ Hd) as (c&r'&Hlast&Hc&_). apply last_snoc_Some in Hlast as <-.
        eapply (view_char c r G g); eauto. apply link_frame_refl.
    - intros Hno.
      eapply W_seq; [by apply (W_class_provide_up 2)|done|lia|]. intros ? ? ? _ _ _ (->&->).
      eapply W_seq; [apply W_char_provide; [by left| |done]|done|lia|].
      { by intros _. }
      intros x G1 g1 Hok1 _ X1 (Hup1&Hrd1&Hlf&Hx). assert (HX1 := extn_ext _ _ _ _ _ X1).
      destruct Hx as [(c&->&Hc)|[Hfk ->]].
      + assert (Hsame : ∀ y, (we_word e, y) ∈ edges g1 → (we_word e, y) ∈ edges g).
        { intros y Hy. destruct (decide ((we_word e, y) ∈ edges g)) as [|Hn]; [done|exfalso].
          destruct X1 as [_ X1]. destruct (X1 _ _ Hy Hn) as (l&Hl&Hrk).
          pose proof (wordC_base _ _ _ _ (wordC_mono HX1 _ _ He)) as ((_&_&Le&_)&_).
          simplify_eq. simpl in Hrk. lia. }
        eapply W_post; [eapply (W_word_create_tail c e rs r); auto|lia|by intros ???|].
        * by apply (wordC_mono HX1).
        * intros d Hd Hed. apply (Hno d); [|by apply Hsame].
          eapply (word_same Hok Hok1 HX1); [|done].
          intros x y l Hxy Hxy' Hlx. destruct X1 as [_ X1]. destruct (X1 x y Hxy Hxy') as (l'&Hl'&Hrk).
          simplify_eq. destruct l; simpl in *; lia || done.
        * intros d G2 g2 _ _ X2 (Hd&Hfr&HV2). split_and!; auto.
          intros Hfk V HV. apply HV2.
          eapply view_char; [exact Hok|exact Hok1|exact X1|exact Hfk|exact Hr|exact Hlf|exact Hc|exact HV].
      + (* a nil character *)
        unfold word_create_tail_entity. apply W_assoc_rev.
        eapply W_seq; [by apply (W_class_new 2)|done|lia|]. intros x2 G2 g2 Hok2 _ X2 (Hx&Hx0&->&->).
        apply W_assoc_rev. eapply W_seq; [|done|apply le_n|].
        { eapply (W_create3 2 WordEnt x2 (LCls wordIdentifier) (LWordChar (rs ++ [r])) (LWordWord (rs ++ [r]))
            (LWordPhr (rs ++ [r]))); auto; try done; simpl; [by simplify_map_eq|..].
          - by apply (ok_fwd_none Hok1).
          - intros k [= <-]. by apply elem_of_union_l, elem_of_singleton. }
        intros ? ? ? _ _ _ _. cbn [deref bind]. by apply W_panic.
  Qed.

  Lemma W_word_provide_loop e rs0 rs G g :
    up G → ready G → wordC G g e rs0 → Forall rune_ok rs → wtext_ok F (rs0 ++ rs) →
    W 2 (word_provide_loop fuel (Some e) rs)
      (λ x G' g', (∃ d, x = Some d ∧ wordC G' g' d (rs0 ++ rs) ∧ (fresh_word e g → fresh_word d g') ∧
        (fk = false → ∀ V, wview_of G g V → wview_of G' g' (fold_left m_char rs V))) ∨ fk = true ∧ x = None)
      E0 G g.
  Proof.
    revert e rs0 G g. induction rs as [|r rs IH]; intros e rs0 G g Hup Hrd He Hrs Hw.
    - apply W_ret. intros _ _. left. exists e. rewrite app_nil_r. split_and!; auto.
    - inversion Hrs as [|? ? Hr Hrs']; subst. cbn [word_provide_loop deref bind].
      assert (Hw1 : wtext_ok F (rs0 ++ [r])).
      { destruct Hw as (H1&H2&H3). split_and!.
        - by intros [_ ?]%app_eq_nil.
        - rewrite app_length in *. simpl in *. lia.
        - rewrite Forall_app in *. destruct H3 as [? H3]. split; [done|]. inversion H3; auto. }
      assert (Hw2 : wtext_ok F ((rs0 ++ [r]) ++ rs)) by by rewrite <- app_assoc.
      eapply (W_seq _ _ _ _ 2 _ _ (λ x G' g',
        match x with
        | Ok d => wordC G' g' d (rs0 ++ [r]) ∧ (fresh_word e g → fresh_word d g') ∧
            (fk = false → ∀ V, wview_of G g V → wview_of G' g' (m_char V r))
        | Err _ => fk = true
        end)); [|done|lia|].
      + eapply W_try; [by eapply (W_word_provide_next e rs0 r)|lia|..].
        * intros x G' g' _ _ _ Hx. exact Hx.
        * intros ab G' g' _ _ _ [??]. by destruct ab.
      + intros [d|er] G1 g1 Hok1 _ X1 H; cbn [nil_on_err].
        * destruct H as (Hd&Hfr&HV). assert (HX1 := extn_ext _ _ _ _ _ X1).
          eapply W_post; [eapply (IH d (rs0 ++ [r])); auto|lia|by intros ???|].
          -- by apply (up_mono HX1).
          -- by eapply ready_mono.
          -- intros x G2 g2 _ _ _ [(d'&->&Hd'&Hfr'&HV')|?]; [left|by right].
             exists d'. rewrite <- app_assoc in Hd'. split_and!; auto. intros Hfk V HVV. cbn [fold_left]. auto.
        * destruct rs as [|r' rs].
          -- apply W_ret. intros _ _. by right.
          -- cbn [word_provide_loop deref bind]. by apply W_panic.
  Qed.

  Lemma scalar_rune r : scalar r → rune_ok r.
  Proof. unfold scalar, rune_ok. lia. Qed.

  (** A word is stored, refused, or cut short by a fault. *)
  Lemma W_word_provide s G g :
    started G g → prepared G → s ≠ [] → length s < F →
    W 2 (word_provide fuel s) (wordQ (runes_of s) G g) (wordE (runes_of s) G g) G g.
  Proof.
    intros Hst Hp Hne Hlen. unfold word_provide, word_collect.
    pose proof (runes_of_scalar s) as Hsc. pose proof (runes_of_length s) as Hl.
    destruct (runes_of s) as [|r rs] eqn:Hs; [by apply runes_of_empty in Hs|].
    cbn [of_res bind]. inversion Hsc as [|? ? Hr Hrs]; subst. simpl in Hl.
    assert (Hw : wtext_ok F (r :: rs)) by (split_and!; [done|simpl; lia|done]).
    assert (Hw1 : wtext_ok F [r]) by (split_and!; [done|simpl; lia|by apply Forall_singleton]).
    eapply W_bind; [apply (W_word_provide_first r); auto using scalar_rune|lia|..].
    2: { intros ab G1 g1 _ _ _ [?|(->&?&?&HV)]; [by left|right]. split_and!; auto.
      intros Hfk V HVV. destruct (HV Hfk V HVV) as (V'&Heq&HV'). exists V'. split; [|done].
      cbn [m_word fold_left] in *. destruct (kid_count _ _) as [|[|]]; try done.
      by destruct (_ =? 1). }
    intros e G1 g1 Hok1 _ X1 (Hup1&Hrd1&He&HV1).
    eapply W_seq; [eapply (W_word_provide_loop e [r] rs); auto|by left|lia|].
    { eapply Forall_impl; [exact Hrs|]. apply scalar_rune. }
    intros x G2 g2 Hok2 _ X2 Hx. assert (HX2 := extn_ext _ _ _ _ _ X2).
    destruct Hx as [(d&->&Hd&Hfr&HV2)|[Hfk ->]]; cbn [deref].
    - apply W_ret. intros _ _. split_and!; auto.
      + by apply (up_mono HX2).
      + by eapply ready_mono.
      + intros Hfk V HV. destruct (HV1 Hfk V HV) as (b&V'&Heq&HV'&Hb).
        exists b, (fold_left m_char rs V'). split_and!; auto.
        cbn [m_word fold_left] in *. destruct (kid_count _ _) as [|[|]]; try done.
        * by simplify_eq.
        * destruct (_ =? 1); by simplify_eq.
    - apply W_panic. intros _ _. by left.
  Qed.
End words.
