(** The phrase layer. *)
From stdpp Require Import gmap.
From Coq Require Import NArith ZArith Lia.
From Verif Require Import Base GoText Codec Model1 Model2 Model3 Storage Inv Wp Steps Entity BitProofs
  Reads CharProofs SpecMachine WordProofs.
Local Open Scope nat_scope.

Section facts.
  Context {F : nat} {G : ghost} {g : graph} (Hok : ok F G g).

  Lemma phraseC_ok e ws : phraseC G g e ws → ptext_ok F ws.
  Proof.
    intros H. apply phraseC_base in H as ((_&H&_)&_). by eapply (ok_label _ _ _ Hok) in H.
  Qed.

  Lemma phrase_base_eq e r e' r' : phrase_base G g e r → phrase_base G g e' r' →
    pe_word e = pe_word e' ∨ pe_phrase e = pe_phrase e' ∨ pe_detail e = pe_detail e' → e = e'.
  Proof.
    intros (_&H&_) (_&H'&_). destruct e, e'; simpl in *. intros [->|[->| ->]].
    - by destruct (refs3_a Hok _ _ _ _ _ _ _ H H') as (->&->&->).
    - by destruct (refs3_b Hok _ _ _ _ _ _ _ H H') as (->&->&->).
    - by destruct (refs3_c Hok _ _ _ _ _ _ _ H H') as (->&->&->).
  Qed.

  Lemma phraseC_eq e r e' r' : phraseC G g e r → phraseC G g e' r' →
    pe_word e = pe_word e' ∨ pe_phrase e = pe_phrase e' ∨ pe_detail e = pe_detail e' → e = e'.
  Proof. intros H H'. apply (phrase_base_eq _ r _ r'); by apply phraseC_base. Qed.

  Lemma phraseC_text e ws ws' : phraseC G g e ws → phraseC G g e ws' → ws = ws'.
  Proof.
    intros ((_&H&_)&_)%phraseC_base ((_&H'&_)&_)%phraseC_base. congruence.
  Qed.

  Lemma phraseC_head_inv e rs : phraseC G g e [rs] →
    ∃ w, wordC G g w rs ∧ (we_phrase w, pe_word e) ∈ edges g.
  Proof.
    intros H. remember [rs] as t eqn:Heq. destruct H as [e r' c Hb Hc Hl|e e' ws r' Hb He' Hl].
    { simplify_eq. eauto. }
    destruct ws as [|r0 ws]; [by apply phraseC_nonempty in He'|by destruct ws].
  Qed.

  Lemma phraseC_tail_inv e ws rs : ws ≠ [] → phraseC G g e (ws ++ [rs]) →
    ∃ e', phraseC G g e' ws ∧ (pe_phrase e', pe_phrase e) ∈ edges g.
  Proof.
    intros Hrs H. remember (ws ++ [rs]) as t eqn:Heq.
    destruct H as [e r' c Hb Hc Hl|e e' ws' r' Hb He' Hl].
    - destruct ws as [|? [|]]; done.
    - apply app_inj_tail in Heq as [-> ->]. eauto.
  Qed.

  Lemma phraseC_last e ws : phraseC G g e ws →
    ∃ w rs, last ws = Some rs ∧ wordC G g w rs ∧ (pe_word e, we_phrase w) ∈ edges g.
  Proof. intros (_&_&H)%phraseC_base. exact H. Qed.
End facts.

Section back.
  Context {F : nat} {G : ghost} {g : graph} {G' : ghost} {g' : graph}
    (Hok : ok F G g) (Hok' : ok F G' g') (X : ext G g G' g').

  Lemma phraseC_back e ws : phraseC G' g' e ws →
    phraseC G g e ws ∨
    ∃ x y, (x, y) ∈ edges g' ∧ (x, y) ∉ edges g ∧
      ((∃ rs, ws = [rs] ∧ y = pe_word e ∧ lab G' !! x = Some (LWordPhr rs)) ∨
       (∃ ws0 rs, ws = ws0 ++ [rs] ∧ y = pe_phrase e ∧ lab G' !! x = Some (LPhrPhr ws0))).
  Proof.
    destruct 1 as [e r c Hb Hc Hl|e p rs r Hb Hp Hl].
    - pose proof (wordC_base _ _ _ _ Hc) as ((_&_&_&Lx)&_).
      destruct (decide ((we_phrase c, pe_word e) ∈ edges g)) as [Hin|Hn].
      + left. pose proof Hb as ((_&Lb&_)&_).
        apply (lab_back X) in Lb; [|by eapply (ok_edge_r Hok)].
        apply (lab_back X) in Lx; [|by eapply (ok_edge_l Hok)].
        destruct (ok_edge_labs Hok _ _ _ _ Hin Lx Lb) as [_ (e0&He0&Heq)].
        assert (e0 = e) as ->; [|done].
        eapply (phrase_base_eq Hok'); [by eapply phraseC_base, (phraseC_mono X)|done|]. auto.
      + right. eexists _, _. split; [exact Hl|]. split; [exact Hn|]. left. eauto.
    - pose proof (phraseC_base _ _ _ _ Hp) as ((_&_&Lx&_)&_).
      destruct (decide ((pe_phrase p, pe_phrase e) ∈ edges g)) as [Hin|Hn].
      + left. pose proof Hb as ((_&_&Lb&_)&_).
        apply (lab_back X) in Lb; [|by eapply (ok_edge_r Hok)].
        apply (lab_back X) in Lx; [|by eapply (ok_edge_l Hok)].
        destruct (ok_edge_labs Hok _ _ _ _ Hin Lx Lb) as [_ (e0&He0&Heq)].
        assert (e0 = e) as ->; [|done].
        eapply (phrase_base_eq Hok'); [by eapply phraseC_base, (phraseC_mono X)|done|]. auto.
      + right. eexists _, _. split; [exact Hl|]. split; [exact Hn|]. right. eauto.
  Qed.

  Lemma phrase_same e ws :
    (∀ x y l, (x, y) ∈ edges g' → (x, y) ∉ edges g → lab G' !! x = Some l →
      match l with LWordPhr _ | LPhrPhr _ => False | _ => True end) →
    phraseC G' g' e ws → phraseC G g e ws.
  Proof.
    intros Hn He. destruct (phraseC_back _ _ He) as [?|(x&y&Hin&Hout&Hc)]; [done|].
    destruct Hc as [(?&_&_&Hx)|(?&?&_&_&Hx)]; by destruct (Hn _ _ _ Hin Hout Hx).
  Qed.
End back.

(** The children of a phrase have pairwise different texts. *)
Definition phrase_distinct (G : ghost) (g : graph) : Prop :=
  ∀ x y z ws ws', (x, y) ∈ edges g → (x, z) ∈ edges g → lab G !! x = Some (LPhrPhr ws) →
    lab G !! y = Some (LPhrPhr ws') → lab G !! z = Some (LPhrPhr ws') → y = z.

Definition pview_of (G : ghost) (g : graph) (M : pview) : Prop :=
  wview_of G g (pV M) ∧ (∀ ws, ws ∈ pT M ↔ ∃ e, phraseC G g e ws) ∧ phrase_distinct G g.

Lemma hd_fold rs V r : hd_count (fold_left m_char rs V) r = hd_count V r.
Proof. revert V. induction rs as [|a rs IH]; intros V; simpl; [done|]. by rewrite IH. Qed.

Lemma m_word_false V r rs V' : m_word V (r :: rs) = (Some false, V') → hd_count V' r = 1.
Proof.
  cbn [m_word]. destruct (kid_count _ _) as [|[|]]; try done.
  destruct (Nat.eqb_spec (hd_count (m_char V r) r) 1) as [Heq|]; [|done].
  intros [= <-]. by rewrite hd_fold.
Qed.

(** The text of raw words equals what is read back. *)
Definition clean (w : gostring) : Prop := normalise w = w.

Section phrases.
  Context {zp : zpolicy} {fk : bool} {F : nat}.
  Notation wp := (wp zp fk F).
  Notation W := (W zp fk F).
  Notation R := (R zp fk F).
  Notation E0 := (E0 fk).
  Notation prepared := (prepared (fk := fk)).
  Notation wordE := (wordE (fk := fk)).
  Notation wordQ := (wordQ (fk := fk)).

  Context (fuel : nat) (Hfuel : 31 ≤ fuel) (HF : F ≤ fuel).

  (** ** Readers *)
  Lemma R_phrase_read_by_word e r G g : phrase_base G g e r →
    R (phrase_read_by_word (pe_word e)) (λ x _ _, x = e) E0 G g.
  Proof. intros (_&H&_). destruct e; simpl in *. by apply R_read_a. Qed.
  Lemma R_phrase_read_by_phrase e r G g : phrase_base G g e r →
    R (phrase_read_by_phrase (pe_phrase e)) (λ x _ _, x = e) E0 G g.
  Proof. intros (_&H&_). destruct e; simpl in *. by apply R_read_b. Qed.
  Lemma R_phrase_read_by_detail e r G g : phrase_base G g e r →
    R (phrase_read_by_detail (pe_detail e)) (λ x _ _, x = e) E0 G g.
  Proof. intros (_&H&_). destruct e; simpl in *. by apply R_read_c. Qed.

  Lemma R_phrase_extract_word_value e ws rs G g :
    phraseC G g e ws → up G → last ws = Some rs →
    R (phrase_extract_word_value fuel e) (λ x _ _, x = string_of_runes rs) E0 G g.
  Proof.
    intros H Hup Hr. destruct (phraseC_last _ _ H) as (w&rs'&Hr'&Hw&He). simplify_eq.
    pose proof (phraseC_base _ _ _ _ H) as ((_&Lc&_)&_).
    eapply R_one_target; [exact Lc|exact I|exact He| |done]. intros G1 g1 Hok1 X1.
    eapply R_then; [by eapply R_word_read_by_phrase, (word_base_mono X1), wordC_base|done|].
    intros G2 g2 Hok2 X2. apply (R_word_extract fuel Hfuel HF).
    - by apply (wordC_mono X2), (wordC_mono X1).
    - by apply (up_mono X2), (up_mono X1).
  Qed.

  Lemma R_phrase_has_source e ws b G g :
    phraseC G g e ws → (b = true ↔ ∃ ws0 rs, ws0 ≠ [] ∧ ws = ws0 ++ [rs]) →
    R (phrase_has_source_phrase e) (λ x _ _, x = b) E0 G g.
  Proof.
    intros H Hb. pose proof (phraseC_base _ _ _ _ H) as ((_&_&Lw&_)&_).
    eapply R_seq; [by eapply R_sources|done|]. intros ts G2 g2 Hok2 X2 [_ Hts].
    apply R_ret. intros _. destruct b.
    - destruct (proj1 Hb eq_refl) as (rs0&r&Hne&->).
      destruct (phraseC_tail_inv _ _ _ Hne H) as (p&_&Hp).
      destruct ts as [|t ts]; [exfalso|done].
      assert (Ht : pe_phrase p ∈ []); [|by apply elem_of_nil in Ht]. apply Hts. by apply (ext_edge X2).
    - destruct ts as [|t ts]; [done|exfalso].
      assert (Ht : (t, pe_phrase e) ∈ edges g2) by (apply Hts; left).
      destruct (ok_edge _ _ _ Hok2 _ _ Ht) as (lt&lc&Lt&Lc2&He&Hexp).
      rewrite (ext_lab_lookup X2 _ _ Lw) in Lc2. simplify_eq.
      destruct lt; simpl in He; try done. destruct He as [r ->].
      assert (ptext_ok F ws0) as [? _] by by eapply (ok_label _ _ _ Hok2) in Lt.
      enough (false = true) by done. apply Hb. eauto.
  Qed.

  Lemma R_phrase_extract_loop e ws G g :
    phraseC G g e ws → up G → ∃ l w,
      ws = rev l ++ [w] ∧
      ∀ f path G1 g1, ext G g G1 g1 → length l < f →
        R (phrase_extract_loop fuel f e path) (λ p _ _, p = path ++ map string_of_runes l) E0 G1 g1.
  Proof.
    intros H Hup. induction H as [e r c Hb Hc Hl|e p rs r Hb Hp IH Hl].
    - exists [], r. split; [done|]. intros f path G1 g1 X1 Hf.
      destruct f as [|f]; [simpl in Hf; lia|]. cbn [phrase_extract_loop].
      eapply (R_then _ false); [eapply R_phrase_has_source|done|].
      { apply (phraseC_mono X1). by eapply phraseC_head. }
      { split; [done|]. intros (rs0&r'&Hne&Heq). destruct rs0 as [|? [|]]; done. }
      intros G2 g2 Hok2 X2. apply R_ret. intros _. by rewrite app_nil_r.
    - pose proof (phraseC_tail _ _ _ _ _ _ Hb Hp Hl) as H.
      destruct IH as (l&r0&->&Hloop). exists (r0 :: l), r. split; [done|].
      intros f path G1 g1 X1 Hf. destruct f as [|f]; [simpl in Hf; lia|]. cbn [phrase_extract_loop].
      simpl in Hf.
      eapply (R_then _ true); [eapply R_phrase_has_source|done|].
      { by apply (phraseC_mono X1). }
      { split; [|done]. intros _. exists (rev l ++ [r0]), r. split; [|done]. by destruct (rev l). }
      intros G2 g2 Hok2 X2. cbn [negb].
      assert (X2' : ext G g G2 g2) by (eapply ext_trans; eauto).
      pose proof (phrase_base_mono X2' _ _ Hb) as ((_&_&Lw&_)&_).
      eapply (R_seq _ _ _ _ _ (λ x _ _, x = Ok p ∨ fk = true ∧ ∃ e, x = Err e)); [|done|].
      + eapply R_try.
        * eapply R_one_source; [exact Lw|exact I|by apply (ext_edge X2')| |done].
          intros G3 g3 Hok3 X3. eapply R_phrase_read_by_phrase.
          by apply (phrase_base_mono X3), (phrase_base_mono X2'), phraseC_base.
        * intros w G' g' _ _ ->. by left.
        * intros ab G' g' _ _ [??]. destruct ab; [|done..]. right. eauto.
      + intros x G3 g3 Hok3 X3 Hx.
        assert (X3' : ext G g G3 g3) by (eapply ext_trans; eauto).
        destruct Hx as [->|[Hfk [e' ->]]]; cbn [nil_on_err deref bind]; [|by apply R_panic].
        eapply R_then; [eapply (R_phrase_extract_word_value p _ r0)|done|].
        { by apply (phraseC_mono X3'). }
        { by apply (up_mono X3'). }
        { by rewrite last_snoc. }
        intros G4 g4 Hok4 X4. cbn [map].
        replace (path ++ string_of_runes r0 :: map string_of_runes l)
          with ((path ++ [string_of_runes r0]) ++ map string_of_runes l) by by rewrite <- app_assoc.
        apply Hloop; [|lia]. eapply ext_trans; eauto.
  Qed.

  Lemma R_phrase_extract e ws G g :
    phraseC G g e ws → up G →
    R (phrase_extract fuel e) (λ x _ _, x = text_of ws) E0 G g.
  Proof.
    intros H Hup. apply R_intro. intros Hok.
    destruct (phraseC_ok Hok _ _ H) as (_&Hlen&_).
    destruct (R_phrase_extract_loop e ws G g H Hup) as (l&w&Heq&Hloop).
    unfold phrase_extract.
    eapply R_then; [eapply (R_phrase_extract_word_value e ws w); auto; by rewrite Heq, last_snoc|done|].
    intros G1 g1 Hok1 X1.
    eapply R_then; [apply Hloop; [done|]|done|].
    { rewrite Heq, app_length, rev_length in Hlen. simpl in Hlen. lia. }
    intros G2 g2 Hok2 X2. apply R_ret. intros _. cbn [app rev]. rewrite Heq. unfold text_of.
    by rewrite map_app, map_rev.
  Qed.

  (** ** Finding a child *)
  Lemma phrase_children e ws G g ids :
    ok F G g → phraseC G g e ws →
    (∀ y, y ∈ ids → (pe_phrase e, y) ∈ edges g) →
    ∃ es, ids = map pe_phrase es ∧ Forall (λ c, ∃ w, phraseC G g c (ws ++ [w])) es.
  Proof.
    intros Hok He. induction ids as [|y ids IH]; intros Hin.
    - exists []. split; [done|constructor].
    - destruct IH as (es&->&Hes); [intros; apply Hin; by right|].
      assert (Hy : (pe_phrase e, y) ∈ edges g) by (apply Hin; left).
      destruct (ok_edge _ _ _ Hok _ _ Hy) as (lx&ly&Hx&Hly&Hxy&Hexp).
      pose proof (phraseC_base _ _ _ _ He) as ((_&_&Lc&_)&_). rewrite Lc in Hx. simplify_eq.
      destruct ly; simpl in Hxy; try done. simpl in Hexp. destruct Hexp as (c&Hc&<-).
      destruct Hxy as [r ->].
      exists (c :: es). split; [done|]. constructor; eauto.
  Qed.

  Lemma R_phrase_read_all es G g :
    Forall (λ c, ∃ r, phraseC G g c r) es →
    R (phrase_read_all (map pe_phrase es)) (λ x _ _, x = es) E0 G g.
  Proof.
    revert G g. induction es as [|e es IH]; intros G g H; [by apply R_ret|].
    inversion H as [|? ? [r Hr] Hes]; subst. cbn [map phrase_read_all].
    eapply R_then; [by eapply R_phrase_read_by_phrase, phraseC_base|done|].
    intros G1 g1 Hok1 X1. eapply R_then; [apply IH|done|].
    - eapply Forall_impl; [exact Hes|]. intros c [r' ?]. exists r'. by apply (phraseC_mono X1).
    - intros. by apply R_ret.
  Qed.

  Lemma R_phrase_find s es G g :
    up G → Forall (λ c, ∃ ws, phraseC G g c ws) es →
    R (phrase_find fuel s es) (λ x _ _, match x with
      | Some c => c ∈ es ∧ ∃ ws rs, phraseC G g c ws ∧ last ws = Some rs ∧ s = string_of_runes rs
      | None => ∀ c ws rs, c ∈ es → phraseC G g c ws → last ws = Some rs → s ≠ string_of_runes rs
      end) E0 G g.
  Proof.
    intros Hup H.
    enough (∀ G1 g1, ok F G1 g1 → ext G g G1 g1 → R (phrase_find fuel s es) (λ x _ _, match x with
      | Some c => c ∈ es ∧ ∃ ws rs, phraseC G g c ws ∧ last ws = Some rs ∧ s = string_of_runes rs
      | None => ∀ c ws rs, c ∈ es → phraseC G g c ws → last ws = Some rs → s ≠ string_of_runes rs
      end) E0 G1 g1) as Hall by (apply R_intro; intros; by apply Hall).
    induction es as [|e es IH]; intros G1 g1 Hok1 X1.
    { apply R_ret. intros _ c ws rs Hc. by apply elem_of_nil in Hc. }
    inversion H as [|? ? [ws Hr] Hes]; subst. cbn [phrase_find].
    destruct (phraseC_last _ _ Hr) as (w&rs&Hrs&Hw&He).
    eapply R_then; [eapply (R_phrase_extract_word_value e ws rs); auto|done|].
    { by apply (phraseC_mono X1). }
    { by apply (up_mono X1). }
    intros G2 g2 Hok2 X2.
    destruct (gostring_eqb_spec s (string_of_runes rs)) as [->|Hne].
    - apply R_ret. intros _. split; [left|]. eauto.
    - eapply R_post; [apply IH; [done|done|by eapply ext_trans]|by intros ???|].
      intros [c|] _ _ _ _; cbn beta iota.
      + intros [??]. split; [by right|done].
      + intros HN c ws' rs' Hc Hr' Hl. apply elem_of_cons in Hc as [->|Hc]; [|by eapply HN].
        rewrite (phraseC_text _ _ _ Hr' Hr) in Hl. congruence.
  Qed.

  (** Look for the child with the given last word. *)
  Lemma R_phrase_lookup e ws s G g :
    up G → phraseC G g e ws →
    R (ids <- phrase_get_target_phrases e;; es <- phrase_read_all ids;; phrase_find fuel s es)
      (λ found G' g', match found with
       | Some c => clean s ∧ phraseC G' g' c (ws ++ [runes_of s]) ∧ (pe_phrase e, pe_phrase c) ∈ edges g'
       | None => clean s → ∀ c, phraseC G g c (ws ++ [runes_of s]) → (pe_phrase e, pe_phrase c) ∉ edges g
       end) E0 G g.
  Proof.
    intros Hup He. pose proof (phraseC_base _ _ _ _ He) as ((_&_&Lc&_)&_).
    eapply R_seq; [by eapply R_targets|done|]. intros ids G1 g1 Hok1 X1 [_ Hids].
    destruct (phrase_children e ws G1 g1 ids Hok1 (phraseC_mono X1 _ _ He)) as (es&->&Hes).
    { intros y. apply Hids. }
    assert (Hes' : Forall (λ c, ∃ r, phraseC G1 g1 c r) es).
    { eapply Forall_impl; [exact Hes|]. intros ? (?&?). eauto. }
    eapply R_then; [by apply R_phrase_read_all|done|]. intros G2 g2 Hok2 X2.
    assert (Hes2 : Forall (λ c, ∃ r, phraseC G2 g2 c (ws ++ [r])) es).
    { eapply Forall_impl; [exact Hes|]. intros ? (r'&?). exists r'. by apply (phraseC_mono X2). }
    assert (X12 : ext G g G2 g2) by (eapply ext_trans; eauto).
    eapply R_post; [apply R_phrase_find|by intros ???|].
    { by apply (up_mono X2), (up_mono X1). }
    { eapply Forall_impl; [exact Hes2|]. intros ? (?&?). eauto. }
    intros [c|] G3 g3 Hok3 X3; cbn beta iota.
    - intros [Hc (ws'&rs&Hr&Hlast&Hs)]. rewrite Forall_forall in Hes2.
      destruct (Hes2 c Hc) as (r'&Hr'). rewrite (phraseC_text _ _ _ Hr Hr') in Hlast.
      apply last_snoc_Some in Hlast as ->.
      destruct (phraseC_ok Hok2 _ _ Hr') as (_&_&Hall).
      apply Forall_app in Hall as [_ Hall]. apply Forall_singleton in Hall as (_&_&Hsc).
      assert (runes_of s = rs) as Hrs by (rewrite Hs; by apply runes_of_string_of_runes).
      rewrite Hrs. split_and!.
      + unfold clean, normalise. by rewrite Hrs.
      + by apply (phraseC_mono X3).
      + apply (ext_edge X3), (ext_edge X2), Hids. by apply elem_of_list_fmap_1.
    - intros HNone Hcl c Hc Hedge.
      assert (Hin : pe_phrase c ∈ map pe_phrase es) by by apply Hids, (ext_edge X1).
      apply elem_of_list_fmap in Hin as (c'&Heq&Hc').
      assert (c = c') as ->.
      { rewrite Forall_forall in Hes2. destruct (Hes2 c' Hc') as (r'&Hr').
        eapply (phraseC_eq Hok2); [by apply (phraseC_mono X12)|done|auto]. }
      eapply HNone; [done|by apply (phraseC_mono X12)|by rewrite last_snoc|]. done.
  Qed.

  (** ** Effect on the machine's state *)
  Lemma pview_word M V' G g G' g' :
    ok F G g → ok F G' g' → extn 2 G g G' g' → pview_of G g M → wview_of G' g' V' →
    pview_of G' g' (PV V' (pT M)).
  Proof.
    intros Hok Hok' [X Hn] (_&HT&HD) HV. split; [done|]. split.
    - intros ws. simpl. rewrite HT. split; intros [e He]; exists e; [by apply (phraseC_mono X)|].
      eapply (phrase_same Hok Hok' X); [|done].
      intros x y l Hxy Hxy' Hl. destruct (Hn x y Hxy Hxy') as (l'&Hl'&Hrk). simplify_eq.
      destruct l; simpl in *; lia || done.
    - assert (Hold : ∀ x y ws, (x, y) ∈ edges g' → lab G' !! x = Some (LPhrPhr ws) → (x, y) ∈ edges g).
      { intros x y ws Hxy Hl. destruct (decide ((x, y) ∈ edges g)) as [|Hxy']; [done|].
        destruct (Hn x y Hxy Hxy') as (l'&Hl'&Hrk). simplify_eq. simpl in Hrk. lia. }
      intros x y z ws ws' Hxy Hxz Hx Hy Hz.
      pose proof (Hold _ _ _ Hxy Hx) as H1. pose proof (Hold _ _ _ Hxz Hx) as H2.
      eapply (HD x y z ws ws'); [done..| | |].
      + apply (lab_back X); [done|by eapply (ok_edge_l Hok)].
      + apply (lab_back X); [done|by eapply (ok_edge_r Hok)].
      + apply (lab_back X); [done|by eapply (ok_edge_r Hok)].
  Qed.

  (** A new phrase [n] linked by one new edge. *)
  Lemma pview_add n ws M G g G' g' :
    ok F G g → ok F G' g' → ext G g G' g' → phraseC G' g' n ws →
    (∀ x y, (x, y) ∈ edges g' → (x, y) ∉ edges g →
      y = pe_word n ∨ y = pe_phrase n ∨
      ∃ l, lab G' !! x = Some l ∧ match l with LCls _ | LPhrWord _ => True | _ => False end) →
    (∀ x y ws0, (x, y) ∈ edges g → (x, pe_phrase n) ∈ edges g' → lab G !! y = Some (LPhrPhr ws) →
      lab G !! x = Some (LPhrPhr ws0) → False) →
    (∀ x y ws0, (x, y) ∈ edges g' → (x, y) ∉ edges g → lab G' !! x = Some (LPhrPhr ws0) → y = pe_phrase n) →
    pview_of G g M → pview_of G' g' (PV (pV M) ({[ws]} ∪ pT M)).
  Proof.
    intros Hok Hok' X Hn Hnews Hdis Hpp (HV&HT&HD). split_and!; simpl.
    - eapply (view_same Hok Hok' X); [|done]. intros x y l Hxy Hxy' Hl.
      pose proof (phraseC_base _ _ _ _ Hn) as ((_&Lw&Lp&_)&_).
      destruct (Hnews x y Hxy Hxy') as [->|[->|(l'&Hl'&Hm)]].
      + destruct (ok_edge_labs Hok' _ _ _ _ Hxy Hl Lw) as [He _]. destruct l; done.
      + destruct (ok_edge_labs Hok' _ _ _ _ Hxy Hl Lp) as [He _]. destruct l; done.
      + simplify_eq. destruct l; done.
    - intros ws'. rewrite elem_of_union, elem_of_singleton, HT. split.
      + intros [->|[e He]]; [by exists n|]. exists e. by apply (phraseC_mono X).
      + intros [e He]. destruct (phraseC_back Hok Hok' X _ _ He) as [?|(x&y&Hin&Hout&Hc)]; [right; by exists e|left].
        assert (e = n) as ->; [|by eapply phraseC_text].
        pose proof (phraseC_base _ _ _ _ Hn) as ((_&Lw&Lp&_)&_).
        pose proof (phraseC_base _ _ _ _ He) as ((_&Lw'&Lp'&_)&_).
        eapply (phraseC_eq Hok' _ _ _ _ He Hn).
        destruct (Hnews x y Hin Hout) as [->|[->|(l&Hl&Hm)]].
        * destruct Hc as [(rs&_&Heq&_)|(ws0&rs&_&Heq&_)]; [by auto|]. rewrite <- Heq in Lp'. simplify_eq.
        * destruct Hc as [(rs&_&Heq&_)|(ws0&rs&_&Heq&_)]; [|by auto]. rewrite <- Heq in Lw'. simplify_eq.
        * destruct Hc as [(rs&_&Heq&Hx)|(ws0&rs&_&Heq&Hx)]; simplify_eq; done.
    - pose proof (phraseC_base _ _ _ _ Hn) as ((_&_&Lp&_)&_).
      assert (Hcase : ∀ x y ws0, (x, y) ∈ edges g' → lab G' !! x = Some (LPhrPhr ws0) →
        (x, y) ∈ edges g ∧ lab G !! x = Some (LPhrPhr ws0) ∨ y = pe_phrase n).
      { intros x y ws0 Hxy Hx. destruct (decide ((x, y) ∈ edges g)) as [Hin|Hout].
        - left. split; [done|]. apply (lab_back X); [done|by eapply (ok_edge_l Hok)].
        - right. by eapply Hpp. }
      assert (Hb : ∀ x y l, (x, y) ∈ edges g → lab G' !! y = Some l → lab G !! y = Some l).
      { intros x y l Hxy Hl. apply (lab_back X); [done|by eapply (ok_edge_r Hok)]. }
      intros x y z ws0 ws' Hxy Hxz Hx Hy Hz.
      destruct (Hcase _ _ _ Hxy Hx) as [[H1 H1']|H1], (Hcase _ _ _ Hxz Hx) as [[H2 H2']|H2].
      + eapply (HD x y z ws0 ws'); eauto.
      + subst z. assert (ws' = ws) as -> by congruence. destruct (Hdis x y ws0); eauto.
      + subst y. assert (ws' = ws) as -> by congruence. destruct (Hdis x z ws0); eauto.
      + congruence.
  Qed.

  (** ** Creating phrases *)
  Definition fresh_phrase (e : phrase_ent) (g : graph) : Prop := ∀ y, (pe_phrase e, y) ∉ edges g.

  Definition at_pos (fresh : bool) (G : ghost) (g : graph) (e : phrase_ent) (ws : list (list Z)) : Prop :=
    if fresh then fresh_phrase e g else ∀ e', phraseC G g e' ws → e' = e.

  Lemma W_phrase_provide_head w rs G g :
    up G → wordC G g w rs → ptext_ok F [rs] →
    W 3 (phrase_provide_head_entity w)
      (λ e G' g', phraseC G' g' e [rs] ∧
        (∀ M, pview_of G g M → pview_of G' g' (PV (pV M) ({[[rs]]} ∪ pT M))) ∧
        (G' = G ∧ g' = g ∧ (we_phrase w, pe_word e) ∈ edges g ∨
         (∀ y, (we_phrase w, y) ∉ edges g) ∧ fresh_phrase e g')) E0 G g.
  Proof.
    intros Hup Hw Hr. apply W_intro. intros Hok [_ Hlone].
    pose proof (wordC_base _ _ _ _ Hw) as ((_&_&_&Lp)&_).
    unfold phrase_provide_head_entity.
    destruct (targets_dec (we_phrase w) g) as [Hno|[y Hy]].
    2: { destruct (ok_edge _ _ _ Hok _ _ Hy) as (l1&l2&H1&H2&Hed&Hexp).
      rewrite Lp in H1. simplify_eq. destruct l2; simpl in Hed; try done. subst ws.
      simpl in Hexp. destruct Hexp as (e&He&<-).
      eapply (W_seqR _ _ _ _ _ _ (λ b _ _, b = true)); [|done|].
      { eapply R_seq; [by eapply R_targets|done|]. intros ts G1 g1 Hok1 X1 [Hnd Hts].
        rewrite (NoDup_single ts (pe_word e)); [by apply R_ret|done|by apply Hts, (ext_edge X1)|].
        intros z Hz%Hts. eapply (ok_head _ _ _ Hok1 (solo_mono X1 Hlone)); [exact Hz|by apply (ext_edge X1)|by apply (ext_lab_lookup X1)|exact I]. }
      intros ? _ _ ->. cbn [negb].
      eapply W_post; [eapply R_W|apply le_n| |].
      { eapply R_head_target; [exact Lp|exact Hlone|exact I|exact Hy| |by apply le_E0_refl]. intros G1 g1 Hok1 X1.
        eapply R_phrase_read_by_word. by apply (phrase_base_mono X1), phraseC_base. }
      { by intros ??? (_&_&?). }
      intros e' G' g' _ _ _ (->&->&->). split_and!; auto.
      intros M (HV&HT&HD). split_and!; simpl; auto. intros ws'.
      rewrite elem_of_union, elem_of_singleton, HT. split; [|by auto]. intros [->|?]; [by exists e|done]. }
    eapply (W_seq _ _ _ _ 3 _ _ (λ b G' g', G' = G ∧ g' = g ∧ b = false)); [|done|lia|].
    { eapply W_seq; [by eapply (W_no_targets 3)|done|lia|]. intros ts ? ? _ _ _ (->&->&->). by apply W_ret. }
    intros ? ? ? _ _ _ (->&->&->). cbn [negb].
    eapply (W_entity 3 PhraseEnt phraseIdentifier (LPhrWord [rs]) (LPhrPhr [rs]) (LPhrDet [rs])); auto; try done.
    intros x a bb d G1 g1 Hok1 Hq1 X1 Hne.
    pose proof (ne_labs Hne) as Hlabs. pose proof Hlabs as (Lx&La&Lb&Ld).
    assert (HX1 := extn_ext _ _ _ _ _ X1). pose proof (up_mono HX1 Hup) as Hup1.
    assert (Hk : (1 <= phraseIdentifier <= 8)%N) by done.
    pose proof (ext_lab_lookup HX1 _ _ Lp) as Lp1.
    eapply W_seq; [|done|apply le_n|].
    { eapply (W_connect 3 a (we_phrase w) (LPhrWord [rs]) (LWordPhr rs)); auto; try done.
      - intros _ y Hy. by destruct (ne_iso Hok Hup Hk Hne a ltac:(auto) y).
      - eapply not_bit_root; [exact Hup1|exact Lp1|done]. }
    intros ? G2 g2 Hok2 _ X2 (->&->). assert (HX2 := extn_ext _ _ _ _ _ X2).
    set (n := PhraseEnt x a bb d). set (g2 := add_edge a (we_phrase w) g1) in *.
    set (g3 := add_edge (we_phrase w) a g2).
    assert (X3 : ext G1 g2 G1 g3) by apply ext_add_edge.
    assert (Hbn : phrase_base G1 g2 n [rs]).
    { split; [exact Hlabs|]. split; [by apply (refs3_mono HX2), (ne_refs _ _ _ _ _ _ _ _ _ _ _ _ Hne)|].
      exists w, rs. split; [done|]. split; [by apply (wordC_mono HX2), (wordC_mono HX1)|]. simpl. set_solver. }
    assert (Hwn : phraseC G1 g3 n [rs]).
    { eapply (phraseC_head _ _ n rs w).
      - by apply (phrase_base_mono X3).
      - by apply (wordC_mono X3), (wordC_mono HX2), (wordC_mono HX1).
      - simpl. set_solver. }
    assert (Hno2 : ∀ y, (we_phrase w, y) ∉ edges g2).
    { intros y Hy. simpl in Hy. apply elem_of_union in Hy as [Hy|Hy].
      - apply elem_of_singleton in Hy as [= Hy1 Hy2]. congruence.
      - apply (ne_edge Hne) in Hy as [[Hy1 Hy2]|?]; [congruence|by eapply Hno]. }
    eapply W_seq; [|done|apply le_n|].
    { eapply (W_connect 3 (we_phrase w) a (LWordPhr rs) (LPhrWord [rs])); auto; try done.
      - simpl. exists n. done.
      - intros _ y Hy. by destruct (Hno2 y).
      - eapply not_bit_root; [exact Hup1|exact La|done]. }
    intros ? G4 g4 Hok4 _ X4 (->&->). fold g3 in Hok4. fold g3.
    assert (X : ext G g G1 g3) by (eapply ext_trans; [exact HX1|]; eapply ext_trans; [exact HX2|exact X3]).
    apply W_ret. intros _ _.
    assert (Hiso : ∀ y, (bb, y) ∉ edges g3 ∧ (y, bb) ∉ edges g3).
    { intros y. pose proof (ne_iso Hok Hup Hk Hne bb ltac:(auto) y) as [H1 H2]. simpl.
      rewrite !not_elem_of_union, !not_elem_of_singleton.
      split_and!; try done; intros [=]; subst; congruence. }
    assert (Hnews : ∀ p q, (p, q) ∈ edges g3 → (p, q) ∉ edges g →
      p = we_phrase w ∧ q = a ∨ p = a ∨ p = x).
    { intros p q Hpq Hpq'. simpl in Hpq.
      apply elem_of_union in Hpq as [Hpq|Hpq]; [apply elem_of_singleton in Hpq; simplify_eq; auto|].
      apply elem_of_union in Hpq as [Hpq|Hpq]; [apply elem_of_singleton in Hpq; simplify_eq; auto|].
      apply (ne_edge Hne) in Hpq as [[-> ->]|?]; auto. done. }
    split_and!; [exact Hwn| |right; split; [done|]].
    - intros M HM. eapply (pview_add n); [exact Hok|exact Hok4|exact X|exact Hwn| | | |exact HM].
      + intros p q Hpq Hpq'. destruct (Hnews p q Hpq Hpq') as [[-> ->]|[->| ->]]; [by left| |];
          right; right; by eexists.
      + intros p q ws0 _ Hp. by destruct (Hiso p).
      + intros p q ws0 Hpq Hpq' Lpp. exfalso.
        destruct (Hnews p q Hpq Hpq') as [[-> ->]|[->| ->]]; congruence.
    - intros y. apply Hiso.
  Qed.

  Lemma W_phrase_create_tail w rs e ws G g :
    up G → wordC G g w rs → phraseC G g e ws → ptext_ok F (ws ++ [rs]) →
    W 3 (phrase_create_tail_entity w e)
      (λ d G' g', phraseC G' g' d (ws ++ [rs]) ∧ fresh_phrase d g' ∧
        (pe_phrase e, pe_phrase d) ∈ edges g' ∧
        ∀ M, pview_of G g M →
          (∀ c, phraseC G g c (ws ++ [rs]) → (pe_phrase e, pe_phrase c) ∉ edges g) →
          pview_of G' g' (PV (pV M) ({[ws ++ [rs]]} ∪ pT M))) E0 G g.
  Proof.
    intros Hup Hw He Hr. apply W_intro. intros Hok _.
    eapply (W_entity 3 PhraseEnt phraseIdentifier (LPhrWord (ws ++ [rs])) (LPhrPhr (ws ++ [rs]))
      (LPhrDet (ws ++ [rs]))); auto; try done.
    intros x a bb d G1 g1 Hok1 Hq1 X1 Hne.
    pose proof (ne_labs Hne) as Hlabs. pose proof Hlabs as (Lx&La&Lb&Ld).
    assert (HX1 := extn_ext _ _ _ _ _ X1). pose proof (up_mono HX1 Hup) as Hup1.
    assert (Hk : (1 <= phraseIdentifier <= 8)%N) by done.
    pose proof (wordC_base _ _ _ _ (wordC_mono HX1 _ _ Hw)) as ((_&_&_&Lp1)&_).
    pose proof (phraseC_base _ _ _ _ (phraseC_mono HX1 _ _ He)) as ((_&_&Lep&_)&_).
    eapply W_seq; [|done|apply le_n|].
    { eapply (W_connect 3 a (we_phrase w) (LPhrWord (ws ++ [rs])) (LWordPhr rs)); auto; try done.
      - simpl. by rewrite last_snoc.
      - intros _ y Hy. by destruct (ne_iso Hok Hup Hk Hne a ltac:(auto) y).
      - eapply not_bit_root; [exact Hup1|exact Lp1|done]. }
    intros ? G2 g2 Hok2 _ X2 (->&->). assert (HX2 := extn_ext _ _ _ _ _ X2).
    set (n := PhraseEnt x a bb d). set (g2 := add_edge a (we_phrase w) g1) in *.
    set (g3 := add_edge (pe_phrase e) bb g2).
    assert (X3 : ext G1 g2 G1 g3) by apply ext_add_edge.
    assert (Hbn : phrase_base G1 g2 n (ws ++ [rs])).
    { split; [exact Hlabs|]. split; [by apply (refs3_mono HX2), (ne_refs _ _ _ _ _ _ _ _ _ _ _ _ Hne)|].
      exists w, rs. split; [by rewrite last_snoc|]. split; [by apply (wordC_mono HX2), (wordC_mono HX1)|]. simpl. set_solver. }
    assert (Hwn : phraseC G1 g3 n (ws ++ [rs])).
    { eapply (phraseC_tail _ _ n e ws rs).
      - by apply (phrase_base_mono X3).
      - by apply (phraseC_mono X3), (phraseC_mono HX2), (phraseC_mono HX1).
      - simpl. set_solver. }
    assert (Hbnew : ∀ y, (y, bb) ∉ edges g2 ∧ (bb, y) ∉ edges g2).
    { intros y. pose proof (ne_iso Hok Hup Hk Hne bb ltac:(auto) y) as [H1 H2]. simpl.
      rewrite !not_elem_of_union, !not_elem_of_singleton.
      split; (split; [intros [=]|done]); subst; congruence. }
    eapply W_seq; [|done|apply le_n|].
    { eapply (W_connect 3 (pe_phrase e) bb (LPhrPhr ws) (LPhrPhr (ws ++ [rs]))); auto; try done.
      - by exists rs.
      - simpl. exists n. done.
      - intros _ y Hy. by destruct (Hbnew y).
      - eapply not_bit_root; [exact Hup1|exact Lb|done]. }
    intros ? G4 g4 Hok4 _ X4 (->&->). fold g3 in Hok4. fold g3.
    assert (X : ext G g G1 g3) by (eapply ext_trans; [exact HX1|]; eapply ext_trans; [exact HX2|exact X3]).
    apply W_ret. intros _ _.
    pose proof (phraseC_base _ _ _ _ He) as ((_&_&Lep0&_)&_).
    pose proof (ne_b _ _ _ _ _ _ _ _ _ _ _ _ Hne) as Hfb.
    assert (Hnews : ∀ p q, (p, q) ∈ edges g3 → (p, q) ∉ edges g →
      p = pe_phrase e ∧ q = bb ∨ p = a ∨ p = x).
    { intros p q Hpq Hpq'. simpl in Hpq.
      apply elem_of_union in Hpq as [Hpq|Hpq]; [apply elem_of_singleton in Hpq; simplify_eq; auto|].
      apply elem_of_union in Hpq as [Hpq|Hpq]; [apply elem_of_singleton in Hpq; simplify_eq; auto|].
      apply (ne_edge Hne) in Hpq as [[-> ->]|?]; auto. done. }
    split_and!; [exact Hwn| | |].
    - intros y Hy. unfold g3 in Hy. simpl in Hy. apply elem_of_union in Hy as [Hy|Hy].
      + apply elem_of_singleton in Hy. by simplify_eq.
      + by destruct (Hbnew y) as [_ H].
    - simpl. set_solver.
    - intros M HM Hno. eapply (pview_add n); [exact Hok|exact Hok4|exact X|exact Hwn| | | |exact HM].
      + intros p q Hpq Hpq'. destruct (Hnews p q Hpq Hpq') as [[-> ->]|[->| ->]]; [by right; left| |];
          right; right; by eexists.
      + intros p q ws0 Hpq Hp Lq Lpp. simpl in Hp.
        apply elem_of_union in Hp as [Hp|Hp]; [|by destruct (Hbnew p)].
        apply elem_of_singleton in Hp as [= ->].
        destruct (ok_edge_labs Hok _ _ _ _ Hpq Lpp Lq) as [_ (c&Hc&<-)]. by eapply Hno.
      + intros p q ws0 Hpq Hpq' Lpp.
        destruct (Hnews p q Hpq Hpq') as [[-> ->]|[->| ->]]; [done|congruence..].
  Qed.

  (** ** Providing phrases *)
  Lemma split_space_length s : length (split_space s) <= S (length s).
  Proof using.
    clear. induction s as [|c s IH]; simpl; [lia|].
    destruct (Ascii.eqb c space); simpl; [lia|]. destruct (split_space s); simpl in *; lia.
  Qed.
  Lemma split_space_lengths s w : w ∈ split_space s → length w <= length s.
  Proof using.
    clear. revert w. induction s as [|c s IH]; intros w; simpl.
    - rewrite elem_of_list_singleton. by intros ->.
    - destruct (Ascii.eqb c space).
      + rewrite elem_of_cons. intros [->|H]; simpl; [lia|]. apply IH in H. lia.
      + destruct (split_space s) as [|w' ws].
        * rewrite elem_of_list_singleton. intros ->. simpl. lia.
        * rewrite elem_of_cons. intros [->|H]; simpl.
          -- assert (length w' <= length s) by (apply IH; left). lia.
          -- assert (length w <= length s) by (apply IH; by right). lia.
  Qed.

  Lemma runes_wtext s : s ≠ [] → length s < F → wtext_ok F (runes_of s).
  Proof using.
    clear fuel Hfuel HF.
    intros Hne Hlen. pose proof (runes_of_length s). split_and!.
    - intros ?%runes_of_empty. done.
    - lia.
    - apply runes_of_scalar.
  Qed.

  Lemma word_provide_empty : word_provide fuel [] = Throw ENoCharacters.
  Proof using. done. Qed.

  Lemma W_phrase_provide_next e ws s G g :
    up G → ready G → phraseC G g e ws → length s < F → S (length ws) < F →
    W 3 (phrase_provide_next_element fuel e s)
      (λ d G' g', phraseC G' g' d (ws ++ [runes_of s]) ∧
        (fk = false → clean s → ∀ M fr, pview_of G g M → at_pos fr G g e ws →
          ∃ fr' M', m_next fr M ws (runes_of s) = (Some fr', M') ∧ pview_of G' g' M' ∧
            at_pos fr' G' g' d (ws ++ [runes_of s])))
      (λ ab G' g', E0 ab G' g' ∨ (∃ er, ab = AErr er) ∧ up G' ∧ ready G' ∧
        (fk = false → clean s → ∀ M fr, pview_of G g M → at_pos fr G g e ws →
          ∃ M', m_next fr M ws (runes_of s) = (None, M') ∧ pview_of G' g' M')) G g.
  Proof.
    intros Hup Hrd He Hs Hws. apply W_intro. intros Hok _.
    apply W_assoc3. eapply W_seqR; [by apply (R_phrase_lookup e ws s)|by left|].
    intros [d|] _ _; cbn beta iota.
    - intros (Hcl&Hd&Hed). apply W_ret. intros _ _. split; [done|]. intros Hfk _ M fr HM Hpos.
      assert (Hin : ws ++ [runes_of s] ∈ pT M) by (apply HM; by exists d).
      destruct fr; [by destruct (Hpos (pe_phrase d))|]. exists false, M. unfold m_next.
      rewrite bool_decide_true by done. split_and!; [done..|]. simpl. intros e' He'.
      destruct (phraseC_tail_inv _ _ _ (phraseC_nonempty _ _ _ _ He) He') as (p&Hp&Hl).
      simpl in Hpos. rewrite (Hpos p Hp) in Hl.
      apply (phraseC_eq Hok _ _ _ _ He' Hd). right; left.
      pose proof (phraseC_base _ _ _ _ He') as ((_&_&L1&_)&_).
      pose proof (phraseC_base _ _ _ _ Hd) as ((_&_&L2&_)&_).
      pose proof (phraseC_base _ _ _ _ He) as ((_&_&L0&_)&_).
      destruct HM as (_&_&HD). by eapply (HD _ _ _ _ _ Hl Hed).
    - intros Hno.
      eapply W_seq; [by apply (W_class_provide_up 3)|by left|lia|]. intros ? ? ? _ _ _ (->&->).
      assert (Hmiss : ∀ M fr, clean s → pview_of G g M → at_pos fr G g e ws →
        negb fr && bool_decide (ws ++ [runes_of s] ∈ pT M) = false).
      { intros M fr Hcl HM Hpos. destruct fr; [done|]. simpl. apply bool_decide_false. intros Hin.
        apply HM in Hin as [c Hc]. simpl in Hpos.
        destruct (phraseC_tail_inv _ _ _ (phraseC_nonempty _ _ _ _ He) Hc) as (p&Hp&Hl).
        rewrite (Hpos p Hp) in Hl. by apply (Hno Hcl c). }
      destruct (decide (s = [])) as [->|Hne].
      { rewrite word_provide_empty. cbn [bind]. apply W_throw. intros _ _. right. split_and!; eauto.
        intros Hfk Hcl M fr HM Hpos. exists M. unfold m_next. rewrite Hmiss by done. simpl.
        split; [|done]. by destruct M. }
      eapply W_bind; [apply (W_word_provide fuel Hfuel HF s); auto; [by left|by intros _]|lia|..].
      2: { intros ab G1 g1 Hok1 _ X1 [?|(->&Hup1&Hrd1&HV)]; [by left|right]. split_and!; eauto.
        intros Hfk Hcl M fr HM Hpos. unfold m_next. rewrite Hmiss by done.
        destruct (HV Hfk (pV M) (proj1 HM)) as (V'&->&HV'). eexists. split; [done|].
        eapply pview_word; [exact Hok|exact Hok1|exact X1|done|done]. }
      intros w G1 g1 Hok1 [_ Hlone1] X1 (Hup1&Hrd1&Hw&HV). assert (HX1 := extn_ext _ _ _ _ _ X1).
      pose proof (phraseC_mono HX1 _ _ He) as He1.
      eapply W_post; [eapply (W_phrase_create_tail w (runes_of s) e ws)|apply le_n|by left|]; auto.
      { destruct (phraseC_ok Hok _ _ He) as (H1&H2&H3). split_and!.
        - by intros [_ ?]%app_eq_nil.
        - rewrite app_length. simpl. lia.
        - apply Forall_app. split; [done|]. apply Forall_singleton. by apply runes_wtext. }
      intros d G2 g2 Hok2 _ X2 (Hd&Hfr&Hed&HM2). split; [done|].
      intros Hfk Hcl M fr HM Hpos. unfold m_next. rewrite Hmiss by done.
      destruct (HV Hfk (pV M) (proj1 HM)) as (b&V'&->&HV'&_). eexists _, _. split_and!; [done| |done].
      eapply (HM2 (PV V' (pT M))).
      + eapply pview_word; [exact Hok|exact Hok1|exact X1|done|done].
      + intros c Hc Hec. apply (Hno Hcl c).
        * eapply (phrase_same Hok Hok1 HX1); [|done].
          intros x y l Hxy Hxy' Hlx. destruct X1 as [_ X1]. destruct (X1 x y Hxy Hxy') as (l'&Hl'&Hrk).
          simplify_eq. destruct l; simpl in *; lia || done.
        * destruct (decide ((pe_phrase e, pe_phrase c) ∈ edges g)) as [|Hn]; [done|].
          destruct X1 as [_ X1]. destruct (X1 _ _ Hec Hn) as (l&Hl&Hrk).
          pose proof (phraseC_base _ _ _ _ He1) as ((_&_&Le&_)&_). simplify_eq. simpl in Hrk. lia.
  Qed.

  Lemma W_phrase_provide_loop e ws path G g :
    up G → ready G → phraseC G g e ws → Forall (λ s, length s < F) path →
    length ws + length path < F →
    W 3 (last <- phrase_provide_loop fuel (Some e) path;; deref last)
      (λ d G' g', up G' ∧ ready G' ∧ phraseC G' g' d (ws ++ map runes_of path) ∧
        (fk = false → Forall clean path → ∀ M fr, pview_of G g M → at_pos fr G g e ws →
          ∃ M', m_tail fr M ws (map runes_of path) = (MOk, M') ∧ pview_of G' g' M'))
      (λ ab G' g', E0 ab G' g' ∨ ab = APanic ∧ path ≠ [] ∧ up G' ∧ ready G' ∧
        (fk = false → Forall clean path → ∀ M fr, pview_of G g M → at_pos fr G g e ws →
          ∃ M', m_tail fr M ws (map runes_of path) = (MPanic, M') ∧ pview_of G' g' M')) G g.
  Proof.
    revert e ws G g. induction path as [|s path IH]; intros e ws G g Hup Hrd He Hlen Hn.
    - cbn [phrase_provide_loop bind deref]. apply W_ret. intros _ _. rewrite app_nil_r.
      split_and!; auto. intros Hfk _ M fr HM Hpos. exists M. done.
    - apply Forall_cons in Hlen as [Hs Hlen]. cbn [phrase_provide_loop deref bind map].
      simpl in Hn. apply W_assoc_rev.
      eapply (W_bind _ _ _ _ 3 _ _ (λ x G' g', match x with
        | Ok d => phraseC G' g' d (ws ++ [runes_of s]) ∧
          (fk = false → clean s → ∀ M fr, pview_of G g M → at_pos fr G g e ws →
            ∃ fr' M', m_next fr M ws (runes_of s) = (Some fr', M') ∧ pview_of G' g' M' ∧
            at_pos fr' G' g' d (ws ++ [runes_of s]))
        | Err _ => fk = true ∨ (up G' ∧ ready G' ∧
          (fk = false → clean s → ∀ M fr, pview_of G g M → at_pos fr G g e ws →
            ∃ M', m_next fr M ws (runes_of s) = (None, M') ∧ pview_of G' g' M'))
        end) E0); [|lia| |by left].
      { eapply W_try; [by apply (W_phrase_provide_next e ws s); auto; lia|lia|..].
        - intros d G' g' _ _ _ H. exact H.
        - intros ab G' g' _ _ _ [[??]|([er ->]&?&?&?)]; [|by right].
          destruct ab; [by left|done..]. }
      intros [d|er] G1 g1 Hok1 _ X1; cbn [nil_on_err].
      + intros (Hd&HM1). assert (HX1 := extn_ext _ _ _ _ _ X1).
        eapply W_conseq; [apply (IH d (ws ++ [runes_of s])); auto|apply le_n|..].
        { by apply (up_mono HX1). }
        { by eapply ready_mono. }
        { rewrite app_length. simpl. lia. }
        * intros d' G2 g2 _ _ _ (?&?&Hd'&HM2). rewrite <- app_assoc in Hd'. split_and!; auto.
          intros Hfk [Hcl Hcls]%Forall_cons M fr HM Hpos.
          destruct (HM1 Hfk Hcl M fr HM Hpos) as (fr'&M'&Heq&HM'&Hpos').
          cbn [m_tail]. rewrite Heq. by apply HM2.
        * intros ab G2 g2 _ _ _ [?|(->&_&?&?&HM2)]; [by left|right]. split_and!; auto.
          intros Hfk [Hcl Hcls]%Forall_cons M fr HM Hpos.
          destruct (HM1 Hfk Hcl M fr HM Hpos) as (fr'&M'&Heq&HM'&Hpos').
          cbn [m_tail]. rewrite Heq. by apply HM2.
      + intros H.
        assert (Hend : W 3 Panic (λ (d : phrase_ent) G' g', up G' ∧ ready G' ∧
            phraseC G' g' d (ws ++ runes_of s :: map runes_of path) ∧
            (fk = false → Forall clean (s :: path) → ∀ M fr, pview_of G g M → at_pos fr G g e ws →
              ∃ M', m_tail fr M ws (runes_of s :: map runes_of path) = (MOk, M') ∧ pview_of G' g' M'))
          (λ ab G' g', E0 ab G' g' ∨ ab = APanic ∧ s :: path ≠ [] ∧ up G' ∧ ready G' ∧
            (fk = false → Forall clean (s :: path) → ∀ M fr, pview_of G g M → at_pos fr G g e ws →
              ∃ M', m_tail fr M ws (runes_of s :: map runes_of path) = (MPanic, M') ∧ pview_of G' g' M')) G1 g1).
        { apply W_panic. intros _ _. destruct H as [?|(Hup1&Hrd1&HM1)]; [by left|right].
          split_and!; auto. intros Hfk [Hcl Hcls]%Forall_cons M fr HM Hpos.
          destruct (HM1 Hfk Hcl M fr HM Hpos) as (M'&Heq&HM'). cbn [m_tail]. rewrite Heq. eauto. }
        destruct path; [exact Hend|exact Hend].
  Qed.

  (** The error for a refused first word. *)
  Definition first_err (s : gostring) : err :=
    match split_space s with [] :: _ => ENoCharacters | _ => ECharTargetWords end.

  (** The words after the first read back as written. *)
  Definition tidy (s : gostring) : Prop := Forall clean (tail (split_space s)).

  Definition phraseQ (s : gostring) (G : ghost) (g : graph) : post phrase_ent := λ e G' g',
    up G' ∧ ready G' ∧ phraseC G' g' e (words_of s) ∧
    (fk = false → tidy s → ∀ M, pview_of G g M →
      ∃ M', m_phrase M (words_of s) = (MOk, M') ∧ pview_of G' g' M').

  Definition phraseE (s : gostring) (G : ghost) (g : graph) : post abn := λ ab G' g',
    E0 ab G' g' ∨
    (ab = AErr (first_err s) ∨ ab = APanic ∧ 2 ≤ length (split_space s)) ∧
    started G' g' ∧ prepared G' ∧
    (fk = false → tidy s → ∀ M, pview_of G g M →
      ∃ M', m_phrase M (words_of s) = (match ab with APanic => MPanic | _ => MErr end, M') ∧
        pview_of G' g' M').

  Lemma W_phrase_provide s G g :
    started G g → prepared G → S (length s) < F →
    W 3 (phrase_provide fuel s) (phraseQ s G g) (phraseE s G g) G g.
  Proof.
    intros Hst Hp Hs. apply W_intro. intros Hok _. unfold phrase_provide, phrase_collect.
    pose proof (split_space_length s) as Hl. pose proof (split_space_lengths s) as Hls.
    unfold phraseQ, phraseE, words_of, tidy, first_err.
    destruct (split_space s) as [|first rest] eqn:Hsp; [by apply split_space_nonempty in Hsp|].
    cbn [of_res bind map m_phrase tail]. simpl in Hl.
    assert (Hf : length first < F). { assert (length first <= length s) by (apply Hls; left). lia. }
    assert (Hrest : Forall (λ w, length w < F) rest).
    { apply Forall_forall. intros w Hw. assert (length w <= length s) by (apply Hls; by right). lia. }
    unfold phrase_provide_first_element.
    destruct (decide (first = [])) as [->|Hne].
    { rewrite word_provide_empty. cbn [bind]. apply W_throw. intros _ _. right. split_and!; auto.
      intros Hfk _ M HM. exists M. split; [|done]. simpl. by destruct M. }
    assert (Herr : match first with [] => ENoCharacters | _ => ECharTargetWords end = ECharTargetWords) by by destruct first.
    rewrite Herr. apply W_assoc_rev.
    eapply W_bind; [by apply (W_word_provide fuel Hfuel HF first)|lia|..].
    2: { intros ab G1 g1 Hok1 _ X1 [?|(->&Hup1&Hrd1&HV)]; [by left|right]. split_and!; auto.
      - by left.
      - by intros _.
      - intros Hfk _ M HM. destruct (HV Hfk (pV M) (proj1 HM)) as (V'&->&HV'). eexists. split; [done|].
        eapply pview_word; [exact Hok|exact Hok1|exact X1|done|done]. }
    intros w G1 g1 Hok1 [_ Hlone1] X1 (Hup1&Hrd1&Hw&HV). assert (HX1 := extn_ext _ _ _ _ _ X1).
    apply W_assoc_rev.
    eapply W_seq; [by apply (W_class_provide_up 3)|by left|lia|]. intros ? ? ? _ _ _ (->&->).
    assert (Hwt : wtext_ok F (runes_of first)) by by apply runes_wtext.
    assert (Hpt : ptext_ok F [runes_of first]).
    { split_and!; [done|simpl; lia|by apply Forall_singleton]. }
    eapply W_seq; [by eapply (W_phrase_provide_head w (runes_of first))|by left|lia|].
    intros e G2 g2 Hok2 [_ Hlone2] X2 (He&HM2&Hcase). assert (HX2 := extn_ext _ _ _ _ _ X2).
    assert (Hpos : fk = false → ∀ M, pview_of G g M → ∃ b V',
      m_word (pV M) (runes_of first) = (Some b, V') ∧
      pview_of G2 g2 (PV V' ({[[runes_of first]]} ∪ pT M)) ∧
      at_pos (b || negb (bool_decide ([runes_of first] ∈ pT M))) G2 g2 e [runes_of first]).
    { intros Hfk M HM. destruct (HV Hfk (pV M) (proj1 HM)) as (b&V'&Heq&HV'&Hb).
      exists b, V'. assert (HM1 : pview_of G1 g1 (PV V' (pT M))).
      { eapply pview_word; [exact Hok|exact Hok1|exact X1|done|done]. }
      split_and!; [done|by apply (HM2 (PV V' (pT M)))|].
      destruct b.
      - simpl. destruct Hcase as [(_&_&Hed)|[_ ?]]; [|done]. by destruct (Hb eq_refl (pe_word e)).
      - simpl. destruct Hcase as [(->&->&Hed)|[Hno Hfr]].
        + rewrite bool_decide_true by (apply HM1; by exists e). simpl. intros e' He'.
          destruct (runes_of first) as [|r rs] eqn:Hr; [by destruct Hwt|].
          destruct HM1 as ((_&HH)&_&_). simpl in HH.
          pose proof (HH r) as Hh. rewrite (m_word_false _ _ _ _ Heq) in Hh.
          destruct (nheads_one _ _ _ Hh) as (h&Hh').
          destruct (phraseC_head_inv _ _ He') as (w'&Hw'&Hed').
          rewrite (sole_word _ _ _ _ _ _ _ _ Hok2 Hlone2 Hh' Hw' Hw) in Hed'.
          apply (phraseC_eq Hok2 _ _ _ _ He' He). left.
          pose proof (wordC_base _ _ _ _ Hw) as ((_&_&_&Lp)&_).
          by eapply (ok_head _ _ _ Hok2 Hlone2 _ _ _ _ Hed' Hed Lp).
        + rewrite bool_decide_false; [done|]. intros Hin. apply HM1 in Hin as [e' He'].
          destruct (runes_of first) as [|r rs] eqn:Hr; [by destruct Hwt|].
          destruct HM1 as ((_&HH)&_&_). simpl in HH.
          pose proof (HH r) as Hh. rewrite (m_word_false _ _ _ _ Heq) in Hh.
          destruct (nheads_one _ _ _ Hh) as (h&Hh').
          destruct (phraseC_head_inv _ _ He') as (w'&Hw'&Hed').
          rewrite (sole_word _ _ _ _ _ _ _ _ Hok1 Hlone1 Hh' Hw' Hw) in Hed'. by eapply Hno. }
    eapply W_conseq; [apply (W_phrase_provide_loop e [runes_of first] rest); auto|lia|..].
    { by apply (up_mono HX2). }
    { by eapply ready_mono. }
    { simpl. eapply Nat.le_lt_trans; [exact Hl|exact Hs]. }
    - intros d G3 g3 _ _ _ (?&?&Hd&HM3). split_and!; auto.
      intros Hfk Hcl M HM. destruct (Hpos Hfk M HM) as (b&V'&->&HM'&Hp'). by apply HM3.
    - intros ab G3 g3 _ _ _ [?|(->&Hne'&?&?&HM3)]; [by left|right]. split_and!; auto.
      + right. split; [done|]. destruct rest; [done|]. simpl. lia.
      + by left.
      + by intros _.
      + intros Hfk Hcl M HM. destruct (Hpos Hfk M HM) as (b&V'&->&HM'&Hp'). by apply HM3.
  Qed.
End phrases.
