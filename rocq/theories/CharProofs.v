(** The character layer. *)
From stdpp Require Import gmap.
From Coq Require Import NArith ZArith Lia.
From Verif Require Import Base GoText Codec Model1 Model2 Model3 Storage Inv Wp Steps Entity BitProofs Reads.
Local Open Scope nat_scope.

(** The character stands for code point [r] in the trie of bits. *)
Definition linked (G : ghost) (g : graph) (r : Z) : Prop := ∃ e, charC G g e r.

(** [pref v r]: [v] is met on the way from the root to [r]. *)
Definition pref (v r : Z) : Prop := ∃ k, (0 <= k)%Z ∧ v = (r / 2 ^ k)%Z ∧ (v = 0 → r = 0)%Z.

Lemma pref_refl r : (0 <= r)%Z → pref r r.
Proof. exists 0%Z. rewrite Z.pow_0_r, Z.div_1_r. lia. Qed.

Lemma pref_half v r : (2 <= r)%Z → pref v (r / 2) → pref v r.
Proof.
  intros Hr (k&Hk&->&Hz). exists (k + 1)%Z. split; [lia|]. split; [|lia].
  rewrite Z.pow_add_r by lia. rewrite Z.div_div by lia. f_equal. lia.
Qed.

Section facts.
  Context {F : nat} {G : ghost} {g : graph} (Hok : ok F G g).

  Lemma charC_rune e r : charC G g e r → rune_ok r.
  Proof.
    intros H. apply charC_base in H as ((_&H&_)&_). by eapply (ok_label _ _ _ Hok) in H.
  Qed.

  Lemma char_base_eq e r e' r' : char_base G g e r → char_base G g e' r' →
    ce_bit e = ce_bit e' ∨ ce_char e = ce_char e' ∨ ce_word e = ce_word e' → e = e'.
  Proof.
    intros (_&H&_) (_&H'&_). destruct e, e'; simpl in *. intros [->|[->| ->]].
    - by destruct (refs3_a Hok _ _ _ _ _ _ _ H H') as (->&->&->).
    - by destruct (refs3_b Hok _ _ _ _ _ _ _ H H') as (->&->&->).
    - by destruct (refs3_c Hok _ _ _ _ _ _ _ H H') as (->&->&->).
  Qed.

  (** The bit node of a code point. *)
  Lemma ready_label z o b : bits G = BReady z o → lab G !! be_char (bit_of z o b) = Some (LBitCh b).
  Proof.
    intros Hb. pose proof (ok_bits _ _ _ Hok) as Hbo. unfold bits_ok in Hbo. rewrite Hb in Hbo.
    destruct Hbo as (_&_&_&_&_&_&_&_&Hbo). by apply Hbo.
  Qed.
  Lemma ready_value z o b : bits G = BReady z o → be_value (bit_of z o b) = b.
  Proof.
    intros Hb. pose proof (ok_bits _ _ _ Hok) as Hbo. unfold bits_ok in Hbo. rewrite Hb in Hbo.
    destruct Hbo as (_&_&_&_&_&_&?&?&_). by destruct b.
  Qed.
  Lemma ready_neq z o : bits G = BReady z o → be_char z ≠ be_char o.
  Proof.
    intros Hb H. pose proof (ready_label z o true Hb). pose proof (ready_label z o false Hb).
    simpl in *. congruence.
  Qed.

  (** One character entity per code point. *)
  Lemma charC_unique (Hlone : solo G = true) e e' r : charC G g e r → charC G g e' r → e = e'.
  Proof.
    intros H. revert e'. induction H as [e r z o Hb Hr Hbi Hl|e p r Hb Hr Hp IH Hl]; intros e' H'.
    - inversion H' as [? ? z' o' Hb' Hr' Hbi' Hl'|]; subst; [|lia]. rewrite Hbi in Hbi'. simplify_eq.
      eapply char_base_eq; eauto. left.
      eapply (ok_head _ _ _ Hok Hlone); [exact Hl|exact Hl'|by apply ready_label|exact I].
    - inversion H' as [|? p' ? Hb' Hr' Hp' Hl']; subst; [lia|].
      apply IH in Hp' as <-. eapply char_base_eq; eauto. right; left.
      pose proof (charC_base _ _ _ _ Hp) as ((_&_&Hlp&_)&_).
      destruct Hb as ((_&_&Hlc&_)&_). destruct Hb' as ((_&_&Hlc'&_)&_).
      eapply (ok_children _ _ _ Hok Hlone); [exact Hl|exact Hl'|exact Hlp|exact I|done|done].
  Qed.

End facts.

(** A link of the new state that was there before leads to a character that was
    there before. *)
Section back.
  Context {F : nat} {G : ghost} {g : graph} {G' : ghost} {g' : graph}
    (Hok : ok F G g) (Hok' : ok F G' g') (X : ext G g G' g').

  Lemma lab_back x l : lab G' !! x = Some l → is_Some (lab G !! x) → lab G !! x = Some l.
  Proof. intros H [l' H']. rewrite (ext_lab_lookup X _ _ H') in H. congruence. Qed.

  Lemma charC_back e r : charC G' g' e r →
    charC G g e r ∨
    ∃ x y, (x, y) ∈ edges g' ∧ (x, y) ∉ edges g ∧
      (r < 2 ∧ y = ce_bit e ∧ (∃ b, lab G' !! x = Some (LBitCh b)) ∨
       2 <= r ∧ y = ce_char e ∧ lab G' !! x = Some (LCharChar (r / 2)))%Z.
  Proof.
    destruct 1 as [e r z o Hb Hr Hbi Hl|e p r Hb Hr Hp Hl].
    - destruct (decide ((be_char (bit_of z o (Z.odd r)), ce_bit e) ∈ edges g)) as [Hin|Hn].
      + left. pose proof Hb as ((_&Lb&_)&_).
        apply (lab_back _ _ ) in Lb; [|by eapply ok_edge_r].
        pose proof (ready_label Hok' z o (Z.odd r) Hbi) as Lx.
        apply lab_back in Lx; [|by eapply ok_edge_l].
        destruct (ok_edge_labs Hok _ _ _ _ Hin Lx Lb) as [_ (e0&He0&Heq)].
        assert (e0 = e) as ->; [|done].
        eapply (char_base_eq Hok'); [by eapply charC_base, (charC_mono X)|done|]. auto.
      + right. eexists _, _. split; [exact Hl|]. split; [exact Hn|]. left. split_and!; auto.
        exists (Z.odd r). by apply (ready_label Hok').
    - destruct (decide ((ce_char p, ce_char e) ∈ edges g)) as [Hin|Hn].
      + left. pose proof Hb as ((_&_&Lb&_)&_).
        apply (lab_back _ _ ) in Lb; [|by eapply ok_edge_r].
        pose proof (charC_base _ _ _ _ Hp) as ((_&_&Lx&_)&_).
        apply lab_back in Lx; [|by eapply ok_edge_l].
        destruct (ok_edge_labs Hok _ _ _ _ Hin Lx Lb) as [_ (e0&He0&Heq)].
        assert (e0 = e) as ->; [|done].
        eapply (char_base_eq Hok'); [by eapply charC_base, (charC_mono X)|done|]. auto.
      + right. eexists _, _. split; [exact Hl|]. split; [exact Hn|]. right. split_and!; auto.
        by pose proof (charC_base _ _ _ _ Hp) as ((_&_&?&_)&_).
  Qed.
End back.

Section chars.
  Context {zp : zpolicy} {fk : bool} {F : nat}.
  Notation wp := (wp zp fk F).
  Notation W := (W zp fk F).
  Notation R := (R zp fk F).
  Notation E0 := (E0 fk).
  Notation prepared := (prepared (fk := fk)).

  (** ** Readers *)
  Lemma R_char_read_by_bit e r G g : char_base G g e r →
    R (char_read_by_bit (ce_bit e)) (λ x _ _, x = e) E0 G g.
  Proof. intros (_&H&_). destruct e; simpl in *. by apply R_read_a. Qed.
  Lemma R_char_read_by_character e r G g : char_base G g e r →
    R (char_read_by_character (ce_char e)) (λ x _ _, x = e) E0 G g.
  Proof. intros (_&H&_). destruct e; simpl in *. by apply R_read_b. Qed.
  Lemma R_char_read_by_word e r G g : char_base G g e r →
    R (char_read_by_word (ce_word e)) (λ x _ _, x = e) E0 G g.
  Proof. intros (_&H&_). destruct e; simpl in *. by apply R_read_c. Qed.

  Lemma R_bit_fetch z o b G g :
    bits G = BReady z o → up G →
    R (bit_fetch (be_char (bit_of z o b))) (λ x _ _, x = bit_of z o b) E0 G g.
  Proof.
    intros Hb Hup. eapply R_then; [by apply (R_bit_initialize z o)|done|].
    intros G' g' Hok' X. pose proof (ready_neq Hok' z o (ext_ready X _ _ Hb)) as Hne.
    destruct b; simpl.
    - rewrite (proj2 (N.eqb_neq _ _)) by done. rewrite N.eqb_refl. by apply R_ret.
    - rewrite N.eqb_refl. by apply R_ret.
  Qed.

  (** The last bit of a character. *)
  Lemma R_char_extract_bit_value e r G g :
    char_base G g e r → up G →
    R (char_extract_bit_value (Some e)) (λ b _ _, b = Z.odd r) E0 G g.
  Proof.
    intros Hb Hup. pose proof Hb as ((_&Lb&_)&_&z&o&Hbi&He).
    eapply R_one_target; [exact Lb|exact I|exact He| |done].
    intros G1 g1 Hok1 X1.
    eapply R_then; [apply (R_bit_fetch z o (Z.odd r)); [by apply (ext_ready X1)|by apply (up_mono X1)]|done|].
    intros G2 g2 Hok2 X2. apply R_ret. intros _.
    by apply (ready_value Hok2), (ext_ready X2), (ext_ready X1).
  Qed.

  (** Least significant bit first. *)
  Fixpoint lsb_val (bs : list bool) : Z :=
    match bs with [] => 0 | b :: bs' => Z.b2z b + 2 * lsb_val bs' end%Z.

  Lemma msb_lsb bs : msb_val 0 (rev bs) = lsb_val bs.
  Proof.
    induction bs as [|b bs IH]; [done|]. simpl rev. rewrite msb_val_app, IH.
    cbn [lsb_val]. unfold msb_val. cbn [fold_left]. lia.
  Qed.

  (** The bits above the last one, nearest first. *)
  Lemma R_char_extract_loop e r G g :
    ok F G g → charC G g e r → up G → ∃ l,
      lsb_val (Z.odd r :: l) = r ∧
      (∀ k : nat, (r < 2 ^ (1 + Z.of_nat k))%Z → length l ≤ k) ∧
      ∀ fuel path G1 g1, ext G g G1 g1 → length l < fuel →
        R (char_extract_loop fuel (Some e) path) (λ p _ _, p = path ++ l) E0 G1 g1.
  Proof.
    intros Hok H Hup. induction H as [e r z o Hb Hr Hbi Hl|e p r Hb Hr Hp IH Hl].
    - exists []. split_and!.
      + cbn [lsb_val]. rewrite Z.mul_0_r, Z.add_0_r. destruct (charC_rune Hok _ _ (charC_head _ _ _ _ _ _ Hb Hr Hbi Hl)).
        assert (r = 0 ∨ r = 1)%Z as [->| ->] by lia; done.
      + simpl. lia.
      + intros fuel path G1 g1 X1 Hf. destruct fuel as [|fuel]; [simpl in Hf; lia|].
        pose proof (char_base_mono X1 _ _ Hb) as ((_&_&Lc&_)&_).
        cbn [char_extract_loop]. eapply R_then with (a := false); [|done|].
        * unfold char_has_previous_element. cbn [deref bind].
          eapply R_seq; [by eapply R_sources|done|]. intros ts G2 g2 Hok2 X2 [_ Hts].
          apply R_ret. intros _. destruct ts as [|t ts]; [done|exfalso].
          assert (Ht : (t, ce_char e) ∈ edges g2) by (apply Hts; left).
          destruct (ok_edge _ _ _ Hok2 _ _ Ht) as (lt&lc&_&Lc2&He&_).
          rewrite (ext_lab_lookup X2 _ _ Lc) in Lc2. simplify_eq.
          destruct lt; simpl in He; try done. lia.
        * intros G2 g2 Hok2 X2. apply R_ret. intros _. by rewrite app_nil_r.
    - destruct IH as (l&Hv&Hlen&Hloop).
      exists (Z.odd (r / 2) :: l). split_and!.
      + change (Z.b2z (Z.odd r) + 2 * lsb_val (Z.odd (r / 2) :: l) = r)%Z. rewrite Hv.
        pose proof (Z.div_mod r 2). rewrite Zmod_odd in *. destruct (Z.odd r); simpl in *; lia.
      + intros k Hk. simpl. destruct k as [|k]; [lia|].
        enough (length l ≤ k) by lia. apply Hlen.
        replace (1 + Z.of_nat (S k))%Z with (1 + (1 + Z.of_nat k))%Z in Hk by lia.
        rewrite Z.pow_add_r in Hk by lia. lia.
      + intros fuel path G1 g1 X1 Hf. destruct fuel as [|fuel]; [simpl in Hf; lia|].
        simpl in Hf. pose proof (char_base_mono X1 _ _ Hb) as ((_&_&Lc&_)&_).
        pose proof (charC_base _ _ _ _ Hp) as Hpb.
        cbn [char_extract_loop]. eapply R_then with (a := true); [|done|].
        * unfold char_has_previous_element. cbn [deref bind].
          eapply R_seq; [by eapply R_sources|done|]. intros ts G2 g2 Hok2 X2 [_ Hts].
          apply R_ret. intros _. destruct ts as [|t ts]; [exfalso|done].
          assert (Ht : ce_char p ∈ []); [|by apply elem_of_nil in Ht].
          apply Hts. by apply (ext_edge X2), (ext_edge X1).
        * intros G2 g2 Hok2 X2. cbn [negb].
          assert (X2' : ext G g G2 g2) by (eapply ext_trans; eauto).
          eapply (R_seq _ _ _ _ _ (λ x _ _, x = Ok (Some p) ∨ fk = true ∧ ∃ e, x = Err e)); [|done|].
          -- eapply R_try.
             ++ eapply R_one_source; [by apply (ext_lab_lookup X2)|exact I|by apply (ext_edge X2')| |done].
                intros G3 g3 Hok3 X3.
                eapply R_then; [eapply R_char_read_by_character|done|].
                { eapply (char_base_mono X3), (char_base_mono X2'), Hpb. }
                intros G4 g4 Hok4 X4. apply (R_ret _ _ _ _ (λ x _ _, x = Some p)). done.
             ++ intros w G' g' _ _ ->. by left.
             ++ intros ab G' g' _ _ [??]. destruct ab; [|done..]. right. eauto.
          -- intros x G3 g3 Hok3 X3 Hx.
             assert (X3' : ext G g G3 g3) by (eapply ext_trans; eauto).
             destruct Hx as [->|[Hfk [e' ->]]]; cbn [nil_on_err deref bind].
             ++ eapply R_then; [eapply R_char_extract_bit_value|done|].
                { apply (char_base_mono X3'), Hpb. }
                { by apply (up_mono X3'). }
                intros G4 g4 Hok4 X4. replace (path ++ Z.odd (r / 2) :: l) with ((path ++ [Z.odd (r / 2)]) ++ l).
                2: { by rewrite <- app_assoc. }
                apply Hloop; [|lia]. eapply ext_trans; eauto.
             ++ by apply R_panic.
  Qed.

  Lemma R_char_extract fuel e r G g :
    31 ≤ fuel → charC G g e r → up G →
    R (char_extract fuel (Some e)) (λ x _ _, x = r) E0 G g.
  Proof.
    intros Hf H Hup. apply R_intro. intros Hok.
    pose proof (charC_rune Hok _ _ H) as Hr. unfold rune_ok in Hr.
    destruct (R_char_extract_loop e r G g Hok H Hup) as (l&Hv&Hlen&Hloop).
    assert (length l ≤ 30) as Hl.
    { apply Hlen. change (2 ^ (1 + Z.of_nat 30))%Z with 2147483648%Z. lia. }
    unfold char_extract.
    eapply R_then; [by eapply R_char_extract_bit_value, Hup; apply charC_base|done|].
    intros G1 g1 Hok1 X1.
    eapply R_then; [apply Hloop; [done|lia]|done|].
    intros G2 g2 Hok2 X2. apply R_ret. intros _. cbn [app].
    pose proof (msb_lsb (Z.odd r :: l)) as Hm. rewrite Hv in Hm.
    rewrite int_of_bits_val; rewrite Hm; lia.
  Qed.

  (** ** Finding a child *)
  Lemma char_children e v G g ids :
    ok F G g → charC G g e v →
    (∀ y, y ∈ ids → (ce_char e, y) ∈ edges g) →
    ∃ es, ids = map ce_char es ∧ Forall (λ c, ∃ r, charC G g c r ∧ (2 <= r)%Z ∧ v = (r / 2)%Z) es.
  Proof.
    intros Hok He. induction ids as [|y ids IH]; intros Hin.
    - exists []. split; [done|constructor].
    - destruct IH as (es&->&Hes); [intros; apply Hin; by right|].
      assert (Hy : (ce_char e, y) ∈ edges g) by (apply Hin; left).
      destruct (ok_edge _ _ _ Hok _ _ Hy) as (lx&ly&Hx&Hly&Hxy&Hexp).
      pose proof (charC_base _ _ _ _ He) as ((_&_&Lc&_)&_). rewrite Lc in Hx. simplify_eq.
      destruct ly; simpl in Hxy; try done. simpl in Hexp. destruct Hexp as (c&Hc&<-).
      exists (c :: es). split; [done|]. constructor; [|done]. exists r. tauto.
  Qed.

  Lemma R_char_read_all es G g :
    Forall (λ c, ∃ r, charC G g c r) es →
    R (char_read_all (map ce_char es)) (λ x _ _, x = es) E0 G g.
  Proof.
    revert G g. induction es as [|e es IH]; intros G g H; [by apply R_ret|].
    inversion H as [|? ? [r Hr] Hes]; subst. cbn [map char_read_all].
    eapply R_then; [by eapply R_char_read_by_character, charC_base|done|].
    intros G1 g1 Hok1 X1. eapply R_then; [apply IH|done|].
    - eapply Forall_impl; [exact Hes|]. intros c [r' ?]. exists r'. by apply (charC_mono X1).
    - intros. by apply R_ret.
  Qed.

  Lemma R_char_find b es G g :
    up G → Forall (λ c, ∃ r, charC G g c r) es →
    R (char_find b es) (λ x _ _, match x with
      | Some c => c ∈ es ∧ ∃ r, charC G g c r ∧ Z.odd r = b
      | None => ∀ c r, c ∈ es → charC G g c r → Z.odd r ≠ b
      end) E0 G g.
  Proof.
    intros Hup H.
    enough (∀ G1 g1, ok F G1 g1 → ext G g G1 g1 → R (char_find b es) (λ x _ _, match x with
      | Some c => c ∈ es ∧ ∃ r, charC G g c r ∧ Z.odd r = b
      | None => ∀ c r, c ∈ es → charC G g c r → Z.odd r ≠ b
      end) E0 G1 g1) as Hall by (apply R_intro; intros; by apply Hall).
    induction es as [|e es IH]; intros G1 g1 Hok1 X1.
    { apply R_ret. intros _ c r Hc. by apply elem_of_nil in Hc. }
    inversion H as [|? ? [r Hr] Hes]; subst. cbn [char_find].
    pose proof (char_base_mono X1 _ _ (charC_base _ _ _ _ Hr)) as Hb.
    pose proof Hb as ((_&Lb&_)&_&z&o&Hbi&He).
    eapply R_one_target; [exact Lb|exact I|exact He| |done].
    intros G2 g2 Hok2 X2.
    eapply R_then; [apply (R_bit_fetch z o (Z.odd r)); [by apply (ext_ready X2)|by apply (up_mono X2), (up_mono X1)]|done|].
    intros G3 g3 Hok3 X3.
    assert (X13 : ext G1 g1 G3 g3) by (eapply ext_trans; eauto).
    rewrite (ready_value Hok3 z o) by by apply (ext_ready X13).
    destruct (Bool.eqb_spec b (Z.odd r)) as [->|Hne].
    - apply R_ret. intros _. split; [left|]. eauto.
    - eapply R_post; [apply IH; [done|done|by eapply ext_trans]|by intros ???|].
      intros [c|] _ _ _ _; cbn beta iota.
      + intros [??]. split; [by right|done].
      + intros HN c r' Hc Hr'. apply elem_of_cons in Hc as [->|Hc]; [|by eapply HN].
        pose proof (charC_base _ _ _ _ Hr') as ((_&L1&_)&_).
        pose proof (charC_base _ _ _ _ Hr) as ((_&L2&_)&_). congruence.
  Qed.

  (** Look for the child with the given last bit. *)
  Lemma R_char_lookup e v b G g :
    up G → charC G g e v →
    R (ids <- char_get_target_characters e;; es <- char_read_all ids;; char_find b es)
      (λ found G' g', match found with
       | Some c => charC G' g' c (2 * v + Z.b2z b) ∧ (2 <= 2 * v + Z.b2z b)%Z
       | None => ∀ c, charC G g c (2 * v + Z.b2z b) → (ce_char e, ce_char c) ∉ edges g
       end) E0 G g.
  Proof.
    intros Hup He. pose proof (charC_base _ _ _ _ He) as ((_&_&Lc&_)&_).
    eapply R_seq; [by eapply R_targets|done|]. intros ids G1 g1 Hok1 X1 [_ Hids].
    destruct (char_children e v G1 g1 ids Hok1 (charC_mono X1 _ _ He)) as (es&->&Hes).
    { intros y. apply Hids. }
    assert (Hes' : Forall (λ c, ∃ r, charC G1 g1 c r) es).
    { eapply Forall_impl; [exact Hes|]. intros ? (?&?&?&?). eauto. }
    eapply R_then; [by apply R_char_read_all|done|]. intros G2 g2 Hok2 X2.
    assert (Hes2 : Forall (λ c, ∃ r, charC G2 g2 c r ∧ (2 <= r)%Z ∧ v = (r / 2)%Z) es).
    { eapply Forall_impl; [exact Hes|]. intros ? (r&?&?&?). exists r. split_and!; auto. by apply (charC_mono X2). }
    assert (X12 : ext G g G2 g2) by (eapply ext_trans; eauto).
    eapply R_post; [apply R_char_find|by intros ???|].
    { by apply (up_mono X2), (up_mono X1). }
    { eapply Forall_impl; [exact Hes2|]. intros ? (?&?&?&?). eauto. }
    intros [c|] G3 g3 Hok3 X3; cbn beta iota.
    - intros [Hc (r&Hr&<-)]. rewrite Forall_forall in Hes2.
      destruct (Hes2 c Hc) as (r'&Hr'&?&->).
      assert (r' = r) as ->.
      { pose proof (charC_base _ _ _ _ Hr') as ((_&L1&_)&_).
        pose proof (charC_base _ _ _ _ Hr) as ((_&L2&_)&_). congruence. }
      assert (Heq : (2 * (r / 2) + Z.b2z (Z.odd r))%Z = r).
      { pose proof (Z.div_mod r 2). rewrite Zmod_odd in *. destruct (Z.odd r); simpl in *; lia. }
      rewrite Heq. split; [by apply (charC_mono X3)|done].
    - intros HNone c Hc Hedge.
      assert (Hin : ce_char c ∈ map ce_char es) by by apply Hids, (ext_edge X1).
      apply elem_of_list_fmap in Hin as (c'&Heq&Hc').
      assert (c = c') as ->.
      { rewrite Forall_forall in Hes2. destruct (Hes2 c' Hc') as (r'&Hr'&_).
        eapply (char_base_eq Hok2); [by apply charC_base, (charC_mono X12)|by apply charC_base|auto]. }
      eapply HNone; [done|by apply (charC_mono X12)|].
      rewrite Z.add_comm, Z.odd_add_mul_2. by destruct b.
  Qed.

  (** ** Providing a character that is there already only reads *)
  Lemma R_bit_provide z o b G g :
    bits G = BReady z o → up G → R (bit_provide b) (λ x _ _, x = bit_of z o b) E0 G g.
  Proof.
    intros Hb Hup. eapply R_then; [by apply (R_bit_initialize z o)|done|].
    intros G' g' Hok' X. by apply R_ret.
  Qed.

  Lemma R_bit_targets z o b e G g :
    solo G = true → bits G = BReady z o → (be_char (bit_of z o b), ce_bit e) ∈ edges g →
    R (st_targets (be_char (bit_of z o b))) (λ ts _ _, ts = [ce_bit e]) E0 G g.
  Proof.
    intros Hlone Hb He. apply R_intro. intros Hok. pose proof (ready_label Hok z o b Hb) as Lb.
    eapply R_post; [by eapply R_targets|by intros ???|].
    intros ts G' g' Hok' X [Hnd Hts]. apply NoDup_single; [done| |].
    - apply Hts. by apply (ext_edge X).
    - intros y Hy. apply Hts in Hy. eapply (ok_head _ _ _ Hok' (solo_mono X Hlone)); [done|by apply X| by eapply (ext_lab_lookup X)|exact I].
  Qed.

  Lemma R_char_provide_head z o b e G g :
    solo G = true → bits G = BReady z o → charC G g e (Z.b2z b) →
    (be_char (bit_of z o b), ce_bit e) ∈ edges g →
    R (char_provide_head_entity (bit_of z o b)) (λ x _ _, x = e) E0 G g.
  Proof.
    intros Hlone Hb Hc He. unfold char_provide_head_entity.
    eapply (R_then _ true); [|done|].
    { eapply R_then; [by eapply (R_bit_targets z o b e)|done|]. intros. by apply R_ret. }
    intros G1 g1 Hok1 X1. cbn [negb].
    eapply (R_then _ (ce_bit e)); [|done|].
    { eapply R_then; [eapply (R_bit_targets z o b e)|done|].
      - by apply (solo_mono X1).
      - by apply (ext_ready X1).
      - by apply (ext_edge X1).
      - intros. by apply R_ret. }
    intros G2 g2 Hok2 X2. eapply R_char_read_by_bit.
    by apply (char_base_mono X2), (char_base_mono X1), charC_base.
  Qed.

  Lemma charC_bit z o e b G g :
    bits G = BReady z o → charC G g e (Z.b2z b) → (be_char (bit_of z o b), ce_bit e) ∈ edges g.
  Proof.
    intros Hbi H. inversion H as [? ? z' o' Hb' Hr' Hbi' Hl'|]; subst.
    - rewrite Hbi in Hbi'. simplify_eq. by destruct b.
    - destruct b; simpl in *; lia.
  Qed.

  Lemma charC_ready e r G g : charC G g e r → ∃ z o, bits G = BReady z o.
  Proof. intros H%charC_base. destruct H as (_&_&z&o&?&_). eauto. Qed.

  Lemma R_char_provide_first b e G g :
    solo G = true → up G → charC G g e (Z.b2z b) →
    R (char_provide_first_element b) (λ x _ _, x = Some e ∨ fk = true ∧ x = None) E0 G g.
  Proof.
    intros Hlone Hup Hc. destruct (charC_ready _ _ _ _ Hc) as (z&o&Hb).
    eapply R_then; [by apply (R_bit_provide z o)|done|]. intros G1 g1 Hok1 X1.
    eapply R_seq; [by apply R_class_provide, (up_mono X1)|done|]. intros ? G2 g2 Hok2 X2 _.
    assert (X : ext G g G2 g2) by (eapply ext_trans; eauto).
    eapply (R_seq _ _ _ _ _ (λ x _ _, x = Ok e ∨ fk = true ∧ ∃ e', x = Err e')); [|done|].
    - eapply R_try; [eapply (R_char_provide_head z o b e)|..].
      + by apply (solo_mono X).
      + by apply (ext_ready X).
      + by apply (charC_mono X).
      + by apply (ext_edge X), (charC_bit z o e b G g).
      + intros w G' g' _ _ ->. by left.
      + intros ab G' g' _ _ [??]. destruct ab; [|done..]. right. eauto.
    - intros x G3 g3 _ _ [->|[? [e' ->]]]; apply R_ret; eauto.
  Qed.

  Lemma charC_parent e v b G g : ok F G g →
    charC G g e (2 * v + Z.b2z b) → (1 <= v)%Z →
    ∃ p, charC G g p v ∧ (ce_char p, ce_char e) ∈ edges g.
  Proof.
    intros Hok H Hv. inversion H as [? ? ? ? Hb Hr Hbi Hl|? p ? Hb Hr Hp Hl]; subst.
    - destruct b; simpl in *; lia.
    - exists p. split; [|done]. replace v with ((2 * v + Z.b2z b) / 2)%Z; [done|]. destruct b; simpl in *; lia.
  Qed.

  Lemma R_char_provide_next e v b c G g :
    solo G = true → up G → charC G g e v → (1 <= v)%Z → charC G g c (2 * v + Z.b2z b) →
    R (char_provide_next_element (Some e) b) (λ x _ _, x = Some c) E0 G g.
  Proof.
    intros Hlone Hup He Hv Hc. apply R_intro. intros Hok.
    unfold char_provide_next_element. cbn [deref bind]. apply R_assoc3.
    eapply R_seq; [by apply (R_char_lookup e v b)|done|].
    intros [c'|] G1 g1 Hok1 X1; cbn beta iota.
    - intros [Hc' _]. apply R_ret. intros _. f_equal. eapply (charC_unique Hok1 (solo_mono X1 Hlone)); [done|by apply (charC_mono X1)].
    - intros Hno. exfalso. destruct (charC_parent _ _ _ _ _ Hok Hc Hv) as (p&Hp&Hpe).
      rewrite (charC_unique Hok Hlone _ _ _ Hp He) in Hpe. by eapply Hno.
  Qed.

  Lemma charC_prefix c v path G g : ok F G g →
    (1 <= v)%Z → charC G g c (msb_val v path) → ∃ e, charC G g e v.
  Proof.
    intros Hok. revert v. induction path as [|b path IH]; intros v Hv Hc; [by eauto|].
    destruct (IH (2 * v + Z.b2z b)%Z) as [e He].
    - destruct b; simpl; lia.
    - destruct b; exact Hc.
    - destruct (charC_parent _ _ _ _ _ Hok He Hv) as (p&?&_). eauto.
  Qed.

  Lemma R_char_provide_loop e v path c G g :
    solo G = true → up G → charC G g e v → (1 <= v)%Z → charC G g c (msb_val v path) →
    R (char_provide_loop (Some (Some e)) path)
      (λ x _ _, x = Some (Some c) ∨ fk = true ∧ x = None) E0 G g.
  Proof.
    revert e v G g. induction path as [|b path IH]; intros e v G g Hlone Hup He Hv Hc; apply R_intro; intros Hok.
    - apply R_ret. intros _. left. do 2 f_equal. by eapply (charC_unique Hok).
    - cbn [char_provide_loop deref bind].
      destruct (charC_prefix c (2 * v + Z.b2z b) path G g Hok) as [e' He'].
      { destruct b; simpl; lia. }
      { destruct b; exact Hc. }
      eapply (R_seq _ _ _ _ _ (λ x _ _, x = Ok (Some e') ∨ fk = true ∧ ∃ er, x = Err er)); [|done|].
      + eapply R_try; [by eapply (R_char_provide_next e v b e')|..].
        * intros w G' g' _ _ ->. by left.
        * intros ab G' g' _ _ [??]. destruct ab; [|done..]. right. eauto.
      + intros x G1 g1 _ X1 [->|[Hfk [er ->]]]; cbn [nil_on_err].
        * eapply (IH e' (2 * v + Z.b2z b)%Z).
          -- by apply (solo_mono X1).
          -- by apply (up_mono X1).
          -- by apply (charC_mono X1).
          -- destruct b; simpl; lia.
          -- apply (charC_mono X1). destruct b; exact Hc.
        * destruct path as [|b' path]; [apply R_ret; auto|].
          cbn [char_provide_loop deref bind]. by apply R_panic.
  Qed.

  Lemma R_char_provide r e G g :
    solo G = true → up G → charC G g e r →
    R (char_provide r) (λ x _ _, x = Some e ∨ fk = true ∧ x = None) E0 G g.
  Proof.
    intros Hlone Hup He. apply R_intro. intros Hok. pose proof (charC_rune Hok _ _ He) as Hr.
    unfold rune_ok in Hr. unfold char_provide.
    assert (r = 0 ∨ 1 <= r)%Z as [->|Hr1] by lia.
    - rewrite char_collect_zero. cbn [of_res bind].
      eapply R_seq; [by apply (R_char_provide_first false e)|done|].
      intros x G1 g1 _ _ Hx. cbn [char_provide_loop bind deref]. by apply R_ret.
    - destruct (char_collect_pos r Hr1) as (t&->&Ht). cbn [of_res bind].
      destruct (charC_prefix e 1 t G g Hok) as [e1 He1]; [lia|by rewrite Ht|].
      eapply R_seq; [by apply (R_char_provide_first true e1)|done|].
      intros x G1 g1 _ X1 [->|[Hfk ->]].
      + eapply R_seq; [eapply (R_char_provide_loop e1 1 t e)|done|].
        * by apply (solo_mono X1).
        * by apply (up_mono X1).
        * by apply (charC_mono X1).
        * lia.
        * rewrite Ht. by apply (charC_mono X1).
        * intros x G2 g2 _ _ [->|[? ->]]; cbn [deref]; [by apply R_ret; auto|by apply R_panic].
      + destruct t as [|b t]; [cbn [char_provide_loop bind deref]; by apply R_ret; auto|].
        cbn [char_provide_loop deref bind char_provide_next_element try]. by apply R_panic.
  Qed.

  (** ** Writers *)
  (** The edges a new character brings. *)
  Definition char_news (e : char_ent) (G : ghost) (g : graph) (G' : ghost) (g' : graph) : Prop :=
    ∀ x y, (x, y) ∈ edges g' → (x, y) ∉ edges g →
      y = ce_bit e ∨ y = ce_char e ∨
      ∃ l, lab G' !! x = Some l ∧ match l with LCls _ | LCharBit _ => True | _ => False end.

  Lemma char_news_linked e r G g G' g' :
    ok F G g → ok F G' g' → ext G g G' g' → char_news e G g G' g' → charC G' g' e r →
    ∀ r', linked G' g' r' → linked G g r' ∨ r' = r.
  Proof.
    intros Hok Hok' X Hn He r' [e' He'].
    destruct (charC_back Hok Hok' X _ _ He') as [?|(x&y&Hin&Hout&Hc)]; [left; by exists e'|right].
    pose proof (charC_base _ _ _ _ He) as Hb. pose proof (charC_base _ _ _ _ He') as Hb'.
    pose proof Hb as ((_&L1&L2&_)&_). pose proof Hb' as ((_&L1'&L2'&_)&_).
    assert (y = ce_bit e ∨ y = ce_char e ∨ False) as Hy.
    { destruct (Hn x y Hin Hout) as [?|[?|(l&Hl&Hl')]]; auto.
      destruct Hc as [(_&_&b&Hx)|(_&_&Hx)]; rewrite Hx in Hl; by simplify_eq. }
    destruct Hc as [(_&->&_)|(_&->&_)], Hy as [Heq|[Heq|[]]]; rewrite Heq in *; congruence.
  Qed.

  Lemma W_char_create_tail z o e v b G g :
    up G → bits G = BReady z o → charC G g e v → (1 <= v)%Z → rune_ok (2 * v + Z.b2z b) →
    (∀ c, charC G g c (2 * v + Z.b2z b) → (ce_char e, ce_char c) ∉ edges g) →
    W 1 (char_create_tail_entity (bit_of z o b) e)
      (λ c G' g', charC G' g' c (2 * v + Z.b2z b) ∧ char_news c G g G' g') E0 G g.
  Proof.
    intros Hup Hbi He Hv Hr Hno. apply W_intro. intros Hok _.
    assert (Z.odd (2 * v + Z.b2z b) = b) as Hodd.
    { rewrite Z.add_comm, Z.odd_add_mul_2. by destruct b. }
    assert (2 <= 2 * v + Z.b2z b)%Z as Hr2 by (destruct b; simpl; lia).
    assert (v = (2 * v + Z.b2z b) / 2)%Z as Hhalf by (destruct b; simpl; lia).
    revert Hno Hr Hodd Hr2 Hhalf. generalize (2 * v + Z.b2z b)%Z. intros r Hno Hr Hodd Hr2 Hhalf.
    eapply (W_entity 1 CharEnt characterIdentifier (LCharBit r) (LCharChar r) (LCharWord r)); auto; try done.
    intros x a bb c G1 g1 Hok1 Hq1 X1 Hne.
    pose proof (ne_labs Hne) as Hlabs. pose proof Hlabs as (Lx&La&Lb&Lc).
    assert (HX1 := extn_ext _ _ _ _ _ X1). pose proof (up_mono HX1 Hup) as Hup1.
    assert (Hk : (1 <= characterIdentifier <= 8)%N) by done.
    pose proof (ready_label Hok1 z o b (ext_ready HX1 _ _ Hbi)) as Lbit.
    eapply W_seq; [|done|apply le_n|].
    { eapply (W_connect 1 a (be_char (bit_of z o b)) (LCharBit r) (LBitCh b)); auto; try done.
      - intros _ y Hy. by destruct (ne_iso Hok Hup Hk Hne a ltac:(auto) y).
      - eapply not_bit_root; [exact Hup1|exact Lbit|done]. }
    intros ? G2 g2 Hok2 _ X2 (->&->). assert (HX2 := extn_ext _ _ _ _ _ X2).
    pose proof (charC_base _ _ _ _ (charC_mono HX1 _ _ He)) as Heb.
    pose proof Heb as ((_&_&Lev&_)&_).
    set (n := CharEnt x a bb c). set (g2 := add_edge a (be_char (bit_of z o b)) g1) in *.
    assert (Hbn : char_base G1 g2 n r).
    { split; [exact Hlabs|]. split; [by apply (refs3_mono HX2), (ne_refs _ _ _ _ _ _ _ _ _ _ _ _ Hne)|].
      exists z, o. split; [by apply (ext_ready HX1)|]. rewrite Hodd. simpl. set_solver. }
    set (g3 := add_edge (ce_char e) bb g2).
    assert (X3 : ext G1 g2 G1 g3) by apply ext_add_edge.
    assert (Hcn : charC G1 g3 n r).
    { eapply (charC_tail _ _ n e r).
      - by apply (char_base_mono X3).
      - done.
      - rewrite <- Hhalf. by apply (charC_mono X3), (charC_mono HX2), (charC_mono HX1).
      - simpl. set_solver. }
    assert (Hbnew : ∀ y, (y, bb) ∉ edges g2 ∧ (bb, y) ∉ edges g2).
    { intros y. pose proof (ne_iso Hok Hup Hk Hne bb ltac:(auto) y) as [H1 H2]. simpl.
      rewrite !not_elem_of_union, !not_elem_of_singleton.
      split; (split; [intros [=]|done]); subst; congruence. }
    eapply W_seq; [|done|apply le_n|].
    { eapply (W_connect 1 (ce_char e) bb (LCharChar v) (LCharChar r)); auto; try done.
      - simpl. exists n. done.
      - intros _ y Hy. by destruct (Hbnew y).
      - intros _ y Hy Ly. exfalso.
        assert (Hy' : (ce_char e, y) ∈ edges g).
        { simpl in Hy. apply elem_of_union in Hy as [Hy|Hy].
          - apply elem_of_singleton in Hy as [= Hy1 Hy2]. congruence.
          - apply (ne_edge Hne) in Hy as [[? ?]|?]; [congruence|done]. }
        destruct (ok_edge _ _ _ Hok _ _ Hy') as (l1&l2&Hl1&Hl2&Hed&Hexp).
        pose proof (charC_base _ _ _ _ He) as ((_&_&Lev0&_)&_).
        rewrite Lev0 in Hl1. simplify_eq.
        pose proof (ext_lab_lookup HX1 _ _ Hl2) as Hl2'. rewrite Ly in Hl2'. simplify_eq.
        destruct Hexp as (c'&Hc'&<-). by eapply Hno.
      - eapply not_bit_root; [exact Hup1|exact Lb|done]. }
    intros ? G4 g4 Hok4 _ X4 (->&->). apply W_ret. intros _ _. split; [exact Hcn|].
    intros p q Hpq Hpq'. simpl in Hpq.
    apply elem_of_union in Hpq as [Hpq|Hpq]; [apply elem_of_singleton in Hpq; simplify_eq; auto|].
    right; right. apply elem_of_union in Hpq as [Hpq|Hpq].
    - apply elem_of_singleton in Hpq as [= -> ->]. by exists (LCharBit r).
    - apply (ne_edge Hne) in Hpq as [[-> ->]|?]; [by eexists|done].
  Qed.

  Definition ready (G : ghost) : Prop := ∃ z o, bits G = BReady z o.

  Lemma ready_mono G g G' g' : ext G g G' g' → ready G → ready G'.
  Proof. intros X (z&o&H). exists z, o. by apply (ext_ready X). Qed.

  Lemma W_char_provide_head z o b G g :
    up G → bits G = BReady z o →
    W 1 (char_provide_head_entity (bit_of z o b))
      (λ e G' g', charC G' g' e (Z.b2z b) ∧ char_news e G g G' g') E0 G g.
  Proof.
    intros Hup Hbi. apply W_intro. intros Hok Hq.
    pose proof (ready_label Hok z o b Hbi) as Lbit.
    destruct (targets_dec (be_char (bit_of z o b)) g) as [Hno|[y Hy]].
    2: { destruct (ok_edge _ _ _ Hok _ _ Hy) as (l1&l2&H1&H2&Hed&Hexp).
      rewrite Lbit in H1. simplify_eq. destruct l2; simpl in Hed; try done. subst r.
      simpl in Hexp. destruct Hexp as (e&He&<-).
      eapply W_post; [apply R_W, (R_char_provide_head z o b e); auto|apply le_n|by intros ??? (_&_&?)|].
      intros e' G' g' _ _ _ (->&->&->). split; [done|]. by intros ????. }
    assert (Hodd : Z.odd (Z.b2z b) = b) by by destruct b.
    assert (Hr2 : (Z.b2z b < 2)%Z) by (destruct b; simpl; lia).
    assert (Hr : rune_ok (Z.b2z b)) by (destruct b; unfold rune_ok; simpl; lia).
    unfold char_provide_head_entity.
    eapply (W_seq _ _ _ _ 1 _ _ (λ x G' g', G' = G ∧ g' = g ∧ x = false)); [|done|lia|].
    { eapply W_seq; [by eapply (W_no_targets 1)|done|lia|].
      intros ts ? ? _ _ _ (->&->&->). by apply W_ret. }
    intros x ? ? _ _ _ (->&->&->). cbn [negb].
    revert Hr Hodd Hr2.
    assert (Hlab : edge_ok (LBitCh b) (LCharBit (Z.b2z b))) by done. revert Hlab.
    generalize (Z.b2z b). intros r Hlab Hr Hodd Hr2.
    eapply (W_entity 1 CharEnt characterIdentifier (LCharBit r) (LCharChar r) (LCharWord r)); auto; try done.
    intros x a bb c G1 g1 Hok1 Hq1 X1 Hne.
    pose proof (ne_labs Hne) as Hlabs. pose proof Hlabs as (Lx&La&Lb&Lc).
    assert (HX1 := extn_ext _ _ _ _ _ X1). pose proof (up_mono HX1 Hup) as Hup1.
    assert (Hk : (1 <= characterIdentifier <= 8)%N) by done.
    pose proof (ext_lab_lookup HX1 _ _ Lbit) as Lbit1.
    eapply W_seq; [|done|apply le_n|].
    { eapply (W_connect 1 a (be_char (bit_of z o b)) (LCharBit r) (LBitCh b)); auto; try done.
      - intros _ y Hy. by destruct (ne_iso Hok Hup Hk Hne a ltac:(auto) y).
      - eapply not_bit_root; [exact Hup1|exact Lbit1|done]. }
    intros ? G2 g2 Hok2 _ X2 (->&->). assert (HX2 := extn_ext _ _ _ _ _ X2).
    set (n := CharEnt x a bb c). set (g2 := add_edge a (be_char (bit_of z o b)) g1) in *.
    assert (Hbn : char_base G1 g2 n r).
    { split; [exact Hlabs|]. split; [by apply (refs3_mono HX2), (ne_refs _ _ _ _ _ _ _ _ _ _ _ _ Hne)|].
      exists z, o. split; [by apply (ext_ready HX1)|]. rewrite Hodd. simpl. set_solver. }
    set (g3 := add_edge (be_char (bit_of z o b)) a g2).
    assert (X3 : ext G1 g2 G1 g3) by apply ext_add_edge.
    assert (Hcn : charC G1 g3 n r).
    { eapply (charC_head _ _ n r z o).
      - by apply (char_base_mono X3).
      - done.
      - by apply (ext_ready HX1).
      - rewrite Hodd. simpl. set_solver. }
    assert (Hno2 : ∀ y, (be_char (bit_of z o b), y) ∉ edges g2).
    { intros y Hy. simpl in Hy. apply elem_of_union in Hy as [Hy|Hy].
      - apply elem_of_singleton in Hy as [= Hy1 Hy2]. congruence.
      - apply (ne_edge Hne) in Hy as [[Hy1 Hy2]|?]; [congruence|by eapply Hno]. }
    eapply W_seq; [|done|apply le_n|].
    { unfold bit_point_to_character. simpl be_char.
      eapply W_seq; [by eapply (W_no_targets 1)|done|lia|].
      intros ts ? ? _ _ _ (->&->&->).
      eapply (W_connect 1 (be_char (bit_of z o b)) a (LBitCh b) (LCharBit r)); auto; try done.
      - simpl. by exists n.
      - intros _ y Hy. by destruct (Hno2 y).
      - eapply not_bit_root; [exact Hup1|exact La|done]. }
    intros ? G4 g4 Hok4 _ X4 (->&->). apply W_ret. intros _ _. split; [exact Hcn|].
    intros p q Hpq Hpq'. simpl in Hpq.
    apply elem_of_union in Hpq as [Hpq|Hpq]; [apply elem_of_singleton in Hpq; simplify_eq; auto|].
    right; right. apply elem_of_union in Hpq as [Hpq|Hpq].
    - apply elem_of_singleton in Hpq as [= -> ->]. by exists (LCharBit r).
    - apply (ne_edge Hne) in Hpq as [[-> ->]|?]; [by eexists|done].
  Qed.

  (** Which code points became linked. *)
  Definition link_frame (P : Z → Prop) (G : ghost) (g : graph) (G' : ghost) (g' : graph) : Prop :=
    fk = false → ∀ r, linked G' g' r → linked G g r ∨ P r.

  Lemma link_frame_trans (P : Z → Prop) G g G1 g1 G2 g2 :
    link_frame P G g G1 g1 → link_frame P G1 g1 G2 g2 → link_frame P G g G2 g2.
  Proof. intros H1 H2 Hfk r [H|H]%H2; auto. Qed.
  Lemma link_frame_refl P G g : link_frame P G g G g.
  Proof. intros ? r. auto. Qed.
  Lemma link_frame_weaken (P P' : Z → Prop) G g G' g' :
    (∀ r, P r → P' r) → link_frame P G g G' g' → link_frame P' G g G' g'.
  Proof. intros H H1 Hfk r [?|?]%H1; auto. Qed.
  Lemma link_frame_fault P G g G' g' : fk = true → link_frame P G g G' g'.
  Proof. intros ??. congruence. Qed.

  Lemma link_frame_bits P G g G' g' :
    ok F G g → ok F G' g' → ext G g G' g' → up G' →
    (∀ x y, (x, y) ∈ edges g' → (x, y) ∈ edges g ∨ y = bitIdentifier) →
    link_frame P G g G' g'.
  Proof.
    intros Hok Hok' X Hup He _ r [e Hr]. left.
    destruct (charC_back Hok Hok' X _ _ Hr) as [?|(x&y&Hin&Hout&Hc)]; [by exists e|exfalso].
    destruct (He x y Hin) as [?| ->]; [done|].
    pose proof (charC_base _ _ _ _ Hr) as ((_&L1&L2&_)&_). pose proof (Hup 1%N ltac:(lia)) as H1.
    unfold bitIdentifier in *.
    destruct Hc as [(_&Heq&_)|(_&Heq&_)]; rewrite <- Heq in *; congruence.
  Qed.

  Lemma W_bit_provide n b G g :
    started G g → prepared G →
    W n (bit_provide b) (λ x G' g', up G' ∧ (∃ z o, bits G' = BReady z o ∧ x = bit_of z o b) ∧
      link_frame (λ _, False) G g G' g') E0 G g.
  Proof.
    intros Hst Hp. apply W_intro. intros Hok Hq.
    eapply W_seq; [by apply (W_bit_initialize n)|done|apply le_n|].
    intros [z o] G1 g1 Hok1 Hq1 X1 (Hb&Hup&He). simpl in Hb. apply W_ret. intros _ _.
    assert (HX1 := extn_ext _ _ _ _ _ X1). split_and!; auto.
    - exists z, o. by destruct b.
    - by apply link_frame_bits.
  Qed.

  Lemma W_class_provide_up n G g : up G →
    W n class_provide (λ _ G' g', G' = G ∧ g' = g) E0 G g.
  Proof.
    intros Hup. eapply W_post; [by apply R_W, R_class_provide|apply le_n|by intros ??? (_&_&?)|].
    intros ? G' g' _ _ _ (->&->&_). done.
  Qed.

  Lemma W_char_provide_first b G g :
    started G g → prepared G →
    W 1 (char_provide_first_element b)
      (λ x G' g', up G' ∧ ready G' ∧ link_frame (λ r, r = Z.b2z b) G g G' g' ∧
        ((∃ e, x = Some e ∧ charC G' g' e (Z.b2z b)) ∨ fk = true ∧ x = None)) E0 G g.
  Proof.
    intros Hst Hp. apply W_intro. intros Hok _.
    eapply W_seq; [by apply (W_bit_provide 1)|done|lia|].
    intros ? G1 g1 Hok1 Hq1 X1 (Hup&(z&o&Hb&->)&Hf1).
    eapply W_seq; [by apply (W_class_provide_up 1)|done|lia|]. intros ? ? ? _ _ _ (->&->).
    eapply (W_seq _ _ _ _ 1 _ _ (λ x G' g', up G' ∧ ready G' ∧
      match x with
      | Ok e => charC G' g' e (Z.b2z b) ∧ link_frame (λ r, r = Z.b2z b) G1 g1 G' g'
      | Err _ => fk = true
      end)); [|done|lia|].
    - eapply W_try; [by eapply (W_char_provide_head z o b)|lia|..].
      + intros e G' g' Hok' _ X' [Hc Hn]. split_and!; auto.
        * by apply (up_mono (extn_ext _ _ _ _ _ X')).
        * exists z, o. by apply (ext_ready (extn_ext _ _ _ _ _ X')).
        * intros _ r Hr. eapply char_news_linked; [exact Hok1|exact Hok'|by eapply extn_ext|exact Hn|exact Hc|exact Hr].
      + intros ab G' g' Hok' _ X' [??]. destruct ab; [|done..]. split_and!; auto.
        * by apply (up_mono (extn_ext _ _ _ _ _ X')).
        * exists z, o. by apply (ext_ready (extn_ext _ _ _ _ _ X')).
    - intros [e|er] G2 g2 Hok2 _ X2 (Hup2&Hr2&H); apply W_ret; intros _ _; cbn [nil_on_err].
      + destruct H as [Hc Hf2]. split_and!; auto.
        * eapply link_frame_trans; [|exact Hf2]. by eapply link_frame_weaken; [|exact Hf1].
        * left. eauto.
      + split_and!; auto. by apply link_frame_fault.
  Qed.

  Lemma W_char_provide_next e v b G g :
    up G → ready G → charC G g e v → (1 <= v)%Z → rune_ok (2 * v + Z.b2z b) →
    W 1 (char_provide_next_element (Some e) b)
      (λ x G' g', link_frame (λ r, r = 2 * v + Z.b2z b)%Z G g G' g' ∧
        ∃ c, x = Some c ∧ charC G' g' c (2 * v + Z.b2z b)) E0 G g.
  Proof.
    intros Hup (z&o&Hb) He Hv Hr. apply W_intro. intros Hok _.
    unfold char_provide_next_element. cbn [deref bind]. apply W_assoc3.
    eapply W_seqR; [by apply (R_char_lookup e v b)|done|].
    intros [c|] _ _; cbn beta iota.
    - intros [Hc _]. apply W_ret. intros _ _. split; [apply link_frame_refl|]. eauto.
    - intros Hno. eapply W_seq; [by apply (W_class_provide_up 1)|done|lia|].
      intros ? ? ? _ _ _ (->&->).
      eapply W_seqR; [by apply (R_bit_provide z o)|done|]. intros ? _ _ ->.
      eapply W_seq; [by eapply (W_char_create_tail z o)|done|lia|].
      intros c G1 g1 Hok1 _ X1 (Hc&Hn). apply W_ret. intros _ _. split; [|by eauto].
      intros _ r Hr'. eapply char_news_linked; [exact Hok|exact Hok1|by eapply extn_ext|exact Hn|exact Hc|exact Hr'].
  Qed.

  Lemma msb_val_cons v b path : msb_val v (b :: path) = msb_val (2 * v + Z.b2z b) path.
  Proof. by destruct b. Qed.

  Lemma W_char_provide_loop e v path G g :
    up G → ready G → charC G g e v → (1 <= v)%Z → rune_ok (msb_val v path) →
    W 1 (char_provide_loop (Some (Some e)) path)
      (λ x G' g', link_frame (λ r, ∃ p1 p2, path = p1 ++ p2 ∧ r = msb_val v p1) G g G' g' ∧
        ((∃ c, x = Some (Some c) ∧ charC G' g' c (msb_val v path)) ∨ fk = true ∧ x = None)) E0 G g.
  Proof.
    revert e v G g. induction path as [|b path IH]; intros e v G g Hup Hrd He Hv Hr.
    - apply W_ret. intros _ _. split; [apply link_frame_refl|]. left. eauto.
    - rewrite msb_val_cons in *. cbn [char_provide_loop deref bind].
      assert (Hv' : (1 <= 2 * v + Z.b2z b)%Z) by (destruct b; simpl; lia).
      assert (Hr' : rune_ok (2 * v + Z.b2z b)).
      { pose proof (msb_val_ge (2 * v + Z.b2z b) path). unfold rune_ok in *. lia. }
      eapply (W_seq _ _ _ _ 1 _ _ (λ x G' g',
        match x with
        | Ok x => link_frame (λ r, r = 2 * v + Z.b2z b)%Z G g G' g' ∧
            ∃ c, x = Some c ∧ charC G' g' c (2 * v + Z.b2z b)
        | Err _ => fk = true
        end)); [|done|lia|].
      + eapply W_try; [by eapply (W_char_provide_next e v b)|lia|..].
        * intros x G' g' _ _ _ Hx. exact Hx.
        * intros ab G' g' _ _ _ [??]. by destruct ab.
      + intros [x|er] G1 g1 Hok1 _ X1 H; cbn [nil_on_err].
        * destruct H as [Hf (c&->&Hc)]. assert (HX1 := extn_ext _ _ _ _ _ X1).
          eapply W_post; [eapply (IH c (2 * v + Z.b2z b)%Z)|lia|by intros ???|]; auto.
          -- by apply (up_mono HX1).
          -- by eapply ready_mono.
          -- intros x G2 g2 _ _ _ [Hf2 Hx]. split; [|done].
             eapply link_frame_trans.
             ++ eapply link_frame_weaken; [|exact Hf]. intros r ->. exists [b], path.
                split; [done|]. by rewrite msb_val_cons.
             ++ eapply link_frame_weaken; [|exact Hf2]. intros r (p1&p2&->&->).
                exists (b :: p1), p2. split; [done|]. by rewrite msb_val_cons.
        * destruct path as [|b' path].
          -- apply W_ret. intros _ _. split; [by apply link_frame_fault|auto].
          -- cbn [char_provide_loop deref bind]. by apply W_panic.
  Qed.

  Lemma msb_val_div v p : (0 <= v)%Z → (msb_val v p / 2 ^ Z.of_nat (length p))%Z = v.
  Proof.
    revert v. induction p as [|b p IH]; intros v Hv.
    - simpl length. rewrite Z.pow_0_r, Z.div_1_r. done.
    - rewrite msb_val_cons. cbn [length]. rewrite Nat2Z.inj_succ, Z.pow_succ_r by lia.
      rewrite (Z.mul_comm 2 (2 ^ _)), <- Z.div_div by lia. rewrite IH by (destruct b; simpl; lia).
      destruct b; simpl; lia.
  Qed.

  Lemma W_char_provide r G g :
    started G g → prepared G → rune_ok r →
    W 1 (char_provide r)
      (λ x G' g', up G' ∧ ready G' ∧ link_frame (λ r', pref r' r) G g G' g' ∧
        ((∃ e, x = Some e ∧ charC G' g' e r) ∨ fk = true ∧ x = None)) E0 G g.
  Proof.
    intros Hst Hp Hr. unfold char_provide.
    assert (r = 0 ∨ 1 <= r)%Z as [->|Hr1] by (unfold rune_ok in Hr; lia).
    - rewrite char_collect_zero. cbn [of_res bind].
      eapply W_seq; [by apply (W_char_provide_first false)|done|lia|].
      intros x G1 g1 _ _ _ (Hup&Hrd&Hf&Hx). cbn [char_provide_loop bind deref]. apply W_ret. intros _ _.
      split_and!; auto. eapply link_frame_weaken; [|exact Hf]. intros r ->. apply pref_refl. simpl. lia.
    - destruct (char_collect_pos r Hr1) as (t&->&Ht). cbn [of_res bind].
      eapply W_seq; [by apply (W_char_provide_first true)|done|lia|].
      intros x G1 g1 _ _ _ (Hup&Hrd&Hf&Hx).
      destruct Hx as [(e&->&He)|[Hfk ->]].
      + eapply W_seq; [eapply (W_char_provide_loop e 1 t); auto|done|lia|].
        { lia. }
        { by rewrite Ht. }
        intros x G2 g2 Hok2 _ X2 [Hf2 Hx]. assert (HX2 := extn_ext _ _ _ _ _ X2).
        destruct Hx as [(c&->&Hc)|[Hfk ->]]; cbn [deref]; [|by apply W_panic].
        apply W_ret. intros _ _. rewrite Ht in Hc. split_and!.
        * by apply (up_mono HX2).
        * by eapply ready_mono.
        * assert (Hpref : ∀ r', (∃ p1 p2, t = p1 ++ p2 ∧ r' = msb_val 1 p1) → pref r' r).
          { intros r' (p1&p2&->&->). rewrite msb_val_app in Ht.
            exists (Z.of_nat (length p2)). pose proof (msb_val_ge 1 p1).
            split_and!; [lia| |lia]. rewrite <- Ht. symmetry. apply msb_val_div. lia. }
          eapply link_frame_trans.
          -- eapply link_frame_weaken; [|exact Hf]. intros r' ->. apply Hpref. by exists [], t.
          -- eapply link_frame_weaken; [|exact Hf2]. exact Hpref.
        * left. eauto.
      + destruct t as [|b t].
        * cbn [char_provide_loop bind deref]. apply W_ret. intros _ _. split_and!; auto.
          by apply link_frame_fault.
        * cbn [char_provide_loop deref bind char_provide_next_element try]. by apply W_panic.
  Qed.

  Lemma pref_linked r r' e G g : ok F G g → charC G g e r → pref r' r → linked G g r'.
  Proof.
    intros Hok H. revert r'. induction H as [e r z o Hb Hr Hbi Hl|e p r Hb Hr Hp IH Hl]; intros r' (k&Hk&->&Hz).
    - pose proof (charC_rune Hok _ _ (charC_head _ _ _ _ _ _ Hb Hr Hbi Hl)) as [Hr0 _].
      assert (r / 2 ^ k = r)%Z as Heq.
      { destruct (decide (k = 0%Z)) as [->|]; [by rewrite Z.pow_0_r, Z.div_1_r|].
        assert (2 <= 2 ^ k)%Z. { change 2%Z with (2 ^ 1)%Z at 1. apply Z.pow_le_mono_r; lia. }
        assert (r / 2 ^ k = 0)%Z by (apply Z.div_small; lia). lia. }
      rewrite Heq. exists e. by eapply charC_head.
    - destruct (decide (k = 0%Z)) as [->|Hk0].
      { rewrite Z.pow_0_r, Z.div_1_r. exists e. by eapply charC_tail. }
      apply IH. exists (k - 1)%Z. split; [lia|]. split; [|lia].
      rewrite Z.div_div by lia. f_equal. rewrite <- Z.pow_succ_r by lia. f_equal. lia.
  Qed.

  (** Reading back what was provided. *)
  Lemma charC_linked e r G g : charC G g e r → linked G g r.
  Proof. by exists e. Qed.
End chars.
