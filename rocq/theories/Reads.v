(** Reading entities back, and facts about complete entities. *)
From stdpp Require Import gmap.
From Coq Require Import NArith ZArith Lia.
From Verif Require Import Base GoText Codec Model1 Model2 Model3 Storage Inv Wp Steps Entity BitProofs.
Local Open Scope nat_scope.

(** * One chain of references is fixed by any of its nodes *)

Section chains.
  Context {F : nat} {G : ghost} {g : graph} (Hok : ok F G g).

  Lemma fwd_inj x x' y : fwd g !! x = Some y → fwd g !! x' = Some y → x = x'.
  Proof.
    intros H H'. apply (ok_inv _ _ _ Hok) in H. apply (ok_inv _ _ _ Hok) in H'. congruence.
  Qed.

  Lemma refs3_x x a b c a' b' c' : refs3 g x a b c → refs3 g x a' b' c' → a = a' ∧ b = b' ∧ c = c'.
  Proof. intros (H1&H2&H3) (H1'&H2'&H3'). simplify_eq. done. Qed.
  Lemma refs3_a x a b c x' b' c' : refs3 g x a b c → refs3 g x' a b' c' → x = x' ∧ b = b' ∧ c = c'.
  Proof. intros (H1&H2&H3) (H1'&H2'&H3'). simplify_eq. split; [|done]. by eapply fwd_inj. Qed.
  Lemma refs3_b x a b c x' a' c' : refs3 g x a b c → refs3 g x' a' b c' → x = x' ∧ a = a' ∧ c = c'.
  Proof.
    intros (H1&H2&H3) (H1'&H2'&H3'). simplify_eq. assert (a = a') as <- by by eapply fwd_inj.
    split; [|done]. by eapply fwd_inj.
  Qed.
  Lemma refs3_c x a b c x' a' b' : refs3 g x a b c → refs3 g x' a' b' c → x = x' ∧ a = a' ∧ b = b'.
  Proof.
    intros (H1&H2&H3) (H1'&H2'&H3'). assert (b = b') as <- by by eapply fwd_inj.
    assert (a = a') as <- by by eapply fwd_inj. split; [|done]. by eapply fwd_inj.
  Qed.
End chains.

Lemma targets_dec x g : (∀ y, (x, y) ∉ edges g) ∨ ∃ y, (x, y) ∈ edges g.
Proof.
  destruct (set_choose_or_empty (filter (λ e, e.1 = x) (edges g))) as [[[a b] H]|H].
  - apply elem_of_filter in H as [H1 H2]. simpl in H1. subst. eauto.
  - left. intros y Hy.
    assert (Hf : (x, y) ∈ filter (λ e, e.1 = x) (edges g)) by by apply elem_of_filter.
    apply H in Hf. by apply not_elem_of_empty in Hf.
Qed.

(** Only class nodes can be the target of class membership. *)
Lemma not_bit_root G y l (P : Prop) :
  up G → lab G !! y = Some l → (∀ k, l ≠ LRoot k) → y = bitIdentifier → P.
Proof.
  intros Hup Hy Hl ->. unfold bitIdentifier in Hy. rewrite (Hup 1%N) in Hy by lia.
  simplify_eq. by destruct (Hl 1%N).
Qed.

(** * Parts of complete entities *)
Lemma charC_base G g e r : charC G g e r → char_base G g e r.
Proof. by destruct 1. Qed.
Lemma wordC_base G g e rs : wordC G g e rs → word_base G g e rs.
Proof. by destruct 1. Qed.
Lemma phraseC_base G g e ws : phraseC G g e ws → phrase_base G g e ws.
Proof. by destruct 1. Qed.

Lemma wordC_nonempty G g e rs : wordC G g e rs → rs ≠ [].
Proof. destruct 1; [done|]. by intros [_ ?]%app_eq_nil. Qed.
Lemma phraseC_nonempty G g e ws : phraseC G g e ws → ws ≠ [].
Proof. destruct 1; [done|]. by intros [_ ?]%app_eq_nil. Qed.

Section reads.
  Context {zp : zpolicy} {fk : bool} {F : nat}.
  Notation W := (W zp fk F).
  Notation R := (R zp fk F).
  Notation E0 := (E0 fk).

  (** The four shapes of storage.go's ReadEntityBy… *)
  Lemma R_read_a {B} (mk : N → N → N → N → B) x a b c G g :
    refs3 g x a b c →
    R ('(x, b) <- st_getref a;; '(_, c) <- st_getref b;; Ret (mk x a b c))
      (λ e _ _, e = mk x a b c) E0 G g.
  Proof.
    intros (H1&H2&H3). apply R_intro. intros Hok.
    eapply R_getref_fwd; [done| |done]. intros z G1 g1 Hok1 X1 Hz.
    rewrite (Hz x) by by apply Hok.
    eapply R_getref_fwd; [by eapply (ext_fwd_lookup X1)| |done]. intros z2 G2 g2 Hok2 X2 Hz2.
    by apply R_ret.
  Qed.
  Lemma R_read_b {B} (mk : N → N → N → N → B) x a b c G g :
    refs3 g x a b c →
    R ('(a, c) <- st_getref b;; '(x, _) <- st_getref a;; Ret (mk x a b c))
      (λ e _ _, e = mk x a b c) E0 G g.
  Proof.
    intros (H1&H2&H3). apply R_intro. intros Hok.
    eapply R_getref_fwd; [done| |done]. intros z G1 g1 Hok1 X1 Hz.
    rewrite (Hz a) by by apply Hok.
    eapply R_getref_fwd; [by eapply (ext_fwd_lookup X1)| |done]. intros z2 G2 g2 Hok2 X2 Hz2.
    apply R_ret. intros _. rewrite (Hz2 x); [done|]. by apply (ext_bwd_lookup X1), Hok.
  Qed.
  Lemma R_read_c {B} (mk : N → N → N → N → B) x a b c G g :
    refs3 g x a b c →
    R ('(b, _) <- st_getref c;; '(a, _) <- st_getref b;; '(x, _) <- st_getref a;; Ret (mk x a b c))
      (λ e _ _, e = mk x a b c) E0 G g.
  Proof.
    intros (H1&H2&H3). apply R_intro. intros Hok.
    eapply R_getref_bwd; [by apply Hok| |done]. intros z G1 g1 Hok1 X1 Hz.
    eapply R_getref_bwd; [by apply (ext_bwd_lookup X1), Hok| |done]. intros z2 G2 g2 Hok2 X2 Hz2.
    eapply R_getref_bwd; [by apply (ext_bwd_lookup X2), (ext_bwd_lookup X1), Hok| |done].
    intros z3 G3 g3 Hok3 X3 Hz3. by apply R_ret.
  Qed.
  Lemma R_read_x {B} (mk : N → N → N → N → B) x a b c G g :
    refs3 g x a b c →
    R ('(_, a) <- st_getref x;; '(_, b) <- st_getref a;; '(_, c) <- st_getref b;; Ret (mk x a b c))
      (λ e _ _, e = mk x a b c) E0 G g.
  Proof.
    intros (H1&H2&H3). apply R_intro. intros Hok.
    eapply R_getref_fwd; [done| |done]. intros z G1 g1 Hok1 X1 Hz.
    eapply R_getref_fwd; [by eapply (ext_fwd_lookup X1)| |done]. intros z2 G2 g2 Hok2 X2 Hz2.
    eapply R_getref_fwd; [by eapply (ext_fwd_lookup X2), (ext_fwd_lookup X1)| |done].
    intros z3 G3 g3 Hok3 X3 Hz3. by apply R_ret.
  Qed.

  (** Without others writing, a read tells the targets exactly. *)
  Lemma W_targets n x l G g :
    lab G !! x = Some l → l ≠ LZero →
    W n (st_targets x) (λ ts G' g', G' = G ∧ g' = g ∧ NoDup ts ∧ ∀ y, y ∈ ts ↔ (x, y) ∈ edges g) E0 G g.
  Proof.
    intros Hx Hl. eapply W_post; [by eapply R_W, R_targets|done|by intros ??? (_&_&?)|].
    intros ts G' g' _ _ _ (->&->&?&?). done.
  Qed.
  Lemma W_no_targets n x l G g :
    lab G !! x = Some l → l ≠ LZero → (∀ y, (x, y) ∉ edges g) →
    W n (st_targets x) (λ ts G' g', G' = G ∧ g' = g ∧ ts = []) E0 G g.
  Proof.
    intros Hx Hl Hno. eapply W_post; [by eapply W_targets|done|by intros ???|].
    intros ts G' g' _ _ _ (->&->&_&Hts). split_and!; auto.
    destruct ts as [|t ts]; [done|]. exfalso. eapply (Hno t), Hts. left.
  Qed.

  (** A fetch followed by its use. *)
  Lemma R_then {A B} (p : prog A) a (f : A → prog B) (Q : post B) (E : post abn) G g :
    R p (λ x _ _, x = a) E0 G g → le_E0 fk E →
    (∀ G' g', ok F G' g' → ext G g G' g' → R (f a) Q E G' g') →
    R (bind p f) Q E G g.
  Proof. intros H HE Hf. eapply R_seq; [exact H|done|]. intros x G' g' ?? ->. by apply Hf. Qed.
End reads.
