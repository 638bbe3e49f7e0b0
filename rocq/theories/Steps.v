(** Single storage calls: what they do to the invariant, and their rules. *)
From stdpp Require Import gmap.
From Coq Require Import NArith ZArith Lia.
From Verif Require Import Base GoText Model1 Model2 Model3 Storage Inv Wp.
Local Open Scope nat_scope.

Definition set_lab (x : N) (l : label) (G : ghost) : ghost :=
  Gh (<[x:=l]> (lab G)) (bits G) (solo G).

(** Labels [Create] may give at any time. *)
Definition plain (l : label) : Prop :=
  match l with LZero | LRoot _ | LBitCh _ => False | _ => True end.

Section ok_facts.
  Context {F : nat} {G : ghost} {g : graph} (Hok : ok F G g).

  Lemma ok_lab_node x l : lab G !! x = Some l → l ≠ LZero → x ∈ nodes g.
  Proof.
    intros H Hl. apply Hok; [|by eauto]. intros ->. rewrite (ok_zero _ _ _ Hok) in H. congruence.
  Qed.
  Lemma ok_node_lab x : x ∈ nodes g → is_Some (lab G !! x).
  Proof.
    intros H. apply Hok; [|done]. intros ->. by destruct (ok_zero_node _ _ _ Hok).
  Qed.
  Lemma ok_fresh_lab x : x ≠ 0%N → x ∉ nodes g → lab G !! x = None.
  Proof.
    intros H0 H. apply eq_None_not_Some. intros ?. apply H. by apply Hok.
  Qed.
  Lemma ok_valid zp x l : lab G !! x = Some l → l ≠ LZero → valid zp g x.
  Proof. left. by eapply ok_lab_node. Qed.
  Lemma ok_edge_l x y : (x, y) ∈ edges g → is_Some (lab G !! x).
  Proof. intros H. destruct (ok_edge _ _ _ Hok _ _ H) as (?&?&?&?&?); eauto. Qed.
  Lemma ok_edge_r x y : (x, y) ∈ edges g → is_Some (lab G !! y).
  Proof. intros H. destruct (ok_edge _ _ _ Hok _ _ H) as (?&?&?&?&?); eauto. Qed.
  Lemma ok_edge_labs x y lx ly : (x, y) ∈ edges g → lab G !! x = Some lx → lab G !! y = Some ly →
    edge_ok lx ly ∧ exposed G g lx ly y.
  Proof.
    intros H Hx Hy. destruct (ok_edge _ _ _ Hok _ _ H) as (?&?&?&?&?&?). simplify_eq. done.
  Qed.
  Lemma ok_fwd_none x : lab G !! x = None → fwd g !! x = None.
  Proof.
    intros H. destruct (fwd g !! x) eqn:E; [|done].
    destruct (ok_ref _ _ _ Hok _ _ E) as (?&?&?&?&?). congruence.
  Qed.
  Lemma ok_bwd_none x : lab G !! x = None → bwd g !! x = None.
  Proof.
    intros H. destruct (bwd g !! x) eqn:E; [|done].
    apply (ok_inv _ _ _ Hok) in E.
    destruct (ok_ref _ _ _ Hok _ _ E) as (?&?&?&?&?). congruence.
  Qed.
  Lemma ok_bwd x y : fwd g !! x = Some y → bwd g !! y = Some x.
  Proof. apply Hok. Qed.
  Lemma ok_iso x : lab G !! x = None → ∀ y, (x, y) ∉ edges g ∧ (y, x) ∉ edges g.
  Proof.
    intros H y. split; intros He.
    - apply ok_edge_l in He as [? ?]. congruence.
    - apply ok_edge_r in He as [? ?]. congruence.
  Qed.
  Lemma ok_no_lab_zero x l : lab G !! x = Some l → l ≠ LZero → x ≠ 0%N.
  Proof. intros H ? ->. rewrite (ok_zero _ _ _ Hok) in H. congruence. Qed.
End ok_facts.

(** * Updates *)

Lemma ext_set_lab x l G g g' :
  lab G !! x = None → nodes g ⊆ nodes g' → edges g = edges g' → fwd g = fwd g' → bwd g = bwd g' →
  ext G g (set_lab x l G) g'.
Proof.
  intros Hx Hn He Hf Hb. split; simpl; rewrite ?He, ?Hf, ?Hb; auto using bits_le_refl.
  by apply insert_subseteq.
Qed.

Lemma ext_create x l G g : lab G !! x = None → ext G g (set_lab x l G) (add_node x g).
Proof. intros. apply ext_set_lab; auto. simpl. set_solver. Qed.

Lemma ext_add_edge x y G g : ext G g G (add_edge x y g).
Proof. split; simpl; auto using bits_le_refl. set_solver. Qed.

Lemma ext_add_ref x y G g : fwd g !! x = None → bwd g !! y = None → ext G g G (add_ref x y g).
Proof. intros. split; simpl; auto using bits_le_refl; by apply insert_subseteq. Qed.

Lemma ok_add_node F G g x l :
  ok F G g → x ≠ 0%N → x ∉ nodes g → label_ok F l → l ≠ LZero →
  (∀ k, l = LRoot k → x = k) → (∀ b, l = LBitCh b → bits G = BPart) →
  ok F (set_lab x l G) (add_node x g).
Proof.
  intros Hok Hx0 Hx Hl Hl0 Hroot Hbit.
  assert (lab G !! x = None) as Hfresh by by eapply ok_fresh_lab.
  assert (ext G g (set_lab x l G) (add_node x g)) as X.
  { apply ext_set_lab; auto. simpl. set_solver. }
  assert (∀ y ly, lab (set_lab x l G) !! y = Some ly → y = x ∧ ly = l ∨ y ≠ x ∧ lab G !! y = Some ly) as Hinv.
  { intros y ly. simpl. destruct (decide (y = x)) as [->|].
    - rewrite lookup_insert. intros; simplify_eq; auto.
    - rewrite lookup_insert_ne by done. auto. }
  assert (∀ y z, (y, z) ∈ edges g → y ≠ x ∧ z ≠ x) as Hne.
  { intros y z H. split; intros ->; eapply ok_iso in Hfresh as [??]; eauto. }
  split; simpl.
  - rewrite lookup_insert_ne by done. apply Hok.
  - intros y Hy. apply Hinv in Hy as [[??]|[??]]; [congruence|]. by eapply ok_zero_only.
  - rewrite not_elem_of_union, not_elem_of_singleton. split; [done|apply Hok].
  - intros y Hy. destruct (decide (y = x)) as [->|Hne'].
    + rewrite lookup_insert. split; [eauto|set_solver].
    + rewrite lookup_insert_ne by done. rewrite <- (ok_dom _ _ _ Hok) by done. set_solver.
  - intros y ly Hy. apply Hinv in Hy as [[??]|[??]]; [congruence|]. by eapply ok_label.
  - intros y z He. destruct (ok_edge _ _ _ Hok _ _ He) as (ly&lz&?&?&?&?).
    exists ly, lz. split_and!; eauto using @exposed_mono, @ext_lab_lookup.
    + by eapply (ext_lab_lookup X).
    + by eapply (ext_lab_lookup X).
  - intros y z z' ly He1 He2 Hy ?. apply Hinv in Hy as [[??]|[??]]; [by destruct (Hne _ _ He1)|].
    by eapply (ok_target _ _ _ Hok).
  - intros y z z' ly He1 He2 Hy ?. apply Hinv in Hy as [[??]|[??]]; [by destruct (Hne _ _ He1)|].
    by eapply (ok_source _ _ _ Hok).
  - intros Hlone y z z' ly He1 He2 Hy ?. apply Hinv in Hy as [[??]|[??]]; [by destruct (Hne _ _ He1)|].
    by eapply (ok_head _ _ _ Hok Hlone).
  - intros Hlone y z z' ly lz He1 He2 Hy ? Hz Hz'.
    apply Hinv in Hy as [[??]|[??]]; [by destruct (Hne _ _ He1)|].
    apply Hinv in Hz as [[??]|[??]]; [by destruct (Hne _ _ He1)|].
    apply Hinv in Hz' as [[??]|[??]]; [by destruct (Hne _ _ He2)|].
    by eapply (ok_children _ _ _ Hok Hlone).
  - intros y z Hf. destruct (ok_ref _ _ _ Hok _ _ Hf) as (ly&lz&?&?&?).
    exists ly, lz. split_and!; [by eapply (ext_lab_lookup X)..|done].
  - apply Hok.
  - intros y k Hy. apply Hinv in Hy as [[??]|[??]]; [subst; by apply Hroot|by eapply ok_root].
  - intros y z k Hy Hf. apply Hinv in Hy as [[-> _]|[_ Hy]]; [by rewrite (ok_fwd_none Hok _ Hfresh) in Hf|].
    by eapply (ok_class _ _ _ Hok).
  - pose proof (ok_bits _ _ _ Hok) as Hb. unfold bits_ok in *. simpl.
    destruct (bits G) as [| |z o]; [|done|].
    + destruct Hb as [Hb1 Hb2]. split; [done|]. intros y b Hy.
      apply Hinv in Hy as [[? <-]|[??]]; [|by eapply Hb2]. by specialize (Hbit _ eq_refl).
    + destruct Hb as (?&?&?&?&?&?&?&?&Hb). split_and!; auto.
      * by eapply (ext_lab_lookup X).
      * by eapply (ext_lab_lookup X).
      * intros y b. split.
        -- intros Hy. apply Hinv in Hy as [[? <-]|[??]]; [by specialize (Hbit _ eq_refl)|by apply Hb].
        -- intros ->. eapply (ext_lab_lookup X). by apply Hb.
Qed.

Lemma ok_add_edge F G g x y lx ly :
  ok F G g → lab G !! x = Some lx → lab G !! y = Some ly → edge_ok lx ly →
  exposed G (add_edge x y g) lx ly y →
  (one_target lx ∨ solo G = true ∧ head_target lx → ∀ z, (x, z) ∈ edges g → z = y) →
  (one_source ly → ∀ z, (z, y) ∈ edges g → z = x) →
  (solo G = true → distinct_children lx → ∀ z, (x, z) ∈ edges g → lab G !! z = Some ly → z = y) →
  (y = bitIdentifier → bits G = BPart) →
  ok F G (add_edge x y g).
Proof.
  intros Hok Hx Hy He Hexp Hot Hos Hdc Hbit.
  pose proof (ext_add_edge x y G g) as X.
  assert (∀ a b, (a, b) ∈ edges (add_edge x y g) → a = x ∧ b = y ∨ (a, b) ∈ edges g) as Hinv.
  { intros a b. simpl. rewrite elem_of_union, elem_of_singleton. naive_solver. }
  split; try apply Hok.
  - intros a b Hab. apply Hinv in Hab as [[-> ->]|Hab].
    + exists lx, ly. done.
    + destruct (ok_edge _ _ _ Hok _ _ Hab) as (la&lb&?&?&?&?).
      exists la, lb. split_and!; eauto using @exposed_mono.
  - intros a b c l Hab Hac Ha Hl.
    apply Hinv in Hab as [[-> ->]|Hab]; apply Hinv in Hac as [[? ->]|Hac]; simplify_eq; auto.
    + symmetry. apply Hot; auto.
    + by eapply (ok_target _ _ _ Hok).
  - intros a b c l Hab Hac Ha Hl.
    apply Hinv in Hab as [[-> ->]|Hab]; apply Hinv in Hac as [[-> ?]|Hac]; simplify_eq; auto.
    + symmetry. by apply Hos.
    + by eapply (ok_source _ _ _ Hok).
  - intros Hlone a b c l Hab Hac Ha Hl.
    apply Hinv in Hab as [[-> ->]|Hab]; apply Hinv in Hac as [[? ->]|Hac]; simplify_eq; auto.
    + symmetry. apply Hot; auto.
    + by eapply (ok_head _ _ _ Hok).
  - intros Hlone a b c l l' Hab Hac Ha Hl Hb Hc.
    apply Hinv in Hab as [[-> ->]|Hab]; apply Hinv in Hac as [[? ->]|Hac]; simplify_eq; auto.
    + symmetry. by apply Hdc.
    + by eapply (ok_children _ _ _ Hok).
  - intros a b k Ha Hf. apply elem_of_union_r. by eapply (ok_class _ _ _ Hok).
  - pose proof (ok_bits _ _ _ Hok) as Hb. unfold bits_ok in *.
    destruct (bits G) as [| |z o]; [|done|].
    + destruct Hb as [Hb1 Hb2]. split; [|done]. intros a Ha.
      apply Hinv in Ha as [[-> Hbb]|Ha]; [by apply symmetry, Hbit in Hbb|by eapply Hb1].
    + destruct Hb as (Hb&?&?&?&?&?&?&?&?). split_and!; auto.
      intros a. split.
      * intros Ha. apply Hinv in Ha as [[-> Hbb]|Ha]; [by apply symmetry, Hbit in Hbb|by apply Hb].
      * intros Ha. apply Hb in Ha. simpl. set_solver.
Qed.

Lemma ok_add_ref F G g x y lx ly :
  ok F G g → lab G !! x = Some lx → lab G !! y = Some ly → ref_ok lx ly →
  fwd g !! x = None → bwd g !! y = None → (∀ k, lx = LCls k → (x, k) ∈ edges g) →
  ok F G (add_ref x y g).
Proof.
  intros Hok Hx Hy Hr Hf Hb Hcl.
  pose proof (ext_add_ref x y G g Hf Hb) as X.
  split; try apply Hok.
  - intros a b Hab. destruct (ok_edge _ _ _ Hok _ _ Hab) as (la&lb&?&?&?&?).
    exists la, lb. split_and!; eauto using @exposed_mono.
  - intros a b. simpl. destruct (decide (a = x)) as [->|].
    + rewrite lookup_insert. intros; simplify_eq. eauto.
    + rewrite lookup_insert_ne by done. apply Hok.
  - intros a b. simpl. destruct (decide (a = x)) as [->|Ha], (decide (b = y)) as [->|Hbb].
    + rewrite !lookup_insert. done.
    + rewrite lookup_insert, lookup_insert_ne by done.
      rewrite <- (ok_inv _ _ _ Hok). rewrite Hf. naive_solver.
    + rewrite lookup_insert, lookup_insert_ne by done.
      rewrite (ok_inv _ _ _ Hok). rewrite Hb. naive_solver.
    + rewrite !lookup_insert_ne by done. apply Hok.
  - intros a b k Ha. simpl. destruct (decide (a = x)) as [->|].
    + intros _. apply Hcl. congruence.
    + rewrite lookup_insert_ne by done. by apply Hok.
  - pose proof (ok_bits _ _ _ Hok) as Hbi. unfold bits_ok in *.
    destruct (bits G) as [| |z o]; [done..|].
    destruct Hbi as (?&?&?&?&?&?&?&?&?). split_and!; auto; by eapply (ext_fwd_lookup X).
Qed.

(** Changes of the proof state only. *)
Lemma ok_set_bits F G g b :
  ok F G g → bits_le (bits G) b → bits_ok (Gh (lab G) b (solo G)) g →
  ok F (Gh (lab G) b (solo G)) g ∧ ext G g (Gh (lab G) b (solo G)) g.
Proof.
  intros Hok Hle Hb.
  assert (ext G g (Gh (lab G) b (solo G)) g) as X by by split.
  split; [|done]. split; try apply Hok; [|done].
  intros x y H. destruct (ok_edge _ _ _ Hok _ _ H) as (lx&ly&?&?&?&?).
  exists lx, ly. split_and!; auto. by eapply (exposed_mono X).
Qed.

(** * Rules for single calls *)

Section rules.
  Context {zp : zpolicy} {fk : bool} {F : nat}.
  Notation wp := (wp zp fk F).
  Notation W := (W zp fk F).
  Notation R := (R zp fk F).
  Notation E0 := (E0 fk).

  Lemma wp_invoke c (Q : post (answer c)) (E : post abn) G g :
    (∀ r g', gstep zp g c r g' → ∃ a G', r = Ok a ∧ ok F G' g' ∧ ext G g G' g' ∧ Q a G' g') →
    (fk = true → E (AErr EStorage) G g) →
    wp (invoke c) Q E G g.
  Proof.
    intros H1 H2. simpl. split; [|done].
    intros r g' Hs. destruct (H1 r g' Hs) as (a&G'&->&?&?&?). eauto.
  Qed.

  (** ** Reads *)
  Lemma R_invoke c (Q : post (answer c)) (E : post abn) G g :
    is_read c →
    (∀ G1 g1, ok F G1 g1 → ext G g G1 g1 → ∀ r, gstep zp g1 c r g1 → ∃ a, r = Ok a ∧ Q a G1 g1) →
    (∀ G1 g1, fk = true → E (AErr EStorage) G1 g1) →
    R (invoke c) Q E G g.
  Proof.
    intros Hc HQ HE Hok. simpl. split; [done|]. intros G1 g1 Hok1 X. split.
    - intros r g2 Hs. assert (g2 = g1) as -> by by eapply gstep_read.
      destruct (HQ G1 g1 Hok1 X r Hs) as (a&->&?). done.
    - intros ?. simpl. auto.
  Qed.

  Lemma E0_storage G g : fk = true → E0 (AErr EStorage) G g.
  Proof. done. Qed.

  Lemma R_targets x l G g :
    lab G !! x = Some l → l ≠ LZero →
    R (st_targets x) (λ ts G' g', NoDup ts ∧ ∀ y, y ∈ ts ↔ (x, y) ∈ edges g') E0 G g.
  Proof.
    intros Hx Hl. apply R_invoke; [done| |done].
    intros G1 g1 Hok1 X r [Hr _].
    destruct Hr as (ts&?&?&?&?); [|eauto]. eapply ok_valid; eauto using @ext_lab_lookup.
  Qed.
  Lemma R_sources x l G g :
    lab G !! x = Some l → l ≠ LZero →
    R (st_sources x) (λ ts G' g', NoDup ts ∧ ∀ y, y ∈ ts ↔ (y, x) ∈ edges g') E0 G g.
  Proof.
    intros Hx Hl. apply R_invoke; [done| |done].
    intros G1 g1 Hok1 X r [Hr _].
    destruct Hr as (ts&?&?&?&?); [|eauto]. eapply ok_valid; eauto using @ext_lab_lookup.
  Qed.
  Lemma R_getref x l G g :
    lab G !! x = Some l → l ≠ LZero →
    R (st_getref x) (λ r G' g', r = (default 0%N (bwd g' !! x), default 0%N (fwd g' !! x))) E0 G g.
  Proof.
    intros Hx Hl. apply R_invoke; [done| |done].
    intros G1 g1 Hok1 X r [Hr _].
    destruct Hr as (?&?); [|eauto]. eapply ok_valid; eauto using @ext_lab_lookup.
  Qed.
  Lemma R_has x G g :
    R (st_has x) (λ b G' g', b = bool_decide (x ∈ nodes g')) E0 G g.
  Proof.
    apply R_invoke; [done| |done]. intros G1 g1 Hok1 X r [-> _]. eauto.
  Qed.

  (** Reading through a reference that is known to be set. *)
  Lemma R_getref_fwd {A} x y f (Q : post A) (E : post abn) G g :
    fwd g !! x = Some y →
    (∀ z G' g', ok F G' g' → ext G g G' g' → (∀ w, bwd g !! x = Some w → z = w) → R (f (z, y)) Q E G' g') →
    le_E0 fk E →
    R (bind (st_getref x) f) Q E G g.
  Proof.
    intros Hf Hk HE Hok. destruct (ok_ref _ _ _ Hok _ _ Hf) as (lx&ly&Hx&Hy&Hr).
    assert (lx ≠ LZero) by by intros ->.
    revert Hok. eapply R_bind; [by eapply R_getref| |by auto].
    intros r G' g' Hok X ->. rewrite (ext_fwd_lookup X _ _ Hf). simpl. apply Hk; auto.
    intros w Hw. by rewrite (ext_bwd_lookup X _ _ Hw).
  Qed.
  Lemma R_getref_bwd {A} x y f (Q : post A) (E : post abn) G g :
    bwd g !! x = Some y →
    (∀ z G' g', ok F G' g' → ext G g G' g' → (∀ w, fwd g !! x = Some w → z = w) → R (f (y, z)) Q E G' g') →
    le_E0 fk E →
    R (bind (st_getref x) f) Q E G g.
  Proof.
    intros Hb Hk HE Hok. pose proof Hb as Hf. apply (ok_inv _ _ _ Hok) in Hf.
    destruct (ok_ref _ _ _ Hok _ _ Hf) as (lx&ly&Hx&Hy&Hr).
    assert (ly ≠ LZero) by by intros ->; destruct lx.
    revert Hok. eapply R_bind; [by eapply R_getref| |by auto].
    intros r G' g' Hok X ->. rewrite (ext_bwd_lookup X _ _ Hb). simpl. apply Hk; auto.
    intros w Hw. by rewrite (ext_fwd_lookup X _ _ Hw).
  Qed.

  (** The only neighbour. *)
  Lemma NoDup_single {A} (l : list A) x : NoDup l → x ∈ l → (∀ y, y ∈ l → y = x) → l = [x].
  Proof.
    intros Hnd Hx Hall. destruct l as [|a l]; [by apply elem_of_nil in Hx|].
    assert (a = x) as -> by (apply Hall; left). f_equal.
    destruct l as [|b l]; [done|]. assert (b = x) as -> by (apply Hall; right; left).
    inversion Hnd; set_solver.
  Qed.

  Lemma R_one_target {A} e x y l f (Q : post A) (E : post abn) G g :
    lab G !! x = Some l → one_target l → (x, y) ∈ edges g →
    (∀ G' g', ok F G' g' → ext G g G' g' → R (f y) Q E G' g') →
    le_E0 fk E →
    R (bind (ts <- st_targets x;; single e ts) f) Q E G g.
  Proof.
    intros Hx Hl He Hk HE. assert (l ≠ LZero) by by intros ->.
    eapply (R_bind _ _ _ _ _ (λ z G' g', z = y) E0); [| |by auto].
    - eapply R_bind; [by eapply R_targets| |by auto].
      intros ts G' g' Hok' X [Hnd Hts].
      assert (ts = [y]) as ->.
      { apply NoDup_single; [done| |].
        - apply Hts. by apply X.
        - intros z Hz. apply Hts in Hz. eapply (ok_target _ _ _ Hok'); [done|by apply X| |done].
          by eapply (ext_lab_lookup X). }
      by apply R_ret.
    - intros z G' g' Hok' X ->. by apply Hk.
  Qed.

  Lemma R_head_target {A} e x y l f (Q : post A) (E : post abn) G g :
    lab G !! x = Some l → solo G = true → head_target l → (x, y) ∈ edges g →
    (∀ G' g', ok F G' g' → ext G g G' g' → R (f y) Q E G' g') →
    le_E0 fk E →
    R (bind (ts <- st_targets x;; single e ts) f) Q E G g.
  Proof.
    intros Hx Hlone Hl He Hk HE. assert (l ≠ LZero) by by intros ->.
    eapply (R_bind _ _ _ _ _ (λ z G' g', z = y) E0); [| |by auto].
    - eapply R_bind; [by eapply R_targets| |by auto].
      intros ts G' g' Hok' X [Hnd Hts].
      assert (ts = [y]) as ->.
      { apply NoDup_single; [done| |].
        - apply Hts. by apply X.
        - intros z Hz. apply Hts in Hz. eapply (ok_head _ _ _ Hok' (solo_mono X Hlone)); [done|by apply X| |done].
          by eapply (ext_lab_lookup X). }
      by apply R_ret.
    - intros z G' g' Hok' X ->. by apply Hk.
  Qed.

  Lemma R_one_source {A} e x y l f (Q : post A) (E : post abn) G g :
    lab G !! x = Some l → one_source l → (y, x) ∈ edges g →
    (∀ G' g', ok F G' g' → ext G g G' g' → R (f y) Q E G' g') →
    le_E0 fk E →
    R (bind (ts <- st_sources x;; single e ts) f) Q E G g.
  Proof.
    intros Hx Hl He Hk HE. assert (l ≠ LZero) by by intros ->.
    eapply (R_bind _ _ _ _ _ (λ z G' g', z = y) E0); [| |by auto].
    - eapply R_bind; [by eapply R_sources| |by auto].
      intros ts G' g' Hok' X [Hnd Hts].
      assert (ts = [y]) as ->.
      { apply NoDup_single; [done| |].
        - apply Hts. by apply X.
        - intros z Hz. apply Hts in Hz. eapply (ok_source _ _ _ Hok'); [done|by apply X| |done].
          by eapply (ext_lab_lookup X). }
      by apply R_ret.
    - intros z G' g' Hok' X ->. by apply Hk.
  Qed.

  (** ** Writes *)
  Lemma wp_W {A} n (p : prog A) (Q : post A) (E : post abn) G g :
    (ok F G g → quiet G → wp p (fin n G g Q) (fin n G g E) G g) → W n p Q E G g.
  Proof. done. Qed.

  Lemma fin_E0 n G g : quiet G → fk = true → fin n G g E0 (AErr EStorage) G g.
  Proof. intros. split; [done|]. split; [done|]. done. Qed.

  (** Create, with a label chosen for the new node. *)
  Lemma W_create n l G g :
    label_ok F l → plain l →
    W n st_create (λ x G' g', lab G !! x = None ∧ x ≠ 0%N ∧ G' = set_lab x l G ∧ g' = add_node x g) E0 G g.
  Proof.
    intros Hl Hp Hok Hq. apply wp_invoke; [|by apply fin_E0].
    intros r g' (x&->&Hx0&Hx&_&->).
    assert (lab G !! x = None) as Hf by by eapply ok_fresh_lab.
    assert (l ≠ LZero) by by intros ->.
    assert (ext G g (set_lab x l G) (add_node x g)) as X.
    { apply ext_set_lab; auto. simpl. set_solver. }
    exists x, (set_lab x l G). split_and!; auto.
    - apply ok_add_node; auto.
      + intros k ->. done.
      + intros b ->. done.
    - split_and!; auto. split; [done|]. simpl. intros a b ??. done.
  Qed.

  Lemma extn_add_edge n G g x y l : lab G !! x = Some l → rank l ≤ n → extn n G g G (add_edge x y g).
  Proof.
    intros Hx Hn. split; [apply ext_add_edge|]. intros a b Hab Hab'. simpl in Hab.
    apply elem_of_union in Hab as [Hab|?]; [|done].
    apply elem_of_singleton in Hab. simplify_eq. eauto.
  Qed.

  Lemma W_connect n x y lx ly G g :
    lab G !! x = Some lx → lab G !! y = Some ly → lx ≠ LZero → ly ≠ LZero → edge_ok lx ly → rank lx ≤ n →
    exposed G (add_edge x y g) lx ly y →
    (sole lx → ∀ z, (x, z) ∈ edges g → z = y) →
    (one_source ly → ∀ z, (z, y) ∈ edges g → z = x) →
    (distinct_children lx → ∀ z, (x, z) ∈ edges g → lab G !! z = Some ly → z = y) →
    (y = bitIdentifier → bits G = BPart) →
    W n (st_connect x y) (λ _ G' g', G' = G ∧ g' = add_edge x y g) E0 G g.
  Proof.
    intros ???????????? Hq. apply wp_invoke; [|by apply fin_E0].
    intros r g' [Hs _]. destruct Hs as [-> ->].
    { split; by eapply ok_valid. }
    exists tt, G. split_and!; auto using ext_add_edge.
    - eapply ok_add_edge; eauto. intros [?|[??]]; eauto using sole_of_target, sole_of_head.
    - split_and!; eauto using extn_add_edge.
  Qed.

  Lemma W_setref n x y lx ly G g :
    lab G !! x = Some lx → lab G !! y = Some ly → ref_ok lx ly →
    fwd g !! x = None → bwd g !! y = None → (∀ k, lx = LCls k → (x, k) ∈ edges g) →
    W n (st_setref x y) (λ _ G' g', G' = G ∧ g' = add_ref x y g) E0 G g.
  Proof.
    intros Hx Hy Hr Hf Hb Hcl Hok Hq. apply wp_invoke; [|by apply fin_E0].
    intros r g' [Hs _]. simpl in Hs.
    assert (lx ≠ LZero) by by intros ->. assert (ly ≠ LZero) by by intros ->; destruct lx.
    destruct Hs as [-> ->]; auto.
    { split; by eapply ok_valid. }
    exists tt, G. split_and!; auto using ext_add_ref.
    - by eapply ok_add_ref.
    - split_and!; auto. split; [by apply ext_add_ref|]. done.
  Qed.

  (** ** Node 0 *)
  Lemma R_single_target e x y l G g :
    lab G !! x = Some l → one_target l → (x, y) ∈ edges g →
    R (ts <- st_targets x;; single e ts) (λ z _ _, z = y) E0 G g.
  Proof.
    intros Hx Hl He. assert (l ≠ LZero) by by intros ->.
    eapply R_bind; [by eapply R_targets| |by auto].
    intros ts G' g' Hok' X [Hnd Hts].
    assert (ts = [y]) as ->.
    { apply NoDup_single; [done| |].
      - apply Hts. by apply X.
      - intros z Hz. apply Hts in Hz. eapply (ok_target _ _ _ Hok'); [done|by apply X| |done].
        by eapply (ext_lab_lookup X). }
    by apply R_ret.
  Qed.

  Lemma valid_zero_strict G g : zp = ZStrict → ok F G g → ¬ valid zp g 0.
  Proof. intros -> Hok [H|[? _]]; [|done]. by apply (ok_zero_node _ _ _ Hok). Qed.

  Definition bad : post abn := λ ab _ _, ab = AErr EStorage.

  Lemma R_getref_zero_strict (Q : post (N * N)) G g :
    zp = ZStrict → R (st_getref 0) Q bad G g.
  Proof.
    intros Hz Hok. simpl. split; [done|]. intros G1 g1 Hok1 X1. split; [|done].
    intros r g2 [_ Hs]. destruct Hs as [-> ->]; [by eapply valid_zero_strict|]. done.
  Qed.

  Lemma zero_bwd G g : ok F G g → bwd g !! 0%N = None.
  Proof.
    intros Hok. destruct (bwd g !! 0%N) as [x|] eqn:Hb; [|done].
    apply (ok_inv _ _ _ Hok) in Hb. destruct (ok_ref _ _ _ Hok _ _ Hb) as (lx&ly&_&Hy&Hr).
    rewrite (ok_zero _ _ _ Hok) in Hy. simplify_eq. by destruct lx.
  Qed.
  Lemma zero_fwd G g : ok F G g → fwd g !! 0%N = None.
  Proof.
    intros Hok. destruct (fwd g !! 0%N) as [x|] eqn:Hb; [|done].
    destruct (ok_ref _ _ _ Hok _ _ Hb) as (lx&ly&Hx&_&Hr).
    rewrite (ok_zero _ _ _ Hok) in Hx. by simplify_eq.
  Qed.

  Lemma R_getref_zero G g : zp = ZNode → R (st_getref 0) (λ r _ _, r = (0%N, 0%N)) E0 G g.
  Proof.
    intros Hz. apply R_invoke; [done| |done].
    intros G1 g1 Hok1 X r [Hr _]. destruct Hr as [-> _]; [by right|].
    exists (0%N, 0%N). split; [|done]. by rewrite (zero_bwd _ _ Hok1), (zero_fwd _ _ Hok1).
  Qed.

  Lemma R_targets_zero G g : zp = ZNode →
    R (st_targets 0) (λ ts G' g', NoDup ts ∧ ∀ y, y ∈ ts ↔ (0%N, y) ∈ edges g') E0 G g.
  Proof.
    intros Hz. apply R_invoke; [done| |done].
    intros G1 g1 Hok1 X r [Hr _]. destruct Hr as (ts&?&?&?&?); [by right|eauto].
  Qed.

  Lemma W_connect_zero_strict n y (Q : post unit) G g :
    zp = ZStrict → W n (st_connect 0 y) Q (λ ab G' g', ab = AErr EStorage ∧ G' = G ∧ g' = g) G g.
  Proof.
    intros Hz Hok Hq. simpl. split.
    - intros r g' [_ Hs]. destruct Hs as [-> ->]; [intros [Hv _]; by eapply valid_zero_strict in Hv|].
      exists G. split_and!; auto. simpl. split_and!; auto.
    - intros Hfk. split_and!; auto.
  Qed.

  Lemma W_connect_zero n x y lx ly G g :
    zp = ZNode →
    lab G !! x = Some lx → lab G !! y = Some ly → edge_ok lx ly → rank lx ≤ n →
    exposed G (add_edge x y g) lx ly y →
    (sole lx → ∀ z, (x, z) ∈ edges g → z = y) →
    (one_source ly → ∀ z, (z, y) ∈ edges g → z = x) →
    (distinct_children lx → ∀ z, (x, z) ∈ edges g → lab G !! z = Some ly → z = y) →
    (y = bitIdentifier → bits G = BPart) →
    W n (st_connect x y) (λ _ G' g', G' = G ∧ g' = add_edge x y g) E0 G g.
  Proof.
    intros Hz Hx Hy ??????? Hok Hq. apply wp_invoke; [|by apply fin_E0].
    assert (Hv : ∀ x l, lab G !! x = Some l → valid zp g x).
    { intros x' l Hl. destruct (decide (l = LZero)) as [->|]; [|by eapply ok_valid].
      right. split; [done|]. by apply (ok_zero_only _ _ _ Hok). }
    intros r g' [Hs _]. destruct Hs as [-> ->]; [split; by eapply Hv|].
    exists tt, G. split_and!; auto using ext_add_edge.
    - eapply ok_add_edge; eauto. intros [?|[??]]; eauto using sole_of_target, sole_of_head.
    - split_and!; eauto using extn_add_edge.
  Qed.
End rules.

Global Opaque W R.
