(** A second logic for programs that run next to others: it knows the texts. *)
From stdpp Require Import gmap.
From Coq Require Import NArith ZArith Lia.
From Verif Require Import Base GoText Model1 Model2 Model3 Storage Inv Wp Steps Entity BitProofs.
Local Open Scope nat_scope.

(** What nobody but their owner does to the nodes in [D]: set their references,
    and add edges where only one edge may be. *)
Definition keep (D : gset N) (G : ghost) (g g' : graph) : Prop :=
  ∀ x l, x ∈ D → lab G !! x = Some l →
    fwd g' !! x = fwd g !! x ∧ bwd g' !! x = bwd g !! x ∧
    (one_target l → ∀ y, (x, y) ∈ edges g' → (x, y) ∈ edges g) ∧
    (one_source l → ∀ y, (y, x) ∈ edges g' → (y, x) ∈ edges g).

Lemma keep_refl D G g : keep D G g g.
Proof. by intros x l _ _. Qed.
Lemma keep_sub D D' G g g' : D' ⊆ D → keep D G g g' → keep D' G g g'.
Proof. intros HD H x l Hx. apply H. set_solver. Qed.
Lemma keep_trans D G g G1 g1 g2 : ext G g G1 g1 → keep D G g g1 → keep D G1 g1 g2 → keep D G g g2.
Proof.
  intros X H1 H2 x l Hx Hl. destruct (H1 x l Hx Hl) as (A1&A2&A3&A4).
  destruct (H2 x l Hx (ext_lab_lookup X _ _ Hl)) as (B1&B2&B3&B4).
  rewrite B1, B2. split_and!; auto.
Qed.
Lemma keep_union D D' G g g' : keep D G g g' → keep D' G g g' → keep (D ∪ D') G g g'.
Proof. intros H1 H2 x l [Hx|Hx]%elem_of_union; auto. Qed.
Lemma keep_empty G g g' : keep ∅ G g g'.
Proof. intros x l Hx. set_solver. Qed.
Global Hint Resolve keep_refl keep_empty : core.

(** Both layers below the texts are there. *)
Definition live (G : ghost) : Prop := up G ∧ ∃ z o, bits G = BReady z o.
Lemma live_mono {G g G' g'} : ext G g G' g' → live G → live G'.
Proof. intros X (Hup&z&o&Hb). split; [by apply (up_mono X)|]. exists z, o. by apply (ext_ready X). Qed.

Lemma both_valid g x y :
  valid ZStrict g x ∧ valid ZStrict g y ∨ ¬ (valid ZStrict g x ∧ valid ZStrict g y).
Proof.
  assert (∀ z, valid ZStrict g z ↔ z ∈ nodes g) as H.
  { intros z. split; [by intros [?|[? _]]|by left]. }
  rewrite !H. destruct (decide (x ∈ nodes g ∧ y ∈ nodes g)); auto.
Qed.

Ltac inside :=
  first [assumption | apply elem_of_singleton; reflexivity | apply elem_of_union_l; solve [inside] | apply elem_of_union_r; inside].

Ltac parts H :=
  first [apply elem_of_union in H as [H|H]; parts H | apply elem_of_singleton in H; subst | idtac].

Ltac sets :=
  try match goal with D := _ ∪ _ : gset N |- _ => unfold D in * end;
  lazymatch goal with
  | |- _ ⊆ _ => let H := fresh in intros ? H; parts H; inside
  | |- _ ∉ _ => intros ?; match goal with H : _ ∉ _ |- False => apply H; inside end
  | |- _ => inside
  end.

Section logic.
  Context (F : nat).

  (** Only the results matter here. *)
  Fixpoint cwp {A} (p : prog A) (Q : post A) (G : ghost) (g : graph) (D : gset N) : Prop :=
    match p with
    | Ret a => Q a G g
    | Throw _ | Panic | Diverge => True
    | Call c k =>
      ∀ G1 g1, ext G g G1 g1 → ok F G1 g1 → keep D G g g1 →
      (∀ r g2, gstep ZStrict g1 c r g2 →
        ∃ G2 D2, ext G1 g1 G2 g2 ∧ ok F G2 g2 ∧ keep (nodes g1 ∖ D) G1 g1 g2 ∧
          D2 ⊆ D ∪ nodes g2 ∖ nodes g1 ∧ cwp (k r) Q G2 g2 D2) ∧
      cwp (k (Err EStorage)) Q G1 g1 D
    | LoadBits k =>
      ∀ G1 g1 m, ext G g G1 g1 → ok F G1 g1 → keep D G g g1 → cache_ok G1 m → cwp (k m) Q G1 g1 D
    | StoreBits m k => cache_ok G m ∧ cwp k Q G g D
    end.

  Lemma cwp_weaken {A} (p : prog A) Q G g D D' :
    D ⊆ D' → cwp p Q G g D → cwp p Q G g D'.
  Proof.
    revert G g D D'. induction p; simpl; intros G g D D' HD Hp; auto.
    - intros G1 g1 X1 Hok1 Hk1. destruct (Hp G1 g1 X1 Hok1) as [H1 H2]; [by eapply keep_sub|].
      split; [|by eapply H].
      intros r g2 Hg. destruct (H1 r g2 Hg) as (G2&D2&?&?&?&?&?). exists G2, D2. split_and!; auto.
      + eapply keep_sub; [|eassumption]. set_solver.
      + set_solver.
    - intros G1 g1 m X1 Hok1 Hk1 Hm. eapply H; [done|]. apply Hp; auto. by eapply keep_sub.
    - destruct Hp. split; [done|]. by eapply IHp.
  Qed.

  (** Started with [D1] at its disposal, while [D] is kept for later. *)
  Lemma cwp_seq {A B} (p : prog A) (f : A → prog B) Q1 Q G g D1 D :
    ok F G g → cwp p Q1 G g D1 → D ⊆ nodes g → D ## D1 →
    (∀ a G' g', ok F G' g' → ext G g G' g' → keep D G g g' → Q1 a G' g' → cwp (f a) Q G' g' D) →
    cwp (bind p f) Q G g (D ∪ D1).
  Proof.
    revert G g D1. induction p; simpl; intros G g D1 Hok Hp Hn Hd Hf; auto.
    - eapply cwp_weaken; [apply union_subseteq_l|]. by apply Hf.
    - intros G1 g1 X1 Hok1 Hk1.
      assert (K1 : keep D G g g1) by (eapply keep_sub; [|exact Hk1]; set_solver).
      destruct (Hp G1 g1 X1 Hok1) as [H1 H2]; [eapply keep_sub; [|exact Hk1]; set_solver|].
      assert (N1 : D ⊆ nodes g1) by (etrans; [exact Hn|apply X1]). split.
      + intros r g2 Hg. destruct (H1 r g2 Hg) as (G2&D2&X2&Hok2&K2&HD2&HT). exists G2, (D ∪ D2).
        assert (K2' : keep D G1 g1 g2) by (eapply keep_sub; [|exact K2]; set_solver).
        split_and!; auto.
        * eapply keep_sub; [|exact K2]. set_solver.
        * set_solver.
        * apply H; auto; [etrans; [exact N1|apply X2]|set_solver|].
          intros a G' g' Hok' X' K' HQ. apply Hf; auto.
          -- by eapply ext_trans, ext_trans.
          -- eapply keep_trans; [exact X1|exact K1|]. by eapply keep_trans.
      + apply H; auto. intros a G' g' Hok' X' K' HQ. apply Hf; auto; [by eapply ext_trans|by eapply keep_trans].
    - intros G1 g1 m X1 Hok1 Hk1 Hm.
      assert (K1 : keep D G g g1) by (eapply keep_sub; [|exact Hk1]; set_solver).
      apply H; auto.
      + apply Hp; auto. eapply keep_sub; [|exact Hk1]. set_solver.
      + etrans; [exact Hn|apply X1].
      + intros a G' g' Hok' X' K' HQ. apply Hf; auto; [by eapply ext_trans|by eapply keep_trans].
    - destruct Hp as [Hm Hp]. split; [done|]. by apply IHp.
  Qed.

  Lemma cwp_conseq {A} (p : prog A) (Q Q' : post A) G g D :
    ok F G g → cwp p Q G g D →
    (∀ a G' g', ok F G' g' → ext G g G' g' → Q a G' g' → Q' a G' g') → cwp p Q' G g D.
  Proof.
    revert G g D. induction p; simpl; intros G g D Hok Hp HQ; auto.
    - intros G1 g1 X1 Hok1 Hk1. destruct (Hp G1 g1 X1 Hok1 Hk1) as [H1 H2]. split.
      + intros r g2 Hg. destruct (H1 r g2 Hg) as (G2&D2&?&?&?&?&?). exists G2, D2. split_and!; auto.
        eapply H; eauto using ext_trans.
      + eapply H; eauto using ext_trans.
    - intros G1 g1 m X1 Hok1 Hk1 Hm. eapply H; eauto using ext_trans.
    - destruct Hp. split; [done|]. by eapply IHp.
  Qed.

  Lemma cwp_try {A} (p : prog A) (Q : post (res A)) G g D :
    cwp p (λ a, Q (Ok a)) G g D → (∀ e G' g', Q (Err e) G' g') → cwp (try p) Q G g D.
  Proof.
    revert G g D. induction p; simpl; intros G g D Hp HE; auto.
    - intros G1 g1 X1 Hok1 Hk1. destruct (Hp G1 g1 X1 Hok1 Hk1) as [H1 H2]. split; [|by apply H].
      intros r g2 Hg. destruct (H1 r g2 Hg) as (G2&D2&?&?&?&?&?). exists G2, D2. split_and!; auto.
    - destruct Hp. split; [done|]. by apply IHp.
  Qed.

  (** Readers. *)
  Lemma rwp_cwp {A} (p : prog A) Q E G g D : rwp ZStrict true F p Q E G g → cwp p Q G g D.
  Proof.
    revert G g. induction p; simpl; intros G g Hp; auto.
    - intros G1 g1 X1 Hok1 _. destruct Hp as [Hc Hp]. destruct (Hp G1 g1 Hok1 X1) as [H1 H2]. split; [|auto].
      intros r g2 Hg. pose proof (gstep_read _ _ Hc _ _ _ Hg). subst g2. exists G1, D. split_and!; auto.
      + set_solver.
      + apply H. by eapply H1.
    - destruct Hp. split; [done|]. by apply IHp.
  Qed.

  (** ** The working form *)
  Definition C {A} (p : prog A) (Q : post A) (G : ghost) (g : graph) (D : gset N) : Prop :=
    ok F G g → live G → D ⊆ nodes g → cwp p Q G g D.

  Lemma C_seq {A B} (p : prog A) (f : A → prog B) Q1 Q G g D :
    C p Q1 G g ∅ →
    (∀ a G' g', ok F G' g' → ext G g G' g' → keep D G g g' → Q1 a G' g' → C (f a) Q G' g' D) →
    C (bind p f) Q G g D.
  Proof.
    intros Hp Hf Hok Hl Hn. replace D with (D ∪ ∅) by set_solver.
    eapply cwp_seq; [done|by apply Hp; [..|set_solver]|done|set_solver|].
    intros a G' g' Hok' X K HQ. apply Hf; auto; [by eapply live_mono|]. etrans; [exact Hn|apply X].
  Qed.
  Lemma C_ret {A} (a : A) (Q : post A) G g D : (ok F G g → live G → Q a G g) → C (Ret a) Q G g D.
  Proof. intros H Hok Hl _. simpl. auto. Qed.
  Lemma C_conseq {A} (p : prog A) (Q Q' : post A) G g D :
    C p Q G g D → (∀ a G' g', ok F G' g' → ext G g G' g' → Q a G' g' → Q' a G' g') → C p Q' G g D.
  Proof. intros Hp HQ Hok Hl Hn. eapply cwp_conseq; [done|by apply Hp|done]. Qed.
  Lemma C_try {A} (p : prog A) (Q : post (res A)) G g D :
    C p (λ a, Q (Ok a)) G g D → (∀ e G' g', Q (Err e) G' g') → C (try p) Q G g D.
  Proof. intros Hp HE Hok Hl Hn. apply cwp_try; auto. Qed.
  Lemma C_intro {A} (p : prog A) (Q : post A) G g D :
    (ok F G g → live G → D ⊆ nodes g → C p Q G g D) → C p Q G g D.
  Proof. intros H Hok Hl Hn. by apply H. Qed.
  Lemma C_throw {A} e (Q : post A) G g D : C (Throw e) Q G g D.
  Proof. by intros ???. Qed.
  Lemma C_panic {A} (Q : post A) G g D : C Panic Q G g D.
  Proof. by intros ???. Qed.
  Lemma C_diverge {A} (Q : post A) G g D : C Diverge Q G g D.
  Proof. by intros ???. Qed.
  Lemma C_read {A} (p : prog A) (Q : post A) E G g D : R ZStrict true F p Q E G g → C p Q G g D.
  Proof. intros HR Hok Hl Hn. eapply rwp_cwp. Transparent R. by apply HR. Opaque R. Qed.
  Lemma C_seqR {A B} (p : prog A) (f : A → prog B) Q1 E Q G g D :
    R ZStrict true F p Q1 E G g →
    (∀ a G' g', ok F G' g' → ext G g G' g' → keep D G g g' → Q1 a G' g' → C (f a) Q G' g' D) →
    C (bind p f) Q G g D.
  Proof. intros HR. apply C_seq. by eapply C_read. Qed.
  Lemma C_unit {A} (p : prog A) Q G g D : C (x <- p;; Ret x)%prog Q G g D → C p Q G g D.
  Proof.
    intros H Hok Hl Hn. specialize (H Hok Hl Hn). clear Hok Hl Hn. revert G g D H.
    induction p; simpl; intros G g D Hp; auto.
    - intros G1 g1 X1 Hok1 Hk1. destruct (Hp G1 g1 X1 Hok1 Hk1) as [H1 H2]. split; [|by apply H].
      intros r g2 Hg. destruct (H1 r g2 Hg) as (G2&D2&?&?&?&?&?). exists G2, D2. split_and!; auto.
    - destruct Hp. split; [done|]. by apply IHp.
  Qed.
  Lemma C_assoc {A B E} (p : prog A) (q : A → prog B) (f : B → prog E) Q G g D :
    C (bind p (λ x, bind (q x) f)) Q G g D → C (bind (bind p q) f) Q G g D.
  Proof.
    intros H Hok Hl Hn. specialize (H Hok Hl Hn). clear Hok Hl Hn. revert G g D H.
    induction p; simpl; intros G g D Hp; auto.
    - intros G1 g1 X1 Hok1 Hk1. destruct (Hp G1 g1 X1 Hok1 Hk1) as [H1 H2]. split; [|by apply H].
      intros r g2 Hg. destruct (H1 r g2 Hg) as (G2&D2&?&?&?&?&?). exists G2, D2. split_and!; auto.
    - destruct Hp. split; [done|]. by apply IHp.
  Qed.
  Lemma C_deref {A B} (x : option A) (f : A → prog B) Q G g D :
    (∀ a, x = Some a → C (f a) Q G g D) → C (bind (deref x) f) Q G g D.
  Proof. intros H. destruct x; simpl; [by apply H|apply C_panic]. Qed.

  (** ** Single storage calls *)
  Lemma C_create {A} l (f : N → prog A) Q G g D :
    label_ok F l → plain l →
    (∀ x G' g', ok F G' g' → ext (set_lab x l G) (add_node x g) G' g' →
      keep ({[x]} ∪ D) (set_lab x l G) (add_node x g) g' → lab G !! x = None →
      C (f x) Q G' g' ({[x]} ∪ D)) →
    C (bind st_create f) Q G g D.
  Proof.
    intros Hl Hp Hf Hok Hlive Hn G1 g1 X1 Hok1 Hk1. split; [|done].
    intros r g2 (x&->&Hx0&Hx&_&->). cbn [bind].
    assert (Hx1 : lab G1 !! x = None) by by eapply ok_fresh_lab.
    assert (Hxn : x ∉ nodes g) by (intros ?; by apply Hx, X1).
    assert (HxG : lab G !! x = None) by by eapply ok_fresh_lab.
    assert (l ≠ LZero) by by intros ->.
    assert (Hok2 : ok F (set_lab x l G1) (add_node x g1)).
    { apply ok_add_node; auto; intros ? ->; done. }
    assert (X2 : ext G1 g1 (set_lab x l G1) (add_node x g1)) by by apply ext_create.
    exists (set_lab x l G1), ({[x]} ∪ D). split_and!; auto.
    - by intros y ly _ _.
    - simpl. set_solver.
    - simpl. apply Hf; auto.
      + destruct X1. split; simpl; auto.
        * by apply insert_mono.
        * set_solver.
      + intros y ly Hy Hly. simpl in *. destruct (decide (y = x)) as [->|Hyx].
        * rewrite !(ok_fwd_none Hok _ HxG), !(ok_bwd_none Hok _ HxG), !(ok_fwd_none Hok1 _ Hx1), !(ok_bwd_none Hok1 _ Hx1).
          split_and!; auto.
          -- intros _ y He. by apply (ok_iso Hok1 x Hx1) in He.
          -- intros _ y He. by apply (ok_iso Hok1 x Hx1) in He.
        * rewrite lookup_insert_ne in Hly by done. apply Hk1; [set_solver|done].
      + by eapply live_mono, live_mono.
      + simpl. pose proof (ext_nodes _ _ _ _ X1). set_solver.
  Qed.

  Lemma C_connect {A} lx ly x y (f : unit → prog A) Q G g D :
    lab G !! x = Some lx → lab G !! y = Some ly → edge_ok lx ly →
    exposed G (add_edge x y g) lx ly y →
    (one_target lx → x ∈ D ∧ ∀ z, (x, z) ∉ edges g) →
    (one_source ly → y ∈ D ∧ ∀ z, (z, y) ∉ edges g) →
    y ≠ bitIdentifier → solo G = false →
    (∀ G' g', ok F G' g' → ext G (add_edge x y g) G' g' → keep D G (add_edge x y g) g' → C (f tt) Q G' g' D) →
    C (bind (st_connect x y) f) Q G g D.
  Proof.
    intros Hx Hy Hxy Hexp Ht Hs Hb Hsolo Hf Hok Hlive Hn G1 g1 X1 Hok1 Hk1. split; [|done].
    intros r g2 Hg.
    pose proof (ext_lab_lookup X1 _ _ Hx) as Hx1. pose proof (ext_lab_lookup X1 _ _ Hy) as Hy1.
    assert (X2 : ext G (add_edge x y g) G1 (add_edge x y g1)).
    { destruct X1. split; simpl; auto. set_solver. }
    destruct (both_valid g1 x y) as [Hv|Hv].
    2: { destruct Hg as [_ Hg]. destruct (Hg Hv) as [-> ->]. exists G1, D. split_and!; auto; [set_solver|done]. }
    destruct Hg as [Hg _]. destruct (Hg Hv) as [-> ->].
    assert (Ht1 : one_target lx → ∀ z, (x, z) ∉ edges g1).
    { intros H z Hz. destruct (Ht H) as [HD Hno]. apply (Hno z). by eapply (Hk1 x lx HD Hx). }
    assert (Hs1 : one_source ly → ∀ z, (z, y) ∉ edges g1).
    { intros H z Hz. destruct (Hs H) as [HD Hno]. apply (Hno z). by eapply (Hk1 y ly HD Hy). }
    assert (Hsolo1 : solo G1 = false) by (rewrite <- Hsolo; apply X1).
    assert (Hok2 : ok F G1 (add_edge x y g1)).
    { eapply ok_add_edge; eauto; try congruence.
      - by eapply (exposed_mono X2).
      - intros [H|[? _]] z Hz; [|congruence]. by apply Ht1 in Hz.
      - intros H z Hz. by apply Hs1 in Hz.
      }
    exists G1, D. split_and!; auto.
    - apply ext_add_edge.
    - intros u lu Hu Hlu. simpl. split_and!; auto.
      + intros Hlt v [[= -> ->]%elem_of_singleton|?]%elem_of_union; [|done].
        exfalso. assert (lu = lx) as -> by congruence. apply Ht in Hlt as [? _]. set_solver.
      + intros Hlt v [[= -> ->]%elem_of_singleton|?]%elem_of_union; [|done].
        exfalso. assert (lu = ly) as -> by congruence. apply Hs in Hlt as [? _]. set_solver.
    - set_solver.
    - cbn [bind]. apply Hf; auto.
      + intros u lu Hu Hlu. destruct (Hk1 u lu Hu Hlu) as (A1&A2&A3&A4). simpl. split_and!; auto; intros Hlt v Hv'; set_solver.
      + by eapply live_mono.
      + etrans; [exact Hn|]. simpl. apply X1.
  Qed.

  (** The edge is there already. *)
  Lemma C_reconnect {A} x y (f : unit → prog A) Q G g D :
    (x, y) ∈ edges g →
    (∀ G' g', ok F G' g' → ext G g G' g' → keep D G g g' → C (f tt) Q G' g' D) →
    C (bind (st_connect x y) f) Q G g D.
  Proof.
    intros He Hf Hok Hlive Hn G1 g1 X1 Hok1 Hk1. split; [|done].
    intros r g2 Hg. apply (ext_edge X1) in He. 
    assert (Hsame : add_edge x y g1 = g1).
    { destruct g1 as [n e fw bw]. unfold add_edge. simpl in *. f_equal. set_solver. }
    exists G1, D.
    destruct (both_valid g1 x y) as [Hv|Hv].
    - destruct Hg as [Hg _]. destruct (Hg Hv) as [-> ->]. rewrite Hsame. split_and!; auto; [set_solver|].
      cbn [bind]. apply Hf; auto; [by eapply live_mono|]. etrans; [exact Hn|apply X1].
    - destruct Hg as [_ Hg]. destruct (Hg Hv) as [-> ->]. split_and!; auto; [set_solver|done].
  Qed.

  Lemma C_connect_zero {A} x y (f : unit → prog A) Q G g D :
    x = 0%N ∨ y = 0%N → C (bind (st_connect x y) f) Q G g D.
  Proof.
    intros H Hok Hlive Hn G1 g1 X1 Hok1 Hk1. split; [|done]. intros r g2 [_ Hg].
    destruct Hg as [-> ->].
    { intros [[Hx|[? _]] [Hy|[? _]]]; try done. destruct H as [->| ->]; by eapply (ok_zero_node _ _ _ Hok1). }
    exists G1, D. split_and!; auto; [set_solver|done].
  Qed.

  Lemma C_setref {A} lx ly x y (f : unit → prog A) Q G g D :
    lab G !! x = Some lx → lab G !! y = Some ly → ref_ok lx ly → x ∈ D → y ∈ D →
    fwd g !! x = None → bwd g !! y = None → (∀ k, lx = LCls k → (x, k) ∈ edges g) →
    (∀ G' g', ok F G' g' → ext G (add_ref x y g) G' g' → keep D G (add_ref x y g) g' → C (f tt) Q G' g' D) →
    C (bind (st_setref x y) f) Q G g D.
  Proof.
    intros Hx Hy Hr Dx Dy Fx By Hcl Hf Hok Hlive Hn G1 g1 X1 Hok1 Hk1. split; [|done].
    intros r g2 Hg.
    pose proof (ext_lab_lookup X1 _ _ Hx) as Hx1. pose proof (ext_lab_lookup X1 _ _ Hy) as Hy1.
    destruct (Hk1 x lx Dx Hx) as (F1&_). destruct (Hk1 y ly Dy Hy) as (_&B1&_). rewrite Fx in F1. rewrite By in B1.
    assert (lx ≠ LZero) by by intros ->. assert (ly ≠ LZero) by by intros ->; destruct lx.
    destruct Hg as [Hg _]. destruct Hg as [-> ->]; auto.
    { split; by eapply ok_valid. }
    assert (Hok2 : ok F G1 (add_ref x y g1)).
    { eapply ok_add_ref; eauto. intros k Hk. by apply (ext_edge X1), Hcl. }
    exists G1, D. split_and!; auto.
    - by apply ext_add_ref.
    - intros u lu Hu Hlu. simpl. rewrite !lookup_insert_ne by set_solver. done.
    - set_solver.
    - cbn [bind]. apply Hf; auto.
      + destruct X1. split; simpl; auto; by apply insert_mono.
      + intros u lu Hu Hlu. destruct (Hk1 u lu Hu Hlu) as (A1&A2&A3&A4). simpl. split_and!; auto.
        * destruct (decide (u = x)) as [->|]; [by rewrite !lookup_insert|by rewrite !lookup_insert_ne].
        * destruct (decide (u = y)) as [->|]; [by rewrite !lookup_insert|by rewrite !lookup_insert_ne].
      + by eapply live_mono.
      + etrans; [exact Hn|]. simpl. apply X1.
  Qed.

  (** ** New entities *)

  (** No edge is where only one may be. *)
  Definition bare (x : N) (l : label) (g : graph) : Prop :=
    (one_target l → ∀ y, (x, y) ∉ edges g) ∧ (one_source l → ∀ y, (y, x) ∉ edges g).
  Lemma bare_keep D G g g' x l : keep D G g g' → x ∈ D → lab G !! x = Some l → bare x l g → bare x l g'.
  Proof.
    intros K Hx Hl [H1 H2]. destruct (K x l Hx Hl) as (_&_&K1&K2).
    split; intros Ho y Hy; [by eapply H1, K1|by eapply H2, K2].
  Qed.
  Lemma bare_add_ref u v x l g : bare x l g → bare x l (add_ref u v g).
  Proof. done. Qed.
  Lemma fwd_keep D G g g' x l : keep D G g g' → x ∈ D → lab G !! x = Some l → fwd g' !! x = fwd g !! x.
  Proof. intros K Hx Hl. by destruct (K x l Hx Hl). Qed.
  Lemma bwd_keep D G g g' x l : keep D G g g' → x ∈ D → lab G !! x = Some l → bwd g' !! x = bwd g !! x.
  Proof. intros K Hx Hl. by destruct (K x l Hx Hl) as (_&?&_). Qed.

  (** A node nobody else knows of. *)
  Definition blank (x : N) (l : label) (G : ghost) (g : graph) : Prop :=
    lab G !! x = Some l ∧ fwd g !! x = None ∧ bwd g !! x = None ∧ bare x l g.
  Lemma blank_keep D G g G' g' x l : ext G g G' g' → keep D G g g' → x ∈ D → blank x l G g → blank x l G' g'.
  Proof.
    intros X K Hx (Hl&Hf&Hb&He). split_and!; [by eapply ext_lab_lookup|..].
    - by rewrite (fwd_keep _ _ _ _ _ _ K Hx Hl).
    - by rewrite (bwd_keep _ _ _ _ _ _ K Hx Hl).
    - by eapply bare_keep.
  Qed.
  Lemma blank_other_lab y l' x l G g : lab G !! y = None → blank x l G g → blank x l (set_lab y l' G) (add_node y g).
  Proof. intros Hy (Hl&?). split; [|done]. simpl. by rewrite lookup_insert_ne by congruence. Qed.
  Lemma blank_other_edge u v x l G g :
    (one_target l → u ≠ x) → (one_source l → v ≠ x) → blank x l G g → blank x l G (add_edge u v g).
  Proof.
    intros Hu Hv (Hl&Hf&Hb&H1&H2). split_and!; auto. split; simpl; intros Ho y Hy.
    - apply elem_of_union in Hy as [Hy|Hy]; [|by eapply H1]. apply elem_of_singleton in Hy. naive_solver.
    - apply elem_of_union in Hy as [Hy|Hy]; [|by eapply H2]. apply elem_of_singleton in Hy. naive_solver.
  Qed.
  Lemma blank_other_ref u v x l G g : u ≠ x → v ≠ x → blank x l G g → blank x l G (add_ref u v g).
  Proof.
    intros Hu Hv (Hl&Hf&Hb&He). split_and!; simpl; auto; by rewrite lookup_insert_ne.
  Qed.

  Lemma C_new {A} l (f : N → prog A) Q G g D :
    label_ok F l → plain l →
    (∀ x G' g', ok F G' g' → ext G g G' g' → keep D G g g' → lab G !! x = None →
      blank x l G' g' → x ∉ D → C (f x) Q G' g' ({[x]} ∪ D)) →
    C (bind st_create f) Q G g D.
  Proof.
    intros Hl Hp Hf. apply C_intro. intros Hok Hlive Hn. eapply C_create; [exact Hl|done|].
    intros x G' g' Hok' X K Hx.
    assert (X0 : ext G g (set_lab x l G) (add_node x g)) by by apply ext_create.
    assert (HxD : x ∉ D). { intros Hd. apply Hn in Hd. apply (ok_node_lab Hok) in Hd as [? ?]. congruence. }
    apply Hf; auto.
    - by eapply ext_trans.
    - eapply keep_trans; [exact X0|done|]. eapply keep_sub; [|exact K]. set_solver.
    - eapply blank_keep; [exact X|exact K|set_solver|]. split_and!; simpl.
      + apply lookup_insert.
      + by apply (ok_fwd_none Hok).
      + by apply (ok_bwd_none Hok).
      + split; simpl; intros _ y Hy; by apply (ok_iso Hok x Hx) in Hy.
  Qed.

  Lemma C_class_new {A} k (f : N → prog A) Q G g D :
    (2 <= k <= 8)%N → solo G = false →
    (∀ x G' g', ok F G' g' → ext G g G' g' → keep D G g g' → lab G !! x = None →
      blank x (LCls k) G' g' → (x, k) ∈ edges g' → x ∉ D → C (f x) Q G' g' ({[x]} ∪ D)) →
    C (bind (class_new k) f) Q G g D.
  Proof.
    intros Hk Hs Hf. apply C_intro. intros Hok Hlive Hn.
    apply C_assoc, (C_new (LCls k)); [done..|].
    intros x G1 g1 Hok1 X1 K1 Hx Bx HxD. destruct Hlive as [Hup _].
    assert (Hk1 : lab G1 !! k = Some (LRoot k)) by (apply (up_mono X1 Hup); lia).
    assert (x ≠ k). { intros ->. rewrite Hup in Hx by lia. done. }
    apply C_assoc, (C_connect (LCls k) (LRoot k)); simpl; [apply Bx|done|done|done|done|done|unfold bitIdentifier; lia| |].
    { rewrite <- Hs. apply X1. }
    intros G2 g2 Hok2 X2 K2. apply Hf; auto.
    - eapply ext_trans, ext_trans; [exact X1|apply ext_add_edge|exact X2].
    - eapply keep_trans; [exact X1|exact K1|]. eapply keep_trans; [apply (ext_add_edge x k)| |eapply keep_sub; [|exact K2]; set_solver].
      intros u lu Hu Hlu. simpl. split_and!; auto; intros Ho v Hv.
      + apply elem_of_union in Hv as [[= -> ->]%elem_of_singleton|?]; [|done]. done.
      + apply elem_of_union in Hv as [[= -> ->]%elem_of_singleton|?]; [|done]. rewrite Hk1 in Hlu. by injection Hlu as <-.
    - eapply blank_keep; [exact X2|exact K2|set_solver|]. by apply blank_other_edge.
    - apply (ext_edge X2). simpl. set_solver.
  Qed.

  (** The row [x], [a], [b], [c] of a new entity. *)
  Record row (k : N) (la lb lc : label) (G : ghost) (g : graph) (x a b c : N) (G' : ghost) (g' : graph) : Prop := {
    row_labs : labs4 G' x a b c (LCls k) la lb lc;
    row_refs : refs3 g' x a b c;
    row_x : lab G !! x = None;
    row_a : lab G !! a = None;
    row_b : lab G !! b = None;
    row_c : lab G !! c = None;
    row_nodup : NoDup [x; a; b; c];
    row_bare_a : bare a la g';
    row_bare_b : bare b lb g';
    row_bare_c : bare c lc g'
  }.

  Lemma C_entity {B A} (mk : N → N → N → N → B) k la lb lc (f : B → prog A) Q G g D :
    (2 <= k <= 8)%N → solo G = false →
    ref_ok (LCls k) la → ref_ok la lb → ref_ok lb lc →
    label_ok F la → label_ok F lb → label_ok F lc → plain la → plain lb → plain lc →
    (∀ x a b c G' g', ok F G' g' → ext G g G' g' → keep D G g g' →
      row k la lb lc G g x a b c G' g' → C (f (mk x a b c)) Q G' g' ({[a; b; c]} ∪ D)) →
    C (class <- class_new k;; e <- create3 mk class;; f e)%prog Q G g D.
  Proof.
    intros Hk Hs R1 R2 R3 L1 L2 L3 P1 P2 P3 Hf.
    apply C_class_new; [done..|]. intros x G1 g1 Hok1 X1 K1 Nx Bx Hxk Hxd.
    unfold create3. cbn [bind].
    apply C_assoc, (C_new la); [done..|]. intros a G2 g2 Hok2 X2 K2 Na Ba Had.
    apply C_assoc, (C_new lb); [done..|]. intros b G3 g3 Hok3 X3 K3 Nb Bb Hbd.
    apply C_assoc, (C_new lc); [done..|]. intros c G4 g4 Hok4 X4 K4 Nc Bc Hcd.
    assert (D1 : NoDup [x; a; b; c]).
    { rewrite !NoDup_cons, !not_elem_of_cons.
      split_and!; try apply not_elem_of_nil; try apply NoDup_nil_2; intros ->;
        match goal with H : _ ∉ _ |- False => apply H; inside end. }
    assert (X14 : ext G1 g1 G4 g4) by (eapply ext_trans, ext_trans; eauto).
    assert (X24 : ext G2 g2 G4 g4) by (eapply ext_trans; eauto).
    assert (Bx4 : blank x (LCls k) G4 g4).
    { eapply blank_keep; [exact X4|exact K4|sets|]. eapply blank_keep; [exact X3|exact K3|sets|].
      eapply blank_keep; [exact X2|exact K2|sets|done]. }
    assert (Ba4 : blank a la G4 g4).
    { eapply blank_keep; [exact X4|exact K4|sets|]. eapply blank_keep; [exact X3|exact K3|sets|done]. }
    assert (Bb4 : blank b lb G4 g4) by (eapply blank_keep; [exact X4|exact K4|sets|done]).
    rewrite !NoDup_cons, !not_elem_of_cons in D1. destruct D1 as ((?&?&?&_)&(?&?&_)&(?&_)&_).
    set (Dn := {[c]} ∪ ({[b]} ∪ ({[a]} ∪ ({[x]} ∪ D)))) in *.
    apply C_assoc, (C_setref (LCls k) la); [apply Bx4|apply Ba4|done|sets|sets|apply Bx4|apply Ba4| |].
    { intros k' [= <-]. by apply (ext_edge X14). }
    intros G5 g5 Hok5 X5 K5.
    assert (X45 : ext G4 g4 G5 g5) by (eapply ext_trans; [apply ext_add_ref; [apply Bx4|apply Ba4]|exact X5]).
    assert (Fxa : fwd g5 !! x = Some a) by (apply (ext_fwd_lookup X5); simpl; apply lookup_insert).
    assert (Bb5 : blank b lb G5 g5) by (eapply blank_keep; [exact X5|exact K5|sets|by apply blank_other_ref]).
    assert (Bc5 : blank c lc G5 g5) by (eapply blank_keep; [exact X5|exact K5|sets|by apply blank_other_ref]).
    assert (Fa5 : fwd g5 !! a = None).
    { rewrite (fwd_keep _ _ _ _ a la K5); [simpl; rewrite lookup_insert_ne by done; apply Ba4|sets|apply Ba4]. }
    assert (Ea5 : bare a la g5) by (eapply bare_keep; [exact K5|sets|apply Ba4|apply Ba4]).
    assert (La5 : lab G5 !! a = Some la) by (apply (ext_lab_lookup X45), Ba4).
    apply C_assoc, (C_setref la lb); [done|apply Bb5|done|sets|sets|done|apply Bb5| |].
    { intros k' ->. by destruct R1. }
    intros G6 g6 Hok6 X6 K6.
    assert (X56 : ext G5 g5 G6 g6) by (eapply ext_trans; [apply ext_add_ref; [done|apply Bb5]|exact X6]).
    assert (Fab : fwd g6 !! a = Some b) by (apply (ext_fwd_lookup X6); simpl; apply lookup_insert).
    assert (Bc6 : blank c lc G6 g6) by (eapply blank_keep; [exact X6|exact K6|sets|by apply blank_other_ref]).
    assert (Fb6 : fwd g6 !! b = None).
    { rewrite (fwd_keep _ _ _ _ b lb K6); [simpl; rewrite lookup_insert_ne by done; apply Bb5|sets|apply Bb5]. }
    assert (Ea6 : bare a la g6) by (eapply bare_keep; [exact K6|sets|done|by apply bare_add_ref]).
    assert (Eb6 : bare b lb g6) by (eapply bare_keep; [exact K6|sets|apply Bb5|apply bare_add_ref, Bb5]).
    assert (Lb6 : lab G6 !! b = Some lb) by (apply (ext_lab_lookup X56), Bb5).
    apply C_assoc, (C_setref lb lc); [done|apply Bc6|done|sets|sets|done|apply Bc6| |].
    { intros k' ->. by destruct la. }
    intros G7 g7 Hok7 X7 K7. cbn [bind].
    assert (X67 : ext G6 g6 G7 g7) by (eapply ext_trans; [apply ext_add_ref; [done|apply Bc6]|exact X7]).
    assert (X17 : ext G1 g1 G7 g7) by (eapply ext_trans; [exact X14|]; eapply ext_trans; [exact X45|]; by eapply ext_trans).
    assert (KD : ∀ G g g' u v, u ∉ D → v ∉ D → keep Dn G (add_ref u v g) g' → keep D G g g').
    { intros G0 g0 g' u v Hu Hv K. intros y ly Hy Hly. assert (Hy' : y ∈ Dn) by sets. destruct (K y ly Hy' Hly) as (A1&A2&A3&A4). simpl in *.
      rewrite lookup_insert_ne in A1 by congruence. rewrite lookup_insert_ne in A2 by congruence. auto. }
    intros Hok Hlive Hn. eapply cwp_weaken; [|eapply (Hf x a b c); auto].
    - sets.
    - by eapply ext_trans.
    - assert (K14 : keep D G g g4).
      { eapply keep_trans; [exact X1|exact K1|]. eapply keep_trans; [exact X2|eapply keep_sub; [|exact K2]; sets|].
        eapply keep_trans; [exact X3|eapply keep_sub; [|exact K3]; sets|]. eapply keep_sub; [|exact K4]; sets. }
      eapply keep_trans; [eapply ext_trans; [exact X1|exact X14]|exact K14|].
      eapply keep_trans; [exact X45|eapply KD; [| |exact K5]; sets|].
      eapply keep_trans; [exact X56|eapply KD; [| |exact K6]; sets|].
      eapply KD; [| |exact K7]; sets.
    - split.
      + split_and!.
        * apply (ext_lab_lookup X17), Bx.
        * apply (ext_lab_lookup X67), (ext_lab_lookup X56), La5.
        * apply (ext_lab_lookup X67), Lb6.
        * apply (ext_lab_lookup X67), Bc6.
      + split_and!.
        * by apply (ext_fwd_lookup X67), (ext_fwd_lookup X56).
        * by apply (ext_fwd_lookup X67).
        * apply (ext_fwd_lookup X7). simpl. apply lookup_insert.
      + done.
      + eapply (lookup_weaken_None _ _ _ Na), X1.
      + eapply (lookup_weaken_None _ _ _ Nb), (ext_lab _ _ _ _ (ext_trans _ _ _ _ _ _ X1 X2)).
      + eapply (lookup_weaken_None _ _ _ Nc), (ext_lab _ _ _ _ (ext_trans _ _ _ _ _ _ X1 (ext_trans _ _ _ _ _ _ X2 X3))).
      + rewrite !NoDup_cons, !not_elem_of_cons. split_and!; try apply not_elem_of_nil; try apply NoDup_nil_2; done.
      + eapply bare_keep; [exact K7|sets| |by apply bare_add_ref]. by apply (ext_lab_lookup X56).
      + eapply bare_keep; [exact K7|sets|exact Lb6|by apply bare_add_ref].
      + eapply bare_keep; [exact K7|sets|apply Bc6|apply bare_add_ref, Bc6].
    - etrans; [|exact Hn]. sets.
  Qed.
End logic.

Global Opaque C.
