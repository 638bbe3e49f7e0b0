(** Weakest preconditions over the storage contract.

    [wp] demands the invariant after every single storage call, so it covers
    executions that fail or stop at any point. *)
From stdpp Require Import gmap.
From Coq Require Import NArith ZArith Lia.
From Verif Require Import Base GoText Model1 Model2 Model3 Storage Inv.
Local Open Scope nat_scope.

(** Ways to end other than with a result. *)
Inductive abn := AErr (e : err) | APanic | ADiverge.

Notation post A := (A → ghost → graph → Prop).

Section wp.
  Context (zp : zpolicy) (fk : bool) (F : nat).

  Fixpoint wp {A} (p : prog A) (Q : post A) (E : post abn) (G : ghost) (g : graph) : Prop :=
    match p with
    | Ret a => Q a G g
    | Throw e => E (AErr e) G g
    | Panic => E APanic G g
    | Diverge => E ADiverge G g
    | Call c k =>
      (∀ r g', gstep zp g c r g' →
        ∃ G', ok F G' g' ∧ ext G g G' g' ∧ wp (k r) Q E G' g') ∧
      (fk = true → wp (k (Err EStorage)) Q E G g)
    | LoadBits k => ∀ m, cache_ok G m → wp (k m) Q E G g
    | StoreBits m k => cache_ok G m ∧ wp k Q E G g
    end.

  Definition ended {A} (Q : post A) (E : post abn) (o : outcome A) (G : ghost) (g : graph) : Prop :=
    match o with
    | OOk a => Q a G g
    | OErr e => E (AErr e) G g
    | OPanic => E APanic G g
    | ODiverge => E ADiverge G g
    | OKilled => fk = true
    end.

  Lemma wp_sound {A} (p : prog A) g m o g' m' :
    exec zp fk p g m o g' m' → ∀ Q E G,
    ok F G g → cache_ok G m → wp p Q E G g →
    ∃ G', ok F G' g' ∧ ext G g G' g' ∧ cache_ok G' m' ∧ ended Q E o G' g'.
  Proof.
    induction 1; intros Q E G Hok Hc Hwp; simpl in *.
    - eauto 10.
    - eauto 10.
    - eauto 10.
    - eauto 10.
    - destruct Hwp as [Hwp _]. destruct (Hwp _ _ H) as (G1&Hok1&X1&Hwp1).
      destruct (IHexec Q E G1) as (G2&?&X2&?&?); eauto using cache_ok_mono.
      exists G2. eauto using ext_trans.
    - destruct Hwp as [_ Hwp]. eauto.
    - eauto 10.
    - eauto.
    - destruct Hwp. eauto.
  Qed.

  Lemma wp_bind {A B} (p : prog A) (f : A → prog B) Q E G g :
    wp p (λ a, wp (f a) Q E) E G g → wp (bind p f) Q E G g.
  Proof.
    revert G g. induction p; simpl; intros G g; auto.
    - intros [H1 H2]. split; [|eauto]. intros r g' Hs.
      destruct (H1 r g' Hs) as (G'&?&?&?). eauto 10.
    - intros [H1 H2]; eauto.
  Qed.

  Lemma wp_try {A} (p : prog A) Q E G g :
    wp p (λ a, Q (Ok a)) (λ ab, match ab with AErr e => Q (Err e) | _ => E ab end) G g →
    wp (try p) Q E G g.
  Proof.
    revert G g. induction p; simpl; intros G g; auto.
    - intros [H1 H2]. split; [|eauto]. intros r g' Hs.
      destruct (H1 r g' Hs) as (G'&?&?&?). eauto 10.
    - intros [H1 H2]; eauto.
  Qed.

  (** Consequence, with the invariant and the extension as extra knowledge. *)
  Lemma wp_mono {A} (p : prog A) (Q Q' : post A) (E E' : post abn) G g :
    ok F G g → wp p Q E G g →
    (∀ a G' g', ok F G' g' → ext G g G' g' → Q a G' g' → Q' a G' g') →
    (∀ a G' g', ok F G' g' → ext G g G' g' → E a G' g' → E' a G' g') →
    wp p Q' E' G g.
  Proof.
    revert G g. induction p; simpl; intros G g Hok Hwp HQ HE; auto.
    - destruct Hwp as [H1 H2]. split; [|eauto]. intros r g' Hs.
      destruct (H1 r g' Hs) as (G'&?&?&?). exists G'. split_and!; auto.
      eapply H; eauto using ext_trans.
    - destruct Hwp. eauto.
  Qed.

  Lemma wp_assoc {A B C} (p : prog A) (q : A → prog B) (f : B → prog C) Q E G g :
    wp (bind (bind p q) f) Q E G g ↔ wp (bind p (λ x, bind (q x) f)) Q E G g.
  Proof.
    revert G g. induction p; simpl; intros G g; auto.
    - split; intros [H1 H2]; (split; [|intros; by apply H, H2]); intros r g' Hs;
        destruct (H1 r g' Hs) as (G'&?&?&?); exists G'; split_and!; auto; by apply H.
    - split; intros Hm m ?; by apply H, Hm.
    - by rewrite IHp.
  Qed.

  (** * The working form

      [W n p Q E]: started in a good state, [p] ends in [Q] (or abnormally in
      [E]), adds edges of rank at most [n] only, and does not stop amid the
      initialisation of the bit layer. *)
  Definition fin {A} (n : nat) (G0 : ghost) (g0 : graph) (Q : post A) : post A :=
    λ a G g, quiet G ∧ extn n G0 g0 G g ∧ Q a G g.

  Definition W {A} (n : nat) (p : prog A) (Q : post A) (E : post abn) (G : ghost) (g : graph) : Prop :=
    ok F G g → quiet G → wp p (fin n G g Q) (fin n G g E) G g.

  Lemma W_sound {A} n (p : prog A) g m o g' m' Q E G :
    W n p Q E G g → exec zp fk p g m o g' m' →
    ok F G g → quiet G → cache_ok G m →
    ∃ G', ok F G' g' ∧ ext G g G' g' ∧ cache_ok G' m' ∧
      (o = OKilled ∧ fk = true ∨ quiet G' ∧ extn n G g G' g' ∧ ended Q E o G' g').
  Proof.
    intros HW Hx Hok Hq Hc.
    destruct (wp_sound _ _ _ _ _ _ Hx _ _ _ Hok Hc (HW Hok Hq)) as (G'&?&?&?&He).
    exists G'. split_and!; auto. destruct o; simpl in He; auto; destruct He as (?&?&?); auto.
  Qed.

  Lemma W_intro {A} n (p : prog A) (Q : post A) E G g :
    (ok F G g → quiet G → W n p Q E G g) → W n p Q E G g.
  Proof. intros H ??. by apply H. Qed.

  Lemma W_ret {A} n (a : A) (Q : post A) E G g : (ok F G g → quiet G → Q a G g) → W n (Ret a) Q E G g.
  Proof. intros H ??. simpl. split_and!; auto. Qed.

  Lemma W_throw {A} n e (Q : post A) (E : post abn) G g :
    (ok F G g → quiet G → E (AErr e) G g) → W n (Throw e) Q E G g.
  Proof. intros H ??. simpl. split_and!; auto. Qed.

  Lemma W_panic {A} n (Q : post A) (E : post abn) G g :
    (ok F G g → quiet G → E APanic G g) → W n Panic Q E G g.
  Proof. intros H ??. simpl. split_and!; auto. Qed.

  Lemma W_conseq {A} n n' (p : prog A) (Q Q' : post A) (E E' : post abn) G g :
    W n' p Q E G g → n' ≤ n →
    (∀ a G' g', ok F G' g' → quiet G' → extn n' G g G' g' → Q a G' g' → Q' a G' g') →
    (∀ a G' g', ok F G' g' → quiet G' → extn n' G g G' g' → E a G' g' → E' a G' g') →
    W n p Q' E' G g.
  Proof.
    intros H Hn HQ HE Hok Hq. eapply wp_mono; [done|by apply H|..].
    - intros a G' g' ?? (?&?&?). split_and!; eauto using extn_le.
    - intros a G' g' ?? (?&?&?). split_and!; eauto using extn_le.
  Qed.

  Lemma W_bind {A B} n n' (p : prog A) (f : A → prog B) (Q1 : post A) (E1 : post abn) (Q : post B) (E : post abn) G g :
    W n' p Q1 E1 G g → n' ≤ n →
    (∀ a G' g', ok F G' g' → quiet G' → extn n' G g G' g' → Q1 a G' g' → W n (f a) Q E G' g') →
    (∀ a G' g', ok F G' g' → quiet G' → extn n' G g G' g' → E1 a G' g' → E a G' g') →
    W n (bind p f) Q E G g.
  Proof.
    intros H Hn HQ HE Hok Hq. apply wp_bind. eapply wp_mono; [done|by apply H|..].
    - intros a G' g' ?? (?&?&?). eapply wp_mono; [done|by eapply HQ|..].
      + intros b G2 g2 ?? (?&?&?). split_and!; eauto using extn_trans, extn_le.
      + intros b G2 g2 ?? (?&?&?). split_and!; eauto using extn_trans, extn_le.
    - intros a G' g' ?? (?&?&?). split_and!; eauto using extn_le.
  Qed.

  Lemma W_try {A} n n' (p : prog A) (Q1 : post A) (E1 : post abn) (Q : post (res A)) (E : post abn) G g :
    W n' p Q1 E1 G g → n' ≤ n →
    (∀ a G' g', ok F G' g' → quiet G' → extn n' G g G' g' → Q1 a G' g' → Q (Ok a) G' g') →
    (∀ ab G' g', ok F G' g' → quiet G' → extn n' G g G' g' → E1 ab G' g' →
       match ab with AErr e => Q (Err e) G' g' | _ => E ab G' g' end) →
    W n (try p) Q E G g.
  Proof.
    intros H Hn HQ HE Hok Hq. apply wp_try. eapply wp_mono; [done|by apply H|..].
    - intros a G' g' ?? (?&?&?). split_and!; eauto using extn_le.
    - intros ab G' g' ?? (?&?&?).
      assert (extn n G g G' g') by eauto using extn_le.
      specialize (HE ab G' g'). destruct ab; split_and!; eauto.
  Qed.

  Lemma W_load {A} n k (Q : post A) E G g :
    (∀ m, cache_ok G m → W n (k m) Q E G g) → W n (LoadBits k) Q E G g.
  Proof. intros H ?? m ?. by apply H. Qed.

  Lemma W_store {A} n m k (Q : post A) E G g :
    cache_ok G m → W n k Q E G g → W n (StoreBits m k) Q E G g.
  Proof. intros Hm H ??. split; [done|]. by apply H. Qed.

  Lemma W_assoc {A B C} n (p : prog A) (q : A → prog B) (f : B → prog C) Q E G g :
    W n (bind (bind p q) f) Q E G g → W n (bind p (λ x, bind (q x) f)) Q E G g.
  Proof. intros H ??. by apply wp_assoc, H. Qed.

  Lemma W_assoc_rev {A B C} n (p : prog A) (q : A → prog B) (f : B → prog C) Q E G g :
    W n (bind p (λ x, bind (q x) f)) Q E G g → W n (bind (bind p q) f) Q E G g.
  Proof. intros H ??. by apply wp_assoc, H. Qed.

  Lemma W_assoc3 {A B C D} n (p : prog A) (q : A → prog B) (r : B → prog C) (f : C → prog D) Q E G g :
    W n (bind (bind p (λ x, bind (q x) r)) f) Q E G g →
    W n (bind p (λ x, bind (q x) (λ y, bind (r y) f))) Q E G g.
  Proof.
    intros H Hok Hq. specialize (H Hok Hq). apply wp_assoc in H.
    revert H. generalize (fin n G g Q), (fin n G g E). clear Hok Hq. intros Q' E'.
    revert G g. induction p; simpl; intros G g; auto.
    - apply wp_assoc.
    - intros [H1 H2]. split; [|auto]. intros r' g' Hs. destruct (H1 r' g' Hs) as (G'&?&?&?). eauto 10.
    - intros [H1 H2]. auto.
  Qed.

  (** The abnormal ends faults may cause. *)
  Definition E0 : post abn := λ ab _ _, fk = true ∧ ab ≠ ADiverge.

  (** * Readers *)
  Definition is_read (c : call) : Prop :=
    match c with CHas _ | CSources _ | CTargets _ | CGetRef _ => True | _ => False end.

  (** Only read calls, and between any two of them somebody else may extend the
      contents. *)
  Fixpoint rwp {A} (p : prog A) (Q : post A) (E : post abn) (G : ghost) (g : graph) : Prop :=
    match p with
    | Ret a => Q a G g
    | Throw e => E (AErr e) G g
    | Panic => E APanic G g
    | Diverge => E ADiverge G g
    | Call c k =>
      is_read c ∧ ∀ G1 g1, ok F G1 g1 → ext G g G1 g1 →
      (∀ r g2, gstep zp g1 c r g2 → rwp (k r) Q E G1 g1) ∧
      (fk = true → rwp (k (Err EStorage)) Q E G1 g1)
    | LoadBits k => ∀ G1 g1 m, ok F G1 g1 → ext G g G1 g1 → cache_ok G1 m → rwp (k m) Q E G1 g1
    | StoreBits m k => cache_ok G m ∧ rwp k Q E G g
    end.

  Lemma gstep_read c : is_read c → ∀ g r g', gstep zp g c r g' → g' = g.
  Proof.
    assert (∀ A v g (r : res A) g' P, Decision v → guarded v g r g' P → (P → g' = g) → g' = g) as Hg.
    { intros A v g r g' P D [H1 H2] H3. destruct (decide v); [auto|]. by destruct H2. }
    destruct c; simpl; intros Hr g r g'; try done.
    - by intros [??].
    - intros H; eapply Hg; [|exact H|by intros (?&?&?&?&?)]. unfold valid.
      assert (Decision (zp = ZNode)) by (destruct zp; [right|left]; done). apply _.
    - intros H; eapply Hg; [|exact H|by intros (?&?&?&?&?)]. unfold valid.
      assert (Decision (zp = ZNode)) by (destruct zp; [right|left]; done). apply _.
    - intros H; eapply Hg; [|exact H|by intros (?&?)]. unfold valid.
      assert (Decision (zp = ZNode)) by (destruct zp; [right|left]; done). apply _.
  Qed.

  Definition R {A} (p : prog A) (Q : post A) (E : post abn) (G : ghost) (g : graph) : Prop :=
    ok F G g → rwp p Q E G g.

  Lemma rwp_mono {A} (p : prog A) (Q Q' : post A) (E E' : post abn) G g :
    ok F G g → rwp p Q E G g →
    (∀ a G' g', ok F G' g' → ext G g G' g' → Q a G' g' → Q' a G' g') →
    (∀ a G' g', ok F G' g' → ext G g G' g' → E a G' g' → E' a G' g') →
    rwp p Q' E' G g.
  Proof.
    revert G g. induction p; simpl; intros G g Hok Hwp HQ HE; auto.
    - destruct Hwp as [H1 H2]. split; [done|]. intros G1 g1 Hok1 X1.
      destruct (H2 G1 g1 Hok1 X1) as [H3 H4]. split.
      + intros r g2 Hs. eapply H; eauto using ext_trans.
      + intros Hfk. eapply H; eauto using ext_trans.
    - intros G1 g1 m Hok1 X1 Hm. eapply H; eauto using ext_trans.
    - destruct Hwp. eauto.
  Qed.

  Lemma rwp_bind {A B} (p : prog A) (f : A → prog B) Q E G g :
    rwp p (λ a, rwp (f a) Q E) E G g → rwp (bind p f) Q E G g.
  Proof.
    revert G g. induction p; simpl; intros G g; auto.
    - intros [H1 H2]. split; [done|]. intros G1 g1 Hok1 X1.
      destruct (H2 G1 g1 Hok1 X1) as [H3 H4]. split; eauto.
    - intros [H1 H2]; eauto.
  Qed.

  Lemma rwp_try {A} (p : prog A) Q E G g :
    rwp p (λ a, Q (Ok a)) (λ ab, match ab with AErr e => Q (Err e) | _ => E ab end) G g →
    rwp (try p) Q E G g.
  Proof.
    revert G g. induction p; simpl; intros G g; auto.
    - intros [H1 H2]. split; [done|]. intros G1 g1 Hok1 X1.
      destruct (H2 G1 g1 Hok1 X1) as [H3 H4]. split; eauto.
    - intros [H1 H2]; eauto.
  Qed.

  Lemma rwp_assoc {A B C} (p : prog A) (q : A → prog B) (f : B → prog C) Q E G g :
    rwp (bind (bind p q) f) Q E G g ↔ rwp (bind p (λ x, bind (q x) f)) Q E G g.
  Proof.
    revert G g. induction p; simpl; intros G g; auto.
    - split; intros [H1 H2]; (split; [done|]); intros G1 g1 Hok1 X1;
        destruct (H2 G1 g1 Hok1 X1) as [H3 H4]; (split; [intros r g2 Hs|intros Hfk]);
        apply H; eauto.
    - split; intros Hm G1 g1 m ???; by apply H, Hm.
    - by rewrite IHp.
  Qed.

  Lemma R_assoc {A B C} (p : prog A) (q : A → prog B) (f : B → prog C) Q E G g :
    R (bind (bind p q) f) Q E G g → R (bind p (λ x, bind (q x) f)) Q E G g.
  Proof. intros H ?. by apply rwp_assoc, H. Qed.

  Lemma R_assoc_rev {A B C} (p : prog A) (q : A → prog B) (f : B → prog C) Q E G g :
    R (bind p (λ x, bind (q x) f)) Q E G g → R (bind (bind p q) f) Q E G g.
  Proof. intros H ?. by apply rwp_assoc, H. Qed.

  Lemma R_assoc3 {A B C D} (p : prog A) (q : A → prog B) (r : B → prog C) (f : C → prog D) Q E G g :
    R (bind (bind p (λ x, bind (q x) r)) f) Q E G g →
    R (bind p (λ x, bind (q x) (λ y, bind (r y) f))) Q E G g.
  Proof.
    intros H Hok. specialize (H Hok). apply rwp_assoc in H. clear Hok.
    revert G g H. induction p; simpl; intros G g; auto.
    - apply rwp_assoc.
    - intros [H1 H2]. split; [done|]. intros G1 g1 Hok1 X1.
      destruct (H2 G1 g1 Hok1 X1) as [H3 H4]. split; eauto.
    - intros [H1 H2]. auto.
  Qed.

  Lemma R_intro {A} (p : prog A) (Q : post A) E G g :
    (ok F G g → R p Q E G g) → R p Q E G g.
  Proof. intros H ?. by apply H. Qed.

  Lemma R_ret {A} (a : A) (Q : post A) E G g : (ok F G g → Q a G g) → R (Ret a) Q E G g.
  Proof. intros H ?. simpl. auto. Qed.

  Lemma R_throw {A} e (Q : post A) (E : post abn) G g : (ok F G g → E (AErr e) G g) → R (Throw e) Q E G g.
  Proof. intros H ?. simpl. auto. Qed.

  Lemma R_panic {A} (Q : post A) (E : post abn) G g : (ok F G g → E APanic G g) → R Panic Q E G g.
  Proof. intros H ?. simpl. auto. Qed.

  Lemma R_conseq {A} (p : prog A) (Q Q' : post A) (E E' : post abn) G g :
    R p Q E G g →
    (∀ a G' g', ok F G' g' → ext G g G' g' → Q a G' g' → Q' a G' g') →
    (∀ a G' g', ok F G' g' → ext G g G' g' → E a G' g' → E' a G' g') →
    R p Q' E' G g.
  Proof. intros H ?? Hok. eapply rwp_mono; eauto. Qed.

  Lemma R_bind {A B} (p : prog A) (f : A → prog B) (Q1 : post A) (E1 : post abn) (Q : post B) (E : post abn) G g :
    R p Q1 E1 G g →
    (∀ a G' g', ok F G' g' → ext G g G' g' → Q1 a G' g' → R (f a) Q E G' g') →
    (∀ a G' g', ok F G' g' → ext G g G' g' → E1 a G' g' → E a G' g') →
    R (bind p f) Q E G g.
  Proof.
    intros H HQ HE Hok. apply rwp_bind. eapply rwp_mono; [done|by apply H|..]; [|done].
    intros a G' g' ???. by eapply HQ.
  Qed.

  Lemma R_try {A} (p : prog A) (Q1 : post A) (E1 : post abn) (Q : post (res A)) (E : post abn) G g :
    R p Q1 E1 G g →
    (∀ a G' g', ok F G' g' → ext G g G' g' → Q1 a G' g' → Q (Ok a) G' g') →
    (∀ ab G' g', ok F G' g' → ext G g G' g' → E1 ab G' g' →
       match ab with AErr e => Q (Err e) G' g' | _ => E ab G' g' end) →
    R (try p) Q E G g.
  Proof.
    intros H HQ HE Hok. apply rwp_try. eapply rwp_mono; [done|by apply H|..]; [done|].
    intros ab G' g' ???. specialize (HE ab G' g'). destruct ab; auto.
  Qed.

  Lemma R_load {A} k (Q : post A) E G g :
    (∀ G1 g1 m, ok F G1 g1 → ext G g G1 g1 → cache_ok G1 m → R (k m) Q E G1 g1) →
    R (LoadBits k) Q E G g.
  Proof. intros H ? G1 g1 m ???. by apply H. Qed.

  Lemma R_store {A} m k (Q : post A) E G g :
    cache_ok G m → R k Q E G g → R (StoreBits m k) Q E G g.
  Proof. intros Hm H ?. split; [done|]. by apply H. Qed.

  (** A reader run on its own changes nothing. *)
  Lemma rwp_wp {A} (p : prog A) Q E G g :
    ok F G g → rwp p Q E G g →
    wp p (λ a G' g', G' = G ∧ g' = g ∧ Q a G g) (λ a G' g', G' = G ∧ g' = g ∧ E a G g) G g.
  Proof.
    revert G g. induction p; simpl; intros G g Hok Hr; auto.
    - destruct Hr as [Hc Hr]. destruct (Hr G g Hok (ext_refl _ _)) as [H1 H2]. split; [|eauto].
      intros r g' Hs. assert (g' = g) as -> by by eapply gstep_read.
      exists G. eauto 10.
    - destruct Hr. eauto.
  Qed.

  Lemma R_W {A} n (p : prog A) Q E G g :
    R p Q E G g →
    W n p (λ a G' g', G' = G ∧ g' = g ∧ Q a G g) (λ a G' g', G' = G ∧ g' = g ∧ E a G g) G g.
  Proof.
    intros H Hok Hq. eapply wp_mono; [done|by apply rwp_wp; auto|..];
      intros a G' g' ?? (->&->&?); split_and!; auto.
  Qed.

  Definition le_E0 (E : post abn) : Prop := ∀ ab G g, E0 ab G g → E ab G g.

  Lemma le_E0_refl : le_E0 E0.
  Proof. by intros ???. Qed.

  Lemma W_seq {A B} n n' (p : prog A) (f : A → prog B) (Q1 : post A) (Q : post B) (E : post abn) G g :
    W n' p Q1 E0 G g → le_E0 E → n' ≤ n →
    (∀ a G' g', ok F G' g' → quiet G' → extn n' G g G' g' → Q1 a G' g' → W n (f a) Q E G' g') →
    W n (bind p f) Q E G g.
  Proof. intros H HE Hn HQ. eapply W_bind; [exact H|done|done|]. intros; by apply HE. Qed.

  (** A reader in front. *)
  Lemma W_seqR {A B} n (p : prog A) (f : A → prog B) (Q1 : post A) (Q : post B) (E : post abn) G g :
    R p Q1 E0 G g → le_E0 E →
    (∀ a, ok F G g → quiet G → Q1 a G g → W n (f a) Q E G g) →
    W n (bind p f) Q E G g.
  Proof.
    intros H HE HQ. eapply W_bind; [by eapply R_W|apply le_n| |].
    - intros a G' g' Hok Hq X (->&->&H1). by apply HQ.
    - intros a G' g' Hok Hq X (->&->&H1). by apply HE.
  Qed.

  Lemma R_seq {A B} (p : prog A) (f : A → prog B) (Q1 : post A) (Q : post B) (E : post abn) G g :
    R p Q1 E0 G g → le_E0 E →
    (∀ a G' g', ok F G' g' → ext G g G' g' → Q1 a G' g' → R (f a) Q E G' g') →
    R (bind p f) Q E G g.
  Proof. intros H HE HQ. eapply R_bind; [exact H|done|]. intros; by apply HE. Qed.

  Lemma W_post {A} n n' (p : prog A) (Q Q' : post A) (E E' : post abn) G g :
    W n' p Q E G g → n' ≤ n →
    (∀ ab G g, E ab G g → E' ab G g) →
    (∀ a G' g', ok F G' g' → quiet G' → extn n' G g G' g' → Q a G' g' → Q' a G' g') →
    W n p Q' E' G g.
  Proof. intros H Hn HE HQ. eapply W_conseq; eauto. Qed.

  Lemma R_post {A} (p : prog A) (Q Q' : post A) (E E' : post abn) G g :
    R p Q E G g → (∀ ab G g, E ab G g → E' ab G g) →
    (∀ a G' g', ok F G' g' → ext G g G' g' → Q a G' g' → Q' a G' g') →
    R p Q' E' G g.
  Proof. intros H HE HQ. eapply R_conseq; eauto. Qed.
End wp.

Global Hint Resolve le_E0_refl : core.
