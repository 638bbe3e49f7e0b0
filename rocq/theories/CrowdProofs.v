(** Crowds: the invariant of the scenes. *)
From stdpp Require Import gmap.
From Coq Require Import NArith ZArith Lia.
From Verif Require Import Base GoText Model1 Model2 Model3 Storage Spec SpecMoments SpecCrowd Inv Wp Reads BitProofs CharProofs
  StoryProofs HistoryProofs MomentProofs ApiProofs CallProofs CrowdLogic CrowdWrites CrowdCalls CrowdReads.
Local Open Scope nat_scope.

Lemma set_at_same {A} i (a : A) f : set_at i a f i = a.
Proof. unfold set_at. by rewrite Nat.eqb_refl. Qed.
Lemma set_at_other {A} i j (a : A) f : j ≠ i → set_at i a f j = f j.
Proof. unfold set_at. by intros ->%Nat.eqb_neq. Qed.

Section pool.
  Context {g0 : graph} {K0 : kinds} {z o : bit_ent} (HB : base g0 K0 z o).
  Context (t0 : trace) (fk : bool) (fuel : nat).
  Notation I := (@I g0 K0).
  Notation good := (@good z o).
  Notation T := (@T g0 K0 z o _).
  Notation free := (@free g0).

  Definition post (o' : opn) (v : value) (K : kinds) : Prop := creating o' = true → remark_value v K.
  (** The reader's call could have given [out] before the others began. *)
  Definition before (o' : opn) (out : outcome value) : Prop :=
    ∃ m0 m1, good m0 ∧ exec ZStrict fk (call_of fuel o') g0 m0 out g0 m1.

  Record pool (s : scene) (K : kinds) (F B : nat → gset N) : Prop := {
    po_state : I K (sc_store s);
    po_grows : grows g0 (sc_store s);
    po_mem : ∀ i, good (sc_mem s i);
    po_issued : ∀ r, issued (sc_trace s) r → remarkT r K;
    po_free : ∀ i, free (F i) (B i) (sc_store s);
    po_apart : ∀ i j, i ≠ j → F i ## F j ∧ B i ## B j;
    po_run : ∀ i o' p, sc_running s i = Some (o', p) → T p (λ v K _ _, post o' v K) K (F i) (B i);
    po_read : ∀ i o' p, sc_running s i = Some (o', p) → reads_from t0 o' →
      Z (g0 := g0) (K0 := K0) (z := z) (o := o) p (λ _, True) ∧
      ∀ out m', exec ZStrict fk p g0 (sc_mem s i) out g0 m' → before o' out;
    po_trace : ∃ l, sc_trace s = l ++ t0 ∧
      ∀ i o' out, Called i o' out ∈ l → reads_from t0 o' → before o' out
  }.

  Lemma grows_trans a b c : grows a b → grows b c → grows a c.
  Proof. intros [] []. split; by etrans. Qed.

  (** A step of Graph value [i] that leaves storage and trace alone. *)
  Lemma pool_local t g mm ru K F B i mi o' p o1 p1 :
    pool (Scene t g mm ru) K F B → ru i = Some (o1, p1) → good mi →
    T p (λ v K _ _, post o' v K) K (F i) (B i) →
    (reads_from t0 o' → Z (g0 := g0) (K0 := K0) (z := z) (o := o) p (λ _, True) ∧
      ∀ out m', exec ZStrict fk p g0 mi out g0 m' → before o' out) →
    pool (Scene t g (set_at i mi mm) (set_at i (Some (o', p)) ru)) K F B.
  Proof.
    intros [P1 P2 P3 P4 P5 P6 P7 P8 P9] Hi Hm HT HZ. split; simpl in *; auto.
    - intros j. destruct (decide (j = i)) as [->|Hj]; [by rewrite set_at_same|by rewrite set_at_other].
    - intros j oj pj. destruct (decide (j = i)) as [->|Hj]; [rewrite set_at_same|rewrite set_at_other by done]; [|auto].
      by intros [= <- <-].
    - intros j oj pj. destruct (decide (j = i)) as [->|Hj]; [rewrite !set_at_same|rewrite !set_at_other by done]; [|auto].
      by intros [= <- <-].
  Qed.
  Lemma pool_ext t g mm mm' ru K F B :
    (∀ i, mm' i = mm i) → pool (Scene t g mm ru) K F B → pool (Scene t g mm' ru) K F B.
  Proof.
    intros He [P1 P2 P3 P4 P5 P6 P7 P8 P9]. split; simpl in *; auto; [intros i; by rewrite He|].
    intros i ? ?. rewrite He. auto.
  Qed.
  Lemma set_at_id {A} i (f : nat → A) j : f j = set_at i (f i) f j.
  Proof. destruct (decide (j = i)) as [->|Hj]; [by rewrite set_at_same|by rewrite set_at_other]. Qed.

  (** A call ends. *)
  Lemma pool_end t g mm ru K F B i mi o' out o1 p1 :
    pool (Scene t g mm ru) K F B → ru i = Some (o1, p1) → good mi →
    (∀ v, out = OOk v → post o' v K) → (reads_from t0 o' → before o' out) →
    pool (Scene (Called i o' out :: t) g (set_at i mi mm) (set_at i None ru)) K F B.
  Proof.
    intros [P1 P2 P3 P4 P5 P6 P7 P8 P9] Hi Hm Hv Hb. split; simpl in *; auto.
    - intros j. destruct (decide (j = i)) as [->|Hj]; [by rewrite set_at_same|by rewrite set_at_other].
    - intros r (j&oj&Hc&[Heq|Hin]%elem_of_cons); [|apply P4; by exists j, oj].
      injection Heq as -> -> Heq. by eapply Hv.
    - intros j oj pj. destruct (decide (j = i)) as [->|Hj]; [by rewrite set_at_same|rewrite set_at_other by done]. auto.
    - intros j oj pj. destruct (decide (j = i)) as [->|Hj]; [by rewrite set_at_same|rewrite !set_at_other by done]. auto.
    - destruct P9 as (l&->&Hl). exists (Called i o' out :: l). split; [done|].
      intros j oj outj [[= -> -> ->]|Hin]%elem_of_cons; [done|by eapply Hl].
  Qed.

  Lemma pool_step s s' K F B :
    (∀ r, issued t0 r → remarkT r K0) →
    pool s K F B → crowd ZStrict fk fuel s s' → ∃ K' F' B', pool s' K' F' B'.
  Proof.
    intros Hold HP Hs. assert (HK0 : K0 ⊆ K) by apply (po_state _ _ _ _ HP).
    destruct Hs as [t g mm ru i o' Hi Hrec|t g mm ru i o' c k r g' Hi Hg|t g mm ru i o' c k Hfk Hi|
      t g mm ru i o' c k Hfk Hi|t g mm ru i o' k Hi|t g mm ru i o' m k Hi|t g mm ru i o' p out Hi Hf|t g mm ru i Hi].
    - exists K, F, B. destruct HP as [P1 P2 P3 P4 P5 P6 P7 P8 P9]. split; simpl in *; auto.
      + intros j oj pj. destruct (decide (j = i)) as [->|Hj]; [rewrite set_at_same|rewrite set_at_other by done]; [|auto].
        intros [= <- <-]. eapply T_weaken; [apply empty_subseteq..|]. destruct (creating o') eqn:Hc.
        * eapply T_conseq; [apply (TT_creating HB fuel _ K Hc); [|done]|].
          { intros r Hr. by apply P4, Hrec. }
          by intros v K' F' B' _ Hv _.
        * eapply T_conseq; [apply (TT_reading HB fuel _ K Hc); done|].
          intros v K' F' B' _ _ Hc'. congruence.
      + intros j oj pj. destruct (decide (j = i)) as [->|Hj]; [rewrite set_at_same|rewrite set_at_other by done]; [|auto].
        intros [= <- <-] Hrd. split; [by eapply (Z_reading HB)|]. intros out m' Hx. by exists (mm i), m'.
    - assert (HT := po_run _ _ _ _ HP i _ _ Hi). simpl in HT.
      destruct (HT K g (reflexivity K) (po_state _ _ _ _ HP) (po_free _ _ _ _ HP i)) as (_&Hr&_).
      destruct (Hr _ _ Hg) as (K2&F2&B2&HK2&HI2&Htu&HT2).
      exists K2, (set_at i F2 F), (set_at i B2 B).
      destruct HP as [P1 P2 P3 P4 P5 P6 P7 P8 P9]. destruct Htu as [U1 U2 U3 U4 U5 U6].
      assert (HF : ∀ j, j ≠ i → F2 ## F j ∧ B2 ## B j).
      { intros j Hj. destruct (P6 i j) as [D1 D2]; [done|]. destruct (P5 j) as [Q1 Q2]. simpl in *. split.
        - intros x Hx Hxj. destruct (U2 _ Hx); [by eapply D1|]. by destruct (Q1 _ Hxj).
        - intros x Hx Hxj. destruct (U3 _ Hx); [by eapply D2|]. by destruct (Q2 _ Hxj). }
      split; simpl in *; auto.
      + by eapply grows_trans.
      + intros ? ?. eapply remarkT_mono; [by apply P4|done].
      + intros j. destruct (decide (j = i)) as [->|Hj]; [by rewrite !set_at_same|rewrite !set_at_other by done].
        destruct (P5 j) as [Q1 Q2]. destruct (P6 i j) as [D1 D2]; [done|]. split.
        * intros x Hx. destruct (Q1 _ Hx) as (A1&A2&A3). split_and!; [by apply U1|done|].
          rewrite U4; [done..|]. intros Hx'. by eapply D1.
        * intros x Hx. destruct (Q2 _ Hx) as (A1&A2&A3). split_and!; [by apply U1|done|].
          rewrite U5; [done..|]. intros Hx'. by eapply D2.
      + intros a b Hab. unfold set_at.
        destruct (Nat.eqb_spec a i) as [->|Ha], (Nat.eqb_spec b i) as [->|Hb]; [done|auto| |auto].
        destruct (HF a Ha) as [D1 D2]. split; by symmetry.
      + intros j oj pj. destruct (decide (j = i)) as [->|Hj]; [rewrite !set_at_same|rewrite !set_at_other by done].
        * by intros [= <- <-].
        * intros Hj'. eapply T_up; [by apply P7|done].
      + intros j oj pj. destruct (decide (j = i)) as [->|Hj]; [rewrite !set_at_same|rewrite !set_at_other by done; auto].
        intros [= <- <-] Hrd. destruct (P8 _ _ _ Hi Hrd) as [(Hq&Hz&_) Hx].
        destruct (FQ_same HB _ _ _ _ _ P1 Hq Hg) as [-> Hg0]. split; [by apply Hz|].
        intros out m' He. eapply Hx. by eapply ExCall.
    - exists K, F, B. eapply pool_ext; [apply (set_at_id i)|].
      eapply pool_local; [exact HP|exact Hi|apply (po_mem _ _ _ _ HP)|..].
      + assert (HT := po_run _ _ _ _ HP i _ _ Hi).
        by destruct (HT K g (reflexivity K) (po_state _ _ _ _ HP) (po_free _ _ _ _ HP i)) as (_&_&?).
      + intros Hrd. destruct (po_read _ _ _ _ HP _ _ _ Hi Hrd) as [(_&_&Hz) Hx]. split; [done|].
        intros out m' He. eapply Hx. by eapply ExFault.
    - exists K, F, B. eapply pool_end; [exact HP|exact Hi|by left|done|].
      intros Hrd. destruct (po_read _ _ _ _ HP _ _ _ Hi Hrd) as [_ Hx]. eapply Hx. by apply ExKill.
    - exists K, F, B. eapply pool_ext; [apply (set_at_id i)|].
      eapply pool_local; [exact HP|exact Hi|apply (po_mem _ _ _ _ HP)|..].
      + assert (HT := po_run _ _ _ _ HP i _ _ Hi). apply HT, (po_mem _ _ _ _ HP i).
      + intros Hrd. destruct (po_read _ _ _ _ HP _ _ _ Hi Hrd) as [Hz Hx]. split; [apply Hz, (po_mem _ _ _ _ HP i)|].
        intros out m' He. eapply Hx. by apply ExLoad.
    - exists K, F, B. destruct (po_run _ _ _ _ HP i _ _ Hi) as [Hm HT].
      eapply pool_local; [exact HP|exact Hi|exact Hm|exact HT|].
      intros Hrd. destruct (po_read _ _ _ _ HP _ _ _ Hi Hrd) as [[_ Hz] Hx]. split; [done|].
      intros out m' He. eapply Hx. by apply ExStore.
    - exists K, F, B. eapply pool_ext; [apply (set_at_id i)|].
      eapply pool_end; [exact HP|exact Hi|apply (po_mem _ _ _ _ HP)|..].
      + intros v ->. destruct p; simplify_eq/=. by apply (po_run _ _ _ _ HP i _ _ Hi).
      + intros Hrd. destruct (po_read _ _ _ _ HP _ _ _ Hi Hrd) as [_ Hx].
        eapply (Hx _ (mm i)). destruct p; simplify_eq/=; constructor.
    - exists K, F, B. destruct HP as [P1 P2 P3 P4 P5 P6 P7 P8 P9]. split; simpl in *; auto.
      + intros j. destruct (decide (j = i)) as [->|Hj]; [rewrite set_at_same; by left|by rewrite set_at_other].
      + intros r (j&oj&Hc&[Heq|Hin]%elem_of_cons); [done|apply P4; by exists j, oj].
      + intros j oj pj. destruct (decide (j = i)) as [->|Hj]; [congruence|rewrite set_at_other by done]. auto.
      + destruct P9 as (l&->&Hl). exists (Restarted i :: l). split; [done|].
        intros j oj outj [?|Hin]%elem_of_cons; [done|by eapply Hl].
  Qed.

  Lemma pool_first (w : world) :
    g0 = store w → (∀ i, good (mem w i)) → (∀ r, issued t0 r → remarkT r K0) →
    pool (still t0 w) K0 (λ _, ∅) (λ _, ∅).
  Proof.
    intros Hg Hm Hi. split; simpl; rewrite <- ?Hg; auto; try done.
    - split; try apply HB; done.
    - exists []. split; [done|]. by intros ? ? ? ?%elem_of_nil.
  Qed.

  Lemma pool_crowded w s :
    g0 = store w → (∀ i, good (mem w i)) → (∀ r, issued t0 r → remarkT r K0) →
    crowded ZStrict fk fuel t0 w s → ∃ K F B, pool s K F B.
  Proof.
    intros Hg Hm Hi Hc.
    assert (H : ∃ K F B, pool (still t0 w) K F B) by (do 3 eexists; by apply pool_first).
    revert H. induction Hc as [|s1 s2 s3 Hs _ IH]; [done|]. intros (K&F&B&HP).
    apply IH. by eapply pool_step.
  Qed.

  Lemma remembers_good m : good m → remembers g0 m.
  Proof.
    intros [-> | ->]; [done|]. intros ? [= <-].
    apply ExLoad. unfold bit_initialize.
    assert (H1 : K0 !! 1%N = Some (Root 1)) by (apply (ba_root _ _ _ _ HB); lia).
    assert (N1 : 1%N ∈ nodes g0) by (apply (ba_dom _ _ _ _ HB); eauto).
    eapply ExCall; [split; [reflexivity|reflexivity]|]. rewrite bool_decide_eq_true_2 by done. simpl.
    assert (Hless := ba_less _ _ _ _ HB).
    eapply (ExCall _ _ (CSources 1) _ _ _ (Ok [be_class z; be_class o])) with (g1 := g0).
    { split; [|by intros []; left]. intros _. eexists. split_and!; [done| | |done].
      - apply NoDup_cons. split; [|apply NoDup_singleton]. rewrite elem_of_list_singleton. intros Heq. rewrite Heq in Hless. lia.
      - intros y. rewrite elem_of_cons, elem_of_list_singleton. symmetry. apply (ba_bits _ _ _ _ HB). }
    cbn -[N.ltb]. rewrite (proj2 (N.ltb_lt _ _) Hless).
    assert (Hn : ∀ b c, fwd g0 !! b = Some c → b ∈ nodes g0).
    { intros b c Hb. destruct (ba_ref _ _ _ _ HB _ _ Hb) as (?&?&?&_). apply (ba_dom _ _ _ _ HB). eauto. }
    assert (Fz := ba_z _ _ _ _ HB). assert (Fo := ba_o _ _ _ _ HB).
    eapply ExCall; [split; [intros _; split; reflexivity|intros []; left; by eapply Hn]|]. rewrite Fz. cbn.
    eapply ExCall; [split; [intros _; split; reflexivity|intros []; left; by eapply Hn]|]. rewrite Fo. cbn.
    assert (Hz : z = BitEnt false (be_class z) (be_char z)).
    { assert (H := ba_vz _ _ _ _ HB). destruct z; simpl in *. by subst. }
    assert (Ho : o = BitEnt true (be_class o) (be_char o)).
    { assert (H := ba_vo _ _ _ _ HB). destruct o; simpl in *. by subst. }
    rewrite <- Hz, <- Ho. apply ExStore, ExRet.
  Qed.
End pool.

(** ** Histories that went before *)
Lemma reach_joined faults fuel t w : reach ZStrict faults fuel t w → joined (store w).
Proof.
  intros Hr. apply (moments_joined (zp := ZStrict) (faults := faults) (fuel := fuel) (between t w) eq_refl).
  apply leads_moves. clear -Hr. induction Hr; [apply leads_now|by eapply leads_step].
Qed.

Definition kinds_of (G : ghost) : kinds := kind_of <$> delete 0%N (lab G).

Lemma kinds_lookup G x k :
  kinds_of G !! x = Some k ↔ x ≠ 0%N ∧ ∃ l, lab G !! x = Some l ∧ kind_of l = k.
Proof.
  unfold kinds_of. rewrite lookup_fmap, fmap_Some. setoid_rewrite lookup_delete_Some. naive_solver.
Qed.

Lemma base_of faults fuel t w d G :
  reach ZStrict faults fuel t w → J ZStrict fuel t w d G → settled t →
  ∃ z o, bits G = BReady z o ∧ base (store w) (kinds_of G) z o.
Proof.
  intros Hr HJ Hs. assert (Hok := J_ok _ _ _ _ _ _ HJ). assert (Hj := reach_joined _ _ _ _ Hr).
  destruct (J_settled _ _ _ _ _ _ HJ Hs) as (Hup&(z&o&Hz)&_). exists z, o. split; [done|].
  assert (Hb := ok_bits _ _ _ Hok). unfold bits_ok in Hb. rewrite Hz in Hb.
  destruct Hb as (B1&B2&B3&B4&B5&B6&B7&B8&B9).
  assert (Hk : ∀ x l, lab G !! x = Some l → l ≠ LZero → kinds_of G !! x = Some (kind_of l)).
  { intros x l Hl Hl0. apply kinds_lookup. split; [|eauto]. intros ->.
    rewrite (ok_zero _ _ _ Hok) in Hl. by injection Hl as <-. }
  assert (Hn : ∀ x, x ∈ nodes (store w) → x ≠ 0%N) by (intros x Hx ->; by apply (ok_zero_node _ _ _ Hok)).
  split.
  - intros x. split.
    + intros Hx. destruct (proj1 (ok_dom _ _ _ Hok x (Hn _ Hx)) Hx) as [l Hl]. eexists. apply kinds_lookup. eauto.
    + intros [k (Hx&l&Hl&_)%kinds_lookup]. apply (ok_dom _ _ _ Hok); [done|eauto].
  - unfold kinds_of. by rewrite lookup_fmap, lookup_delete.
  - intros x (Hx&l&Hl&->%kind_zero)%kinds_lookup. by apply (ok_zero_only _ _ _ Hok) in Hl.
  - intros k Hk8. apply (Hk k (LRoot k)); [by apply Hup|done].
  - intros x y He. destruct (Hj _ _ He) as [Hx Hy]. destruct (ok_edge _ _ _ Hok _ _ He) as (lx&ly&Hlx&Hly&Hxy&_).
    exists (kind_of lx), (kind_of ly). split_and!.
    + apply kinds_lookup. eauto.
    + apply kinds_lookup. eauto.
    + eapply kind_joins; [|exact Hxy]. by eapply ok_label.
  - intros x y He. destruct (ok_ref _ _ _ Hok _ _ He) as (lx&ly&Hlx&Hly&Hxy).
    exists (kind_of lx), (kind_of ly). split_and!; [| |by apply kind_next].
    + apply Hk; [done|]. by intros ->.
    + apply Hk; [done|]. intros ->. by destruct lx.
  - apply Hok.
  - exact B1.
  - exact B2.
  - exact B5.
  - exact B6.
  - exact B7.
  - exact B8.
  - apply (Hk _ (LBitCh false)); [by apply B9|done].
  - apply (Hk _ (LBitCh true)); [by apply B9|done].
Qed.

Lemma issued_kinds fuel t w d G r :
  J ZStrict fuel t w d G → issued t r → remarkT r (kinds_of G).
Proof.
  intros HJ Hi. assert (Hok := J_ok _ _ _ _ _ _ HJ).
  destruct (J_told _ _ _ _ _ _ HJ _ Hi) as (o&p&Ht).
  destruct (J_tells _ _ _ _ _ _ HJ _ _ _ Ht) as (ow&pw&f&[[[(L1&L2&L3&L4) _] _] _]&_).
  assert (Hk : ∀ x l, lab G !! x = Some l → l ≠ LZero → kinds_of G !! x = Some (kind_of l)).
  { intros x l Hl Hl0. apply kinds_lookup. split; [|eauto]. intros ->.
    rewrite (ok_zero _ _ _ Hok) in Hl. by injection Hl as <-. }
  split_and!; right.
  - by apply (Hk _ _ L1).
  - by apply (Hk _ _ L2).
  - by apply (Hk _ _ L3).
  - by apply (Hk _ _ L4).
Qed.

Section crowds.
  Context {faults fk : bool} {fuel : nat} {t : trace} {w : world}.
  Context (Hr : reach ZStrict faults fuel t w) (Hs : settled t).

  Lemma crowd_pool s : crowded ZStrict fk fuel t w s →
    ∃ d G z o, J ZStrict fuel t w d G ∧ bits G = BReady z o ∧ base (store w) (kinds_of G) z o ∧
      ∃ K F B, pool (g0 := store w) (K0 := kinds_of G) (z := z) (o := o) t fk fuel s K F B.
  Proof.
    intros Hc. destruct (reach_J _ _ _ _ _ Hr) as (d&G&HJ&_).
    destruct (base_of _ _ _ _ _ _ Hr HJ Hs) as (z&o&Hz&HB). exists d, G, z, o. split_and!; [done..|].
    eapply (pool_crowded HB); [done| |by intros r; eapply issued_kinds|done].
    intros i. assert (Hm := J_mem _ _ _ _ _ _ HJ i). destruct (mem w i) as [[z' o']|] eqn:E; [|by left].
    right. simpl in Hm. congruence.
  Qed.

  (** What the readers among them find *)
  Lemma crowd_reads s i o out : crowded ZStrict fk fuel t w s → reads_from t o → since t s i o out →
    ∃ m m', remembers (store w) m ∧ exec ZStrict fk (call_of fuel o) (store w) m out (store w) m'.
  Proof.
    intros Hc Ho (l&Hl&Hin). destruct (crowd_pool _ Hc) as (d&G&z&o'&_&_&HB&K&F&B&HP).
    destruct (po_trace _ _ _ _ _ _ _ HP) as (l'&Hl'&Hb). rewrite Hl in Hl'. apply app_inv_tail in Hl'. subst l'.
    destruct (Hb _ _ _ Hin Ho) as (m0&m1&Hm&Hx). exists m0, m1. split; [|done]. by apply (remembers_good HB).
  Qed.

  Lemma crowd_answers {A} s i o (mk : A → value) (p : prog A) a out :
    crowded ZStrict fk fuel t w s → reads_from t o → since t s i o out →
    call_of fuel o = (x <- p;; Ret (mk x))%prog →
    (∀ d G, J ZStrict fuel t w d G → R ZStrict fk fuel p (λ x _ _, x = a) (E0 fk) G (store w)) →
    answers fk out (mk a).
  Proof.
    intros Hc Ho (l&Hl&Hin) Hp HR. destruct (crowd_pool _ Hc) as (d&G&z&o'&HJ&Hz&HB&K&F&B&HP).
    destruct (po_trace _ _ _ _ _ _ _ HP) as (l'&Hl'&Hb). rewrite Hl in Hl'. apply app_inv_tail in Hl'. subst l'.
    destruct (Hb _ _ _ Hin Ho) as (m0&m1&Hm&Hx). rewrite Hp in Hx.
    eapply R_answers; [by eapply HR|exact Hx|apply HJ|]. by destruct Hm as [-> | ->].
  Qed.

  Lemma crowd_texts s i r ob pr out : crowded ZStrict fk fuel t w s →
    tells t r ob pr → since t s i (GetObjectAndProperty r) out → answers fk out (VText ob pr).
  Proof.
    intros Hc Ht Hsi.
    eapply (crowd_answers _ _ _ (λ op, VText (fst op) (snd op)) _ (ob, pr)); [done| |done|done|].
    { split; [done|]. exists r. split; [done|by eapply tells_issued]. }
    intros d G HJ. destruct (J_tells _ _ _ _ _ _ HJ _ _ _ Ht) as (ow&pw&f&Hrf&<-&<-&_).
    destruct (J_settled _ _ _ _ _ _ HJ Hs) as (Hup&_&H31).
    eapply R_get_object_and_property; [done|lia|by destruct Hrf|done].
  Qed.

  Lemma crowd_identifier s i r out : crowded ZStrict fk fuel t w s →
    issued t r → since t s i (GetRemark (re_class r)) out → answers fk out (VRem r).
  Proof.
    intros Hc Hi Hsi. eapply (crowd_answers _ _ _ VRem _ r); [done| |done|done|].
    { by exists r. }
    intros d G HJ. destruct (J_told _ _ _ _ _ _ HJ _ Hi) as (o&p&Ht).
    destruct (J_tells _ _ _ _ _ _ HJ _ _ _ Ht) as (ow&pw&f&[[Hrf _] _]&<-&<-&_).
    by eapply R_get_remark.
  Qed.

  Lemma crowd_first_fact s i r r0 out : crowded ZStrict fk fuel t w s →
    opened false t r r0 → since t s i (GetFirstFact r) out → answers fk out (VRem r0).
  Proof.
    intros Hc Hop Hsi. eapply (crowd_answers _ _ _ VRem _ r0); [done| |done|done|].
    { split; [done|]. exists r. split; [done|]. by apply opened_issued in Hop as [? _]. }
    intros d G HJ. destruct (J_begun _ _ _ _ _ _ HJ _ _ Hop) as (ow&pw&f&Hrf&Hst).
    by eapply R_get_first_fact.
  Qed.

  Lemma crowd_story s i r r0 ob pr out : crowded ZStrict fk fuel t w s →
    opened false t r r0 → tells t r0 ob pr → since t s i (GetStory r) out →
    answers fk out (VStory (ob ++ [space] ++ pr ++ [space])).
  Proof.
    intros Hc Hop Ht Hsi. eapply (crowd_answers _ _ _ VStory); [done| |done|done|].
    { split; [done|]. exists r. split; [done|]. by apply opened_issued in Hop as [? _]. }
    intros d G HJ. destruct (J_begun _ _ _ _ _ _ HJ _ _ Hop) as (ow&pw&f&Hrf&Hst).
    destruct (J_tells _ _ _ _ _ _ HJ _ _ _ Ht) as (ow0&pw0&f0&[Hrc0 _]&<-&<-&_).
    destruct (J_settled _ _ _ _ _ _ HJ Hs) as (Hup&_&H31).
    by eapply R_get_story.
  Qed.

  (** What the storage looks like at any time *)
  Lemma crowd_sorted s : crowded ZStrict fk fuel t w s →
    grows (store w) (sc_store s) ∧ ∃ K, sorted (sc_store s) K.
  Proof.
    intros Hc. destruct (crowd_pool _ Hc) as (d&G&z&o'&_&_&HB&K&F&B&HP).
    split; [apply HP|]. exists (λ x, K !! x). assert (HI := po_state _ _ _ _ _ _ _ HP). split; try apply HI.
    - intros x. rewrite (i_dom _ _ HI). by rewrite <- not_eq_None_Some.
  Qed.

  Lemma crowd_specified s i o c k : crowded ZStrict fk fuel t w s →
    sc_running s i = Some (o, Call c k) → specified ZStrict (sc_store s) c.
  Proof.
    intros Hc Hi. destruct (crowd_pool _ Hc) as (d&G&z&o'&_&_&HB&K&F&B&HP).
    assert (HT := po_run _ _ _ _ _ _ _ HP _ _ _ Hi).
    by destruct (HT K _ (reflexivity K) (po_state _ _ _ _ _ _ _ HP) (po_free _ _ _ _ _ _ _ HP i)) as (?&_).
  Qed.
End crowds.
