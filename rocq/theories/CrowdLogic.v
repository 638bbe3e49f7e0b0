(** A logic for programs that run next to others. *)
From stdpp Require Import gmap.
From Coq Require Import NArith ZArith Lia.
From Verif Require Import Base GoText Model1 Model2 Model3 Storage Spec SpecMoments SpecCrowd BitProofs.
Local Open Scope nat_scope.

Notation kinds := (gmap N node_kind).

(** Old nodes of these kinds get no further edge going out, or coming in. *)
Definition frozen_out (k : node_kind) : bool :=
  match k with
  | CharacterBit | WordCharacter | PhraseWord | DetailPhrase
  | RemarkPosition | RemarkFact | FactRemark | FactStory | StoryFact => true
  | _ => false
  end.
Definition frozen_in (k : node_kind) : bool :=
  match k with
  | CharacterCharacter | WordWord | PhrasePhrase | DetailPhrase | RemarkDetail => true
  | Root k => (k =? 1)%N
  | _ => false
  end.

Definition prev_field (k : node_kind) : option node_kind :=
  match k with
  | Root k => Some (Root (k - 1))
  | BitCharacter => Some BitClass
  | CharacterBit => Some CharacterClass | CharacterCharacter => Some CharacterBit
  | CharacterWord => Some CharacterCharacter
  | WordCharacter => Some WordClass | WordWord => Some WordCharacter | WordPhrase => Some WordWord
  | PhraseWord => Some PhraseClass | PhrasePhrase => Some PhraseWord | PhraseDetail => Some PhrasePhrase
  | DetailPhrase => Some DetailClass | DetailRemark => Some DetailPhrase
  | RemarkDetail => Some RemarkClass | RemarkPosition => Some RemarkDetail | RemarkFact => Some RemarkPosition
  | FactRemark => Some FactClass | FactPosition => Some FactRemark | FactStory => Some FactPosition
  | StoryFact => Some StoryClass | StoryPosition => Some StoryFact | StoryTree => Some StoryPosition
  | _ => None
  end.
Lemma prev_next a b : next_field a = Some b → prev_field b = Some a.
Proof. destruct a; intros [= <-]; simpl; try done. by rewrite N.add_sub. Qed.

(** No node, or one of the kind. *)
Definition nk (k : node_kind) (x : N) (K : kinds) : Prop := x = 0%N ∨ K !! x = Some k.
Definition nko (k : option node_kind) (x : N) (K : kinds) : Prop :=
  match k with None => x = 0%N | Some k => nk k x K end.

Lemma nk_mono k x K K' : nk k x K → K ⊆ K' → nk k x K'.
Proof. intros [?|?] ?; [by left|right]. by eapply lookup_weaken. Qed.
Lemma nko_mono k x K K' : nko k x K → K ⊆ K' → nko k x K'.
Proof. destruct k; [apply nk_mono|done]. Qed.

(** What is known of the storage before the others begin. *)
Record base (g0 : graph) (K0 : kinds) (z o : bit_ent) : Prop := {
  ba_dom : ∀ x, x ∈ nodes g0 ↔ is_Some (K0 !! x);
  ba_none : K0 !! 0%N = None;
  ba_zero : ∀ x, K0 !! x ≠ Some Zero;
  ba_root : ∀ k, (1 <= k <= 8)%N → K0 !! k = Some (Root k);
  ba_edge : ∀ x y, (x, y) ∈ edges g0 → ∃ a b, K0 !! x = Some a ∧ K0 !! y = Some b ∧ joins a b = true;
  ba_ref : ∀ x y, fwd g0 !! x = Some y → ∃ a b, K0 !! x = Some a ∧ K0 !! y = Some b ∧ next_field a = Some b;
  ba_back : ∀ x y, fwd g0 !! x = Some y ↔ bwd g0 !! y = Some x;
  ba_bits : ∀ x, (x, 1%N) ∈ edges g0 ↔ x = be_class z ∨ x = be_class o;
  ba_less : (be_class z < be_class o)%N;
  ba_z : fwd g0 !! be_class z = Some (be_char z);
  ba_o : fwd g0 !! be_class o = Some (be_char o);
  ba_vz : be_value z = false;
  ba_vo : be_value o = true;
  ba_kz : K0 !! be_char z = Some BitCharacter;
  ba_ko : K0 !! be_char o = Some BitCharacter
}.

Section crowd.
  Context {g0 : graph} {K0 : kinds} {z o : bit_ent}.

  (** The state of the storage while the crowd is at work. *)
  Record I (K : kinds) (g : graph) : Prop := {
    i_dom : ∀ x, x ∈ nodes g ↔ is_Some (K !! x);
    i_none : K !! 0%N = None;
    i_zero : ∀ x, K !! x ≠ Some Zero;
    i_old : K0 ⊆ K;
    i_edges : edges g0 ⊆ edges g;
    i_edge : ∀ x y, (x, y) ∈ edges g → ∃ a b, K !! x = Some a ∧ K !! y = Some b ∧ joins a b = true;
    i_out : ∀ x y a, (x, y) ∈ edges g → K0 !! x = Some a → frozen_out a = true → (x, y) ∈ edges g0;
    i_in : ∀ x y b, (x, y) ∈ edges g → K0 !! y = Some b → frozen_in b = true → (x, y) ∈ edges g0;
    i_ref : ∀ x y, fwd g !! x = Some y → ∃ a b, K !! x = Some a ∧ K !! y = Some b ∧ next_field a = Some b;
    i_back : ∀ x y, fwd g !! x = Some y ↔ bwd g !! y = Some x;
    i_fwd : ∀ x, x ∈ nodes g0 → fwd g !! x = fwd g0 !! x;
    i_bwd : ∀ x, x ∈ nodes g0 → bwd g !! x = bwd g0 !! x
  }.

  Definition good (m : cache) : Prop := m = None ∨ m = Some (z, o).

  (** References a program is about to set. *)
  Definition free (F B : gset N) (g : graph) : Prop :=
    (∀ x, x ∈ F → x ∈ nodes g ∧ x ∉ nodes g0 ∧ fwd g !! x = None) ∧
    (∀ x, x ∈ B → x ∈ nodes g ∧ x ∉ nodes g0 ∧ bwd g !! x = None).

  (** What a step does to the references. *)
  Record turn (F B : gset N) (g : graph) (F' B' : gset N) (g' : graph) : Prop := {
    tu_grows : grows g g';
    tu_f : ∀ x, x ∈ F' → x ∈ F ∨ x ∉ nodes g;
    tu_b : ∀ x, x ∈ B' → x ∈ B ∨ x ∉ nodes g;
    tu_fwd : ∀ x, x ∈ nodes g → x ∉ F → fwd g' !! x = fwd g !! x;
    tu_bwd : ∀ x, x ∈ nodes g → x ∉ B → bwd g' !! x = bwd g !! x;
    tu_free : free F' B' g'
  }.

  Notation tpost A := (A → kinds → gset N → gset N → Prop).

  Fixpoint T {A} (p : prog A) (Q : tpost A) (K : kinds) (F B : gset N) : Prop :=
    match p with
    | Ret a => ∀ K', K ⊆ K' → Q a K' F B
    | Throw _ | Panic | Diverge => True
    | Call c k => ∀ K1 g, K ⊆ K1 → I K1 g → free F B g →
        specified ZStrict g c ∧
        (∀ r g', gstep ZStrict g c r g' →
          ∃ K2 F2 B2, K1 ⊆ K2 ∧ I K2 g' ∧ turn F B g F2 B2 g' ∧ T (k r) Q K2 F2 B2) ∧
        T (k (Err EStorage)) Q K1 F B
    | LoadBits k => ∀ m, good m → T (k m) Q K F B
    | StoreBits m k => good m ∧ T k Q K F B
    end.

  (** The usual form: nothing is about to be set. *)
  Definition TT {A} (p : prog A) (P : A → kinds → Prop) (K : kinds) : Prop :=
    K0 ⊆ K → T p (λ a K _ _, P a K) K ∅ ∅.

  Lemma grows_refl g : grows g g.
  Proof. by split. Qed.

  Lemma turn_same F B g : free F B g → turn F B g F B g.
  Proof. intros H. split; [apply grows_refl|..]; eauto. Qed.

  Lemma T_up {A} (p : prog A) Q K K' F B : T p Q K F B → K ⊆ K' → T p Q K' F B.
  Proof.
    revert K K'. induction p; simpl; intros K K' HT HK; auto.
    - intros K1 H1. apply HT. by etrans.
    - intros K1 g H1. apply HT. by etrans.
    - intros m Hm. eapply H; [by apply HT|done].
    - destruct HT. split; [done|]. by eapply IHp.
  Qed.

  Lemma turn_weaken F B g F' B' g' F1 B1 :
    F ⊆ F1 → B ⊆ B1 → turn F B g F' B' g' → turn F1 B1 g F' B' g'.
  Proof. intros ?? []. split; auto; intros; naive_solver. Qed.

  Lemma T_weaken {A} (p : prog A) P K F B F1 B1 :
    F ⊆ F1 → B ⊆ B1 → T p (λ a K _ _, P a K) K F B → T p (λ a K _ _, P a K) K F1 B1.
  Proof.
    revert K F B F1 B1. induction p; simpl; intros K F B F1 B1 HF HB1 HT; auto.
    - intros K1 g H1 HI [Hf Hb]. assert (free F B g) as Hfr by (split; auto).
      destruct (HT K1 g H1 HI Hfr) as (Hs&Hr&He). split; [done|]. split.
      + intros r g' Hg. destruct (Hr r g' Hg) as (K2&F2&B2&HK2&HI2&Htu&HT2).
        exists K2, F2, B2. split_and!; [done|done| |done]. by eapply turn_weaken.
      + eapply H; [..|exact He]; done.
    - intros m Hm. eapply H; [..|by apply HT]; done.
    - destruct HT. split; [done|]. by eapply IHp.
  Qed.

  Lemma T_bind {A B} (p : prog A) (f : A → prog B) Q K F D :
    T p (λ a K F D, T (f a) Q K F D) K F D → T (bind p f) Q K F D.
  Proof.
    revert K F D. induction p; simpl; intros K F D HT; auto.
    - intros K1 g H1 HI Hfr. destruct (HT K1 g H1 HI Hfr) as (Hs&Hr&He). split; [done|]. split; [|by apply H].
      intros r g' Hg. destruct (Hr r g' Hg) as (K2&F2&B2&?&?&?&?). exists K2, F2, B2. split_and!; auto.
    - destruct HT. split; [done|]. by apply IHp.
  Qed.

  Lemma T_conseq {A} (p : prog A) (Q Q' : tpost A) K F B :
    T p Q K F B → (∀ a K' F' B', K ⊆ K' → Q a K' F' B' → Q' a K' F' B') → T p Q' K F B.
  Proof.
    revert K F B. induction p; simpl; intros K F B HT HQ; auto.
    - intros K1 g H1 HI Hfr. destruct (HT K1 g H1 HI Hfr) as (Hs&Hr&He). split; [done|]. split.
      + intros r g' Hg. destruct (Hr r g' Hg) as (K2&F2&B2&?&?&?&?). exists K2, F2, B2. split_and!; auto.
        eapply H; [done|]. intros. apply HQ; [|done]. by etrans; [|etrans].
      + eapply H; [done|]. intros. apply HQ; [|done]. by etrans.
    - destruct HT. split; [done|]. by apply IHp.
  Qed.

  Lemma T_try {A} (p : prog A) P K F B :
    T p (λ a K _ _, P (Ok a) K) K F B → (∀ e K', K ⊆ K' → P (Err e) K') →
    T (try p) (λ r K _ _, P r K) K F B.
  Proof.
    revert K F B. induction p; simpl; intros K F B HT HE; auto.
    - intros K1 g H1 HI Hfr. destruct (HT K1 g H1 HI Hfr) as (Hs&Hr&He). split; [done|]. split.
      + intros r g' Hg. destruct (Hr r g' Hg) as (K2&F2&B2&?&?&?&?). exists K2, F2, B2. split_and!; auto.
        eapply H; [done|]. intros. apply HE. by etrans; [|etrans].
      + eapply H; [done|]. intros. apply HE. by etrans.
    - destruct HT. split; [done|]. by apply IHp.
  Qed.

  Lemma TT_seq {A B} (p : prog A) (f : A → prog B) P Q K :
    TT p P K → (∀ a K', K ⊆ K' → P a K' → TT (f a) Q K') → TT (bind p f) Q K.
  Proof.
    intros Hp Hf HK0. apply T_bind. eapply T_conseq; [by apply Hp|]. intros a K' F' B' HK HP.
    eapply T_weaken; [apply empty_subseteq..|]. apply Hf; [done|done|]. by etrans.
  Qed.
  Lemma TT_try {A} (p : prog A) (P : res A → kinds → Prop) K :
    TT p (λ a K, P (Ok a) K) K → (∀ e K', K ⊆ K' → P (Err e) K') → TT (try p) P K.
  Proof. intros Hp He HK0. apply T_try; auto. Qed.
  Lemma TT_ret {A} (a : A) (P : A → kinds → Prop) K : (∀ K', K ⊆ K' → P a K') → TT (Ret a) P K.
  Proof. intros H HK0 K' HK. by apply H. Qed.
  Lemma TT_conseq {A} (p : prog A) (P P' : A → kinds → Prop) K :
    TT p P K → (∀ a K', K ⊆ K' → P a K' → P' a K') → TT p P' K.
  Proof. intros Hp H HK0. eapply T_conseq; [by apply Hp|]. intros ? ? ? ? HK. by apply H. Qed.

  (** ** Storage calls *)
  Lemma I_valid K g x k : I K g → nk k x K → valid ZStrict g x → K !! x = Some k.
  Proof.
    intros HI [->|Hx]; [|done]. intros [H|[? _]]; [|done].
    apply (i_dom _ _ HI) in H as [? H]. by rewrite (i_none _ _ HI) in H.
  Qed.
  Lemma I_node K g x k : I K g → K !! x = Some k → x ∈ nodes g.
  Proof. intros HI Hx. apply (i_dom _ _ HI). eauto. Qed.
  Lemma valid_dec g x : valid ZStrict g x ∨ ¬ valid ZStrict g x.
  Proof. unfold valid. destruct (decide (x ∈ nodes g)); [by left; left|right]. by intros [?|[? _]]. Qed.
  Lemma look_same g c r g' : only_looks c → gstep ZStrict g c r g' → g' = g.
  Proof.
    intros Hc Hg. destruct c; try done; simpl in Hg; [by destruct Hg|..];
      match type of Hg with guarded (valid _ _ ?x) _ _ _ _ => destruct (valid_dec g x) as [Hv|Hv] end;
      destruct Hg as [Hg1 Hg2].
    all: try by destruct (Hg2 Hv).
    all: specialize (Hg1 Hv). all: try by destruct Hg1 as (?&_&_&_&?). by destruct Hg1.
  Qed.

  (** Calls that only look: any postcondition that holds of all answers. *)
  Lemma T_look (c : call) {A} (k : res (answer c) → prog A) Q K F B :
    only_looks c →
    (∀ K1 g r, K ⊆ K1 → I K1 g → gstep ZStrict g c r g → T (k r) Q K1 F B) →
    (∀ K1, K ⊆ K1 → T (k (Err EStorage)) Q K1 F B) →
    T (Call c k) Q K F B.
  Proof.
    intros Hc Hk He K1 g H1 HI Hfr. split_and!.
    - by destruct c.
    - intros r g' Hg. assert (g' = g) as -> by by eapply look_same.
      exists K1, F, B. split_and!; [done|done|by apply turn_same|by eapply Hk].
    - by apply He.
  Qed.

  Lemma TT_invoke c K : only_looks c → TT (invoke c) (λ _ _, True) K.
  Proof. intros Hc _. apply T_look; [done| |done]. by intros K1 g [] HK HI Hg. Qed.

  Lemma TT_getref k x K : nk k x K →
    TT (st_getref x) (λ r K', nko (prev_field k) (fst r) K' ∧ nko (next_field k) (snd r) K') K.
  Proof.
    intros Hx _. apply T_look; [done| |done]. intros K1 g r HK HI Hg. destruct r as [[a b]|e]; [|done].
    destruct (valid_dec g x) as [Hv|Hv]; destruct Hg as [Hg1 Hg2]; [|by destruct (Hg2 Hv)].
    destruct (Hg1 Hv) as [[= -> ->] _]. clear Hg1 Hg2.
    eapply nk_mono in Hx; [|done]. assert (Hk := I_valid _ _ _ _ HI Hx Hv).
    intros K' HK'. simpl. split; (eapply nko_mono; [|exact HK']).
    - destruct (bwd g !! x) as [y|] eqn:E; simpl.
      + apply (i_back _ _ HI) in E. destruct (i_ref _ _ HI _ _ E) as (a&b&Ha&Hb&Hn). simplify_eq.
        rewrite (prev_next _ _ Hn). by right.
      + destruct (prev_field k); [by left|done].
    - destruct (fwd g !! x) as [y|] eqn:E; simpl.
      + destruct (i_ref _ _ HI _ _ E) as (a&b&Ha&Hb&Hn). simplify_eq. rewrite Hn. by right.
      + destruct (next_field k); [by left|done].
  Qed.

  Lemma TT_targets k k2 x K : (∀ k', joins k k' = true → k' ≠ Zero → k' = k2) → nk k x K →
    TT (st_targets x) (λ l K', Forall (λ y, nk k2 y K') l) K.
  Proof.
    intros Hj Hx _. apply T_look; [done| |done]. intros K1 g r HK HI Hg. destruct r as [l|e]; [|done].
    destruct (valid_dec g x) as [Hv|Hv]; destruct Hg as [Hg1 Hg2]; [|by destruct (Hg2 Hv)].
    destruct (Hg1 Hv) as (?&[= <-]&_&Hl&_). clear Hg1 Hg2.
    eapply nk_mono in Hx; [|done]. assert (Hk := I_valid _ _ _ _ HI Hx Hv).
    intros K' HK'. apply Forall_forall. intros y Hy%Hl. eapply nk_mono; [|exact HK'].
    destruct (i_edge _ _ HI _ _ Hy) as (a&b&Ha&Hb&Hab). simplify_eq. right. rewrite Hb. f_equal.
    apply Hj; [done|]. intros ->. by apply (i_zero _ _ HI y).
  Qed.
  Lemma TT_sources k k2 x K : (∀ k', joins k' k = true → k' ≠ Zero → k' = k2) → nk k x K →
    TT (st_sources x) (λ l K', Forall (λ y, nk k2 y K') l) K.
  Proof.
    intros Hj Hx _. apply T_look; [done| |done]. intros K1 g r HK HI Hg. destruct r as [l|e]; [|done].
    destruct (valid_dec g x) as [Hv|Hv]; destruct Hg as [Hg1 Hg2]; [|by destruct (Hg2 Hv)].
    destruct (Hg1 Hv) as (?&[= <-]&_&Hl&_). clear Hg1 Hg2.
    eapply nk_mono in Hx; [|done]. assert (Hk := I_valid _ _ _ _ HI Hx Hv).
    intros K' HK'. apply Forall_forall. intros y Hy%Hl. eapply nk_mono; [|exact HK'].
    destruct (i_edge _ _ HI _ _ Hy) as (a&b&Ha&Hb&Hab). simplify_eq. right. rewrite Ha. f_equal.
    apply Hj; [done|]. intros ->. by apply (i_zero _ _ HI y).
  Qed.

  Lemma TT_single {A} e (l : list A) (P : A → kinds → Prop) K :
    (∀ x K', K ⊆ K' → x ∈ l → P x K') → TT (single e l) P K.
  Proof.
    intros H. destruct l as [|x [|y l]]; try by intros ?. intros _ K' HK. apply H; [done|]. by left.
  Qed.

  Context (HB : base g0 K0 z o).
  Lemma I_old_node K g x : I K g → x ∈ nodes g0 → x ∈ nodes g.
  Proof.
    intros HI Hx. apply (ba_dom _ _ _ _ HB) in Hx as [k Hk]. eapply I_node; [done|].
    eapply lookup_weaken; [done|apply HI].
  Qed.

  Lemma T_connect {A} a b x y (f : unit → prog A) Q K F B :
    nk a x K → nk b y K → joins a b = true →
    (frozen_out a = true → x ∉ nodes g0) → (frozen_in b = true → y ∉ nodes g0) →
    T (f tt) Q K F B → T (bind (st_connect x y) f) Q K F B.
  Proof.
    intros Hx Hy Hab Ho Hi Hf K1 g HK HI Hfr. split; [done|]. split; [|done].
    intros r g' Hg.
    assert (valid ZStrict g x ∧ valid ZStrict g y ∨ ¬ (valid ZStrict g x ∧ valid ZStrict g y)) as [Hv|Hv].
    { destruct (valid_dec g x), (valid_dec g y); tauto. }
    - destruct Hg as [Hg _]. destruct (Hg Hv) as [-> ->]. clear Hg. destruct Hv as [Hvx Hvy].
      eapply nk_mono in Hx, Hy; [|done..].
      assert (Kx := I_valid _ _ _ _ HI Hx Hvx). assert (Ky := I_valid _ _ _ _ HI Hy Hvy).
      assert (Old : ∀ u k k', K1 !! u = Some k → K0 !! u = Some k' → k = k').
      { intros u k k' H1 H2. eapply lookup_weaken in H2; [|apply (i_old _ _ HI)]. congruence. }
      exists K1, F, B. split_and!; [done| | |].
      + destruct HI. split; simpl; auto.
        * set_solver.
        * intros u v [[= -> ->]%elem_of_singleton|He]%elem_of_union; [|by auto]. exists a, b. auto.
        * intros u v k [[= -> ->]%elem_of_singleton|He]%elem_of_union Hk Hfz; [|by eauto].
          assert (a = k) as -> by eauto. exfalso. apply Ho; [done|]. apply (ba_dom _ _ _ _ HB). eauto.
        * intros u v k [[= -> ->]%elem_of_singleton|He]%elem_of_union Hk Hfz; [|by eauto].
          assert (b = k) as -> by eauto. exfalso. apply Hi; [done|]. apply (ba_dom _ _ _ _ HB). eauto.
      + split; simpl; auto. split; simpl; set_solver.
      + simpl. eapply T_up; [exact Hf|done].
    - destruct Hg as [_ Hg]. destruct (Hg Hv) as [-> ->]. exists K1, F, B.
      split_and!; [done|done|by apply turn_same|done].
  Qed.

  Lemma I_fwd_none K g x : I K g → x ∉ nodes g → fwd g !! x = None ∧ bwd g !! x = None.
  Proof.
    intros HI Hx. split.
    - destruct (fwd g !! x) as [y|] eqn:E; [|done]. destruct (i_ref _ _ HI _ _ E) as (a&b&Ha&_).
      destruct Hx. by eapply I_node.
    - destruct (bwd g !! x) as [y|] eqn:E; [|done]. apply (i_back _ _ HI) in E.
      destruct (i_ref _ _ HI _ _ E) as (a&b&_&Hb&_). destruct Hx. by eapply I_node.
  Qed.

  Lemma T_create {A} kd (f : N → prog A) Q K F B :
    kd ≠ Zero →
    (∀ x K', K ⊆ K' → K' !! x = Some kd → x ∉ nodes g0 → x ∉ F → x ∉ B →
      T (f x) Q K' ({[x]} ∪ F) ({[x]} ∪ B)) →
    T (bind st_create f) Q K F B.
  Proof.
    intros Hkd Hf K1 g HK HI Hfr. split; [done|]. split; [|done].
    intros r g' (x&->&Hx0&Hxn&_&->). simpl.
    assert (K1 !! x = None) as Hx1.
    { destruct (K1 !! x) eqn:E; [|done]. destruct Hxn. by eapply I_node. }
    assert (K1 ⊆ <[x:=kd]> K1) as Hsub by by apply insert_subseteq.
    destruct (I_fwd_none _ _ _ HI Hxn) as [Hxf Hxb].
    assert (Hx2 : x ∉ nodes g0) by (intros ?; by eapply Hxn, I_old_node).
    assert (Wk : ∀ u k, K1 !! u = Some k → <[x:=kd]> K1 !! u = Some k) by (intros; by eapply lookup_weaken).
    exists (<[x:=kd]> K1), ({[x]} ∪ F), ({[x]} ∪ B). split_and!; [done| | |].
    - destruct HI. split; simpl; auto.
      + intros u. rewrite elem_of_union, elem_of_singleton, i_dom0.
        destruct (decide (u = x)) as [->|Hu].
        * rewrite lookup_insert. split; eauto.
        * rewrite lookup_insert_ne by done. naive_solver.
      + by rewrite lookup_insert_ne.
      + intros u. destruct (decide (u = x)) as [->|Hu].
        * rewrite lookup_insert. by intros [= ->].
        * rewrite lookup_insert_ne by done. auto.
      + by etrans.
      + intros u v He. destruct (i_edge0 _ _ He) as (a&b&?&?&?). exists a, b. auto.
      + intros u v He. destruct (i_ref0 _ _ He) as (a&b&?&?&?). exists a, b. auto.
    - destruct Hfr as [Hfr1 Hfr2]. split; simpl; auto.
      + split; simpl; try done. set_solver.
      + intros u [->%elem_of_singleton|?]%elem_of_union; auto.
      + intros u [->%elem_of_singleton|?]%elem_of_union; auto.
      + split; simpl; intros u [->%elem_of_singleton|Hu]%elem_of_union.
        * set_solver.
        * destruct (Hfr1 _ Hu) as (?&?&?). set_solver.
        * set_solver.
        * destruct (Hfr2 _ Hu) as (?&?&?). set_solver.
    - destruct Hfr as [Hfr1 Hfr2]. apply Hf; auto.
      + by etrans.
      + apply lookup_insert.
      + intros Hu. by destruct (Hfr1 _ Hu).
      + intros Hu. by destruct (Hfr2 _ Hu).
  Qed.

  Lemma T_setref {A} a b x y (f : unit → prog A) Q K F B :
    K !! x = Some a → K !! y = Some b → next_field a = Some b → x ∈ F → y ∈ B →
    T (f tt) Q K (F ∖ {[x]}) (B ∖ {[y]}) → T (bind (st_setref x y) f) Q K F B.
  Proof.
    intros Hx Hy Hab HxF HyB Hf K1 g HK HI [Hf1 Hf2].
    destruct (Hf1 _ HxF) as (Nx&Ox&Fx). destruct (Hf2 _ HyB) as (Ny&Oy&By).
    split; [done|]. split; [|done].
    intros r g' [Hg _]. destruct (Hg (conj (or_introl Nx) (or_introl Ny)) Fx By) as [-> ->].
    eapply lookup_weaken in Hx, Hy; [|done..].
    exists K1, (F ∖ {[x]}), (B ∖ {[y]}). split_and!; [done| | |].
    - destruct HI. split; simpl; auto.
      + intros u v. destruct (decide (u = x)) as [->|Hu].
        * rewrite lookup_insert. intros [= <-]. exists a, b. auto.
        * rewrite lookup_insert_ne by done. auto.
      + intros u v. destruct (decide (u = x)) as [->|Hu].
        * rewrite lookup_insert. destruct (decide (v = y)) as [->|Hv].
          -- rewrite lookup_insert. split; congruence.
          -- rewrite lookup_insert_ne by done. split; [congruence|]. intros Hc%i_back0. congruence.
        * rewrite lookup_insert_ne by done. destruct (decide (v = y)) as [->|Hv].
          -- rewrite lookup_insert. split; [|congruence]. intros Hc%i_back0. congruence.
          -- rewrite lookup_insert_ne by done. auto.
      + intros u Hu. rewrite lookup_insert_ne by congruence. auto.
      + intros u Hu. rewrite lookup_insert_ne by congruence. auto.
    - split; simpl.
      + split; simpl; try done; by apply insert_subseteq.
      + set_solver.
      + set_solver.
      + intros u Hu HuF. rewrite lookup_insert_ne; [done|]. by intros ->.
      + intros u Hu HuF. rewrite lookup_insert_ne; [done|]. by intros ->.
      + split; simpl.
        * intros u [Hu Hux]%elem_of_difference. destruct (Hf1 _ Hu) as (?&?&?).
          rewrite lookup_insert_ne by set_solver. done.
        * intros u [Hu Hux]%elem_of_difference. destruct (Hf2 _ Hu) as (?&?&?).
          rewrite lookup_insert_ne by set_solver. done.
    - simpl. eapply T_up; [exact Hf|done].
  Qed.
End crowd.
