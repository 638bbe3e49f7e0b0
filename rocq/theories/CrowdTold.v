(** What a crowd makes reads back. *)
From stdpp Require Import gmap.
From Coq Require Import NArith ZArith Lia.
From Verif Require Import Base GoText SpecText Utf8Proofs Codec Model1 Model2 Model3 Storage Spec SpecMoments SpecCrowd Inv Wp Steps Entity Reads BitProofs
  CharProofs WordProofs PhraseProofs DetailProofs StoryProofs HistoryProofs ApiProofs CallProofs
  CrowdStates CrowdTexts CrowdRemarks CrowdProofs.
Local Open Scope nat_scope.

(** ** Reading calls, whatever they read *)
Section looks.
  Context {F : nat}.
  Notation C := (C F).

  Definition L {A} (p : prog A) : Prop := ∀ G g D, C p (λ _ _ _, True) G g D.

  Lemma L_bind {A B} (p : prog A) (f : A → prog B) : L p → (∀ a, L (f a)) → L (bind p f).
  Proof. intros Hp Hf G g D. eapply C_seq; [apply Hp|]. intros a G' g' _ _ _ _. apply Hf. Qed.
  Lemma L_try {A} (p : prog A) : L p → L (try p).
  Proof. intros Hp G g D. by apply C_try. Qed.
  Lemma L_ret {A} (a : A) : L (Ret a).
  Proof. intros G g D. by apply C_ret. Qed.
  Lemma L_throw {A} e : L (@Throw A e).
  Proof. intros G g D. apply C_throw. Qed.
  Lemma L_panic {A} : L (@Panic A).
  Proof. intros G g D. apply C_panic. Qed.
  Lemma L_diverge {A} : L (@Diverge A).
  Proof. intros G g D. apply C_diverge. Qed.
  Lemma L_invoke c : is_read c → L (invoke c).
  Proof. intros Hc G g D. eapply C_read, plain_R. by apply plain_invoke. Qed.
  Lemma L_init : L bit_initialize.
  Proof.
    intros G g D. apply C_ctx. intros _ (Hup&z&o&Hb). eapply C_conseq; [|done].
    eapply C_read. by apply (R_bit_initialize z o).
  Qed.
  Lemma L_class : L class_provide.
  Proof.
    intros G g D. apply C_ctx. intros _ [Hup _]. eapply C_conseq; [|done].
    eapply C_read. by apply R_class_provide.
  Qed.
End looks.

Ltac looking :=
  repeat first
    [ match goal with |- ∀ _, _ => intros ? end
    | match goal with
      | |- L bit_initialize => apply L_init
      | |- L class_provide => apply L_class
      | |- L (bind _ _) => apply L_bind
      | |- L (try _) => apply L_try
      | |- L (invoke ?c) => apply (L_invoke c); exact Logic.I
      | |- L (Ret _) => apply L_ret
      | |- L (Throw _) => apply L_throw
      | |- L Panic => apply L_panic
      | |- L Diverge => apply L_diverge
      | |- L (match ?x with _ => _ end) => destruct x
      | |- L (let _ := _ in _) => cbv zeta
      | |- _ => solve [auto]
      | |- L ?t => let f := head_of t in unfold f
      end ].

Section reads.
  Context {F : nat}.
  Notation L := (@L F _).

  Lemma L_char_loop n el l : L (char_extract_loop n el l).
  Proof. revert el l. induction n; cbn [char_extract_loop]; looking. Qed.
  Lemma L_word_loop m n el l : L (word_extract_loop m n el l).
  Proof. pose proof L_char_loop as Hc. revert el l. induction n; cbn [word_extract_loop]; looking. Qed.
  Lemma L_word n e : L (word_extract n e).
  Proof. pose proof L_char_loop as Hc. pose proof L_word_loop. looking. Qed.
  Lemma L_phrase_value n e : L (phrase_extract_word_value n e).
  Proof. pose proof L_word. looking. Qed.
  Lemma L_phrase_loop m n el l : L (phrase_extract_loop m n el l).
  Proof. pose proof L_phrase_value as Hc. revert el l. induction n; cbn [phrase_extract_loop]; looking. Qed.
  Lemma L_phrase n e : L (phrase_extract n e).
  Proof. pose proof L_phrase_value as Hc. pose proof L_phrase_loop. looking. Qed.
  Lemma L_detail n d : L (detail_get_object_and_property n d).
  Proof. pose proof L_phrase. looking. Qed.
  Lemma L_texts n r : L (get_object_and_property n r).
  Proof. pose proof L_detail. looking. Qed.
  Lemma L_story_loop n m r s : L (get_story_loop n m r s).
  Proof. pose proof L_texts as H. revert r s. induction m; cbn [get_story_loop]; looking. Qed.
  Lemma L_reading n o : creating o = false → L (call_of n o).
  Proof.
    intros Hc. pose proof L_texts as H1. pose proof L_story_loop as H2. destruct o; try done; unfold call_of; looking.
  Qed.
End reads.

(** ** What the calls leave behind *)
Definition leaves (F : nat) (o : opn) (v : value) (G : ghost) (g : graph) : Prop :=
  match o with
  | CreateStory ob pr => ∃ r f, v = VRem r ∧ remF G g r (words_of ob) (words_of pr) f ∧ storyP False G g f r ∧
      S (length (normalise ob)) < F
  | AddRemarkToFact a pr => ∃ r oa pa fa, v = VRem r ∧ remF G g a oa pa fa ∧
      remF G g r (words_of (text_of oa)) (words_of pr) fa ∧ S (length (text_of oa)) < F
  | AddFactToStory _ _ _ | CreateChildStory _ _ _ => False
  | _ => True
  end.

Lemma leaves_mono F o v G g G' g' : ext G g G' g' → leaves F o v G g → leaves F o v G' g'.
Proof.
  intros X. destruct o; simpl; auto.
  - intros (r&f&->&H1&H2&H3). exists r, f. split_and!; [done|by apply (remF_mono X)|by apply (storyP_mono X (C := False))|done].
  - intros (r1&oa&pa&fa&->&H1&H2&H3). exists r1, oa, pa, fa. split_and!; [done|by apply (remF_mono X)..|done].
Qed.

Section calls.
  Context {fuel : nat} (Hfuel : 31 ≤ fuel).
  Notation C := (C fuel).

  Lemma C_call o G g D :
    solo G = false → Forall (fits fuel) (texts o) →
    (creating o = true → ∀ a, receiver o = Some a → ∃ ob pr, told fuel G g a ob pr) →
    C (call_of fuel o) (leaves fuel o) G g D.
  Proof.
    intros Hs Hf Hr. unfold fits in Hf.
    destruct (creating o) eqn:Hc.
    2: { eapply C_conseq; [by apply L_reading|]. intros v G' g' _ _ _. by destruct o. }
    specialize (Hr eq_refl).
    destruct o as [ob pr|a pr|a ob pr|a ob pr| | | | | | | | | |]; try done; cbn [call_of texts receiver] in *.
    - apply Forall_cons in Hf as [Hob Hf]. apply Forall_cons in Hf as [Hpr _].
      eapply C_seq; [apply (C_create_story fuel Hfuel (le_n _) ob pr); [done|lia|lia]|].
      intros r G1 g1 _ _ _ (f&H1&H2). apply C_ret. intros _ _. exists r, f. split_and!; auto.
      pose proof (normalise_length ob). lia.
    - apply Forall_cons in Hf as [Hpr _]. destruct (Hr a eq_refl) as (o&p&oa&pa&fa&Ha&<-&_&Hlen).
      eapply C_seq; [apply (C_add_remark_to_fact fuel Hfuel (le_n _) a oa pa fa pr); [done|done|done|lia]|].
      intros r G1 g1 _ X1 _ H1. apply C_ret. intros _ _. exists r, oa, pa, fa. split_and!; auto. by apply (remF_mono X1).
    - apply Forall_cons in Hf as [Hob Hf]. apply Forall_cons in Hf as [Hpr _].
      destruct (Hr a eq_refl) as (o&p&oa&pa&fa&[[Ha _] _]&_).
      eapply C_seq; [apply (C_add_fact_to_story fuel Hfuel (le_n _) a oa pa ob pr (λ _ _ _, False)); [done|done|lia|lia]|].
      done.
    - apply Forall_cons in Hf as [Hob Hf]. apply Forall_cons in Hf as [Hpr _].
      destruct (Hr a eq_refl) as (o&p&oa&pa&fa&[[Ha _] _]&_).
      eapply C_seq; [apply (C_create_child_story fuel Hfuel (le_n _) a oa pa ob pr (λ _ _ _, False)); [done|done|lia|lia]|].
      done.
  Qed.

  Transparent CrowdStates.C.
  Lemma cwp_of_C {A} (p : prog A) Q G g D : C p Q G g D → ok fuel G g → live G → D ⊆ nodes g → cwp fuel p Q G g D.
  Proof. intros H. exact H. Qed.
  Opaque CrowdStates.C.

  (** ** The scenes *)
  Record tale (s : scene) (G : ghost) (D : nat → gset N) : Prop := {
    ta_ok : ok fuel G (sc_store s);
    ta_solo : solo G = false;
    ta_live : live G;
    ta_mem : ∀ i, cache_ok G (sc_mem s i);
    ta_own : ∀ i, D i ⊆ nodes (sc_store s);
    ta_apart : ∀ i j, i ≠ j → D i ## D j;
    ta_run : ∀ i o p, sc_running s i = Some (o, p) → ∃ Gi gi,
      cwp fuel p (leaves fuel o) Gi gi (D i) ∧ ext Gi gi G (sc_store s) ∧ keep (D i) Gi gi (sc_store s);
    ta_recv : ∀ i o p, sc_running s i = Some (o, p) → creating o = true → ∀ a, receiver o = Some a → issued (sc_trace s) a;
    ta_told : ∀ r, issued (sc_trace s) r → ∃ o p, tells (sc_trace s) r o p;
    ta_tells : ∀ r o p, tells (sc_trace s) r o p → told fuel G (sc_store s) r o p;
    ta_begun : ∀ r r0, opened false (sc_trace s) r r0 → begun True G (sc_store s) r r0
  }.

  Lemma tale_local t g mm ru G D i mi o p p1 Gi gi :
    tale (Scene t g mm ru) G D → ru i = Some (o, p1) → cache_ok G mi →
    cwp fuel p (leaves fuel o) Gi gi (D i) → ext Gi gi G g → keep (D i) Gi gi g →
    tale (Scene t g (set_at i mi mm) (set_at i (Some (o, p)) ru)) G D.
  Proof.
    intros [T1 T2 T3 T4 T5 T6 T7 TR T8 T9 T10] Hi Hm Hp X K. split; simpl in *; auto.
    - intros j. destruct (decide (j = i)) as [->|Hj]; [by rewrite set_at_same|by rewrite set_at_other].
    - intros j oj pj. destruct (decide (j = i)) as [->|Hj]; [rewrite set_at_same|rewrite set_at_other by done]; [|auto].
      intros [= <- <-]. by exists Gi, gi.
    - intros j oj pj. destruct (decide (j = i)) as [->|Hj]; [rewrite set_at_same|rewrite set_at_other by done; apply TR].
      intros [= <- <-]. by eapply TR.
  Qed.
  Lemma tale_ext t g mm mm' ru G D :
    (∀ i, mm' i = mm i) → tale (Scene t g mm ru) G D → tale (Scene t g mm' ru) G D.
  Proof. intros He [T1 T2 T3 T4 T5 T6 T7 TR T8 T9 T10]. split; simpl in *; auto. intros i. by rewrite He. Qed.

  Lemma tale_end t g mm ru G D i mi o out p1 :
    tale (Scene t g mm ru) G D → ru i = Some (o, p1) → cache_ok G mi →
    (∀ v, out = OOk v → leaves fuel o v G g) →
    tale (Scene (Called i o out :: t) g (set_at i mi mm) (set_at i None ru)) G D.
  Proof.
    intros [T1 T2 T3 T4 T5 T6 T7 TR T8 T9 T10] Hi Hm Hl. simpl in *.
    assert (old : ∀ r, issued t r → issued (Called i o out :: t) r) by (intros; apply issued_cons; by right).
    split; simpl; auto.
    - intros j. destruct (decide (j = i)) as [->|Hj]; [by rewrite set_at_same|by rewrite set_at_other].
    - intros j oj pj. destruct (decide (j = i)) as [->|Hj]; [by rewrite set_at_same|rewrite set_at_other by done; auto].
    - intros j oj pj. destruct (decide (j = i)) as [->|Hj]; [by rewrite set_at_same|rewrite set_at_other by done; eauto].
    - intros r [Hr|Hr]%issued_cons.
      2: { destruct (T8 _ Hr) as (o'&p'&?). exists o', p'. by apply tells_later. }
      destruct o as [ob pr|a pr|a ob pr|a ob pr| | | | | | | | | |]; destruct out as [[]| | | |]; simplify_eq/=;
        specialize (Hl _ eq_refl); simpl in Hl; try done.
      + do 2 eexists. apply tells_story; by apply repaired_iff.
      + destruct (T8 a) as (o'&p'&?); [by eapply TR|]. do 2 eexists. eapply tells_remark; [done|by apply repaired_iff].
    - intros r o' p' Ht. inversion Ht as [|? ? ? ? ? ? ? H1 H2|? ? ? ? ? ? ? ? H1 H2|? ? ? ? ? ? ? ? H1 H2|? ? ? ? ? ? q ? H1 H2]; subst; auto.
      + destruct (Hl _ eq_refl) as (r'&f&[= <-]&H3&_&Hlen).
        apply repaired_iff in H1 as ->. apply repaired_iff in H2 as ->.
        eexists _, _, f. split; [exact H3|]. by rewrite !text_of_words_of.
      + by destruct (Hl _ eq_refl).
      + by destruct (Hl _ eq_refl).
      + destruct (Hl _ eq_refl) as (r'&oa&pa&fa&[= <-]&H3&H4&Hlen). apply repaired_iff in H2 as ->.
        pose proof (tells_clean _ _ _ _ H1) as [Hcl _].
        apply T9 in H1 as (ow&pw&f'&H5&<-&_&_).
        destruct (remF_text _ _ _ _ _ _ _ _ _ _ T1 H3 H5) as [<- _].
        eexists _, _, fa. split; [exact H4|]. rewrite !text_of_words_of. done.
    - intros r r0 Ho. inversion Ho as [|? ? ? ?|? ? ? ? ? ?|? ? ? ? ? ? H1|? ? ? ? ? ? ? H1]; subst; auto.
      + destruct (Hl _ eq_refl) as (r'&f&[= <-]&H3&H4&_). eexists _, _, f. split; [exact H3|].
        eapply (storyP_mono (ext_refl _ _)); [|exact H4]. done.
      + by destruct (Hl _ eq_refl).
      + destruct (Hl _ eq_refl) as (r'&oa&pa&fa&[= <-]&H3&H4&_).
        apply T10 in H1 as (ow&pw&f'&H5&H6). pose proof (remF_fact _ _ _ _ _ _ _ _ _ _ T1 H3 H5) as <-.
        by eexists _, _, fa.
      + done.
  Qed.

  Lemma tale_step fk s s' G D :
    tale s G D → crowd ZStrict fk fuel s s' → sized fuel s' →
    ∃ G' D', tale s' G' D' ∧ ext G (sc_store s) G' (sc_store s').
  Proof.
    intros HT Hst Hsz.
    destruct Hst as [t g mm ru i o' Hi Hrec|t g mm ru i o' c k r g' Hi Hg|t g mm ru i o' c k Hfk Hi|
      t g mm ru i o' c k Hfk Hi|t g mm ru i o' k Hi|t g mm ru i o' m k Hi|t g mm ru i o' p out Hi Hf|t g mm ru i Hi]; simpl.
    - exists G, D. split; [|done]. destruct HT as [T1 T2 T3 T4 T5 T6 T7 TR T8 T9 T10]. split; simpl in *; auto.
      + intros j oj pj. destruct (decide (j = i)) as [->|Hj]; [rewrite set_at_same|rewrite set_at_other by done; auto].
        intros [= <- <-]. exists G, g. split_and!; [|done|done]. apply cwp_of_C; auto. apply C_call; auto.
        * eapply (Hsz i). simpl. apply set_at_same.
        * intros Hc a Ha. destruct (T8 a) as (ob&pr&?); eauto.
      + intros j oj pj. destruct (decide (j = i)) as [->|Hj]; [rewrite set_at_same|rewrite set_at_other by done; eauto].
        by intros [= <- <-].
    - destruct (ta_run _ _ _ HT i _ _ Hi) as (Gi&gi&Hp&X&K). simpl in *.
      destruct (Hp G g X (ta_ok _ _ _ HT) K) as [H1 _].
      destruct (H1 _ _ Hg) as (G2&D2&X2&Hok2&K2&HD2&Hk). exists G2, (set_at i D2 D). split; [|done].
      destruct HT as [T1 T2 T3 T4 T5 T6 T7 TR T8 T9 T10]. simpl in *.
      assert (Hn : nodes g ⊆ nodes g') by apply X2.
      split; simpl; auto.
      + by rewrite (ext_solo _ _ _ _ X2).
      + by eapply live_mono.
      + intros j. by eapply cache_ok_mono.
      + intros j. destruct (decide (j = i)) as [->|Hj]; [rewrite set_at_same|rewrite set_at_other by done].
        * intros x Hx. apply HD2 in Hx as [Hx|Hx]%elem_of_union; [by apply Hn, (T5 i)|set_solver].
        * intros x Hx. by apply Hn, (T5 j).
      + assert (HA : ∀ j, j ≠ i → D2 ## D j).
        { intros j Hj x Hx Hxj. apply HD2 in Hx as [Hx|Hx]%elem_of_union; [by eapply (T6 i j)|].
          apply T5 in Hxj. set_solver. }
        intros a b Hab. unfold set_at.
        destruct (Nat.eqb_spec a i) as [->|Ha], (Nat.eqb_spec b i) as [->|Hb]; [done|auto| |auto]. symmetry. auto.
      + intros j oj pj. destruct (decide (j = i)) as [->|Hj]; [rewrite !set_at_same|rewrite !set_at_other by done].
        * intros [= <- <-]. by exists G2, g'.
        * intros Hj'. destruct (T7 _ _ _ Hj') as (Gj&gj&Hpj&Xj&Kj). exists Gj, gj. split_and!; [done|by eapply ext_trans|].
          eapply keep_trans; [exact Xj|exact Kj|]. eapply keep_sub; [|exact K2].
          intros x Hx. apply elem_of_difference. split; [by apply (T5 j)|]. intros Hxi. by eapply (T6 i j).
      + intros j oj pj. destruct (decide (j = i)) as [->|Hj]; [rewrite !set_at_same|rewrite !set_at_other by done; eauto].
        intros [= <- <-]. eauto.
      + intros ? ? ? ?. eapply told_mono; eauto.
      + intros ? ? ?. eapply (begun_mono True); eauto.
    - exists G, D. split; [|done]. destruct (ta_run _ _ _ HT i _ _ Hi) as (Gi&gi&Hp&X&K). simpl in *.
      destruct (Hp G g X (ta_ok _ _ _ HT) K) as [_ H2].
      eapply tale_ext; [apply (set_at_id i)|]. eapply tale_local; [exact HT|exact Hi|apply (ta_mem _ _ _ HT)|exact H2|done|done].
    - exists G, D. split; [|done]. by eapply tale_end.
    - exists G, D. split; [|done]. destruct (ta_run _ _ _ HT i _ _ Hi) as (Gi&gi&Hp&X&K). simpl in *.
      eapply tale_ext; [apply (set_at_id i)|].
      eapply tale_local; [exact HT|exact Hi|apply (ta_mem _ _ _ HT)|apply (Hp G g)|done|done]; try done; apply HT.
    - exists G, D. split; [|done]. destruct (ta_run _ _ _ HT i _ _ Hi) as (Gi&gi&[Hm Hp]&X&K). simpl in *.
      eapply tale_local; [exact HT|exact Hi|by eapply cache_ok_mono|exact Hp|done|done].
    - exists G, D. split; [|done]. eapply tale_ext; [apply (set_at_id i)|].
      eapply tale_end; [exact HT|exact Hi|apply (ta_mem _ _ _ HT)|].
      intros v ->. destruct (ta_run _ _ _ HT i _ _ Hi) as (Gi&gi&Hp&X&K). destruct p; simplify_eq/=.
      by eapply leaves_mono.
    - exists G, D. split; [|done]. destruct HT as [T1 T2 T3 T4 T5 T6 T7 TR T8 T9 T10].
      split; simpl in *; auto.
      + intros j. destruct (decide (j = i)) as [->|Hj]; [by rewrite set_at_same|by rewrite set_at_other].
      + intros. apply issued_cons. right. eauto.
      + intros r [?|Hr]%issued_cons; [done|]. destruct (T8 _ Hr) as (o'&p'&?). exists o', p'. by apply tells_later.
      + intros r o' p' Ht. apply T9. eapply tells_quiet; [|eassumption]; done.
      + intros r r0 Ho. apply T10. eapply opened_quiet; [|eassumption]; done.
  Qed.

  (** ** One reader among them *)
  Record heard (fk : bool) (t0 : trace) (i : nat) (o : opn) (v : value) (s : scene) (G : ghost) : Prop := {
    he_run : ∀ p, sc_running s i = Some (o, p) → ∃ Gi gi,
      rwp ZStrict fk fuel p (λ x _ _, x = v) (E0 fk) Gi gi ∧ ext Gi gi G (sc_store s);
    he_trace : ∃ l, sc_trace s = l ++ t0 ∧ ∀ out, Called i o out ∈ l → answers fk out v
  }.

  Lemma heard_step fk t0 i o v G0 g0 s s' G D G' D' :
    rwp ZStrict fk fuel (call_of fuel o) (λ x _ _, x = v) (E0 fk) G0 g0 → ext G0 g0 G (sc_store s) →
    tale s G D → tale s' G' D' → ext G (sc_store s) G' (sc_store s') →
    crowd ZStrict fk fuel s s' → heard fk t0 i o v s G → heard fk t0 i o v s' G'.
  Proof.
    intros HR X0 HT HT' XS Hst [H1 (l&Hl&H2)].
    assert (stay : ∀ p, sc_running s i = Some (o, p) → ∃ Gi gi,
      rwp ZStrict fk fuel p (λ x _ _, x = v) (E0 fk) Gi gi ∧ ext Gi gi G' (sc_store s')).
    { intros p Hp. destruct (H1 _ Hp) as (Gi&gi&?&?). exists Gi, gi. split; [done|]. by eapply ext_trans. }
    assert (grow : ∀ e, sc_trace s' = e :: sc_trace s → (∀ out, e = Called i o out → answers fk out v) →
      ∃ l', sc_trace s' = l' ++ t0 ∧ ∀ out, Called i o out ∈ l' → answers fk out v).
    { intros e -> He. exists (e :: l). rewrite Hl. split; [done|]. intros out [Heq|Hin]%elem_of_cons; [by apply He|auto]. }
    destruct Hst as [t g mm ru j o' Hi Hrec|t g mm ru j o' c k r g' Hi Hg|t g mm ru j o' c k Hfk Hi|
      t g mm ru j o' c k Hfk Hi|t g mm ru j o' k Hi|t g mm ru j o' m k Hi|t g mm ru j o' p out Hi Hf|t g mm ru j Hi]; simpl in *.
    - split; [|eauto]. simpl. intros p. destruct (decide (i = j)) as [->|Hj]; [rewrite set_at_same|rewrite set_at_other by done; apply stay].
      intros [= <- <-]. exists G0, g0. split; [done|]. by eapply ext_trans.
    - split; [|eauto]. simpl. intros p. destruct (decide (i = j)) as [->|Hj]; [rewrite set_at_same|rewrite set_at_other by done; apply stay].
      intros [= <- <-]. destruct (H1 _ Hi) as (Gi&gi&[Hc Hp]&X). exists G, g. split; [|done].
      destruct (Hp G g) as [Hp1 _]; [apply HT|done|]. by eapply Hp1.
    - split; [|eauto]. simpl. intros p. destruct (decide (i = j)) as [->|Hj]; [rewrite set_at_same|rewrite set_at_other by done; apply stay].
      intros [= <- <-]. destruct (H1 _ Hi) as (Gi&gi&[Hc Hp]&X). exists G, g. split; [|done].
      destruct (Hp G g) as [_ Hp1]; [apply HT|done|]. by eapply Hp1.
    - split; simpl.
      + intros p. destruct (decide (i = j)) as [->|Hj]; [by rewrite set_at_same|rewrite set_at_other by done; apply stay].
      + eapply grow; [done|]. intros out [= -> -> <-]. split; [by intros ->|done].
    - split; [|eauto]. simpl. intros p. destruct (decide (i = j)) as [->|Hj]; [rewrite set_at_same|rewrite set_at_other by done; apply stay].
      intros [= <- <-]. destruct (H1 _ Hi) as (Gi&gi&Hp&X). exists G, g. split; [|done].
      apply Hp; [apply HT|done|]. apply (ta_mem _ _ _ HT j).
    - split; [|eauto]. simpl. intros p. destruct (decide (i = j)) as [->|Hj]; [rewrite set_at_same|rewrite set_at_other by done; apply stay].
      intros [= <- <-]. destruct (H1 _ Hi) as (Gi&gi&[Hm Hp]&X). exists Gi, gi. split; [done|by eapply ext_trans].
    - split; simpl.
      + intros q. destruct (decide (i = j)) as [->|Hj]; [by rewrite set_at_same|rewrite set_at_other by done; apply stay].
      + eapply grow; [done|]. intros out' [= -> -> <-]. destruct (H1 _ Hi) as (Gi&gi&Hp&_).
        destruct p; simplify_eq/=.
        * split; [done|]. by intros ? [= <-].
        * destruct Hp. split; [|done]. congruence.
        * destruct Hp. split; [|done]. congruence.
        * destruct Hp. done.
    - split; simpl; [done|]. by eapply grow.
  Qed.

  Lemma heard_on fk s s' G D i o v out :
    tale s G D → R ZStrict fk fuel (call_of fuel o) (λ x _ _, x = v) (E0 fk) G (sc_store s) →
    sc_running s i = None → goes_on ZStrict fk fuel s s' → since (sc_trace s) s' i o out → answers fk out v.
  Proof.
    intros HT HR Hi Hgo (l&Hl&Hin).
    assert (HR' : rwp ZStrict fk fuel (call_of fuel o) (λ x _ _, x = v) (E0 fk) G (sc_store s)).
    { Transparent R. apply HR, HT. Opaque R. }
    assert (H0 : heard fk (sc_trace s) i o v s G).
    { split; [by rewrite Hi|]. exists []. split; [done|]. by intros ? ?%elem_of_nil. }
    assert (Hend : ∀ s1 s2, goes_on ZStrict fk fuel s1 s2 → ∀ G1 D1, tale s1 G1 D1 →
      ext G (sc_store s) G1 (sc_store s1) → heard fk (sc_trace s) i o v s1 G1 →
      ∃ G2, heard fk (sc_trace s) i o v s2 G2).
    { induction 1 as [s1|s1 s2 s3 [Hc Hz] _ IH]; intros G1 D1 HT1 X1 H1; [eauto|].
      destruct (tale_step _ _ _ _ _ HT1 Hc Hz) as (G2&D2&HT2&X2). eapply IH; [exact HT2|by eapply ext_trans|].
      by eapply heard_step. }
    destruct (Hend _ _ Hgo _ _ HT (ext_refl _ _) H0) as (G2&[_ (l'&Hl'&Ha)]).
    rewrite Hl in Hl'. apply app_inv_tail in Hl'. subst. auto.
  Qed.

  Lemma tale_on fk s s' G D : tale s G D → goes_on ZStrict fk fuel s s' → ∃ G' D', tale s' G' D'.
  Proof.
    intros HT Hgo. revert G D HT. induction Hgo as [s|s1 s2 s3 [Hc Hz] _ IH]; intros G D HT; [eauto|].
    destruct (tale_step _ _ _ _ _ HT Hc Hz) as (G2&D2&HT2&_). eauto.
  Qed.
End calls.

(** ** Histories that went before *)

(** From now on several calls write. *)
Definition mob (G : ghost) : ghost := Gh (lab G) (bits G) false.

Lemma charC_mob G g e r : charC G g e r → charC (mob G) g e r.
Proof. induction 1; [by eapply charC_head|by eapply charC_tail]. Qed.
Lemma word_base_mob G g e rs : word_base G g e rs → word_base (mob G) g e rs.
Proof. intros (H1&H2&c&r&?&?&?). split_and!; [done|done|]. exists c, r. split_and!; [done|by apply charC_mob|done]. Qed.
Lemma wordC_mob G g e rs : wordC G g e rs → wordC (mob G) g e rs.
Proof.
  induction 1; [eapply wordC_head|eapply wordC_tail]; eauto using word_base_mob, charC_mob.
Qed.
Lemma phrase_base_mob G g e ws : phrase_base G g e ws → phrase_base (mob G) g e ws.
Proof. intros (H1&H2&c&r&?&?&?). split_and!; [done|done|]. exists c, r. split_and!; [done|by apply wordC_mob|done]. Qed.
Lemma phraseC_mob G g e ws : phraseC G g e ws → phraseC (mob G) g e ws.
Proof.
  induction 1; [eapply phraseC_head|eapply phraseC_tail]; eauto using phrase_base_mob, wordC_mob.
Qed.
Lemma remF_mob G g e o p f : remF G g e o p f → remF (mob G) g e o p f.
Proof.
  intros ((Hb&d&(H1&H2&H3&eo&ep&?&?&?&?)&?)&Hf&?). split_and!; [|exact Hf|done]. split; [exact Hb|].
  exists d. split; [|done]. split_and!; [done..|]. exists eo, ep.
  split_and!; [by apply phraseC_mob..|done|done].
Qed.
Lemma ok_mob F G g : ok F G g → ok F (mob G) g.
Proof.
  intros []. split; simpl; auto; try done.
  intros x y Hxy. destruct (ok_edge x y Hxy) as (lx&ly&?&?&?&He). exists lx, ly. split_and!; auto.
  unfold exposed in *. destruct lx; auto; destruct ly; auto;
    destruct He as (e&?&?); exists e; eauto using charC_mob, wordC_mob, phraseC_mob.
Qed.

Section crowds.
  Context {faults fk : bool} {fuel : nat} {t : trace} {w : world}.
  Context (Hr : reach ZStrict faults fuel t w) (Hs : settled t).

  Lemma crowd_tale s : goes_on ZStrict fk fuel (still t w) s → 31 ≤ fuel ∧ ∃ G D, tale (fuel := fuel) s G D.
  Proof.
    intros Hgo. destruct (reach_J _ _ _ _ _ Hr) as (d&G&HJ&_).
    destruct (J_settled _ _ _ _ _ _ HJ Hs) as (Hup&(z&o&Hz)&H31). split; [done|].
    eapply (tale_on H31 fk _ _ (mob G) (λ _, ∅)); [|exact Hgo].
    split; simpl; try done; try apply HJ.
    - apply ok_mob, HJ.
    - split; [exact Hup|]. by exists z, o.
    - intros r o' p' Ht. apply (J_tells _ _ _ _ _ _ HJ) in Ht as (ow&pw&f&?&?). exists ow, pw, f.
      split; [by apply remF_mob|done].
    - intros r r0 Ho. apply (J_begun _ _ _ _ _ _ HJ) in Ho as (ow&pw&f&?&Hsp). exists ow, pw, f. split; [by apply remF_mob|].
      by eapply (storyP_mono (ext_refl _ _)) in Hsp.
  Qed.

  Context (s s' : scene) (i : nat) (out : outcome value).
  Context (H1 : goes_on ZStrict fk fuel (still t w) s) (H2 : goes_on ZStrict fk fuel s s') (Hi : sc_running s i = None).

  Lemma told_answers {A} o (mk : A → value) (p : prog A) a :
    call_of fuel o = (x <- p;; Ret (mk x))%prog →
    (∀ G D, tale (fuel := fuel) s G D → R ZStrict fk fuel p (λ x _ _, x = a) (E0 fk) G (sc_store s)) →
    since (sc_trace s) s' i o out → answers fk out (mk a).
  Proof.
    intros Hp HR Hsi. destruct (crowd_tale _ H1) as (H31&G&D&HT).
    eapply (heard_on H31); [exact HT| |exact Hi|exact H2|exact Hsi].
    rewrite Hp. eapply R_bind; [by eapply HR| |done]. intros ? ? ? _ _ ->. by apply R_ret.
  Qed.

  Lemma told_texts r ob pr : tells (sc_trace s) r ob pr →
    since (sc_trace s) s' i (GetObjectAndProperty r) out → answers fk out (VText ob pr).
  Proof.
    intros Ht. destruct (crowd_tale _ H1) as (H31&_).
    apply (told_answers _ (λ op, VText (fst op) (snd op)) (get_object_and_property fuel r) (ob, pr)); [done|].
    intros G D HT. destruct (ta_tells _ _ _ HT _ _ _ Ht) as (ow&pw&f&Hrf&<-&<-&_).
    eapply R_get_object_and_property; [done|lia|by destruct Hrf|apply HT].
  Qed.
  Lemma told_identifier r : issued (sc_trace s) r →
    since (sc_trace s) s' i (GetRemark (re_class r)) out → answers fk out (VRem r).
  Proof.
    intros Hir. apply (told_answers _ VRem (get_remark (re_class r)) r); [done|].
    intros G D HT. destruct (ta_told _ _ _ HT _ Hir) as (o&p&Ht).
    destruct (ta_tells _ _ _ HT _ _ _ Ht) as (ow&pw&f&[[Hrf _] _]&<-&<-&_). by eapply R_get_remark.
  Qed.
  Lemma told_first_fact r r0 : opened false (sc_trace s) r r0 →
    since (sc_trace s) s' i (GetFirstFact r) out → answers fk out (VRem r0).
  Proof.
    intros Hop. apply (told_answers _ VRem (get_first_fact r) r0); [done|].
    intros G D HT. destruct (ta_begun _ _ _ HT _ _ Hop) as (ow&pw&f&Hrf&Hst). by eapply R_get_first_fact.
  Qed.
  Lemma told_story r r0 ob pr : opened false (sc_trace s) r r0 → tells (sc_trace s) r0 ob pr →
    since (sc_trace s) s' i (GetStory r) out → answers fk out (VStory (ob ++ [space] ++ pr ++ [space])).
  Proof.
    intros Hop Ht. destruct (crowd_tale _ H1) as (H31&_). apply (told_answers _ VStory (get_story fuel r)); [done|].
    intros G D HT. destruct (ta_begun _ _ _ HT _ _ Hop) as (ow&pw&f&Hrf&Hst).
    destruct (ta_tells _ _ _ HT _ _ _ Ht) as (ow0&pw0&f0&[Hrc0 _]&<-&<-&_).
    assert (up G) by apply HT. by eapply R_get_story.
  Qed.
End crowds.
