(** The invariant of histories. *)
From stdpp Require Import gmap.
From Coq Require Import NArith ZArith Lia.
From Verif Require Import Base GoText Codec Model1 Model2 Model3 Storage Inv Wp Steps Entity BitProofs
  Reads CharProofs SpecMachine WordProofs PhraseProofs DetailProofs StoryProofs SpecText Utf8Proofs Spec.
Local Open Scope nat_scope.

(** * Executions *)
Lemma exec_weaken zp {A} (p : prog A) g m o g' m' fk fk' :
  exec zp fk p g m o g' m' → (fk = true → fk' = true) → exec zp fk' p g m o g' m'.
Proof.
  intros H Hfk. induction H.
  - apply ExRet. - apply ExThrow. - apply ExPanic. - apply ExDiverge.
  - by eapply ExCall.
  - eapply ExFault; auto.
  - apply ExKill; auto.
  - by apply ExLoad.
  - by apply ExStore.
Qed.

(** A reader changes nothing, also when it fails or is killed. *)
Lemma R_sound {zp fk F A} (p : prog A) g m o g' m' Q E G :
  exec zp fk p g m o g' m' → R zp fk F p Q E G g → ok F G g → cache_ok G m →
  g' = g ∧ cache_ok G m' ∧ ended fk Q E o G g.
Proof.
  intros Hx HR Hok Hc. specialize (HR Hok). revert Hok Hc HR.
  induction Hx; intros Hok Hc Hwp; simpl in *.
  - done.
  - done.
  - done.
  - done.
  - destruct Hwp as [Hrd Hwp]. destruct (Hwp G g Hok (ext_refl _ _)) as [H1 _].
    assert (g1 = g) as -> by by eapply gstep_read. apply IHHx; eauto.
  - destruct Hwp as [Hrd Hwp]. destruct (Hwp G g Hok (ext_refl _ _)) as [_ H1]. auto.
  - done.
  - apply IHHx; auto.
  - destruct Hwp. auto.
Qed.

(** Programs made of read calls only. *)
Fixpoint plain_read {A} (p : prog A) : Prop :=
  match p with
  | Ret _ | Throw _ | Panic => True
  | Call c k => is_read c ∧ ∀ r, plain_read (k r)
  | _ => False
  end.

Lemma plain_bind {A B} (p : prog A) (f : A → prog B) :
  plain_read p → (∀ a, plain_read (f a)) → plain_read (bind p f).
Proof. induction p; simpl; intros; try done; auto. destruct H0. split; auto. Qed.
Lemma plain_try {A} (p : prog A) : plain_read p → plain_read (try p).
Proof. induction p; simpl; intros; try done. destruct H0. split; auto. Qed.
Lemma plain_invoke c : is_read c → plain_read (invoke c).
Proof. intros Hc. split; [done|]. by intros [a|e]. Qed.

Local Transparent R.
Lemma plain_R {zp fk F A} (p : prog A) G g : plain_read p →
  R zp fk F p (λ _ _ _, True) (λ ab _ _, ab ≠ ADiverge) G g.
Proof.
  intros Hp _. revert G g. induction p; simpl in *; intros G g; try done.
  destruct Hp as [Hc Hp]. split; [done|]. intros G1 g1 _ _. split; intros; auto.
Qed.
Local Opaque R.

Ltac plain :=
  repeat first
    [ progress intros
    | match goal with
      | |- plain_read (bind _ _) => apply plain_bind
      | |- plain_read (try _) => apply plain_try
      | |- plain_read (invoke _) => apply plain_invoke; exact I
      | |- plain_read (Ret _) => exact I
      | |- plain_read (Throw _) => exact I
      | |- plain_read Panic => exact I
      | |- plain_read (match ?x with _ => _ end) => destruct x
      | |- plain_read (let _ := _ in _) => cbv zeta
      end
    | progress unfold st_getref, st_targets, st_sources, st_has, single ].

Lemma plain_get_remark x : plain_read (get_remark x).
Proof. unfold get_remark, remark_read_by_class. plain. Qed.
Lemma plain_has_next_remark a : plain_read (has_next_remark a).
Proof. unfold has_next_remark. plain. Qed.
Lemma plain_has_next_fact a : plain_read (has_next_fact a).
Proof.
  unfold has_next_fact, fact_fetch_by_remark, fact_read_by_remark, fact_agg_has_next_fact, fact_has_target_fact. plain.
Qed.
Lemma plain_get_next_fact a : plain_read (get_next_fact a).
Proof.
  unfold get_next_fact, fact_fetch_by_remark, fact_read_by_remark, fact_agg_to_next_fact, fact_get_target_fact,
    fact_storage, fact_read_by_position, fact_get_first_remark, remark_read_by_fact. plain.
Qed.
Lemma plain_get_first_fact a : plain_read (get_first_fact a).
Proof.
  unfold get_first_fact, remark_get_target_fact, fact_fetch_by_remark, fact_read_by_remark, fact_agg_to_first_fact,
    fact_target_story_or_zero, fact_get_target_story, story_read_by_fact, story_get_target_fact,
    fact_storage, fact_read_by_story, fact_get_first_remark, remark_read_by_fact. plain.
Qed.
Lemma plain_has_next_story a : plain_read (has_next_story a).
Proof.
  unfold has_next_story, fact_fetch_by_remark, fact_read_by_remark, fact_agg_has_next_story,
    fact_target_story_or_zero, fact_get_target_story, story_read_by_fact, story_has_target_position. plain.
Qed.
Lemma plain_get_next_story a : plain_read (get_next_story a).
Proof.
  unfold get_next_story, fact_fetch_by_remark, fact_read_by_remark, fact_agg_to_next_story,
    fact_target_story_or_zero, fact_get_target_story, story_read_by_fact, story_get_target_position,
    story_read_by_position, story_get_target_fact,
    fact_storage, fact_read_by_story, fact_get_first_remark, remark_read_by_fact. plain.
Qed.

(** * Traces *)
Definition made (e : entry) : option remark_ent :=
  match e with Called _ o (OOk (VRem r)) => if creating o then Some r else None | _ => None end.

Lemma issued_cons e t r : issued (e :: t) r ↔ made e = Some r ∨ issued t r.
Proof.
  unfold issued. split.
  - intros (i&o&Ho&[<-|H]%elem_of_cons); [left; simpl; by rewrite Ho|right; eauto].
  - intros [H|(i&o&?&?)]; [|exists i, o; split; [done|by right]].
    destruct e as [i o [[]| | | |]|]; simpl in H; try done. destruct (creating o) eqn:Ho; [|done].
    simplify_eq. exists i, o. split; [done|left].
Qed.

Lemma tells_quiet e t r o p : made e = None → tells (e :: t) r o p → tells t r o p.
Proof. intros He H. inversion H; subst; simpl in He; done. Qed.
Lemma opened_quiet b e t r r0 : made e = None → opened b (e :: t) r r0 → opened b t r r0.
Proof. intros He H. inversion H; subst; simpl in He; done. Qed.

Lemma tells_issued t r o p : tells t r o p → issued t r.
Proof. induction 1; apply issued_cons; auto. Qed.
Lemma opened_issued b t r r0 : opened b t r r0 → issued t r ∧ issued t r0.
Proof. induction 1; rewrite !issued_cons; simpl; intuition. Qed.

Lemma tells_clean t r o p : tells t r o p → normalise o = o ∧ normalise p = p.
Proof.
  induction 1; try (match goal with H : repaired _ _ |- _ => apply repaired_iff in H end);
    try (match goal with H : repaired _ _ |- _ => apply repaired_iff in H end); subst; auto using normalise_idem.
  split; [tauto|apply normalise_idem].
Qed.

(** The first world. *)
Definition first_ghost : ghost := Gh {[0%N := LZero]} BNone true.
Lemma ok_first F : ok F first_ghost empty_graph.
Proof.
  split; simpl.
  - by rewrite lookup_singleton.
  - intros x Hx. apply lookup_singleton_Some in Hx as [? _]. done.
  - set_solver.
  - intros x Hx. rewrite lookup_singleton_ne by done. split; [set_solver|]. by intros [? ?].
  - intros x l Hx. apply lookup_singleton_Some in Hx as [_ <-]. done.
  - set_solver.
  - set_solver.
  - set_solver.
  - set_solver.
  - set_solver.
  - intros x y. by rewrite lookup_empty.
  - intros x y. by rewrite !lookup_empty.
  - intros x k Hx. apply lookup_singleton_Some in Hx as [_ ?]. done.
  - intros x y k _. by rewrite lookup_empty.
  - split; [set_solver|]. intros x b Hx. simpl in Hx. apply lookup_singleton_Some in Hx as [_ ?]. done.
Qed.

(** * The invariant *)
Lemma remF_fact F G g e o p f o' p' f' :
  ok F G g → remF G g e o p f → remF G g e o' p' f' → f = f'.
Proof.
  intros Hok (((L&_)&_)&(_&Rf)&He) (_&(_&Rf')&He').
  destruct L as (_&_&_&Lf). pose proof (ok_target _ _ _ Hok _ _ _ _ He He' Lf I) as Heq.
  destruct f as [a b c d], f' as [a' b' c' d']. simpl in *. subst b'.
  destruct Rf as (H1&H2&H3), Rf' as (H1'&H2'&H3').
  apply (ok_bwd Hok) in H1, H1'. simplify_eq. done.
Qed.

Lemma remF_text F G g e o p f o' p' f' :
  ok F G g → remF G g e o p f → remF G g e o' p' f' → o = o' ∧ p = p'.
Proof.
  intros Hok (((L&_)&_)&_) (((L'&_)&_)&_). destruct L as (_&L&_), L' as (_&L'&_). by simplify_eq.
Qed.

Definition told (fuel : nat) (G : ghost) (g : graph) (r : remark_ent) (o p : text) : Prop :=
  ∃ ow pw f, remF G g r ow pw f ∧ text_of ow = o ∧ text_of pw = p ∧ S (length o) < fuel.
(** [C] if the story is a child story. *)
Definition begun (C : Prop) (G : ghost) (g : graph) (r r0 : remark_ent) : Prop :=
  ∃ ow pw f, remF G g r ow pw f ∧ storyP C G g f r0.

Lemma is_child_later e t r : is_child t r → is_child (e :: t) r.
Proof. intros (i&a&ob&pr&H). exists i, a, ob, pr. by right. Qed.

(** [d]: faults may have happened. *)
Record J (zp : zpolicy) (fuel : nat) (t : trace) (w : world) (d : bool) (G : ghost) : Prop := {
  J_ok : ok fuel G (store w);
  J_quiet : quiet G;
  J_mem : ∀ i, cache_ok G (mem w i);
  J_started : started G (store w);
  J_settled : settled t → up G ∧ ready G ∧ 31 ≤ fuel;
  J_faults : d = true → zp = ZStrict ∧ settled t;
  J_calm : d = false → det_ok G (store w);
  J_zero : d = false → znum G (store w) (ms_zero (m_run t));
  J_told : ∀ r, issued t r → ∃ o p, tells t r o p;
  J_tells : ∀ r o p, tells t r o p → told fuel G (store w) r o p;
  J_begun : ∀ r r0, opened false t r r0 → begun (is_child t r0) G (store w) r r0;
  J_view : d = false → valid_trace t → pview_of G (store w) (ms_view (m_run t));
  J_objects : valid_trace t → ∀ r o p, tells t r o p → ms_object (m_run t) !! re_class r = Some o
}.

Lemma told_mono fuel G g G' g' r o p : ext G g G' g' → told fuel G g r o p → told fuel G' g' r o p.
Proof. intros X (ow&pw&f&?&?&?&?). exists ow, pw, f. split; [by apply (remF_mono X)|done]. Qed.
Lemma begun_mono (C C' : Prop) G g G' g' r r0 : (C → C') → ext G g G' g' → begun C G g r r0 → begun C' G' g' r r0.
Proof. intros HC X (ow&pw&f&?&?). exists ow, pw, f. split; [by apply (remF_mono X)|by apply (storyP_mono X (C := C))]. Qed.

Lemma no_edges_charC G e r : ¬ charC G empty_graph e r.
Proof. intros H. assert (Hb := H). inversion H; set_solver. Qed.
Lemma no_edges_wordC G e r : ¬ wordC G empty_graph e r.
Proof. intros H. inversion H; set_solver. Qed.
Lemma no_edges_phraseC G e r : ¬ phraseC G empty_graph e r.
Proof. intros H. inversion H; set_solver. Qed.

Lemma J_first zp fuel : J zp fuel [] first_world false first_ghost.
Proof.
  split.
  - apply ok_first.
  - done.
  - done.
  - by right.
  - intros (r&i&o&_&H). by inversion H.
  - done.
  - intros _ x a b o p Hx. simpl in Hx. apply lookup_singleton_Some in Hx as [_ ?]. done.
  - intros _. simpl. set_solver.
  - intros r (i&o&_&H). by inversion H.
  - intros r o p H. inversion H.
  - intros r r0 H. inversion H.
  - intros _ _. split_and!.
    + split.
      * intros r. split; [simpl; set_solver|]. intros [e He]. by apply no_edges_charC in He.
      * intros r. exists []. split_and!; [constructor|done|]. intros e. split; [by intros ?%elem_of_nil|].
        intros He. by apply no_edges_wordC in He.
    + intros ws. split; [simpl; set_solver|]. intros [e He]. by apply no_edges_phraseC in He.
    + intros x y z ws ws' H. simpl in H. set_solver.
  - intros _ r o p H. inversion H.
Qed.

(** The texts a creating call stores. *)
Definition stored (t : trace) (o : opn) (ob pr : text) : Prop :=
  match o with
  | CreateStory ob' pr' | AddFactToStory _ ob' pr' | CreateChildStory _ ob' pr' => ob = ob' ∧ pr = pr'
  | AddRemarkToFact a pr' => (∃ q, tells t a ob q) ∧ pr = pr'
  | _ => False
  end.

Definition far (o : opn) : Prop :=
  match o with AddFactToStory _ _ _ | CreateChildStory _ _ _ => True | _ => False end.
Definition child (o : opn) : Prop :=
  match o with CreateChildStory _ _ _ => True | _ => False end.
Definition znext (o : opn) (n : nat) : nat :=
  match o with
  | AddFactToStory _ _ _ => match n with 0 => 1 | _ => 2 end
  | CreateChildStory _ _ _ => match n with 0 => 0 | _ => 2 end
  | _ => n
  end.

Definition madeQ (zp : zpolicy) (d : bool) (o : opn) (n : nat) (ob pr : text) (G : ghost) (g : graph)
    (r : remark_ent) (G' : ghost) (g' : graph) : Prop :=
  storeQ (fk := d) ob pr G g r G' g' ∧
  (∃ f, remF G' g' r (words_of ob) (words_of pr) f ∧
    match o with
    | AddRemarkToFact a _ => ∃ oa pa, remF G g a oa pa f
    | AddFactToStory _ _ _ => True
    | _ => storyP (child o) G' g' f r
    end) ∧
  (d = false → znum G' g' (znext o n)) ∧
  (far o → zp = ZNode) ∧ (child o → n ≤ 1).

Definition failE (zp : zpolicy) (d : bool) (o : opn) (n : nat) (ob pr : text) (G : ghost) (g : graph) : post abn :=
  λ ab G' g',
  (detailE (fk := d) ob pr G g ab G' g' ∨
   far o ∧ zp = ZStrict ∧ brokenE (fk := d) EStorage ob pr G g ab G' g' ∨
   child o ∧ zp = ZNode ∧ 2 ≤ n ∧ brokenE (fk := d) EStoryNext ob pr G g ab G' g') ∧
  (d = false → znum G' g' n).

Lemma W_call {zp fk F A} (mk : A → value) P (p : prog A) Q E G g :
  U (zp := zp) (fk := fk) (F := F) P p Q E G g →
  W zp fk F 6 (x <- p;; Ret (mk x))
    (λ v G' g', ∃ x, v = mk x ∧ extP P G g G' g' ∧ Q x G' g')
    (λ ab G' g', (fk = false → extP P G g G' g') ∧ E ab G' g') G g.
Proof.
  intros H. eapply W_bind; [exact H|apply le_n| |by auto].
  intros x G' g' _ _ _ [??]. apply W_ret. eauto.
Qed.

Lemma W_creating zp fuel t w d0 d G n i o out :
  J zp fuel t w d0 G → creating o = true → legal fuel t (Called i o out) →
  (d = true → zp = ZStrict ∧ settled t) → (d = false → d0 = false ∧ znum G (store w) n) →
  ∃ ob pr, stored t o ob pr ∧
    W zp d fuel 6 (call_of fuel o) (λ v G' g', ∃ r, v = VRem r ∧ madeQ zp d o n ob pr G (store w) r G' g')
      (failE zp d o n ob pr G (store w)) G (store w).
Proof.
  intros HJ Hc (Hi&Ht&_) Hd Hd0.
  assert (Hz : d = true → zp = ZStrict) by (intros; by apply Hd).
  assert (Hcalm : calm (fk := d) G (store w)).
  { intros Hf. apply (J_calm _ _ _ _ _ _ HJ). by apply Hd0. }
  assert (Hprep : prepared (fk := d) G).
  { intros Hf. apply Hd in Hf as [_ Hs]. by apply (J_settled _ _ _ _ _ _ HJ) in Hs as (_&?&_). }
  assert (Hzn : ∀ G' g', ok fuel G' g' → (d = false → extP free G (store w) G' g') → d = false → znum G' g' n).
  { intros G' g' Hok' X Hf. eapply znum_keep; [apply HJ|exact Hok'|exact (X Hf)|]. by apply Hd0. }
  destruct o as [ob pr|a pr|a ob pr|a ob pr| | | | | | | | | |]; try done.
  - exists ob, pr. split; [done|]. apply Forall_cons in Ht as [Hob [Hpr _]%Forall_cons]. unfold fits in *.
    eapply W_conseq; [apply W_call, (U_create_story fuel); auto; try lia|apply le_n|..].
    + apply HJ.
    + intros v G' g' Hok' _ _ (r&->&X&HQ&f&Hf&Hs). exists r. split; [done|]. split_and!; [done|eauto|eauto|done|done].
    + intros ab G' g' Hok' _ _ [X HE]. split; [by left|eauto].
  - assert (Hia : issued t a) by (apply Hi; done).
    destruct (J_told _ _ _ _ _ _ HJ _ Hia) as (ob&q&Htl). exists ob, pr. split; [split; eauto|].
    apply Forall_cons in Ht as [Hpr _]. unfold fits in *.
    destruct (J_tells _ _ _ _ _ _ HJ _ _ _ Htl) as (oa&pa&fa&Ha&<-&_&Hlen).
    destruct (J_settled _ _ _ _ _ _ HJ (ex_intro _ _ Hia)) as (Hup&Hrd&H31).
    eapply W_conseq; [eapply W_call, (U_add_remark_to_fact fuel H31 (le_n fuel) Hz a oa pa fa); auto; try lia|apply le_n|..].
    + intros v G' g' Hok' _ _ (r&->&X&HQ&Hf). exists r. split; [done|]. split_and!; [done|eauto|eauto|done|done].
    + intros ab G' g' Hok' _ _ [X HE]. split; [by left|eauto].
  - assert (Hia : issued t a) by (apply Hi; done).
    destruct (J_told _ _ _ _ _ _ HJ _ Hia) as (ob'&q&Htl). exists ob, pr. split; [done|].
    apply Forall_cons in Ht as [Hob [Hpr _]%Forall_cons]. unfold fits in *.
    destruct (J_tells _ _ _ _ _ _ HJ _ _ _ Htl) as (oa&pa&fa&[[Ha _] _]&<-&_&Hlen).
    destruct (J_settled _ _ _ _ _ _ HJ (ex_intro _ _ Hia)) as (Hup&Hrd&H31).
    eapply W_conseq; [eapply W_call, (U_add_fact_to_story fuel H31 (le_n fuel) Hz a oa pa ob pr n); auto; try lia; by apply Hd0|apply le_n|..].
    + intros v G' g' Hok' _ _ (r&->&X&Hzp&HQ&(f&Hf&_)&Hn). exists r. split; [done|]. split_and!; [done|eauto|eauto|done|done].
    + intros ab G' g' Hok' _ _ (X&[HE|(?&HE)]&Hn); (split; [|done]); [by left|right; left; done].
  - assert (Hia : issued t a) by (apply Hi; done).
    destruct (J_told _ _ _ _ _ _ HJ _ Hia) as (ob'&q&Htl). exists ob, pr. split; [done|].
    apply Forall_cons in Ht as [Hob [Hpr _]%Forall_cons]. unfold fits in *.
    destruct (J_tells _ _ _ _ _ _ HJ _ _ _ Htl) as (oa&pa&fa&[[Ha _] _]&<-&_&Hlen).
    destruct (J_settled _ _ _ _ _ _ HJ (ex_intro _ _ Hia)) as (Hup&Hrd&H31).
    eapply W_conseq; [eapply W_call, (U_create_child_story fuel H31 (le_n fuel) Hz a oa pa ob pr n); auto; try lia; by apply Hd0|apply le_n|..].
    + intros v G' g' Hok' _ _ (r&->&X&Hzp&Hn1&HQ&(f&Hf&Hs)&Hn). exists r. split; [done|]. split_and!; [done|eauto|eauto|done|done].
    + intros ab G' g' Hok' _ _ (X&[HE|[(?&HE)|(?&?&HE)]]&Hn); (split; [|done]); [by left|right; left; done|right; right; done].
Qed.

(** The words of well-formed text are well-formed. *)
Lemma repaired_nospace s t :
  repaired s t → Forall (λ a, ¬ is_space a) s → Forall (λ a, ¬ is_space a) t.
Proof.
  induction 1 as [|c s t _ _ IH|a s t _ _ IH]; [done|..].
  - rewrite !Forall_app. intros [??]. auto.
  - intros [_ ?]%Forall_cons. apply Forall_app. split; [|auto]. repeat constructor; vm_compute; discriminate.
Qed.

Lemma nospace_iff w : Forall (λ a, ¬ is_space a) w ↔ ¬ In space w.
Proof.
  rewrite Forall_forall. split.
  - intros H Hin. apply (H space); [by apply elem_of_list_In|done].
  - intros H a Ha Hs. apply H. apply elem_of_list_In. apply is_space_eq in Hs. by subst.
Qed.

Lemma normalise_split s : split_space (normalise s) = map normalise (split_space s).
Proof.
  rewrite <- (join_split s) at 1. rewrite <- normalise_words by apply split_space_nonempty.
  apply split_join.
  - intros H%map_eq_nil. by apply split_space_nonempty in H.
  - apply List.Forall_map. eapply Forall_impl; [apply split_space_nospace|].
    intros w Hw. apply nospace_iff. eapply repaired_nospace; [by apply repaired_iff|]. by apply nospace_iff.
Qed.

Lemma clean_tidy s : normalise s = s → tidy s.
Proof.
  intros Hs. unfold tidy. cut (Forall clean (split_space s)).
  { destruct (split_space s); [done|]. by intros [_ ?]%Forall_cons. }
  assert (H : split_space s = map normalise (split_space s)) by by rewrite <- normalise_split, Hs.
  revert H. generalize (split_space s). intros l. induction l as [|w l IH]; [constructor|].
  simpl. intros [= H1 H2]. constructor; [by unfold clean|auto].
Qed.

(** * Every step keeps the invariant *)
Lemma quiet_objects s e : made e = None → ms_object (m_step s e) = ms_object s.
Proof.
  destruct e as [i o out|i]; [|done]. simpl. destruct out as [[]| | | |]; destruct o; simpl; try done.
  all: intros _; destruct (ms_object s !! re_class r); done.
Qed.

Lemma settled_quiet e t : made e = None → settled (e :: t) → settled t.
Proof. intros He [r Hr]. apply issued_cons in Hr as [?|?]; [congruence|by exists r]. Qed.

Lemma J_quietly zp fuel t w d G e w' d' G' :
  J zp fuel t w d G → made e = None → ext G (store w) G' (store w') →
  ok fuel G' (store w') → quiet G' → (∀ i, cache_ok G' (mem w' i)) → started G' (store w') →
  (d' = true → zp = ZStrict ∧ settled t) → (d' = false → det_ok G' (store w')) →
  (d' = false → znum G' (store w') (ms_zero (m_run (e :: t)))) →
  (d' = false → valid_trace (e :: t) → pview_of G' (store w') (ms_view (m_run (e :: t)))) →
  J zp fuel (e :: t) w' d' G'.
Proof.
  intros HJ He X Hok Hq Hm Hst Hd Hcalm Hz Hv. split; auto.
  - intros Hs. destruct (J_settled _ _ _ _ _ _ HJ (settled_quiet _ _ He Hs)) as (?&?&?).
    split_and!; [by apply (up_mono X)|by eapply ready_mono|done].
  - intros Hf. apply Hd in Hf as [? [r Hr]]. split; [done|]. exists r. apply issued_cons. by right.
  - intros r [?|Hr]%issued_cons; [congruence|]. destruct (J_told _ _ _ _ _ _ HJ r Hr) as (o&p&?).
    exists o, p. by constructor.
  - intros r o p Ht. eapply told_mono; [exact X|]. apply HJ. by eapply tells_quiet.
  - intros r r0 Ho. eapply begun_mono; [apply is_child_later|exact X|]. apply HJ. by eapply opened_quiet.
  - intros Hvt r o p Ht. change (m_run (e :: t)) with (m_step (m_run t) e). rewrite quiet_objects by done.
    apply Forall_cons in Hvt as [_ Hvt]. apply (J_objects _ _ _ _ _ _ HJ Hvt r o p). by eapply tells_quiet.
Qed.

Lemma keep_mem G w i m g' :
  (∀ j, cache_ok G (mem w j)) → cache_ok G m → ∀ j, cache_ok G (mem (World g' (keep i m (mem w))) j).
Proof. intros H1 H2 j. simpl. unfold keep. by destruct (Nat.eqb j i). Qed.

(** Reading calls. *)
Lemma R_reading zp fuel t w d G fk i o out :
  J zp fuel t w d G → creating o = false → legal fuel t (Called i o out) → (fk = true → zp = ZStrict) →
  R zp fk fuel (call_of fuel o) (λ _ _ _, True) (λ ab _ _, ab ≠ ADiverge) G (store w).
Proof.
  intros HJ Hc (Hi&_&Hs) Hz.
  assert (HB : ∀ A (f : A → value) (p : prog A), plain_read p →
    R zp fk fuel (x <- p;; Ret (f x)) (λ _ _ _, True) (λ ab _ _, ab ≠ ADiverge) G (store w)).
  { intros A f p Hp. apply plain_R, plain_bind; [done|]. by intros. }
  destruct o as [| | | |x|a|a|a|a|a|a|a|a|a]; try done; cbn [call_of].
  - apply HB, plain_get_remark.
  - assert (Ha : issued t a) by by apply Hi.
    destruct (J_settled _ _ _ _ _ _ HJ (ex_intro _ _ Ha)) as (Hup&_&H31).
    destruct (J_told _ _ _ _ _ _ HJ a Ha) as (ob&q&Htl).
    destruct (J_tells _ _ _ _ _ _ HJ _ _ _ Htl) as (oa&pa&fa&[Hrc _]&_).
    eapply R_bind; [by eapply R_get_object_and_property| |by intros ab ? ? ? ? []].
    intros ? ? ? _ _ _. by apply R_ret.
  - apply HB, plain_has_next_remark.
  - assert (Ha : issued t a) by by apply Hi.
    destruct (J_told _ _ _ _ _ _ HJ a Ha) as (ob&q&Htl).
    destruct (J_tells _ _ _ _ _ _ HJ _ _ _ Htl) as (oa&pa&fa&[[Hrc _] _]&_).
    eapply R_bind; [by eapply R_get_next_remark| |].
    1: intros ? ? ? _ _ _; by apply R_ret.
    intros ab G1 g1 _ _ [[_ H]| ->]; done.
  - apply HB, plain_has_next_fact.
  - apply HB, plain_get_next_fact.
  - apply HB, plain_get_first_fact.
  - apply HB, plain_has_next_story.
  - apply HB, plain_get_next_story.
  - destruct (Hs a eq_refl) as (r0&Ho).
    destruct (opened_issued _ _ _ _ Ho) as [Ha Hr0].
    destruct (J_settled _ _ _ _ _ _ HJ (ex_intro _ _ Ha)) as (Hup&_&H31).
    destruct (J_begun _ _ _ _ _ _ HJ _ _ Ho) as (oa&pa&fa&Hf&Hst).
    destruct (J_told _ _ _ _ _ _ HJ r0 Hr0) as (ob&q&Htl).
    destruct (J_tells _ _ _ _ _ _ HJ _ _ _ Htl) as (oa'&pa'&fa'&[Hrc _]&_).
    eapply R_bind; [by eapply R_get_story| |by intros ab ? ? ? ? []].
    intros ? ? ? _ _ _. by apply R_ret.
Qed.

Lemma valid_clean s : valid_utf8 s → normalise s = s.
Proof. apply normalise_id_iff. Qed.

(** The machine stores the same texts. *)
Lemma stored_stores zp fuel t w d G o ob pr :
  J zp fuel t w d G → valid_trace t → stored t o ob pr → stores (m_run t) o = Some (ob, pr).
Proof.
  intros HJ Hv H. destruct o; simpl in *; try done; [by destruct H as [-> ->]| |by destruct H as [-> ->]..].
  destruct H as [[q Hq] ->]. by rewrite (J_objects _ _ _ _ _ _ HJ Hv _ _ _ Hq).
Qed.

Lemma stored_clean t o ob pr i out :
  stored t o ob pr → valid_entry (Called i o out) → normalise ob = ob ∧ normalise pr = pr.
Proof.
  intros H Hv. simpl in Hv.
  destruct o as [ob' pr'|a pr'|a ob' pr'|a ob' pr'| | | | | | | | | |]; try done; simpl in *.
  2: { destruct H as [[q Hq] ->]. apply Forall_cons in Hv as [Hv _]. apply tells_clean in Hq as [? _].
    split; [done|by apply valid_clean]. }
  all: destruct H as [-> ->]; apply Forall_cons in Hv as [Hv1 [Hv2 _]%Forall_cons]; split; by apply valid_clean.
Qed.

Lemma tells_fun zp fuel t w d G r o p o' p' :
  J zp fuel t w d G → tells t r o p → tells t r o' p' → o = o' ∧ p = p'.
Proof.
  intros HJ H1 H2. apply (J_tells _ _ _ _ _ _ HJ) in H1 as (a&b&f&Hr&<-&<-&_), H2 as (a'&b'&f'&Hr'&<-&<-&_).
  by destruct (remF_text _ _ _ _ _ _ _ _ _ _ (J_ok _ _ _ _ _ _ HJ) Hr Hr') as [-> ->].
Qed.

Lemma stored_repaired zp fuel t w d G o ob pr r i o' p' :
  J zp fuel t w d G → stored t o ob pr →
  tells (Called i o (OOk (VRem r)) :: t) r o' p' → ¬ issued t r →
  o' = normalise ob ∧ p' = normalise pr.
Proof.
  intros HJ Hs Ht Hni. inversion Ht; subst.
  1: destruct Hni; by eapply tells_issued.
  4: { destruct Hs as [[q' Hq] ->]. match goal with H : tells t _ o' _ |- _ => destruct (tells_fun _ _ _ _ _ _ _ _ _ _ _ HJ H Hq) as [-> _] end.
    apply tells_clean in Hq as [Hq _]. split; [done|by apply repaired_iff]. }
  all: destruct Hs as [-> ->]; split; by apply repaired_iff.
Qed.

Lemma stored_fits zp fuel t w d G o ob pr i out :
  J zp fuel t w d G → legal fuel t (Called i o out) → stored t o ob pr →
  31 ≤ fuel ∧ S (length (normalise ob)) < fuel.
Proof.
  intros HJ (Hi&Ht&_) Hs.
  destruct o as [ob' pr'|a pr'|a ob' pr'|a ob' pr'| | | | | | | | | |]; try done; simpl in *.
  2: { destruct Hs as [[q Hq] ->]. assert (Hc := tells_clean _ _ _ _ Hq).
    apply (J_tells _ _ _ _ _ _ HJ) in Hq as (?&?&?&_&_&_&?).
    destruct Hc as [-> _]. split; [|done]. apply Forall_cons in Ht as [Ht _]. unfold fits in Ht. lia. }
  all: destruct Hs as [-> ->]; apply Forall_cons in Ht as [Ht _]; unfold fits in Ht;
    pose proof (normalise_length ob'); lia.
Qed.

Global Instance remark_ent_dec : EqDecision remark_ent.
Proof. solve_decision. Defined.

Lemma m_run_zero i o r t : creating o = true →
  ms_zero (m_run (Called i o (OOk (VRem r)) :: t)) = znext o (ms_zero (m_run t)).
Proof.
  intros Ho. change (m_run (Called i o (OOk (VRem r)) :: t)) with (m_step (m_run t) (Called i o (OOk (VRem r)))).
  unfold m_step. destruct o; try done; simpl.
  - by destruct (ms_object (m_run t) !! re_class r0).
  - by destruct (ms_zero (m_run t)).
  - by destruct (ms_zero (m_run t)).
Qed.

Lemma m_run_zero_failed i o out t : (∀ v, out ≠ OOk v) →
  ms_zero (m_run (Called i o out :: t)) = ms_zero (m_run t).
Proof.
  intros Ho. change (m_run (Called i o out :: t)) with (m_step (m_run t) (Called i o out)).
  unfold m_step. destruct out; [by destruct (Ho a)|..]; destruct o; try done; simpl.
  all: by destruct (ms_object (m_run t) !! re_class r).
Qed.

Lemma J_make zp fuel t w d G i o r g' mm' d' G' n ob pr :
  let e := Called i o (OOk (VRem r)) in let w' := World g' mm' in
  J zp fuel t w d G → creating o = true → legal fuel t e → stored t o ob pr →
  ext G (store w) G' g' → ok fuel G' g' → quiet G' → (∀ i, cache_ok G' (mm' i)) →
  (d' = true → zp = ZStrict ∧ settled t) → (d' = false → d = false) →
  (d' = false → n = ms_zero (m_run t)) →
  madeQ zp d' o n ob pr G (store w) r G' g' →
  J zp fuel (e :: t) w' d' G'.
Proof.
  intros e w' HJ Hc Hl Hs X Hok Hq Hm Hd Hdd Hn ((Hup&Hrd&Hcalm&Hnew&Hfol)&(f&Hf&Hst)&Hz&_&_).
  assert (Hni : ¬ issued t r).
  { intros (o'&p'&Ht)%(J_told _ _ _ _ _ _ HJ). apply (J_tells _ _ _ _ _ _ HJ) in Ht as (?&?&?&(((L&_)&_)&_)&_).
    destruct L as [L _]. congruence. }
  destruct (stored_fits _ _ _ _ _ _ _ _ _ _ _ HJ Hl Hs) as [H31 Hlen].
  assert (Hnext : valid_trace t → m_run (e :: t) =
    MState (snd (m_detail (ms_view (m_run t)) (words_of ob) (words_of pr)))
      (<[re_class r := ob]> (ms_object (m_run t))) (znext o (ms_zero (m_run t)))).
  { intros Hv. change (m_run (e :: t)) with (m_step (m_run t) e). unfold m_step, e.
    rewrite (stored_stores _ _ _ _ _ _ _ _ _ HJ Hv Hs). f_equal.
    destruct o; try done; simpl; by destruct (ms_zero (m_run t)). }
  split; unfold w'; cbn [store mem].
  - done.
  - done.
  - done.
  - by left.
  - auto.
  - intros Hf'. apply Hd in Hf' as [? _]. split; [done|]. exists r. apply issued_cons. left. simpl. by rewrite Hc.
  - done.
  - intros Hf'. unfold e. rewrite m_run_zero by done. rewrite <- Hn by done. auto.
  - intros r' [Hr|Hr]%issued_cons.
    + simpl in Hr. rewrite Hc in Hr. simplify_eq.
      destruct o; try done; simpl in Hs.
      2: { destruct Hs as [[q Htl] ->]. exists ob, (normalise property). econstructor; [done|by apply repaired_iff]. }
      all: destruct Hs as [-> ->]; eexists _, _; constructor; by apply repaired_iff.
    + destruct (J_told _ _ _ _ _ _ HJ _ Hr) as (o'&p'&?). exists o', p'. by constructor.
  - intros r' o' p' Ht. destruct (decide (r' = r)) as [->|Hne].
    + destruct (stored_repaired _ _ _ _ _ _ _ _ _ _ _ _ _ HJ Hs Ht Hni) as [-> ->].
      exists (words_of ob), (words_of pr), f. rewrite !text_of_words_of. done.
    + eapply told_mono; [exact X|]. apply HJ. inversion Ht; subst; done.
  - intros r' r0 Ho. remember (e :: t) as t' eqn:Ht. unfold e in Ht. destruct Ho as [? ? ? ? Ho| | |? ? ? ? ? ? Ho|]; injection Ht; intros; subst.
    + eapply begun_mono; [apply is_child_later|exact X|]. by apply HJ.
    + exists (words_of ob), (words_of pr), f. split; [done|]. eapply (storyP_mono (ext_refl _ _)); [|exact Hst]. by intros [].
    + exists (words_of ob), (words_of pr), f. split; [done|]. eapply (storyP_mono (ext_refl _ _)); [|exact Hst]. intros _. eexists _, _, _, _. left.
    + exists (words_of ob), (words_of pr), f. split; [done|].
      apply (J_begun _ _ _ _ _ _ HJ) in Ho as (oa&pa&fa&Ha&Hsa). destruct Hst as (oa'&pa'&Ha').
      rewrite <- (remF_fact _ _ _ _ _ _ _ _ _ _ (J_ok _ _ _ _ _ _ HJ) Ha Ha'). eapply (storyP_mono X); [apply is_child_later|done].
    + done.
  - intros Hf' [Hv1 Hv]%Forall_cons. rewrite Hnext by done. simpl.
    destruct (stored_clean _ _ _ _ _ _ Hs Hv1) as [H1 H2].
    destruct (Hfol Hf' (clean_tidy _ H1) (clean_tidy _ H2) _ (J_view _ _ _ _ _ _ HJ (Hdd Hf') Hv)) as (M'&HM&?).
    by rewrite HM.
  - intros [Hv1 Hv]%Forall_cons r' o' p' Ht. rewrite Hnext by done. simpl.
    destruct (stored_clean _ _ _ _ _ _ Hs Hv1) as [H1 H2]. destruct (decide (r' = r)) as [->|Hne].
    + destruct (stored_repaired _ _ _ _ _ _ _ _ _ _ _ _ _ HJ Hs Ht Hni) as [-> _].
      rewrite lookup_insert. by f_equal.
    + assert (Ht' : tells t r' o' p') by (inversion Ht; subst; done).
      rewrite lookup_insert_ne; [by apply (J_objects _ _ _ _ _ _ HJ Hv _ _ _ Ht')|].
      intros Heq. apply (J_tells _ _ _ _ _ _ HJ) in Ht' as (?&?&?&(((L&_)&_)&_)&_). destruct L as [L _]. congruence.
Qed.

(** What a call says about itself. *)
Definition report (zp : zpolicy) (d : bool) (t : trace) (G : ghost) (w : world) (e : entry) (w' : world) : Prop :=
  match e with
  | Restarted _ => store w' = store w
  | Called i o out =>
    out ≠ ODiverge ∧
    (creating o = false → store w' = store w) ∧
    (creating o = true →
      match out with
      | OOk v => ∃ r ob pr, v = VRem r ∧ stored t o ob pr ∧ lab G !! re_class r = None ∧
          [] ∉ words_of ob ∧ [] ∉ words_of pr ∧ (far o → zp = ZNode)
      | OErr x => d = false → ∃ ob pr, stored t o ob pr ∧
          ((∃ s, (s = ob ∨ s = pr ∧ [] ∉ words_of ob) ∧ x = first_err s) ∨ far o ∧ (x = EStorage ∨ x = EStoryNext))
      | OPanic => d = false → ∃ ob pr, stored t o ob pr ∧
          ∃ s, (s = ob ∨ s = pr ∧ [] ∉ words_of ob) ∧ 2 ≤ length (split_space s)
      | ODiverge => False
      | OKilled => d = true
      end ∧
      (d = false → valid_trace (e :: t) → kind out = predict zp (m_run t) o))
  end.

Lemma made_creating i o out : (∀ r, out ≠ OOk (VRem r)) → made (Called i o out) = None.
Proof. intros H. destruct out as [[]| | | |]; simpl; try done. by destruct (H r). Qed.

Lemma m_run_failed zp fuel t w d G i o out ob pr :
  J zp fuel t w d G → valid_trace t → stored t o ob pr → (∀ v, out ≠ OOk v) →
  m_run (Called i o out :: t) =
    MState (snd (m_detail (ms_view (m_run t)) (words_of ob) (words_of pr)))
      (ms_object (m_run t)) (ms_zero (m_run t)).
Proof.
  intros HJ Hv Hs Ho. change (m_run (Called i o out :: t)) with (m_step (m_run t) (Called i o out)). unfold m_step.
  rewrite (stored_stores _ _ _ _ _ _ _ _ _ HJ Hv Hs).
  destruct out; try done; [by destruct (Ho a)|..]; by destruct o.
Qed.

(** The end of a creating call. *)
Lemma J_created zp fuel t w d G d' i o out g' m' G' n ob pr :
  J zp fuel t w d G → creating o = true → legal fuel t (Called i o out) →
  (d' = true → zp = ZStrict ∧ settled t) → (d' = false → d = false) →
  n = ms_zero (m_run t) → stored t o ob pr →
  ok fuel G' g' → ext G (store w) G' g' → cache_ok G' m' →
  out = OKilled ∧ d' = true ∨ quiet G' ∧ extn 6 G (store w) G' g' ∧
    ended d' (λ v G' g', ∃ r, v = VRem r ∧ madeQ zp d' o n ob pr G (store w) r G' g')
      (failE zp d' o n ob pr G (store w)) out G' g' →
  J zp fuel (Called i o out :: t) (World g' (keep i (after out m') (mem w))) d' G' ∧
  ext G (store w) G' g' ∧
  report zp d' t G w (Called i o out) (World g' (keep i (after out m') (mem w))).
Proof.
  intros HJ Ho Hl Hd Hdd Hn Hs Hok' X Hc' Hend.
  assert (Hzn : d' = false → znum G (store w) n) by (intros Hf; subst n; apply HJ; auto).
  assert (Hmem : ∀ j, cache_ok G' (keep i (after out m') (mem w) j)).
  { intros j. unfold keep. destruct (Nat.eqb j i).
    - by destruct out.
    - eapply cache_ok_mono; [exact X|]. apply HJ. }
  assert (Hst' : d' = true → up G' ∧ ready G').
  { intros Hf. apply Hd in Hf as [_ Hse]. destruct (J_settled _ _ _ _ _ _ HJ Hse) as (?&?&?).
    split; [by apply (up_mono X)|by eapply ready_mono]. }
  assert (Hqk : d' = true → quiet G').
  { intros Hf. destruct (Hst' Hf) as (_&z&o'&Hb). split; [by rewrite Hb|].
    rewrite (ext_solo _ _ _ _ X). apply HJ. }
  assert (Hview : ∀ mo, follows (fk := d') ob pr G (store w) mo G' g' → d' = false → valid_trace (Called i o out :: t) →
    fst (m_detail (ms_view (m_run t)) (words_of ob) (words_of pr)) = mo ∧
    pview_of G' g' (snd (m_detail (ms_view (m_run t)) (words_of ob) (words_of pr)))).
  { intros mo Hfol Hf [Hv1 Hv]%Forall_cons. destruct (stored_clean _ _ _ _ _ _ Hs Hv1) as [H1 H2].
    destruct (Hfol Hf (clean_tidy _ H1) (clean_tidy _ H2) _ (J_view _ _ _ _ _ _ HJ (Hdd Hf) Hv)) as (M'&HM&?).
    by rewrite HM. }
  assert (Hpred : ∀ mo, fst (m_detail (ms_view (m_run t)) (words_of ob) (words_of pr)) = mo → valid_trace t →
    predict zp (m_run t) o = Some
      (match mo with
       | MOk => match o, zp with
          | AddFactToStory _ _ _, ZStrict | CreateChildStory _ _ _, ZStrict => MErr
          | CreateChildStory _ _ _, ZNode => if n <=? 1 then MOk else MErr
          | _, _ => MOk
          end
       | x => x end)).
  { intros mo Hmo Hv. unfold predict. rewrite (stored_stores _ _ _ _ _ _ _ _ _ HJ Hv Hs).
    change code_points with words_of. rewrite Hmo. rewrite Hn. by destruct mo. }
  destruct Hend as [[-> Hf]|(Hq&_&Hend)].
  { split; [|split; [done|]].
    - apply (J_quietly zp fuel t w d G); simpl; auto; try (intros ?; congruence); by left; apply Hst'.
    - rewrite Hf. simpl. rewrite Ho. done. }
  destruct out as [v|x| | |]; simpl in Hend.
  + destruct Hend as (r&->&HQ). split; [|split; [done|]].
    * apply (J_make zp fuel t w d G i o r _ _ d' G' n ob pr); auto.
    * assert (HQ' := HQ). destruct HQ' as ((Hup&Hrd&Hcalm&Hnew&Hfol)&(f&Hf&_)&_&Hfar&Hch).
      simpl. rewrite Ho. split; [done|]. split; [done|]. intros _. split.
      -- exists r, ob, pr. split_and!; auto.
         ++ destruct Hf as ((_&dd&(_&_&_&eo&ep&Hdo&_)&_)&_). exact (phraseC_no_empty _ _ _ _ Hok' Hdo).
         ++ destruct Hf as ((_&dd&(_&_&_&eo&ep&_&Hdp&_)&_)&_). exact (phraseC_no_empty _ _ _ _ Hok' Hdp).
      -- intros Hf' Hv. destruct (Hview _ Hfol Hf' Hv) as [Hmo _].
         apply Forall_cons in Hv as [_ Hv]. rewrite (Hpred _ Hmo Hv).
         destruct o; try done; simpl in *; rewrite Hfar by done; [done|].
         destruct (Nat.leb_spec n 1); [done|].
         specialize (Hch I). lia.
  + assert (Hno : made (Called i o (OErr x)) = None) by by apply made_creating.
    destruct Hend as [HE Hz].
    assert (Hsplit : (d' = true ∨ d' = false ∧ ∃ s, (s = ob ∨ s = pr ∧ [] ∉ words_of ob) ∧ x = first_err s ∧
        started G' g' ∧ calm (fk := d') G' g' ∧ follows (fk := d') ob pr G (store w) MErr G' g') ∨
      (far o ∧ (x = EStorage ∧ zp = ZStrict ∨ child o ∧ zp = ZNode ∧ x = EStoryNext ∧ 2 ≤ n)) ∧ up G' ∧ calm (fk := d') G' g' ∧
        follows (fk := d') ob pr G (store w) MOk G' g').
    { destruct HE as [[[? _]|((s&?&[[= ->]|[? _]])&?&?&?&?)]|[(?&->&[= ->]&?&?&?&?)|(?&->&?&[= ->]&?&?&?&?)]].
      - left; by left.
      - left. destruct d'; [by left|right]. split; [done|]. exists s. done.
      - done.
      - right. split_and!; auto.
      - right. split_and!; auto. by destruct o. }
    assert (Hst2 : started G' g').
    { destruct Hsplit as [[Hf|(?&?&?&?&?&?)]|(_&?&_)]; [left; by apply Hst'|done|by left]. }
    assert (Hcalm2 : calm (fk := d') G' g').
    { destruct Hsplit as [[Hf|(?&?&?&?&?&?&?)]|(_&?&?&_)]; [|done|done]. intros ?. congruence. }
    split; [|split; [done|]].
    * apply (J_quietly zp fuel t w d G); cbn [store mem]; auto.
      -- intros Hf. rewrite m_run_zero_failed by done. rewrite <- Hn. auto.
      -- intros Hf Hv. assert (Hv' := Hv). apply Forall_cons in Hv' as [_ Hv'].
         rewrite (m_run_failed _ _ _ _ _ _ _ _ _ _ _ HJ Hv' Hs) by done. simpl.
         destruct Hsplit as [[?|(?&?&?&?&?&?&?)]|(_&?&?&?)]; [congruence|by eapply Hview..].
    * simpl. rewrite Ho. split; [done|]. split; [done|]. intros _. split.
      -- intros Hf. exists ob, pr. split; [done|]. destruct Hsplit as [[?|(?&s&?&?&?&?&?)]|((?&[[? ?]|(?&?&?&?)])&_)];
           [congruence|left; exists s; done|right; auto..].
      -- intros Hf Hv. assert (Hv' := Hv). apply Forall_cons in Hv' as [_ Hv'].
         destruct Hsplit as [[?|(?&?&?&?&?&?&Hfol)]|((Hfar&Hcs)&_&_&Hfol)]; [congruence|..];
           destruct (Hview _ Hfol Hf Hv) as [Hmo _]; rewrite (Hpred _ Hmo Hv'); [done|].
         destruct Hcs as [[? ->]|(Hch&->&?&Hn2)]; [by destruct o|]. destruct o; try done.
         destruct (Nat.leb_spec n 1); [lia|done].
  + assert (Hno : made (Called i o OPanic) = None) by by apply made_creating.
    destruct Hend as [HE Hz].
    assert (Hsplit : d' = true ∨ d' = false ∧ ∃ s, (s = ob ∨ s = pr ∧ [] ∉ words_of ob) ∧ 2 ≤ length (split_space s) ∧
        started G' g' ∧ calm (fk := d') G' g' ∧ follows (fk := d') ob pr G (store w) MPanic G' g').
    { destruct HE as [[[? _]|((s&?&[?|[_ ?]])&?&?&?&?)]|[(?&->&[=]&?&?&?&?)|(?&->&?&[=]&?&?&?&?)]].
      - by left.
      - done.
      - destruct d'; [by left|right]. split; [done|]. exists s. done. }
    split; [|split; [done|]].
    * apply (J_quietly zp fuel t w d G); cbn [store mem]; auto.
      -- destruct Hsplit as [Hf|(?&?&?&?&?&?)]; [left; by apply Hst'|done].
      -- intros Hf. destruct Hsplit as [?|(?&?&?&?&?&Hcalm&?)]; [congruence|by apply Hcalm].
      -- intros Hf. rewrite m_run_zero_failed by done. rewrite <- Hn. auto.
      -- intros Hf Hv. assert (Hv' := Hv). apply Forall_cons in Hv' as [_ Hv'].
         rewrite (m_run_failed _ _ _ _ _ _ _ _ _ _ _ HJ Hv' Hs) by done. simpl.
         destruct Hsplit as [?|(?&?&?&?&?&?&?)]; [congruence|by eapply Hview].
    * simpl. rewrite Ho. split; [done|]. split; [done|]. intros _. split.
      -- intros Hf. exists ob, pr. split; [done|]. destruct Hsplit as [?|(?&s&?&?&?&?&?)]; [congruence|by exists s].
      -- intros Hf Hv. assert (Hv' := Hv). apply Forall_cons in Hv' as [_ Hv'].
         destruct Hsplit as [?|(?&?&?&?&?&?&Hfol)]; [congruence|].
         destruct (Hview _ Hfol Hf Hv) as [Hmo _]. by rewrite (Hpred _ Hmo Hv').
  + exfalso. destruct Hend as [[[[_ ?]|((s&_&[?|[? _]])&_)]|[(?&->&[=]&_)|(?&->&?&[=]&_)]] _]; done.
  + split; [|split; [done|]].
    * apply (J_quietly zp fuel t w d G); simpl; auto; try (intros ?; congruence); by left; apply Hst'.
    * simpl. rewrite Ho. split; [done|]. split; [done|]. intros _. split; [done|]. intros ?. congruence.
Qed.

(** The end of a reading call. *)
Lemma J_looked zp fuel t w d G d' i o out m' :
  J zp fuel t w d G → creating o = false →
  (d' = true → zp = ZStrict ∧ settled t) → (d' = false → d = false) →
  cache_ok G m' →
  J zp fuel (Called i o out :: t) (World (store w) (keep i (after out m') (mem w))) d' G.
Proof.
  intros HJ Ho Hd Hdd Hc'.
  assert (Hno : made (Called i o out) = None).
  { simpl. rewrite Ho. by destruct out as [[]| | | |]. }
  assert (Hrun : m_run (Called i o out :: t) = m_run t).
  { change (m_run (Called i o out :: t)) with (m_step (m_run t) (Called i o out)). unfold m_step. by destruct o. }
  apply (J_quietly zp fuel t w d G); [exact HJ|done|..].
  + apply ext_refl.
  + apply HJ.
  + apply HJ.
  + simpl. intros j. unfold keep. destruct (Nat.eqb j i); [by destruct out|apply HJ].
  + apply HJ.
  + done.
  + intros Hf. apply HJ. auto.
  + intros Hf. rewrite Hrun. apply HJ. auto.
  + intros Hf [_ Hv]%Forall_cons. rewrite Hrun. apply HJ; auto.
Qed.

Lemma J_step zp fuel t w d G fk e w' :
  J zp fuel t w d G → legal fuel t e → hstep zp fk fuel w e w' →
  (fk = true → zp = ZStrict ∧ settled t) →
  ∃ G', J zp fuel (e :: t) w' (d || fk) G' ∧ ext G (store w) G' (store w') ∧ report zp (d || fk) t G w e w'.
Proof.
  intros HJ Hl Hst Hfk.
  assert (Hd : d || fk = true → zp = ZStrict ∧ settled t).
  { intros [?|?]%orb_true_iff; [by apply (J_faults _ _ _ _ _ _ HJ)|auto]. }
  destruct Hst as [i o out w g' m' Hx|i w].
  2: { exists G. split; [|split; [apply ext_refl|done]].
    assert (Hdd : d || fk = false → d = false) by (intros [? _]%orb_false_iff; done).
    apply (J_quietly zp fuel t w d G); simpl; [exact HJ|done|..].
    - apply ext_refl.
    - apply HJ.
    - apply HJ.
    - intros j. unfold keep. destruct (Nat.eqb j i); [done|apply HJ].
    - apply HJ.
    - done.
    - intros Hf. apply HJ. auto.
    - intros Hf. apply HJ. auto.
    - intros Hf [_ Hv]%Forall_cons. apply HJ; auto. }
  apply (exec_weaken _ _ _ _ _ _ _ _ (d || fk)) in Hx; [|by intros ->; destruct d].
  assert (Hdd : d || fk = false → d = false) by (intros [? _]%orb_false_iff; done).
  clear Hfk. revert Hd Hdd Hx. generalize (d || fk). clear fk. intros d' Hd Hdd Hx.
  destruct (creating o) eqn:Ho.
  - (* creating *)
    remember (ms_zero (m_run t)) as n eqn:Hn.
    assert (Hzn : d' = false → znum G (store w) n) by (intros Hf; subst n; apply HJ; auto).
    destruct (W_creating zp fuel t w d d' G n i o out HJ Ho Hl Hd) as (ob&pr&Hs&HW).
    { intros Hf. split; auto. }
    destruct (W_sound _ _ _ _ _ _ _ _ _ _ _ _ _ HW Hx (J_ok _ _ _ _ _ _ HJ) (J_quiet _ _ _ _ _ _ HJ) (J_mem _ _ _ _ _ _ HJ i))
      as (G'&Hok'&X&Hc'&Hend).
    exists G'.
    eapply J_created; eauto.
  - (* reading *)
    assert (HR := R_reading zp fuel t w d G d' i o out HJ Ho Hl (λ Hf, proj1 (Hd Hf))).
    destruct (R_sound _ _ _ _ _ _ _ _ _ Hx HR (J_ok _ _ _ _ _ _ HJ) (J_mem _ _ _ _ _ _ HJ i)) as (->&Hc'&Hend).
    exists G. split; [|split; [apply ext_refl|]].
    + by apply (J_looked zp fuel t w d).
    + simpl. rewrite Ho. split; [|done]. intros ->. by simpl in Hend.
Qed.

Theorem reach_J zp faults fuel t w :
  reach zp faults fuel t w → ∃ d G, J zp fuel t w d G ∧ (d = true → faults = true).
Proof.
  induction 1 as [|fk t w e w' _ (d&G&HJ&Hd) Hl Hst Hfk].
  - exists false, first_ghost. split; [apply J_first|done].
  - destruct (J_step _ _ _ _ _ _ _ _ _ HJ Hl Hst) as (G'&HJ'&_&_).
    { intros Hf. by apply Hfk in Hf as (_&?&?). }
    exists (d || fk), G'. split; [done|]. intros [?|?]%orb_true_iff; [auto|by apply Hfk].
Qed.

(** The same, with what the last call reports. *)
Theorem reach_report zp faults fuel t w fk e w' :
  reach zp faults fuel t w → legal fuel t e → hstep zp fk fuel w e w' →
  (fk = true → faults = true ∧ zp = ZStrict ∧ settled t) →
  ∃ d G G', J zp fuel t w d G ∧ J zp fuel (e :: t) w' (d || fk) G' ∧
    ext G (store w) G' (store w') ∧ report zp (d || fk) t G w e w' ∧ (d || fk = true → faults = true).
Proof.
  intros Hr Hl Hst Hfk. destruct (reach_J _ _ _ _ _ Hr) as (d&G&HJ&Hd).
  destruct (J_step _ _ _ _ _ _ _ _ _ HJ Hl Hst) as (G'&HJ'&X&Hrep).
  { intros Hf. by apply Hfk in Hf as (_&?&?). }
  exists d, G, G'. split_and!; auto. intros [?|?]%orb_true_iff; [auto|by apply Hfk].
Qed.
