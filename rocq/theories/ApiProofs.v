(** The API theorems. *)
From stdpp Require Import gmap.
From Coq Require Import NArith ZArith Lia.
From Verif Require Import Base GoText Model1 Model2 Model3 Storage SpecText SpecMachine Spec Codec Inv Wp Steps Entity
  BitProofs Reads CharProofs WordProofs PhraseProofs DetailProofs StoryProofs Utf8Proofs HistoryProofs.
Local Open Scope nat_scope.

Lemma R_answers {zp fk F A} (mk : A → value) (p : prog A) a G g m out g' m' :
  R zp fk F p (λ x _ _, x = a) (E0 fk) G g →
  exec zp fk (x <- p;; Ret (mk x)) g m out g' m' → ok F G g → cache_ok G m →
  g' = g ∧ answers fk out (mk a).
Proof.
  intros HR Hx Hok Hc.
  assert (HR' : R zp fk F (x <- p;; Ret (mk x)) (λ v _ _, v = mk a) (E0 fk) G g).
  { eapply R_bind; [exact HR| |done]. intros ? ? ? _ _ ->. by apply R_ret. }
  destruct (R_sound _ _ _ _ _ _ _ _ _ Hx HR' Hok Hc) as (->&_&Hend). split; [done|].
  destruct out as [v|e| | |]; simpl in Hend.
  - rewrite Hend. split; [done|]. by intros ? [= <-].
  - split; [|done]. intros ->. by destruct Hend.
  - split; [|done]. intros ->. by destruct Hend.
  - split; [|done]. intros ->. by destruct Hend.
  - split; [|done]. by intros ->.
Qed.

Lemma R_refuses {zp fk F A} (mk : A → value) (p : prog A) x G g m out g' m' :
  R zp fk F p (λ _ _ _, False) (λ ab G g, E0 fk ab G g ∨ ab = AErr x) G g →
  exec zp fk (x <- p;; Ret (mk x)) g m out g' m' → ok F G g → cache_ok G m →
  g' = g ∧ refuses fk out x.
Proof.
  intros HR Hx Hok Hc.
  assert (HR' : R zp fk F (x <- p;; Ret (mk x)) (λ v _ _, False) (λ ab G g, E0 fk ab G g ∨ ab = AErr x) G g).
  { eapply R_bind; [exact HR|done|done]. }
  destruct (R_sound _ _ _ _ _ _ _ _ _ Hx HR' Hok Hc) as (->&_&Hend). split; [done|].
  destruct out as [v|e| | |]; simpl in Hend.
  - done.
  - split; [|done]. intros ->. destruct Hend as [[? _]|[= ->]]; done.
  - split; [|done]. intros ->. by destruct Hend as [[? _]|?].
  - split; [|done]. intros ->. by destruct Hend as [[? _]|?].
  - split; [|done]. by intros ->.
Qed.

Section api.
  Context {zp : zpolicy} {faults fk : bool} {fuel : nat} {t : trace} {w : world}.
  Context (Hr : reach zp faults fuel t w).

  (** Texts. *)
  Lemma read_texts i r o p out w' :
    tells t r o p → hstep zp fk fuel w (Called i (GetObjectAndProperty r) out) w' →
    store w' = store w ∧ answers fk out (VText o p).
  Proof.
    intros Ht Hx. inversion Hx as [? ? ? ? g' m' He|]; subst.
    destruct (reach_J _ _ _ _ _ Hr) as (d&G&HJ&_).
    destruct (J_tells _ _ _ _ _ _ HJ _ _ _ Ht) as (ow&pw&f&Hrf&<-&<-&_).
    destruct (J_settled _ _ _ _ _ _ HJ (ex_intro _ _ (tells_issued _ _ _ _ Ht))) as (Hup&_&H31).
    apply (R_answers (zp := zp) (F := fuel) (λ op, VText (fst op) (snd op)) (get_object_and_property fuel r)
      (text_of ow, text_of pw) G _ (mem w i) out g' m'); [|exact He|apply HJ|apply HJ].
    eapply R_get_object_and_property; [done|lia|by destruct Hrf|done].
  Qed.

  Lemma read_identifier i r out w' :
    issued t r → hstep zp fk fuel w (Called i (GetRemark (re_class r)) out) w' →
    store w' = store w ∧ answers fk out (VRem r).
  Proof.
    intros Hi Hx. inversion Hx as [? ? ? ? g' m' He|]; subst.
    destruct (reach_J _ _ _ _ _ Hr) as (d&G&HJ&_).
    destruct (J_told _ _ _ _ _ _ HJ _ Hi) as (o&p&Ht).
    destruct (J_tells _ _ _ _ _ _ HJ _ _ _ Ht) as (ow&pw&f&Hrf&<-&<-&_).
    apply (R_answers (zp := zp) (F := fuel) VRem (get_remark (re_class r)) r G _ (mem w i) out g' m');
      [|exact He|apply HJ|apply HJ].
    destruct Hrf as [[Hrf _] _]. by eapply R_get_remark.
  Qed.

  Lemma read_has_next_remark i r out w' :
    issued t r → hstep zp fk fuel w (Called i (HasNextRemark r) out) w' →
    store w' = store w ∧ answers fk out (VBool false).
  Proof.
    intros Hi Hx. inversion Hx as [? ? ? ? g' m' He|]; subst.
    destruct (reach_J _ _ _ _ _ Hr) as (d&G&HJ&_).
    destruct (J_told _ _ _ _ _ _ HJ _ Hi) as (o&p&Ht).
    destruct (J_tells _ _ _ _ _ _ HJ _ _ _ Ht) as (ow&pw&f&Hrf&<-&<-&_).
    apply (R_answers (zp := zp) (F := fuel) VBool (has_next_remark r) false G _ (mem w i) out g' m');
      [|exact He|apply HJ|apply HJ].
    destruct Hrf as [[Hrf _] _]. by eapply R_has_next_remark.
  Qed.

  Lemma read_next_remark i r out w' :
    issued t r → hstep zp fk fuel w (Called i (GetNextRemark r) out) w' →
    store w' = store w ∧ refuses fk out ERemarkNext.
  Proof.
    intros Hi Hx. inversion Hx as [? ? ? ? g' m' He|]; subst.
    destruct (reach_J _ _ _ _ _ Hr) as (d&G&HJ&_).
    destruct (J_told _ _ _ _ _ _ HJ _ Hi) as (o&p&Ht).
    destruct (J_tells _ _ _ _ _ _ HJ _ _ _ Ht) as (ow&pw&f&Hrf&<-&<-&_).
    apply (R_refuses (zp := zp) (F := fuel) VRem (get_next_remark r) ERemarkNext G _ (mem w i) out g' m');
      [|exact He|apply HJ|apply HJ].
    destruct Hrf as [[Hrf _] _]. by eapply R_get_next_remark.
  Qed.

  Context (Hz : fk = true → zp = ZStrict).

  Lemma read_first_fact i r r0 out w' :
    opened false t r r0 → hstep zp fk fuel w (Called i (GetFirstFact r) out) w' →
    store w' = store w ∧ answers fk out (VRem r0).
  Proof.
    intros Ho Hx. inversion Hx as [? ? ? ? g' m' He|]; subst.
    destruct (reach_J _ _ _ _ _ Hr) as (d&G&HJ&_).
    destruct (J_begun _ _ _ _ _ _ HJ _ _ Ho) as (ow&pw&f&Hrf&Hst).
    apply (R_answers (zp := zp) (F := fuel) VRem (get_first_fact r) r0 G _ (mem w i) out g' m');
      [|exact He|apply HJ|apply HJ].
    by eapply R_get_first_fact.
  Qed.

  Lemma read_story i r r0 o p out w' :
    opened false t r r0 → tells t r0 o p → hstep zp fk fuel w (Called i (GetStory r) out) w' →
    store w' = store w ∧ answers fk out (VStory (o ++ [space] ++ p ++ [space])).
  Proof.
    intros Ho Ht Hx. inversion Hx as [? ? ? ? g' m' He|]; subst.
    destruct (reach_J _ _ _ _ _ Hr) as (d&G&HJ&_).
    destruct (J_begun _ _ _ _ _ _ HJ _ _ Ho) as (ow&pw&f&Hrf&Hst).
    destruct (J_tells _ _ _ _ _ _ HJ _ _ _ Ht) as (ow0&pw0&f0&Hrf0&<-&<-&_).
    destruct (J_settled _ _ _ _ _ _ HJ (ex_intro _ _ (tells_issued _ _ _ _ Ht))) as (Hup&_&H31).
    apply (R_answers (zp := zp) (F := fuel) VStory (get_story fuel r) (text_of ow0 ++ [space] ++ text_of pw0 ++ [space])
      G _ (mem w i) out g' m'); [|exact He|apply HJ|apply HJ].
    destruct Hrf0 as [Hrc0 _]. by eapply R_get_story.
  Qed.
End api.

(** * Histories that go on *)
Lemma leads_reach zp faults fuel t w t' w' :
  reach zp faults fuel t w → leads zp faults fuel t w t' w' → reach zp faults fuel t' w'.
Proof. intros Hr. induction 1 as [|fk t1 w1 e w2 _ IH Hl Hx Hfk]; [done|]. by econstructor. Qed.

Lemma reach_leads zp faults fuel t w : reach zp faults fuel t w ↔ leads zp faults fuel [] first_world t w.
Proof.
  split.
  - induction 1; [constructor|by econstructor].
  - intros H. eapply leads_reach; [constructor|done].
Qed.

Lemma leads_J zp faults fuel t w d G t' w' :
  J zp fuel t w d G → leads zp faults fuel t w t' w' →
  ∃ d' G', J zp fuel t' w' d' G' ∧ ext G (store w) G' (store w').
Proof.
  intros HJ. induction 1 as [|fk t1 w1 e w2 _ (d1&G1&HJ1&X1) Hl Hx Hfk].
  - exists d, G. split; [done|apply ext_refl].
  - destruct (J_step _ _ _ _ _ _ _ _ _ HJ1 Hl Hx) as (G2&HJ2&X2&_).
    { intros Hf. by apply Hfk in Hf as (_&?&?). }
    exists (d1 || fk), G2. split; [done|]. by eapply ext_trans.
Qed.

(** C10 *)
Lemma leads_grows zp faults fuel t w t' w' :
  reach zp faults fuel t w → leads zp faults fuel t w t' w' →
  nodes (store w) ⊆ nodes (store w') ∧ edges (store w) ⊆ edges (store w') ∧
  fwd (store w) ⊆ fwd (store w') ∧ bwd (store w) ⊆ bwd (store w').
Proof.
  intros Hr Hl. destruct (reach_J _ _ _ _ _ Hr) as (d&G&HJ&_).
  destruct (leads_J _ _ _ _ _ _ _ _ _ HJ Hl) as (d'&G'&_&[]). done.
Qed.

(** C09 *)
Lemma identifier_new zp faults fuel t w i o r w' fk r' :
  reach zp faults fuel t w → legal fuel t (Called i o (OOk (VRem r))) → creating o = true →
  hstep zp fk fuel w (Called i o (OOk (VRem r))) w' →
  (fk = true → faults = true ∧ zp = ZStrict ∧ settled t) →
  issued t r' → re_class r ≠ re_class r'.
Proof.
  intros Hr Hl Ho Hx Hfk Hi Heq.
  destruct (reach_report _ _ _ _ _ _ _ _ Hr Hl Hx Hfk) as (d&G&G'&HJ&_&_&Hrep&_).
  destruct Hrep as (_&_&Hrep). specialize (Hrep Ho) as [(r1&ob&pr&[= <-]&_&Hnew&_) _].
  destruct (J_told _ _ _ _ _ _ HJ _ Hi) as (o'&p'&Ht).
  destruct (J_tells _ _ _ _ _ _ HJ _ _ _ Ht) as (?&?&?&(((L&_)&_)&_)&_). destruct L as [L _]. congruence.
Qed.

(** C35 *)
Lemma never_diverges zp faults fuel t w fk i o out w' :
  reach zp faults fuel t w → legal fuel t (Called i o out) → hstep zp fk fuel w (Called i o out) w' →
  (fk = true → faults = true ∧ zp = ZStrict ∧ settled t) → out ≠ ODiverge.
Proof.
  intros Hr Hl Hx Hfk.
  destruct (reach_report _ _ _ _ _ _ _ _ Hr Hl Hx Hfk) as (d&G&G'&HJ&_&_&Hrep&_). apply Hrep.
Qed.

(** C27 *)
Lemma reading_keeps zp faults fuel t w fk i o out w' :
  reach zp faults fuel t w → legal fuel t (Called i o out) → hstep zp fk fuel w (Called i o out) w' →
  (fk = true → faults = true ∧ zp = ZStrict ∧ settled t) → creating o = false → store w' = store w.
Proof.
  intros Hr Hl Hx Hfk.
  destruct (reach_report _ _ _ _ _ _ _ _ Hr Hl Hx Hfk) as (d&G&G'&HJ&_&_&Hrep&_). apply Hrep.
Qed.

(** C18 *)
Lemma outcome_predicted zp fuel t w i o out w' :
  reach zp false fuel t w → legal fuel t (Called i o out) → hstep zp false fuel w (Called i o out) w' →
  valid_trace (Called i o out :: t) → creating o = true → kind out = predict zp (m_run t) o.
Proof.
  intros Hr Hl Hx Hv Ho.
  destruct (reach_report _ _ _ _ _ _ _ _ Hr Hl Hx) as (d&G&G'&HJ&_&_&Hrep&Hd); [done|].
  destruct Hrep as (_&_&Hrep). apply (Hrep Ho); [|done].
  destruct (d || false); [|done]. by specialize (Hd eq_refl).
Qed.

(** Far calls *)
Lemma far_refused faults fuel t w fk i o out w' v :
  reach ZStrict faults fuel t w → legal fuel t (Called i o out) → hstep ZStrict fk fuel w (Called i o out) w' →
  (fk = true → faults = true ∧ settled t) →
  match o with AddFactToStory _ _ _ | CreateChildStory _ _ _ => True | _ => False end → out ≠ OOk v.
Proof.
  intros Hr Hl Hx Hfk Ho ->.
  destruct (reach_report _ _ _ _ _ _ _ _ Hr Hl Hx) as (d&G&G'&HJ&_&_&Hrep&Hd).
  { intros Hf. destruct (Hfk Hf). done. }
  destruct Hrep as (_&_&Hrep).
  assert (creating o = true) as Hc by by destruct o. specialize (Hrep Hc) as [(r&ob&pr&_&_&_&_&_&Hz) _].
  assert (far o) as Hfar by by destruct o. by specialize (Hz Hfar).
Qed.

(** C24, C26 under ZStrict *)
Section strict.
  Context {faults fk : bool} {fuel : nat} {t : trace} {w : world}.
  Context (Hr : reach ZStrict faults fuel t w).

  Lemma strict_navigation i o r out w' :
    issued t r → (o = HasNextFact r ∨ o = GetNextFact r ∨ o = HasNextStory r ∨ o = GetNextStory r) →
    hstep ZStrict fk fuel w (Called i o out) w' →
    store w' = store w ∧ refuses fk out EStorage.
  Proof.
    intros Hi Ho Hx. inversion Hx as [? ? ? ? g' m' He|]; subst.
    destruct (reach_J _ _ _ _ _ Hr) as (d&G&HJ&_).
    destruct (J_told _ _ _ _ _ _ HJ _ Hi) as (o'&p&Ht).
    destruct (J_tells _ _ _ _ _ _ HJ _ _ _ Ht) as (ow&pw&f&Hrf&<-&<-&_).
    assert (Hb : rem_base G (store w) r ow pw) by by destruct Hrf as [[? _] _].
    assert (Hok := J_ok _ _ _ _ _ _ HJ). assert (Hm := J_mem _ _ _ _ _ _ HJ i).
    destruct Ho as [->|[->|[->| ->]]]; cbn [call_of] in He.
    - apply (R_refuses (zp := ZStrict) (F := fuel) VBool (has_next_fact r) EStorage G (store w) (mem w i) out g' m' ); [|exact He|exact Hok|exact Hm].
      by eapply R_has_next_fact_strict.
    - apply (R_refuses (zp := ZStrict) (F := fuel) VRem (get_next_fact r) EStorage G (store w) (mem w i) out g' m' ); [|exact He|exact Hok|exact Hm].
      by eapply R_get_next_fact_strict.
    - apply (R_refuses (zp := ZStrict) (F := fuel) VBool (has_next_story r) EStorage G (store w) (mem w i) out g' m' ); [|exact He|exact Hok|exact Hm].
      by eapply R_has_next_story_strict.
    - apply (R_refuses (zp := ZStrict) (F := fuel) VRem (get_next_story r) EStorage G (store w) (mem w i) out g' m' ); [|exact He|exact Hok|exact Hm].
      by eapply R_get_next_story_strict.
  Qed.
End strict.

Lemma zero_added t : ms_zero (m_run t) ≠ 0 ↔ fact_added t.
Proof.
  induction t as [|e t IH].
  - split; [done|]. intros (i&a&ob&pr&v&H). by inversion H.
  - assert (Hcons : fact_added (e :: t) ↔ (∃ i a ob pr v, e = Called i (AddFactToStory a ob pr) (OOk v)) ∨ fact_added t).
    { unfold fact_added. setoid_rewrite elem_of_cons. split.
      - intros (i&a&ob&pr&v&[<-|H]); [left; eauto 10|right; eauto 10].
      - intros [(i&a&ob&pr&v& ->)|(i&a&ob&pr&v&H)]; exists i, a, ob, pr, v; auto. }
    rewrite Hcons, <- IH. clear Hcons IH.
    change (m_run (e :: t)) with (m_step (m_run t) e).
    assert (Hz : ms_zero (m_step (m_run t) e) = match e with
      | Called _ (AddFactToStory _ _ _) (OOk _) => if ms_zero (m_run t) =? 0 then 1 else 2
      | Called _ (CreateChildStory _ _ _) (OOk _) => if ms_zero (m_run t) =? 0 then 0 else 2
      | _ => ms_zero (m_run t) end).
    { destruct e as [i o out|i]; [|done]. unfold m_step. destruct o; simpl; try done; [|by destruct out..].
      by destruct (ms_object (m_run t) !! re_class r); destruct out. }
    rewrite Hz. clear Hz.
    destruct e as [i o out|i]; [|split; [tauto|intros [(?&?&?&?&?&?)|?]; done]].
    destruct o; try (split; [tauto|intros [(?&?&?&?&?&?)|?]; done]).
    + destruct out; try (split; [tauto|intros [(?&?&?&?&?&?)|?]; done]).
      split; [|by destruct (_ =? 0)]. intros _. left. eauto 10.
    + destruct out; try (split; [tauto|intros [(?&?&?&?&?&?)|?]; done]).
      destruct (ms_zero (m_run t) =? 0) eqn:E; [apply Nat.eqb_eq in E|apply Nat.eqb_neq in E].
      * rewrite E. split; [done|intros [(?&?&?&?&?&?)|?]; done].
      * split; [by right|done].
Qed.

(** C24 under ZNode *)
Lemma lenient_has_next_fact fuel t w i r out w' :
  reach ZNode false fuel t w → issued t r →
  hstep ZNode false fuel w (Called i (HasNextFact r) out) w' →
  store w' = store w ∧ ∃ b, out = OOk (VBool b) ∧ (b = true ↔ fact_added t).
Proof.
  intros Hr Hi Hx. inversion Hx as [? ? ? ? g' m' He|]; subst.
  destruct (reach_J _ _ _ _ _ Hr) as (d&G&HJ&Hd). destruct d; [by specialize (Hd eq_refl)|].
  destruct (J_told _ _ _ _ _ _ HJ _ Hi) as (o'&p&Ht).
  destruct (J_tells _ _ _ _ _ _ HJ _ _ _ Ht) as (ow&pw&f&Hrf&<-&<-&_).
  assert (Hb : rem_base G (store w) r ow pw) by by destruct Hrf as [[? _] _].
  assert (HR : R ZNode false fuel (x <- has_next_fact r;; Ret (VBool x)) (λ v _ g', ∃ b, v = VBool b ∧ zsome g' b) (E0 false) G (store w)).
  { eapply R_bind; [by eapply R_has_next_fact_lenient| |done]. intros b ? ? _ _ ?. apply R_ret. eauto. }
  destruct (R_sound _ _ _ _ _ _ _ _ _ He HR (J_ok _ _ _ _ _ _ HJ) (J_mem _ _ _ _ _ _ HJ i)) as (->&_&Hend).
  split; [done|]. destruct out; simpl in Hend; try done; try (by destruct Hend).
  destruct Hend as (b&->&Hz). exists b. split; [done|]. rewrite <- zero_added. unfold zsome in Hz. rewrite Hz.
  pose proof (J_zero _ _ _ _ _ _ HJ eq_refl) as Hn. destruct (ms_zero (m_run t)) as [|[|n]]; simpl in Hn.
  - split; [|done]. intros [y Hy]. by apply Hn in Hy.
  - split; [done|]. intros _. destruct Hn as (y&_&Hy&_). exists y. by apply Hy.
  - split; [done|]. intros _. destruct Hn as (y&_&_&Hy&_). by exists y.
Qed.
