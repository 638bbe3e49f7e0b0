(** What a call returns, seen from any later moment. *)
From stdpp Require Import gmap.
From Coq Require Import NArith ZArith Lia.
From Verif Require Import Base GoText Model1 Model2 Model3 Storage SpecText SpecMachine Spec SpecPlay
  Utf8Proofs RefProofs HistoryProofs ApiProofs PlayProofs.
Local Open Scope nat_scope.

Lemma happens_reach zp faults fuel t w fk i o out w' :
  happens zp faults fuel t w fk i o out w' → reach zp faults fuel (Called i o out :: t) w'.
Proof. intros (Hr&Hl&Hx&Hfk). by econstructor. Qed.

Lemma leads_from_first zp faults fuel t w : reach zp faults fuel t w → leads zp faults fuel [] first_world t w.
Proof. induction 1; eauto using leads. Qed.

Lemma leads_tells zp faults fuel t w t' w' r o p : leads zp faults fuel t w t' w' → tells t r o p → tells t' r o p.
Proof. induction 1; [done|]. intros. by apply tells_later, IHleads. Qed.
Lemma leads_issued zp faults fuel t w t' w' r : leads zp faults fuel t w t' w' → issued t r → issued t' r.
Proof.
  induction 1; [done|]. intros Hi. destruct (IHleads Hi) as (i&o&Hc&Hin). exists i, o. split; [done|]. by right.
Qed.
Lemma leads_opened zp faults fuel t w t' w' b r r0 : leads zp faults fuel t w t' w' → opened b t r r0 → opened b t' r r0.
Proof. induction 1; [done|]. intros. by apply opened_later, IHleads. Qed.

Section later.
  Context {zp : zpolicy} {faults fk fk' : bool} {fuel : nat}.

  (** C07 *)
  Lemma texts_for_ever t w r o p t' w' j out w'' :
    reach zp faults fuel t w → tells t r o p → leads zp faults fuel t w t' w' →
    hstep zp fk' fuel w' (Called j (GetObjectAndProperty r) out) w'' →
    store w'' = store w' ∧ answers fk' out (VText o p).
  Proof.
    intros Hr Ht Hl Hx. eapply read_texts; [by eapply leads_reach|by eapply leads_tells|exact Hx].
  Qed.

  (** C08 *)
  Lemma identifier_for_ever t w r t' w' j out w'' :
    reach zp faults fuel t w → issued t r → leads zp faults fuel t w t' w' →
    hstep zp fk' fuel w' (Called j (GetRemark (get_identifier r)) out) w'' →
    store w'' = store w' ∧ answers fk' out (VRem r).
  Proof.
    intros Hr Ht Hl Hx. eapply read_identifier; [by eapply leads_reach|by eapply leads_issued|exact Hx].
  Qed.

  (** C05, C06, C23, C25 *)
  Lemma own_texts_read t w i o ob pr ob' pr' r w' t1 w1 j out w2 :
    happens zp faults fuel t w fk i o (OOk (VRem r)) w' → own_texts o = Some (ob, pr) →
    repaired ob ob' → repaired pr pr' →
    leads zp faults fuel (Called i o (OOk (VRem r)) :: t) w' t1 w1 →
    hstep zp fk' fuel w1 (Called j (GetObjectAndProperty r) out) w2 →
    store w2 = store w1 ∧ answers fk' out (VText ob' pr').
  Proof.
    intros Hh Ho Hob Hpr Hl Hx. apply happens_reach in Hh. eapply (texts_for_ever _ _ r ob' pr'); [exact Hh| |exact Hl|exact Hx].
    destruct o; try done; injection Ho as -> ->; by (apply tells_story || apply tells_fact || apply tells_child).
  Qed.

  (** C20 *)
  Lemma added_remark_read t w i a ob q pr pr' r w' t1 w1 j out w2 :
    happens zp faults fuel t w fk i (AddRemarkToFact a pr) (OOk (VRem r)) w' →
    tells t a ob q → repaired pr pr' →
    leads zp faults fuel (Called i (AddRemarkToFact a pr) (OOk (VRem r)) :: t) w' t1 w1 →
    hstep zp fk' fuel w1 (Called j (GetObjectAndProperty r) out) w2 →
    store w2 = store w1 ∧ answers fk' out (VText ob pr').
  Proof.
    intros Hh Ho Hpr Hl Hx. apply happens_reach in Hh. eapply (texts_for_ever _ _ r ob pr'); [exact Hh| |exact Hl|exact Hx].
    by eapply tells_remark.
  Qed.

  Context (Hz : fk' = true → zp = ZStrict).
  (** C37, C25 *)
  Lemma first_fact_for_ever t w r r0 t' w' j out w'' :
    reach zp faults fuel t w → opened false t r r0 → leads zp faults fuel t w t' w' →
    hstep zp fk' fuel w' (Called j (GetFirstFact r) out) w'' →
    store w'' = store w' ∧ answers fk' out (VRem r0).
  Proof.
    intros Hr Ht Hl Hx. eapply read_first_fact; [by eapply leads_reach|exact Hz|by eapply leads_opened|exact Hx].
  Qed.
  (** C22 *)
  Lemma story_for_ever t w r r0 o p t' w' j out w'' :
    reach zp faults fuel t w → opened false t r r0 → tells t r0 o p → leads zp faults fuel t w t' w' →
    hstep zp fk' fuel w' (Called j (GetStory r) out) w'' →
    store w'' = store w' ∧ answers fk' out (VStory (o ++ [space] ++ p ++ [space])).
  Proof.
    intros Hr Ho Ht Hl Hx.
    eapply read_story; [by eapply leads_reach|exact Hz|by eapply leads_opened|by eapply leads_tells|exact Hx].
  Qed.
End later.

(** * On a concrete storage *)
Lemma plays_history zp faults fuel S x :
  meets zp S → plays zp faults fuel S x →
  ∃ w, reach zp faults fuel (k_trace x) w ∧
    ∀ i o evs, ∃ w', hstep zp (negb (all_normal evs)) fuel w (Called i o (r_out (now fuel x i o evs))) w'.
Proof.
  intros (inv&abs&HS) Hx. destruct (plays_reach HS _ _ _ Hx) as [Hi Hr]. eexists. split; [exact Hr|].
  intros i o evs. eexists. by apply (now_hstep HS).
Qed.

Section plays.
  Context {zp : zpolicy} {faults : bool} {fuel : nat} {S : storage} {x : machine S}.
  Context (HS : meets zp S) (Hx : plays zp faults fuel S x).

  Lemma plays_texts r o p j : tells (k_trace x) r o p →
    r_out (now fuel x j (GetObjectAndProperty r) []) = OOk (VText o p).
  Proof.
    intros Ht. destruct (plays_history _ _ _ _ _ HS Hx) as (w&Hr&Hs). destruct (Hs j (GetObjectAndProperty r) []) as [w' Hh].
    by apply (read_texts Hr _ _ _ _ _ _ Ht Hh).
  Qed.
  Lemma plays_texts_faults r o p j evs v : tells (k_trace x) r o p →
    r_out (now fuel x j (GetObjectAndProperty r) evs) = OOk v → v = VText o p.
  Proof.
    intros Ht. destruct (plays_history _ _ _ _ _ HS Hx) as (w&Hr&Hs). destruct (Hs j (GetObjectAndProperty r) evs) as [w' Hh].
    by apply (read_texts Hr _ _ _ _ _ _ Ht Hh).
  Qed.
  Lemma plays_identifier r j : issued (k_trace x) r →
    r_out (now fuel x j (GetRemark (get_identifier r)) []) = OOk (VRem r).
  Proof.
    intros Ht. destruct (plays_history _ _ _ _ _ HS Hx) as (w&Hr&Hs). destruct (Hs j (GetRemark (get_identifier r)) []) as [w' Hh].
    by apply (read_identifier Hr _ _ _ _ Ht Hh).
  Qed.
  Lemma plays_first_fact r r0 j : opened false (k_trace x) r r0 →
    r_out (now fuel x j (GetFirstFact r) []) = OOk (VRem r0).
  Proof.
    intros Ht. destruct (plays_history _ _ _ _ _ HS Hx) as (w&Hr&Hs). destruct (Hs j (GetFirstFact r) []) as [w' Hh].
    assert (Hz : false = true → zp = ZStrict) by done. by apply (read_first_fact Hr Hz _ _ _ _ _ Ht Hh).
  Qed.
  Lemma plays_story r r0 o p j : opened false (k_trace x) r r0 → tells (k_trace x) r0 o p →
    r_out (now fuel x j (GetStory r) []) = OOk (VStory (o ++ [space] ++ p ++ [space])).
  Proof.
    intros Ho Ht. destruct (plays_history _ _ _ _ _ HS Hx) as (w&Hr&Hs). destruct (Hs j (GetStory r) []) as [w' Hh].
    assert (Hz : false = true → zp = ZStrict) by done. by apply (read_story Hr Hz _ _ _ _ _ _ _ Ho Ht Hh).
  Qed.
  Lemma plays_next_remark r j : issued (k_trace x) r →
    r_out (now fuel x j (HasNextRemark r) []) = OOk (VBool false) ∧
    r_out (now fuel x j (GetNextRemark r) []) = OErr ERemarkNext.
  Proof.
    intros Ht. destruct (plays_history _ _ _ _ _ HS Hx) as (w&Hr&Hs).
    destruct (Hs j (HasNextRemark r) []) as [w' Hh]. destruct (Hs j (GetNextRemark r) []) as [w'' Hh']. split.
    - by apply (read_has_next_remark Hr _ _ _ _ Ht Hh).
    - by apply (read_next_remark Hr _ _ _ _ Ht Hh').
  Qed.
End plays.

(** * C16, C17, C15: consequences of the machine *)
Lemma panic_rule zp fuel t w i o out w' :
  happens zp false fuel t w false i o out w' → valid_trace (Called i o out :: t) → creating o = true →
  (out = OPanic ↔ predict zp (m_run t) o = Some MPanic).
Proof.
  intros (Hr&Hl&Hx&_) Hv Ho. pose proof (outcome_predicted _ _ _ _ _ _ _ _ Hr Hl Hx Hv Ho) as Hk. rewrite <- Hk.
  by destruct out.
Qed.


(** * Other forms *)
Lemma issued_tells zp faults fuel t w r :
  reach zp faults fuel t w → issued t r → ∃ o p, tells t r o p ∧ ∀ o' p', tells t r o' p' → o' = o ∧ p' = p.
Proof.
  intros Hr Hi. destruct (reach_J _ _ _ _ _ Hr) as (d&G&HJ&_).
  destruct (J_told _ _ _ _ _ _ HJ _ Hi) as (o&p&Ht). exists o, p. split; [done|].
  intros o' p' Ht'. by apply (tells_fun _ _ _ _ _ _ _ _ _ _ _ HJ Ht' Ht).
Qed.
Lemma identifier_unique zp faults fuel t w fk i o r w' r' :
  happens zp faults fuel t w fk i o (OOk (VRem r)) w' → creating o = true → issued t r' →
  get_identifier r ≠ get_identifier r'.
Proof. intros (Hr&Hl&Hx&Hf) Ho. by apply (identifier_new zp faults fuel t w i o r w' fk r'). Qed.
Lemma strict_add_fact faults fuel t w fk i a ob pr out w' v :
  happens ZStrict faults fuel t w fk i (AddFactToStory a ob pr) out w' → out ≠ OOk v.
Proof.
  intros (Hr&Hl&Hx&Hf). eapply far_refused; [exact Hr|exact Hl|exact Hx| |done]. intros H. by apply Hf in H as (?&_&?).
Qed.
Lemma strict_child_story faults fuel t w fk i a ob pr out w' v :
  happens ZStrict faults fuel t w fk i (CreateChildStory a ob pr) out w' → out ≠ OOk v.
Proof.
  intros (Hr&Hl&Hx&Hf). eapply far_refused; [exact Hr|exact Hl|exact Hx| |done]. intros H. by apply Hf in H as (?&_&?).
Qed.
Lemma child_first_fact zp faults fuel t w fk i a ob pr r w' t1 w1 j out w2 :
  happens zp faults fuel t w fk i (CreateChildStory a ob pr) (OOk (VRem r)) w' →
  leads zp faults fuel (Called i (CreateChildStory a ob pr) (OOk (VRem r)) :: t) w' t1 w1 →
  hstep zp false fuel w1 (Called j (GetFirstFact r) out) w2 →
  store w2 = store w1 ∧ out = OOk (VRem r).
Proof.
  intros Hh Hl Hx. apply happens_reach in Hh. assert (Hz : false = true → zp = ZStrict) by done.
  destruct (first_fact_for_ever Hz _ _ r r _ _ j out w2 Hh (opened_child _ _ _ _ _ _ _) Hl Hx) as [? [H _]]. auto.
Qed.
