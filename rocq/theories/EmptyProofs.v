(** Texts that begin with an empty word, in every reachable state. *)
From stdpp Require Import gmap.
From Coq Require Import NArith ZArith Lia.
From Verif Require Import Base GoText Model1 Model2 Model3 Storage SpecText SpecMachine Spec Codec Inv Wp Steps Entity
  BitProofs Reads CharProofs WordProofs PhraseProofs DetailProofs StoryProofs Utf8Proofs HistoryProofs ApiProofs LaterProofs.
Local Open Scope nat_scope.

Lemma blank_split s : blank_start s → ∃ ws, split_space s = [] :: ws.
Proof.
  intros [->|(s'&->)]; [by eexists|]. simpl. destruct (split_space s') eqn:E; [by apply split_space_nonempty in E|].
  by eexists.
Qed.

Lemma phrase_provide_blank fuel s : blank_start s → phrase_provide fuel s = Throw ENoCharacters.
Proof.
  intros (ws&Hs)%blank_split. unfold phrase_provide, phrase_collect. rewrite Hs. done.
Qed.

(** How a call that is given such a text ends. *)
Definition blank_end (ob : text) (ab : abn) : Prop :=
  ab = AErr ENoCharacters ∨
  ¬ blank_start ob ∧ (ab = AErr ECharTargetWords ∨ ab = APanic ∧ 2 ≤ length (split_space ob)).

Lemma first_err_cases s : first_err s = ENoCharacters ∨ first_err s = ECharTargetWords.
Proof. unfold first_err. destruct (split_space s) as [|[|]]; auto. Qed.

Section blank.
  Context {zp : zpolicy} {fk : bool} {F : nat} (H31 : 31 ≤ F).
  Context (Hz : fk = true → zp = ZStrict).

  Lemma W_detail_blank n ob pr G g :
    3 ≤ n → started G g → prepared (fk := fk) G → S (length ob) < F → blank_start ob ∨ blank_start pr →
    W zp fk F n (detail_provide F ob pr) (λ _ _ _, False) (λ ab G g, E0 fk ab G g ∨ blank_end ob ab) G g.
  Proof.
    intros Hn Hst Hp Hob Hb. unfold detail_provide.
    assert (Hdec : blank_start ob ∨ ¬ blank_start ob).
    { destruct ob as [|a ob']; [left; by left|]. destruct (decide (a = space)) as [->|Ha]; [left; right; eauto|].
      right. intros [?|(?&[= ??])]; done. }
    destruct Hdec as [Hob'|Hno].
    { rewrite phrase_provide_blank by done. cbn [bind]. apply W_throw. intros _ _. right. by left. }
    destruct Hb as [?|Hpr]; [done|].
    eapply W_bind; [apply (W_phrase_provide F H31 (le_n F) ob); auto|done|..].
    - intros eo G1 g1 Hok1 _ X1 _. rewrite phrase_provide_blank by done. cbn [bind]. apply W_throw. intros _ _. right. by left.
    - intros ab G1 g1 _ _ _ [?|(Hab&_)]; [by left|right].
      destruct Hab as [->|?]; [|right; auto]. destruct (first_err_cases ob) as [-> | ->]; [by left|right; auto].
  Qed.

  Lemma U_remark_blank {A} ob pr (f : remark_ent → detail_ent → prog A) G g :
    started G g → prepared (fk := fk) G → S (length ob) < F → blank_start ob ∨ blank_start pr →
    W zp fk F 6 (class_provide;;; c <- class_new remarkIdentifier;; e <- remark_create_entity c;;
      d <- detail_provide F ob pr;; f e d)
      (λ _ _ _, False) (λ ab G g, E0 fk ab G g ∨ blank_end ob ab) G g.
  Proof.
    intros Hst Hp Hob Hb.
    eapply W_conseq; [|apply (le_n 6)|..].
    1: eapply (U_new_remark_any (F := F) Hz (λ _, True) [] [] _ (λ _ _ _, False) (λ ab G g, E0 fk ab G g ∨ blank_end ob ab));
      auto; [by left|].
    - intros e G1 g1 Hok1 X1 Hup1 Hp1 _ _ _ _ _.
      eapply W_bind; [apply (W_detail_blank 6 ob pr); auto; by left|done|done|].
      intros ab G2 g2 Hok2 _ X2 ?. split; [|done]. intros _. split; [by eapply extn_ext|].
      intros x y Hxy _. destruct (ok_edge _ _ _ Hok2 _ _ Hxy) as (l&_&Hl&_). by exists l.
    - by intros ? ? ? _ _ _ [_ []].
    - by intros ? ? ? _ _ _ [_ ?].
  Qed.

  Lemma U_added_blank a oa pa pr G g :
    remC G g a oa pa → up G → prepared (fk := fk) G → S (length (text_of oa)) < F → blank_start pr →
    W zp fk F 6 (add_remark_to_fact F a pr)
      (λ _ _ _, False) (λ ab G g, E0 fk ab G g ∨ blank_end (text_of oa) ab) G g.
  Proof.
    intros Ha Hup Hp Hob Hb. unfold add_remark_to_fact.
    eapply W_conseq; [|apply (le_n 6)|..].
    1: eapply (U_new_remark_any (F := F) Hz (λ _, True) [] [] _ (λ _ _ _, False)
      (λ ab G g, E0 fk ab G g ∨ blank_end (text_of oa) ab)); auto; [by left|by left|].
    - intros e G1 g1 Hok1 X1 Hup1 Hp1 _ _ _ _ _. assert (HX1 := extP_ext _ _ _ _ _ X1).
      apply W_assoc3.
      eapply (W_seqR zp fk F 6 (get_object_and_property F a));
        [eapply (R_get_object_and_property F H31 (le_n F)); [by apply (remC_mono HX1)|done]| |].
      { intros ab G2 g2 [-> Hab]. split; [done|]. by left. }
      intros ? _ _ ->. cbn beta iota.
      eapply W_bind; [apply (W_detail_blank 6 (text_of oa) pr); auto; by left|done|done|].
      intros ab G2 g2 Hok2 _ X2 ?. split; [|done]. intros _. split; [by eapply extn_ext|].
      intros x y Hxy _. destruct (ok_edge _ _ _ Hok2 _ _ Hxy) as (l&_&Hl&_). by exists l.
    - by intros ? ? ? _ _ _ [_ []].
    - by intros ? ? ? _ _ _ [_ ?].
  Qed.
End blank.

(** C15 *)
Lemma blank_refused zp faults fuel t w fk i o ob pr out w' :
  happens zp faults fuel t w fk i o out w' → given o = Some (ob, pr) →
  blank_start pr ∨ (∃ s, ob = Some s ∧ blank_start s) →
  (∀ v, out ≠ OOk v) ∧
  (fk = false → ∃ obt, (ob = Some obt ∨ ob = None ∧ ∃ a q, receiver o = Some a ∧ tells t a obt q) ∧
    (out = OErr ENoCharacters ∨
     ¬ blank_start obt ∧ (out = OErr ECharTargetWords ∨ out = OPanic ∧ 2 ≤ length (split_space obt)))).
Proof.
  intros (Hr&Hl&Hx&Hfk) Hg Hb.
  destruct (reach_J _ _ _ _ _ Hr) as (d&G&HJ&_).
  assert (Hok := J_ok _ _ _ _ _ _ HJ). assert (Hq := J_quiet _ _ _ _ _ _ HJ). assert (Hst := J_started _ _ _ _ _ _ HJ).
  assert (Hp : prepared (fk := fk) G).
  { intros Hf. apply Hfk in Hf as (_&_&Hs). by apply (J_settled _ _ _ _ _ _ HJ) in Hs as (_&?&_). }
  assert (Hz : fk = true → zp = ZStrict) by (intros Hf; by apply Hfk in Hf as (_&?&_)).
  assert (Hend : ∃ obt, (ob = Some obt ∨ ob = None ∧ ∃ a q, receiver o = Some a ∧ tells t a obt q) ∧
    W zp fk fuel 6 (call_of fuel o) (λ _ _ _, False) (λ ab G g, E0 fk ab G g ∨ blank_end obt ab) G (store w)).
  { assert (HW : ∀ (p : prog remark_ent) obt, W zp fk fuel 6 p (λ _ _ _, False) (λ ab G g, E0 fk ab G g ∨ blank_end obt ab) G (store w) →
      W zp fk fuel 6 (r <- p;; Ret (VRem r)) (λ _ _ _, False) (λ ab G g, E0 fk ab G g ∨ blank_end obt ab) G (store w)).
    { intros p obt H. eapply W_bind; [exact H|done|done|done]. }
    destruct Hl as (Hi&Ht&_).
    assert (Hbb : ∀ s, ob = Some s → blank_start s ∨ blank_start pr).
    { intros s ->. destruct Hb as [?|(s'&[= <-]&?)]; auto. }
    destruct o as [ob' pr'|a pr'|a ob' pr'|a ob' pr'| | | | | | | | | |]; try done; simpl in Hg; simplify_eq; cbn [call_of];
      simpl in Ht; unfold fits in Ht.
    - apply Forall_cons in Ht as [Hob _]. exists ob'. split; [by left|]. apply HW.
      apply (U_remark_blank (zp := zp) (fk := fk)); auto; lia.
    - assert (Ha : issued t a) by by apply Hi.
      destruct (J_told _ _ _ _ _ _ HJ _ Ha) as (ot&q&Htl).
      destruct (J_tells _ _ _ _ _ _ HJ _ _ _ Htl) as (oa&pa&fa&[Hrc _]&<-&_&Hlen).
      destruct (J_settled _ _ _ _ _ _ HJ (ex_intro _ _ Ha)) as (Hup&_&H31).
      exists (text_of oa). split; [right; split; [done|]; by exists a, q|]. apply HW.
      eapply (U_added_blank (zp := zp) (fk := fk)); eauto; try lia. destruct Hb as [?|(?&?&?)]; done.
    - apply Forall_cons in Ht as [Hob _]. exists ob'. split; [by left|]. apply HW.
      apply (U_remark_blank (zp := zp) (fk := fk)); auto; lia.
    - apply Forall_cons in Ht as [Hob _]. exists ob'. split; [by left|]. apply HW.
      apply (U_remark_blank (zp := zp) (fk := fk)); auto; lia. }
  destruct Hend as (obt&Hobt&HW). inversion Hx as [? ? ? ? g' m' He|]; subst.
  destruct (W_sound _ _ _ _ _ _ _ _ _ _ _ _ _ HW He Hok Hq (J_mem _ _ _ _ _ _ HJ i)) as (G'&_&_&_&Hend).
  split.
  - intros v ->. destruct Hend as [[? _]|(_&_&[])]; done.
  - intros ->. exists obt. split; [done|]. destruct Hend as [[_ ?]|(_&_&Hend)]; [done|].
    destruct out as [v|x| | |]; simpl in Hend; try done; unfold blank_end in Hend.
    + destruct Hend as [[? _]|[[= ->]|(?&[[= ->]|[? _]])]]; auto; done.
    + destruct Hend as [[? _]|[?|(?&[?|[_ ?]])]]; auto; done.
    + destruct Hend as [[? _]|[?|(?&[?|[? _]])]]; done.
Qed.
