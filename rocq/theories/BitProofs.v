(** The bit layer. *)
From stdpp Require Import gmap.
From Coq Require Import NArith ZArith Lia.
From Verif Require Import Base GoText Model1 Model2 Model3 Storage Inv Wp Steps Entity.
Local Open Scope nat_scope.

Lemma two_elements {A} (l : list A) a b :
  NoDup l → a ≠ b → (∀ x, x ∈ l ↔ x = a ∨ x = b) → l = [a; b] ∨ l = [b; a].
Proof.
  intros Hnd Hab Hl. assert (l ≡ₚ [a; b]) as Hp.
  { apply NoDup_Permutation; auto.
    - rewrite !NoDup_cons, elem_of_list_singleton. split_and!; auto using not_elem_of_nil, NoDup_nil_2.
    - intros x. rewrite Hl. set_solver. }
  symmetry in Hp. apply Permutation_length_2_inv in Hp. naive_solver.
Qed.

Section bits.
  Context {zp : zpolicy} {fk : bool} {F : nat}.
  Notation wp := (wp zp fk F).
  Notation W := (W zp fk F).
  Notation R := (R zp fk F).
  Notation E0 := (E0 fk).

  Lemma ready_up G g z o : ok F G g → bits G = BReady z o →
    bits_ok (Gh (lab G) (BReady z o) (solo G)) g.
  Proof. intros Hok Hb. pose proof (ok_bits _ _ _ Hok) as H. unfold bits_ok in *. by rewrite Hb in H. Qed.

  Lemma R_bit_initialize z o G g :
    bits G = BReady z o → up G → R bit_initialize (λ r _ _, r = (z, o)) E0 G g.
  Proof.
    intros Hb Hup. apply R_load. intros G1 g1 m Hok1 X1 Hm.
    pose proof (ext_ready X1 _ _ Hb) as Hb1. pose proof (up_mono X1 Hup) as Hup1.
    destruct m as [[z' o']|]; simpl in Hm.
    { apply R_ret. intros _. congruence. }
    eapply R_seq; [by apply R_class_provide|done|]. intros ? G2 g2 Hok2 X2 _.
    pose proof (ext_ready X2 _ _ Hb1) as Hb2. pose proof (up_mono X2 Hup1) as Hup2.
    eapply R_seq; [by eapply R_sources; [apply Hup2|]|done|].
    intros cs G3 g3 Hok3 X3 [Hnd Hcs].
    pose proof (ext_ready X3 _ _ Hb2) as Hb3.
    pose proof (ok_bits _ _ _ Hok3) as Hbo. unfold bits_ok in Hbo. rewrite Hb3 in Hbo.
    destruct Hbo as (Hsrc&Hlt&Lz&Lo&Fz&Fo&Vz&Vo&_).
    assert (∀ f : bit_ent * bit_ent → prog (bit_ent * bit_ent),
      (∀ zo G' g', ok F G' g' → bits G' = BReady z o → zo = (z, o) → R (f zo) (λ r _ _, r = (z, o)) E0 G' g') →
      R (bind ('(_, zeroCharacter) <- st_getref (be_class z);;
         '(_, oneCharacter) <- st_getref (be_class o);;
         Ret (BitEnt false (be_class z) zeroCharacter, BitEnt true (be_class o) oneCharacter)) f)
        (λ r _ _, r = (z, o)) E0 G3 g3) as Hread.
    { intros f Hf.
      eapply (R_seq _ _ _ _ _ (λ zo G' _, zo = (z, o) ∧ bits G' = BReady z o)); [|done|].
      - eapply R_getref_fwd; [done| |done]. intros ? G4 g4 Hok4 X4 _.
        eapply R_getref_fwd; [by eapply (ext_fwd_lookup X4)| |done]. intros ? G5 g5 Hok5 X5 _.
        apply R_ret. intros _. split.
        + destruct z, o; simpl in *; congruence.
        + by apply (ext_ready X5), (ext_ready X4).
      - intros zo G' g' Hok' X' [-> ?]. by apply Hf. }
    assert (cs = [be_class z; be_class o] ∨ cs = [be_class o; be_class z]) as Hcases.
    { apply two_elements; auto.
      - intros Heq. rewrite Heq in Hlt. lia.
      - intros x. rewrite Hcs. apply Hsrc. }
    destruct Hcases as [-> | ->].
    - rewrite (proj2 (N.ltb_lt _ _) Hlt). apply Hread. intros zo G' g' Hok' Hb' ->.
      apply R_store; [done|]. by apply R_ret.
    - rewrite (proj2 (N.ltb_ge _ _)) by lia. apply Hread. intros zo G' g' Hok' Hb' ->.
      apply R_store; [done|]. by apply R_ret.
  Qed.

  (** The first use of a store. *)
  Lemma wp_bit_create n G g (f : bit_ent * bit_ent → prog (bit_ent * bit_ent)) Q E :
    fk = false → ok F G g → up G → bits G = BNone →
    (∀ z o G' g', ok F G' g' → bits G' = BReady z o → extn n G g G' g' → up G' →
      (∀ x y, (x, y) ∈ edges g' → (x, y) ∈ edges g ∨ y = bitIdentifier) → wp (f (z, o)) Q E G' g') →
    wp (bind (c0 <- class_new bitIdentifier;;
      c1 <- class_new bitIdentifier;;
      let (zeroClass, oneClass) := if (c0 <? c1)%N then (c0, c1) else (c1, c0) in
      zeroCharacter <- st_create;;
      st_setref zeroClass zeroCharacter;;;
      oneCharacter <- st_create;;
      st_setref oneClass oneCharacter;;;
      Ret (BitEnt false zeroClass zeroCharacter, BitEnt true oneClass oneCharacter)) f) Q E G g.
  Proof.
    intros Hfk Hok Hup Hb Hf. rewrite Hfk in *. clear Hfk.
    pose proof (Hup 1%N ltac:(lia)) as L1.
    pose proof (ok_bits _ _ _ Hok) as Hbo. unfold bits_ok in Hbo. rewrite Hb in Hbo.
    destruct Hbo as [Hno1 Hnob].
    destruct (ok_set_bits F G g BPart Hok) as [HokP XP]; [by rewrite Hb|done|].
    set (GP := Gh (lab G) BPart (solo G)) in *.
    (* first class node *)
    split; [|done]. intros r0 g0 (c0&->&Hc0&Hc0n&_&->). simpl.
    assert (lab G !! c0 = None) as F0 by by eapply ok_fresh_lab.
    exists (set_lab c0 (LCls 1) GP).
    assert (ok F (set_lab c0 (LCls 1) GP) (add_node c0 g)) as Hok0.
    { apply ok_add_node; done. }
    split; [done|]. split.
    { eapply ext_trans; [exact XP|]. by apply ext_create. }
    assert (c0 ≠ 1%N) by (intros ->; rewrite F0 in L1; done).
    split; [|done]. intros r1 g1 [Hr1 _]. destruct Hr1 as [-> ->].
    { split; (eapply ok_valid; [exact Hok0| |]); simpl; simplify_map_eq; done. }
    exists (set_lab c0 (LCls 1) GP).
    assert (ok F (set_lab c0 (LCls 1) GP) (add_edge c0 1 (add_node c0 g))) as Hok1.
    { eapply ok_add_edge; simpl; simplify_map_eq; try done. by intros [|[]]. }
    split; [done|]. split; [apply ext_add_edge|]. simpl.
    (* second class node *)
    split; [|done]. intros r2 g2 (c1&->&Hc1&Hc1n&_&->). simpl.
    assert (lab (set_lab c0 (LCls 1) GP) !! c1 = None) as F1 by by eapply ok_fresh_lab.
    exists (set_lab c1 (LCls 1) (set_lab c0 (LCls 1) GP)).
    assert (ok F (set_lab c1 (LCls 1) (set_lab c0 (LCls 1) GP)) (add_node c1 (add_edge c0 1 (add_node c0 g)))) as Hok2.
    { apply ok_add_node; done. }
    split; [done|]. split.
    { by apply ext_create. }
    simpl in F1. rewrite lookup_insert_None in F1. destruct F1 as [F1 Hc01].
    assert (c1 ≠ 1%N) by (intros ->; rewrite F1 in L1; done).
    split; [|done]. intros r3 g3 [Hr3 _]. destruct Hr3 as [-> ->].
    { split; (eapply ok_valid; [exact Hok2| |]); simpl; simplify_map_eq; done. }
    set (G3 := set_lab c1 (LCls 1) (set_lab c0 (LCls 1) GP)) in *.
    set (g3 := add_edge c1 1 (add_node c1 (add_edge c0 1 (add_node c0 g)))) in *.
    exists G3.
    assert (ok F G3 g3) as Hok3.
    { eapply ok_add_edge; simpl; simplify_map_eq; try done. by intros [|[]]. }
    split; [done|]. split; [apply ext_add_edge|]. simpl.
    assert (∃ zc oc, (zc < oc)%N ∧ (if (c0 <? c1)%N then (c0, c1) else (c1, c0)) = (zc, oc) ∧
      (zc = c0 ∧ oc = c1 ∨ zc = c1 ∧ oc = c0)) as (zc&oc&Hlt&->&Hzo).
    { destruct (N.ltb_spec c0 c1); [exists c0, c1|exists c1, c0]; split_and!; auto. lia. }
    assert (lab G3 !! zc = Some (LCls 1)) as Lz.
    { destruct Hzo as [[-> ->]|[-> ->]]; simpl; by simplify_map_eq. }
    assert (lab G3 !! oc = Some (LCls 1)) as Lo.
    { destruct Hzo as [[-> ->]|[-> ->]]; simpl; by simplify_map_eq. }
    assert (fwd g !! c0 = None) as Fw0 by by eapply ok_fwd_none.
    assert (fwd g !! c1 = None) as Fw1 by by eapply ok_fwd_none.
    assert (fwd g !! zc = None ∧ fwd g !! oc = None) as [Fz Fo] by naive_solver.
    (* first character node *)
    split; [|done]. intros r4 g4 (zch&->&Hz0&Hzn&_&->). simpl.
    assert (lab G3 !! zch = None) as F4 by by eapply ok_fresh_lab.
    exists (set_lab zch (LBitCh false) G3).
    assert (ok F (set_lab zch (LBitCh false) G3) (add_node zch g3)) as Hok4.
    { apply ok_add_node; done. }
    split; [done|]. split.
    { by apply ext_create. }
    assert (zc ≠ zch) by congruence. assert (oc ≠ zch) by congruence.
    assert (bwd g3 !! zch = None) as Bz by by eapply (ok_bwd_none Hok3).
    assert (fwd g3 !! zch = None) as Fzch by by eapply (ok_fwd_none Hok3).
    split; [|done]. intros r5 g5 [Hr5 _]. simpl in Hr5. destruct Hr5 as [-> ->]; auto.
    { split; (eapply ok_valid; [exact Hok4| |]); simpl; simplify_map_eq; done. }
    exists (set_lab zch (LBitCh false) G3).
    assert (ok F (set_lab zch (LBitCh false) G3) (add_ref zc zch (add_node zch g3))) as Hok5.
    { eapply ok_add_ref; simpl; simplify_map_eq; try done.
      intros k [= <-]. unfold g3. simpl. destruct Hzo as [[-> ->]|[-> ->]]; [apply elem_of_union_r|];
        by apply elem_of_union_l, elem_of_singleton. }
    split; [done|]. split; [by apply ext_add_ref|]. simpl.
    (* second character node *)
    split; [|done]. intros r6 g6 (och&->&Ho0&Hon&_&->). simpl.
    assert (lab (set_lab zch (LBitCh false) G3) !! och = None) as F6 by by eapply ok_fresh_lab.
    exists (set_lab och (LBitCh true) (set_lab zch (LBitCh false) G3)).
    assert (ok F (set_lab och (LBitCh true) (set_lab zch (LBitCh false) G3))
              (add_node och (add_ref zc zch (add_node zch g3)))) as Hok6.
    { apply ok_add_node; done. }
    split; [done|]. split.
    { by apply ext_create. }
    simpl in F6. rewrite lookup_insert_None in F6. destruct F6 as [F6 Hzo'].
    assert (zc ≠ och) by (simpl in Lz; congruence). assert (oc ≠ och) by (simpl in Lo; congruence).
    assert (bwd g3 !! och = None) as Bo by by eapply (ok_bwd_none Hok3).
    set (G6 := set_lab och (LBitCh true) (set_lab zch (LBitCh false) G3)) in *.
    set (g6 := add_node och (add_ref zc zch (add_node zch g3))) in *.
    assert (fwd g6 !! oc = None) as Fo6.
    { unfold g6. simpl. rewrite lookup_insert_ne by lia. done. }
    assert (bwd g6 !! och = None) as Bo6.
    { unfold g6. simpl. rewrite lookup_insert_ne by done. done. }
    assert (lab G6 !! oc = Some (LCls 1)) as Lo6.
    { unfold G6. simpl. rewrite lookup_insert_ne, lookup_insert_ne by done. exact Lo. }
    assert (lab G6 !! zc = Some (LCls 1)) as Lz6.
    { unfold G6. simpl. rewrite lookup_insert_ne, lookup_insert_ne by done. exact Lz. }
    assert (lab G6 !! och = Some (LBitCh true)) as Loch.
    { unfold G6. simpl. by rewrite lookup_insert. }
    assert (lab G6 !! zch = Some (LBitCh false)) as Lzch.
    { unfold G6. simpl. rewrite lookup_insert_ne by done. by rewrite lookup_insert. }
    split; [|done]. intros r7 g7 [Hr7 _]. simpl in Hr7. destruct Hr7 as [-> ->].
    { split; by eapply (ok_valid Hok6). }
    { exact Fo6. }
    { exact Bo6. }
    set (zb := BitEnt false zc zch). set (ob := BitEnt true oc och).
    assert (ok F G6 (add_ref oc och g6)) as Hok7.
    { eapply ok_add_ref; [exact Hok6|exact Lo6|exact Loch|done|exact Fo6|exact Bo6|].
      intros k [= <-]. unfold g6, g3. simpl. destruct Hzo as [[-> ->]|[-> ->]]; [|apply elem_of_union_r];
        by apply elem_of_union_l, elem_of_singleton. }
    destruct (ok_set_bits F G6 (add_ref oc och g6) (BReady zb ob) Hok7) as [Hok8 X8]; [done| |].
    { unfold bits_ok. split_and!; auto.
      - intros x. unfold g6, g3. simpl. rewrite !elem_of_union, !elem_of_singleton.
        pose proof (Hno1 x) as Hx. unfold bitIdentifier in *.
        destruct Hzo as [[-> ->]|[-> ->]]; split.
        + intros [?|[?|?]]; simplify_eq; auto.
        + intros [->| ->]; auto.
        + intros [?|[?|?]]; simplify_eq; auto.
        + intros [->| ->]; auto.
      - simpl. rewrite lookup_insert_ne by lia. by rewrite lookup_insert.
      - simpl. by rewrite lookup_insert.
      - intros x b. split.
        + simpl. intros Hx.
          apply lookup_insert_Some in Hx as [[? ?]|[_ Hx]]; [by simplify_eq|].
          apply lookup_insert_Some in Hx as [[? ?]|[_ Hx]]; [by simplify_eq|].
          apply lookup_insert_Some in Hx as [[? ?]|[_ Hx]]; [by simplify_eq|].
          apply lookup_insert_Some in Hx as [[? ?]|[_ Hx]]; [by simplify_eq|].
          by apply Hnob in Hx.
        + intros ->. by destruct b. }
    exists (Gh (lab G6) (BReady zb ob) (solo G6)). split; [done|].
    split; [eapply ext_trans; [|exact X8]; by apply ext_add_ref|].
    assert (∀ x y, (x, y) ∈ edges (add_ref oc och g6) →
      (x, y) ∈ edges g ∨ y = bitIdentifier ∧ lab G6 !! x = Some (LCls 1)) as Hedges.
    { intros x y. unfold g6, g3. simpl. rewrite !elem_of_union, !elem_of_singleton.
      intros [?|[?|?]]; simplify_eq; auto; right; (split; [done|]); destruct Hzo as [[-> ->]|[-> ->]]; auto. }
    apply Hf; auto.
    - split.
      + eapply ext_trans; [exact XP|].
        eapply (ext_trans _ _ (set_lab c0 (LCls 1) GP) (add_node c0 g)).
        { by apply ext_create. }
        eapply ext_trans; [apply (ext_add_edge c0 1)|].
        eapply (ext_trans _ _ G3 (add_node c1 (add_edge c0 1 (add_node c0 g)))).
        { apply ext_create. simpl. by rewrite lookup_insert_ne. }
        eapply ext_trans; [apply (ext_add_edge c1 1)|]. fold g3.
        eapply (ext_trans _ _ (set_lab zch (LBitCh false) G3) (add_node zch g3)).
        { by apply ext_create. }
        eapply (ext_trans _ _ (set_lab zch (LBitCh false) G3) (add_ref zc zch (add_node zch g3))).
        { by apply ext_add_ref. }
        eapply (ext_trans _ _ G6 g6).
        { apply ext_create. simpl. by rewrite lookup_insert_ne. }
        eapply ext_trans; [|exact X8]. by apply ext_add_ref.
      + intros x y Hxy Hxy'. exists (LCls 1). split; [|simpl; lia].
        apply Hedges in Hxy as [?|[_ ?]]; done.
    - intros k Hk. specialize (Hup k Hk). simpl.
      rewrite !lookup_insert_ne; [done|..]; intros ->.
      + rewrite F0 in Hup. done.
      + rewrite F1 in Hup. done.
      + simpl in F4. rewrite !lookup_insert_None in F4. destruct F4 as [[F4 _] _]. rewrite F4 in Hup. done.
      + simpl in F6. rewrite !lookup_insert_None in F6. destruct F6 as [[F6 _] _]. rewrite F6 in Hup. done.
    - intros x y Hxy. apply Hedges in Hxy as [?|[? _]]; auto.
  Qed.

  (** What every writing call needs: the bit layer is either untouched or
      complete; under faults it has to be complete. *)
  Definition prepared (G : ghost) : Prop := fk = true → ∃ z o, bits G = BReady z o.

  Lemma prepared_mono G g G' g' : ext G g G' g' → prepared G → prepared G'.
  Proof. intros X H Hfk. destruct (H Hfk) as (z&o&?). exists z, o. by apply (ext_ready X). Qed.

  Lemma W_bit_initialize n G g :
    started G g → prepared G →
    W n bit_initialize (λ r G' g', bits G' = BReady (r.1) (r.2) ∧ up G' ∧
      ∀ x y, (x, y) ∈ edges g' → (x, y) ∈ edges g ∨ y = bitIdentifier) E0 G g.
  Proof.
    intros Hst Hp. apply W_intro. intros Hok Hq.
    destruct (bits G) as [| |z o] eqn:Hb; [|by destruct Hq|].
    2: { (* complete already *)
      assert (up G) as Hup.
      { destruct Hst as [?|Hne]; [done|]. exfalso.
        pose proof (ok_bits _ _ _ Hok) as Hbo. unfold bits_ok in Hbo. rewrite Hb in Hbo.
        destruct Hbo as (_&_&Lz&_). eapply (ok_lab_node Hok) in Lz; [set_solver|done]. }
      eapply W_post; [by apply R_W, (R_bit_initialize z o)|apply le_n|by intros ??? (?&?&?)|].
      intros r G' g' _ _ _ (->&->&->). simpl. auto. }
    assert (fk = false) as Hfk.
    { apply not_true_is_false. intros Hfk. destruct (Hp Hfk) as (?&?&?). congruence. }
    apply W_load. intros m Hm.
    destruct m as [[z o]|]; simpl in Hm; [congruence|].
    eapply W_seq; [by apply (W_class_provide n)|done|apply le_n|].
    intros ? G1 g1 Hok1 Hq1 X1 (Hup1&Hb1&He1). rewrite Hb in Hb1.
    eapply W_seqR; [by eapply R_sources; [apply (Hup1 1%N)|]|done|].
    intros cs _ _ [_ Hcs].
    pose proof (ok_bits _ _ _ Hok1) as Hbo. unfold bits_ok in Hbo. rewrite Hb1 in Hbo.
    destruct Hbo as [Hno1 Hnob].
    assert (cs = []) as ->.
    { destruct cs as [|c cs]; [done|]. exfalso. eapply (Hno1 c), Hcs. left. }
    apply wp_W. intros _ _. eapply wp_bit_create; auto.
    intros z o G2 g2 Hok2 Hb2 X2 Hup2 He2. simpl. split; [done|]. split_and!.
    - split; [congruence|]. destruct Hq1 as [_ Hl1]. rewrite <- Hl1. apply X2.
    - done.
    - done.
    - done.
    - by rewrite <- He1.
  Qed.
End bits.
