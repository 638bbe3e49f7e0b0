(** The detail layer: pairs of an object and a property phrase. *)
From stdpp Require Import gmap.
From Coq Require Import NArith ZArith Lia.
From Verif Require Import Base GoText Codec Model1 Model2 Model3 Storage Inv Wp Steps Entity BitProofs
  Reads CharProofs SpecMachine WordProofs PhraseProofs.
Local Open Scope nat_scope.

(** Extension that only adds edges starting at class nodes of entities or at
    rank [k] and above. *)
Definition exth (k : nat) (G : ghost) (g : graph) (G' : ghost) (g' : graph) : Prop :=
  ext G g G' g' ∧
  ∀ x y, (x, y) ∈ edges g' → (x, y) ∉ edges g →
    ∃ l, lab G' !! x = Some l ∧ (rank l = 0 ∨ k ≤ rank l).

Lemma exth_refl k G g : exth k G g G g.
Proof. split; [done|]. done. Qed.

Lemma exth_trans k G g G1 g1 G2 g2 :
  exth k G g G1 g1 → exth k G1 g1 G2 g2 → exth k G g G2 g2.
Proof.
  intros [X1 H1] [X2 H2]. split; [by eapply ext_trans|].
  intros x y ? ?. destruct (decide ((x, y) ∈ edges g1)) as [?|?]; [|eauto].
  destruct (H1 x y) as (l&?&?); [done..|]. exists l. eauto using @ext_lab_lookup.
Qed.

Lemma exth_le k k' G g G' g' : k' ≤ k → exth k G g G' g' → exth k' G g G' g'.
Proof.
  intros ? [X H]. split; [done|]. intros x y ? ?.
  destruct (H x y) as (l&?&?); [done..|]. exists l. split; [done|lia].
Qed.

Lemma exth_ext k G g G' g' : exth k G g G' g' → ext G g G' g'.
Proof. by intros []. Qed.

(** Such an extension keeps the words and phrases. *)
Lemma pview_high F M G g G' g' :
  ok F G g → ok F G' g' → exth 4 G g G' g' → pview_of G g M → pview_of G' g' M.
Proof.
  intros Hok Hok' [X Hn] (HV&HT&HD). split_and!.
  - eapply (view_same Hok Hok' X); [|done]. intros x y l Hxy Hxy' Hl.
    destruct (Hn x y Hxy Hxy') as (l'&Hl'&Hrk). simplify_eq. destruct l; simpl in *; lia || done.
  - intros ws. rewrite HT. split; intros [e He]; exists e; [by apply (phraseC_mono X)|].
    eapply (phrase_same Hok Hok' X); [|done]. intros x y l Hxy Hxy' Hl.
    destruct (Hn x y Hxy Hxy') as (l'&Hl'&Hrk). simplify_eq. destruct l; simpl in *; lia || done.
  - assert (Hold : ∀ x y ws, (x, y) ∈ edges g' → lab G' !! x = Some (LPhrPhr ws) → (x, y) ∈ edges g).
    { intros x y ws Hxy Hl. destruct (decide ((x, y) ∈ edges g)) as [|Hxy']; [done|].
      destruct (Hn x y Hxy Hxy') as (l'&Hl'&Hrk). simplify_eq. simpl in Hrk. lia. }
    intros x y z ws ws' Hxy Hxz Hx Hy Hz.
    pose proof (Hold _ _ _ Hxy Hx) as H1. pose proof (Hold _ _ _ Hxz Hx) as H2.
    eapply (HD x y z ws ws'); [done..| | |].
    + apply (lab_back X); [done|by eapply (ok_edge_l Hok)].
    + apply (lab_back X); [done|by eapply (ok_edge_r Hok)].
    + apply (lab_back X); [done|by eapply (ok_edge_r Hok)].
Qed.

(** Details are complete and unique for their two phrases. *)
Definition det_ok (G : ghost) (g : graph) : Prop :=
  ∀ x a b o p, lab G !! x = Some (LDetPhr o p) → (a, x) ∈ edges g → (x, b) ∈ edges g →
    is_Some (fwd g !! x) ∧
    ∀ x' o' p', lab G !! x' = Some (LDetPhr o' p') → (a, x') ∈ edges g → (x', b) ∈ edges g → x' = x.

Lemma det_ok_keep F G g G' g' :
  ok F G g → ok F G' g' → ext G g G' g' →
  (∀ x y, (x, y) ∈ edges g' → (x, y) ∉ edges g → ∃ l, lab G' !! x = Some l ∧ rank l ≠ 4) →
  det_ok G g → det_ok G' g'.
Proof.
  intros Hok Hok' X Hn HD.
  assert (Hr : ∀ x y o p, (x, y) ∈ edges g' → lab G' !! x = Some (LDetPhr o p) →
    (x, y) ∈ edges g ∧ lab G !! x = Some (LDetPhr o p)).
  { intros x y o p Hxy Hl. destruct (decide ((x, y) ∈ edges g)) as [Hin|Hxy'].
    - split; [done|]. apply (lab_back X); [done|by eapply (ok_edge_l Hok)].
    - destruct (Hn x y Hxy Hxy') as (l'&Hl'&Hrk). by simplify_eq. }
  assert (Hl : ∀ x y o p, (x, y) ∈ edges g' → lab G' !! y = Some (LDetPhr o p) → (x, y) ∈ edges g).
  { intros x y o p Hxy Hl. destruct (decide ((x, y) ∈ edges g)) as [Hin|Hxy']; [done|].
    destruct (Hn x y Hxy Hxy') as (l'&Hl'&Hrk).
    destruct (ok_edge_labs Hok' _ _ _ _ Hxy Hl' Hl) as [He _]. destruct l'; done. }
  intros x a b o p Hx Ha Hb. destruct (Hr _ _ _ _ Hb Hx) as [Hb0 Hx0].
  destruct (HD x a b o p Hx0 (Hl _ _ _ _ Ha Hx) Hb0) as [[y Hy] Hu]. split.
  - exists y. by apply (ext_fwd_lookup X).
  - intros x' o' p' Hx' Ha' Hb'. destruct (Hr _ _ _ _ Hb' Hx') as [Hb0' Hx0'].
    eapply Hu; eauto.
Qed.

Lemma det_ok_low F n G g G' g' :
  n ≤ 3 → ok F G g → ok F G' g' → extn n G g G' g' → det_ok G g → det_ok G' g'.
Proof.
  intros Hn Hok Hok' [X HX]. eapply det_ok_keep; [done..|].
  intros x y H1 H2. destruct (HX x y H1 H2) as (l&?&?). exists l. split; [done|lia].
Qed.

Lemma det_ok_high F G g G' g' :
  ok F G g → ok F G' g' → exth 5 G g G' g' → det_ok G g → det_ok G' g'.
Proof.
  intros Hok Hok' [X HX]. eapply det_ok_keep; [done..|].
  intros x y H1 H2. destruct (HX x y H1 H2) as (l&?&?). exists l. split; [done|lia].
Qed.

(** ** Common details *)
Lemma elem_common x ts ss : x ∈ common_details ts ss ↔ x ∈ ts ∧ x ∈ ss.
Proof.
  unfold common_details. rewrite elem_of_list_In, in_flat_map. split.
  - intros (o&Ho&Hx). apply filter_In in Hx as [Hx ->%N.eqb_eq].
    by rewrite !elem_of_list_In.
  - intros [H1%elem_of_list_In H2%elem_of_list_In]. exists x. split; [done|].
    apply filter_In. split; [done|]. apply N.eqb_refl.
Qed.

Lemma NoDup_common ts ss : NoDup ts → NoDup ss → NoDup (common_details ts ss).
Proof.
  intros Ht Hs. induction Ht as [|o ts Ho Ht IH]; [constructor|].
  change (common_details (o :: ts) ss) with (List.filter (λ p, N.eqb p o) ss ++ common_details ts ss).
  apply NoDup_app. split_and!.
  - apply NoDup_ListNoDup, List.NoDup_filter, NoDup_ListNoDup. done.
  - intros x Hx Hx'%elem_common. apply elem_of_list_In, filter_In in Hx as [_ ->%N.eqb_eq]. tauto.
  - done.
Qed.

Section details.
  Context {zp : zpolicy} {fk : bool} {F : nat}.
  Notation wp := (wp zp fk F).
  Notation W := (W zp fk F).
  Notation R := (R zp fk F).
  Notation E0 := (E0 fk).
  Notation prepared := (prepared (fk := fk)).
  Notation phraseQ := (phraseQ (fk := fk)).
  Notation phraseE := (phraseE (fk := fk)).

  Context (fuel : nat) (Hfuel : 31 ≤ fuel) (HF : F ≤ fuel).

  (** ** Readers *)
  Lemma R_detail_read_by_phrase d o p G g : detailC G g d o p →
    R (detail_read_by_phrase (de_phrase d))
      (λ x _ _, de_phrase x = de_phrase d ∧ de_remark x = de_remark d) E0 G g.
  Proof.
    intros (_&_&Hf&_). eapply R_getref_fwd; [exact Hf| |done]. intros z G1 g1 _ _ _. by apply R_ret.
  Qed.

  Lemma R_detail_fetch d o p G g : detailC G g d o p →
    R (detail_fetch (de_remark d))
      (λ x _ _, de_phrase x = de_phrase d ∧ de_remark x = de_remark d) E0 G g.
  Proof.
    intros (Lp&_&Hf&_). apply R_intro. intros Hok.
    eapply R_getref_bwd; [by apply Hok| |done]. intros z G1 g1 Hok1 X1 _.
    eapply R_seq; [eapply R_getref; [by apply (ext_lab_lookup X1)|done]|done|].
    intros r G2 g2 _ _ ->. by apply R_ret.
  Qed.

  Lemma detailC_same d x o p G g :
    de_phrase x = de_phrase d → de_remark x = de_remark d → detailC G g d o p → detailC G g x o p.
  Proof using. unfold detailC. by intros -> ->. Qed.

  Lemma R_detail_texts d o p G g : detailC G g d o p → up G →
    R (detail_get_object_and_property fuel d) (λ x _ _, x = (text_of o, text_of p)) E0 G g.
  Proof.
    intros (Lp&_&_&eo&ep&Ho&Hp&Eo&Ep) Hup. unfold detail_get_object_and_property.
    eapply (R_then _ (pe_detail eo, pe_detail ep)); [|done|].
    { unfold detail_get_object_and_property_phrases.
      apply R_assoc.
      eapply R_one_source; [exact Lp|exact I|exact Eo| |done]. intros G1 g1 _ X1.
      apply R_assoc.
      eapply R_one_target; [by apply (ext_lab_lookup X1)|exact I|by apply (ext_edge X1)| |done].
      intros G2 g2 _ X2. by apply R_ret. }
    intros G1 g1 _ X1.
    eapply R_then; [by eapply R_phrase_read_by_detail, (phrase_base_mono X1), phraseC_base|done|].
    intros G2 g2 _ X2. assert (X2' := ext_trans _ _ _ _ _ _ X1 X2).
    eapply R_then; [apply (R_phrase_extract fuel Hfuel HF); [by apply (phraseC_mono X2')|by apply (up_mono X2')]|done|].
    intros G3 g3 _ X3. assert (X3' := ext_trans _ _ _ _ _ _ X2' X3).
    eapply R_then; [by eapply R_phrase_read_by_detail, (phrase_base_mono X3'), phraseC_base|done|].
    intros G4 g4 _ X4. assert (X4' := ext_trans _ _ _ _ _ _ X3' X4).
    eapply R_then; [apply (R_phrase_extract fuel Hfuel HF); [by apply (phraseC_mono X4')|by apply (up_mono X4')]|done|].
    intros G5 g5 _ X5. by apply R_ret.
  Qed.

  (** ** Creating details *)
  Definition no_common (eo ep : phrase_ent) (G : ghost) (g : graph) : Prop :=
    ∀ x, (pe_detail eo, x) ∈ edges g → (x, pe_detail ep) ∉ edges g.

  Lemma W_detail_create eo ep o p G g :
    up G → phraseC G g eo o → phraseC G g ep p →
    W 4 (detail_create_entity eo ep)
      (λ d G' g', detailC G' g' d o p ∧ exth 4 G g G' g' ∧
        (det_ok G g → no_common eo ep G g → det_ok G' g')) E0 G g.
  Proof.
    intros Hup Ho Hp. apply W_intro. intros Hok _.
    pose proof (phraseC_base _ _ _ _ Ho) as ((_&_&_&Lo)&_).
    pose proof (phraseC_base _ _ _ _ Hp) as ((_&_&_&Lp)&_).
    pose proof (phraseC_ok Hok _ _ Ho) as Oo. pose proof (phraseC_ok Hok _ _ Hp) as Op.
    unfold detail_create_entity, phrase_add_target_detail, phrase_add_source_detail.
    eapply W_seq; [by apply (W_class_new 4 detailIdentifier)|done|lia|].
    intros x G1 g1 Hok1 _ X1 (Hx&Hx0&->&->).
    eapply W_seq; [by apply (W_create 4 (LDetPhr o p))|done|lia|].
    intros y G2 g2 Hok2 _ X2 (Hy&Hy0&->&->). simpl in Hy.
    rewrite lookup_insert_None in Hy. destruct Hy as [Hy Hxy].
    assert (x ≠ pe_detail eo ∧ x ≠ pe_detail ep ∧ y ≠ pe_detail eo ∧ y ≠ pe_detail ep) as (?&?&?&?)
      by (split_and!; congruence).
    assert (Hup2 : up (set_lab y (LDetPhr o p) (set_lab x (LCls detailIdentifier) G))).
    { apply (up_mono (extn_ext _ _ _ _ _ X2)), (up_mono (extn_ext _ _ _ _ _ X1)). done. }
    set (G2 := set_lab y (LDetPhr o p) (set_lab x (LCls detailIdentifier) G)) in *.
    set (g2 := add_node y (add_edge x detailIdentifier (add_node x g))) in *.
    assert (Ly2 : lab G2 !! y = Some (LDetPhr o p)) by (simpl; by simplify_map_eq).
    assert (Lx2 : lab G2 !! x = Some (LCls detailIdentifier)) by (simpl; by simplify_map_eq).
    assert (Lo2 : lab G2 !! pe_detail eo = Some (LPhrDet o)) by (simpl; by simplify_map_eq).
    assert (Lp2 : lab G2 !! pe_detail ep = Some (LPhrDet p)) by (simpl; by simplify_map_eq).
    assert (Hk : y ≠ detailIdentifier).
    { intros ->. unfold detailIdentifier in Hy. rewrite (Hup 5%N) in Hy by lia. done. }
    assert (Hiso : ∀ z, (y, z) ∉ edges g2 ∧ (z, y) ∉ edges g2).
    { intros z. destruct (ok_iso Hok y Hy z) as [H1' H2']. simpl.
      rewrite !not_elem_of_union, !not_elem_of_singleton. split_and!; try done; congruence. }
    eapply W_seq; [|done|apply le_n|].
    { eapply (W_connect 4 (pe_detail eo) y (LPhrDet o) (LDetPhr o p)); auto; try done.
      - intros _ z Hz. by destruct (Hiso z).
      - eapply not_bit_root; [exact Hup2|exact Ly2|done]. }
    intros [] G3 g3 Hok3 _ X3 (->&->).
    eapply W_seq; [|done|apply le_n|].
    { eapply (W_connect 4 y (pe_detail ep) (LDetPhr o p) (LPhrDet p)); auto; try done.
      - intros _ z Hz. simpl in Hz. apply elem_of_union in Hz as [Hz|Hz].
        + apply elem_of_singleton in Hz. simplify_eq.
        + by destruct (Hiso z).
      - eapply not_bit_root; [exact Hup2|exact Lp2|done]. }
    intros [] G4 g4 Hok4 _ X4 (->&->).
    set (g4 := add_edge y (pe_detail ep) (add_edge (pe_detail eo) y g2)) in *.
    eapply W_seq; [by apply (W_create 4 (LDetRem o p))|done|lia|].
    intros r G5 g5 Hok5 _ X5 (Hr&Hr0&->&->).
    assert (y ≠ r ∧ x ≠ r) as [Hyr Hxr] by (split; congruence).
    assert (Hfx : fwd g !! x = None) by by apply (ok_fwd_none Hok).
    assert (Hfy : fwd g !! y = None) by by apply (ok_fwd_none Hok).
    assert (Hby : bwd g !! y = None) by by apply (ok_bwd_none Hok).
    assert (Hbr : bwd g !! r = None).
    { apply (ok_bwd_none Hok). apply eq_None_not_Some. intros [l Hl].
      assert (lab G2 !! r = Some l); [|congruence].
      apply (ext_lab_lookup (extn_ext _ _ _ _ _ X2)), (ext_lab_lookup (extn_ext _ _ _ _ _ X1)). done. }
    eapply W_seq; [|done|apply le_n|].
    { eapply (W_setref 4 x y (LCls detailIdentifier) (LDetPhr o p)); simpl; auto.
      - by rewrite lookup_insert_ne.
      - by rewrite lookup_insert_ne.
      - intros k [= <-]. unfold g4, g2. simpl. do 2 apply elem_of_union_r. by apply elem_of_union_l, elem_of_singleton. }
    intros [] G6 g6 Hok6 _ X6 (->&->).
    eapply W_seq; [|done|apply le_n|].
    { eapply (W_setref 4 y r (LDetPhr o p) (LDetRem o p)); simpl; auto.
      - by rewrite lookup_insert_ne.
      - by rewrite lookup_insert.
      - by rewrite lookup_insert_ne.
      - by rewrite lookup_insert_ne.
      - done. }
    intros [] G7 g7 Hok7 _ X7 (->&->).
    apply W_ret. intros _ _.
    set (G7 := set_lab r (LDetRem o p) G2) in *.
    set (g7 := add_ref y r (add_ref x y (add_node r g4))) in *.
    assert (X : ext G g G7 g7).
    { apply (ext_trans _ _ _ _ _ _ (extn_ext _ _ _ _ _ X1)), (ext_trans _ _ _ _ _ _ (extn_ext _ _ _ _ _ X2)),
        (ext_trans _ _ _ _ _ _ (extn_ext _ _ _ _ _ X3)), (ext_trans _ _ _ _ _ _ (extn_ext _ _ _ _ _ X4)),
        (ext_trans _ _ _ _ _ _ (extn_ext _ _ _ _ _ X5)), (ext_trans _ _ _ _ _ _ (extn_ext _ _ _ _ _ X6)).
      exact (extn_ext _ _ _ _ _ X7). }
    assert (He : ∀ a b, (a, b) ∈ edges g7 ↔
      a = y ∧ b = pe_detail ep ∨ a = pe_detail eo ∧ b = y ∨ a = x ∧ b = detailIdentifier ∨ (a, b) ∈ edges g).
    { intros a b. simpl. rewrite !elem_of_union, !elem_of_singleton. naive_solver. }
    assert (Ly : lab G7 !! y = Some (LDetPhr o p)) by (simpl; by rewrite lookup_insert_ne).
    assert (Lx : lab G7 !! x = Some (LCls detailIdentifier)) by (simpl; by rewrite lookup_insert_ne).
    split_and!.
    - split_and!; simpl.
      + done.
      + by rewrite lookup_insert.
      + by rewrite lookup_insert.
      + exists eo, ep. split_and!; [by apply (phraseC_mono X)|by apply (phraseC_mono X)|..]; apply He; auto.
    - split; [done|]. intros a b Hab Hab'. apply He in Hab as [[-> _]|[[-> _]|[[-> _]|?]]]; [..|done].
      + exists (LDetPhr o p). split; [done|]. right. simpl. lia.
      + exists (LPhrDet o). split; [by apply (ext_lab_lookup X)|]. right. simpl. lia.
      + exists (LCls detailIdentifier). split; [exact Lx|by left].
    - intros HD Hno.
      assert (Hold : ∀ a b z o' p', lab G7 !! z = Some (LDetPhr o' p') → (a, z) ∈ edges g7 → (z, b) ∈ edges g7 →
        z = y ∧ a = pe_detail eo ∧ b = pe_detail ep ∨
        z ≠ y ∧ (a, z) ∈ edges g ∧ (z, b) ∈ edges g ∧ lab G !! z = Some (LDetPhr o' p')).
      { intros a b z o' p' Hz Ha Hb. apply He in Ha, Hb.
        destruct (decide (z = y)) as [->|Hzy].
        - left. split; [done|]. split.
          + destruct Ha as [[_ ?]|[[? _]|[[_ ?]|Ha]]]; [congruence|done|congruence|].
            by destruct (ok_iso Hok y Hy a).
          + destruct Hb as [[_ ?]|[[? _]|[[? _]|Hb]]]; [done|congruence|congruence|].
            by destruct (ok_iso Hok y Hy b).
        - right. split; [done|].
          assert ((z, b) ∈ edges g).
          { destruct Hb as [[? _]|[[? _]|[[? _]|Hb]]]; [done| | |done].
            - subst z. rewrite (ext_lab_lookup X _ _ Lo) in Hz. done.
            - subst z. by rewrite Lx in Hz. }
          assert ((a, z) ∈ edges g).
          { destruct Ha as [[_ ?]|[[_ ?]|[[_ ?]|Ha]]]; [|done| |done].
            - subst z. rewrite (ext_lab_lookup X _ _ Lp) in Hz. done.
            - subst z. rewrite (up_mono X Hup detailIdentifier) in Hz by done. done. }
          split_and!; try done. apply (lab_back X); [done|]. by eapply (ok_edge_l Hok). }
      intros z a b o' p' Hz Ha Hb.
      destruct (Hold _ _ _ _ _ Hz Ha Hb) as [(->&->&->)|(Hzy&Ha0&Hb0&Hz0)]; split.
      + exists r. simpl. by rewrite lookup_insert.
      + intros z' o'' p'' Hz' Ha' Hb'.
        destruct (Hold _ _ _ _ _ Hz' Ha' Hb') as [(->&_)|(_&Ha0&Hb0&_)]; [done|]. by destruct (Hno z').
      + destruct (HD _ _ _ _ _ Hz0 Ha0 Hb0) as [[q Hq] _]. exists q. by apply (ext_fwd_lookup X).
      + destruct (HD _ _ _ _ _ Hz0 Ha0 Hb0) as [_ Hu]. intros z' o'' p'' Hz' Ha' Hb'.
        destruct (Hold _ _ _ _ _ Hz' Ha' Hb') as [(->&->&->)|(_&Ha1&Hb1&Hz1)]; [by destruct (Hno z)|].
        by eapply Hu.
  Qed.

  (** The detail of two phrases; after faults it may lack its remark. *)
  Definition detailD (G : ghost) (g : graph) (d : detail_ent) (o p : list (list Z)) : Prop :=
    detailC G g d o p ∨ fk = true ∧ de_remark d = 0%N.

  Lemma W_detail_provide_entity eo ep o p G g :
    up G → phraseC G g eo o → phraseC G g ep p → (fk = false → det_ok G g) →
    W 4 (detail_provide_entity eo ep)
      (λ d G' g', detailD G' g' d o p ∧ exth 4 G g G' g' ∧ (fk = false → det_ok G' g')) E0 G g.
  Proof.
    intros Hup Ho Hp HD. apply W_intro. intros Hok _.
    pose proof (phraseC_base _ _ _ _ Ho) as ((_&_&_&Lo)&_).
    pose proof (phraseC_base _ _ _ _ Hp) as ((_&_&_&Lp)&_).
    unfold detail_provide_entity, phrase_get_target_details, phrase_get_source_details.
    eapply W_seq; [by eapply (W_targets 4)|done|lia|]. intros ts ? ? _ _ _ (->&->&Hts&Hts').
    eapply (W_seq _ _ _ _ 4 _ _ (λ r G' g', G' = G ∧ g' = g ∧
      match r with Ok ss => NoDup ss ∧ ∀ y, y ∈ ss ↔ (y, pe_detail ep) ∈ edges g | Err _ => fk = true end)); [|done|lia|].
    { eapply W_try; [by eapply (R_W _ _ _ 4), R_sources|lia|..].
      - intros ss G' g' _ _ _ (->&->&?&?). done.
      - intros ab G' g' _ _ _ (->&->&?&?). destruct ab; done. }
    intros r ? ? _ _ _ (->&->&Hr).
    assert (Hmk : (fk = false → no_common eo ep G g) →
      W 4 (detail_create_entity eo ep)
        (λ d G' g', detailD G' g' d o p ∧ exth 4 G g G' g' ∧ (fk = false → det_ok G' g')) E0 G g).
    { intros Hno. eapply W_post; [by apply W_detail_create|lia|done|].
      intros d G' g' _ _ _ (?&?&Hd). split_and!; [by left|done|]. intros Hfk. apply Hd; auto. }
    destruct r as [ss|e].
    2: { replace (common_details ts []) with (@nil N).
      - apply Hmk. intros Hfk. congruence.
      - clear. induction ts as [|t ts IH]; [done|]. exact IH. }
    destruct Hr as [Hss Hss'].
    destruct (common_details ts ss) as [|c [|c' l]] eqn:Hc.
    - apply Hmk. intros _ x H1%Hts' H2%Hss'. assert (Hx : x ∈ common_details ts ss) by by apply elem_common.
      rewrite Hc in Hx. by apply elem_of_nil in Hx.
    - assert (Hx : c ∈ common_details ts ss) by (rewrite Hc; left).
      apply elem_common in Hx as [H1%Hts' H2%Hss'].
      destruct (ok_edge _ _ _ Hok _ _ H1) as (l1&l2&Hl1&Hl2&Hed&_).
      rewrite Lo in Hl1. simplify_eq. destruct l2; simpl in Hed; try done. subst.
      destruct (ok_edge_labs Hok _ _ _ _ H2 Hl2 Lp) as [Hed _]. simpl in Hed. subst.
      eapply W_post; [eapply (R_W _ _ _ 4)|apply le_n| |].
      + unfold detail_read_by_phrase. eapply R_seq; [eapply R_getref; [exact Hl2|done]|by apply le_E0_refl|].
        intros rf G1 g1 Hok1 X1 ->. apply R_ret. intros _.
        instantiate (1 := λ d G' g', de_phrase d = c ∧ de_remark d = default 0%N (fwd g' !! c)). done.
      + by intros ??? (_&_&?).
      + intros d G' g' _ _ _ (->&->&<-&Hd). split_and!; [|apply exth_refl|done].
        destruct (fwd g !! de_phrase d) as [r|] eqn:Hf; simpl in Hd.
        * left. destruct (ok_ref _ _ _ Hok _ _ Hf) as (la&lb&Ha&Hb&Hr).
          rewrite Hl2 in Ha. simplify_eq. destruct lb; simpl in Hr; try done. destruct Hr as [<- <-].
          split_and!; auto. eauto 10.
        * right. split; [|done]. apply not_false_is_true. intros Hfk.
          destruct (HD Hfk _ _ _ _ _ Hl2 H1 H2) as [[? ?] _]. congruence.
    - apply W_throw. intros _ _. split; [|done]. apply not_false_is_true. intros Hfk.
      assert (Hnd : NoDup (common_details ts ss)) by by apply NoDup_common.
      assert (Hx1 : c ∈ common_details ts ss) by (rewrite Hc; left).
      assert (Hx2 : c' ∈ common_details ts ss) by (rewrite Hc; right; left).
      apply elem_common in Hx1 as [H1%Hts' H2%Hss']. apply elem_common in Hx2 as [H3%Hts' H4%Hss'].
      assert (Hl : ∀ z, (pe_detail eo, z) ∈ edges g → ∃ p', lab G !! z = Some (LDetPhr o p')).
      { intros z Hz. destruct (ok_edge _ _ _ Hok _ _ Hz) as (l1&l2&Hl1&Hl2&Hed&_).
        rewrite Lo in Hl1. simplify_eq. destruct l2; simpl in Hed; try done. subst. eauto. }
      destruct (Hl _ H1) as [p1 Hp1]. destruct (Hl _ H3) as [p2 Hp2].
      destruct (HD Hfk _ _ _ _ _ Hp1 H1 H2) as [_ Hu].
      rewrite Hc, (Hu _ _ _ Hp2 H3 H4) in Hnd. inversion Hnd as [|?? Hin]. apply Hin. left.
  Qed.

  (** Stored phrases have no empty words. *)
  Lemma phraseC_no_empty G g e ws : ok F G g → phraseC G g e ws → [] ∉ ws.
  Proof.
    intros Hok He Hin. pose proof (phraseC_base _ _ _ _ He) as ((_&L&_)&_).
    apply (ok_label _ _ _ Hok) in L as (_&_&Hw). rewrite Forall_forall in Hw.
    by destruct (Hw _ Hin) as [? _].
  Qed.

  (** ** Providing details *)
  Definition calm (G : ghost) (g : graph) : Prop := fk = false → det_ok G g.

  Definition detailQ (ob pr : gostring) (G : ghost) (g : graph) : post detail_ent := λ d G' g',
    up G' ∧ ready G' ∧ calm G' g' ∧ detailD G' g' d (words_of ob) (words_of pr) ∧
    (fk = false → tidy ob → tidy pr → ∀ M, pview_of G g M →
      ∃ M', m_detail M (words_of ob) (words_of pr) = (MOk, M') ∧ pview_of G' g' M').

  Definition detailE (ob pr : gostring) (G : ghost) (g : graph) : post abn := λ ab G' g',
    E0 ab G' g' ∨
    (∃ s, (s = ob ∨ s = pr ∧ [] ∉ words_of ob) ∧ (ab = AErr (first_err s) ∨ ab = APanic ∧ 2 ≤ length (split_space s))) ∧
    started G' g' ∧ prepared G' ∧ calm G' g' ∧
    (fk = false → tidy ob → tidy pr → ∀ M, pview_of G g M →
      ∃ M', m_detail M (words_of ob) (words_of pr) = (match ab with APanic => MPanic | _ => MErr end, M') ∧
        pview_of G' g' M').

  Lemma W_detail_provide ob pr G g :
    started G g → prepared G → calm G g → S (length ob) < F → S (length pr) < F →
    W 4 (detail_provide fuel ob pr) (detailQ ob pr G g) (detailE ob pr G g) G g.
  Proof.
    intros Hst Hp HD Hob Hpr. apply W_intro. intros Hok _. unfold detail_provide.
    eapply W_bind; [by apply (W_phrase_provide fuel Hfuel HF ob)|lia|..].
    2: { intros ab G1 g1 Hok1 _ X1 [?|(Hab&Hst1&Hp1&HM)]; [by left|right].
      split_and!; eauto.
      - intros Hfk. eapply (det_ok_low F 3); [lia|exact Hok|exact Hok1|exact X1|auto].
      - intros Hfk Ht1 Ht2 M HM0. destruct (HM Hfk Ht1 M HM0) as (M'&Heq&HM'). exists M'.
        unfold m_detail. rewrite Heq. split; [|done]. by destruct ab. }
    intros eo G1 g1 Hok1 _ X1 (Hup1&Hrd1&Ho&HM1).
    assert (HD1 : calm G1 g1).
    { intros Hfk. eapply (det_ok_low F 3); [lia|exact Hok|exact Hok1|exact X1|auto]. }
    assert (HX1 := extn_ext _ _ _ _ _ X1). pose proof (phraseC_no_empty _ _ _ _ Hok1 Ho) as Hne.
    eapply W_bind; [apply (W_phrase_provide fuel Hfuel HF pr); auto; [by left|by intros _]|lia|..].
    2: { intros ab G2 g2 Hok2 _ X2 [?|(Hab&Hst2&Hp2&HM2)]; [by left|right].
      split_and!; eauto.
      - intros Hfk. eapply (det_ok_low F 3); [lia|exact Hok1|exact Hok2|exact X2|auto].
      - intros Hfk Ht1 Ht2 M HM0. destruct (HM1 Hfk Ht1 M HM0) as (M'&Heq&HM').
        destruct (HM2 Hfk Ht2 M' HM') as (M''&Heq'&HM''). exists M''.
        unfold m_detail. by rewrite Heq. }
    intros ep G2 g2 Hok2 _ X2 (Hup2&Hrd2&Hpp&HM2).
    assert (HD2 : calm G2 g2).
    { intros Hfk. eapply (det_ok_low F 3); [lia|exact Hok1|exact Hok2|exact X2|auto]. }
    assert (HX2 := extn_ext _ _ _ _ _ X2).
    eapply W_seq; [by apply (W_class_provide_up 4)|by left|lia|]. intros ? ? ? _ _ _ (->&->).
    eapply W_post; [eapply (W_detail_provide_entity eo ep (words_of ob) (words_of pr)); auto; by apply (phraseC_mono HX2)|lia|by left|].
    intros d G3 g3 Hok3 _ X3 (Hd&Xh&HD3). assert (HX3 := exth_ext _ _ _ _ _ Xh). split_and!; auto.
    - by apply (up_mono HX3).
    - by eapply ready_mono.
    - intros Hfk Ht1 Ht2 M HM0. destruct (HM1 Hfk Ht1 M HM0) as (M'&Heq&HM').
      destruct (HM2 Hfk Ht2 M' HM') as (M''&Heq'&HM''). exists M''.
      unfold m_detail. rewrite Heq. split; [done|]. eapply (pview_high F); [exact Hok2|exact Hok3|exact Xh|done].
  Qed.
End details.
