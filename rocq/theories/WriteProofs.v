(** Theorems about [SpecEntities]. *)
From stdpp Require Import gmap.
From Coq Require Import NArith ZArith Lia.
From Verif Require Import Base GoText Model1 Model2 Model3 Model4 Storage Spec SpecMoments SpecGuards SpecWalk SpecEntities Inv
  HistoryProofs InitProofs GuardProofs LookupProofs.
Local Open Scope nat_scope.

Section writes.
  Context {zp : zpolicy} {fk : bool}.
  Notation exec := (exec zp fk).

  (** A call that did not come about. *)
  Definition missed {A} (out : outcome A) : Prop := fk = true ∧ (out = OErr EStorage ∨ out = OKilled).

  Lemma connect_rule x y g m out g' m' : exec (st_connect x y) g m out g' m' →
    m' = m ∧ ((valid zp g x ∧ valid zp g y ∧ out = OOk tt ∧ g' = add_edge x y g) ∨
              g' = g ∧ (missed out ∨ ¬ (valid zp g x ∧ valid zp g y) ∧ out = OErr EStorage)).
  Proof.
    intros Hx. apply (exec_invoke (CConnect x y)) in Hx as [-> [(r&[H1 H2]&->)|(Hf&->&Ho)]]; (split; [done|]).
    - assert (Hd : Decision (valid zp g x ∧ valid zp g y)).
      { assert (Decision (zp = ZNode)) by (destruct zp; [by right|by left]). unfold valid. apply _. }
      destruct Hd as [Hv|Hn].
      + left. destruct (H1 Hv) as [-> ->]. by destruct Hv.
      + right. destruct (H2 Hn) as [-> ->]. auto.
    - right. split; [done|]. left. by split.
  Qed.

  Theorem ties_rule p x y g m out g' m' : ties p x y → exec p g m out g' m' →
    m' = m ∧ ((out = OOk tt ∧ linked [(x, y)] g g') ∨
              g' = g ∧ ((fk = true ∧ (out = OErr EStorage ∨ out = OKilled)) ∨ ¬ (valid zp g x ∧ valid zp g y) ∧ out = OErr EStorage)).
  Proof.
    intros Hp Hx. assert (Hq : p = st_connect x y) by by destruct Hp. subst p.
    apply connect_rule in Hx as [-> [(_&_&->&->)|[-> Ho]]]; (split; [done|]); [left|by right].
    split; [done|]. split; try done. intros e. unfold add_edge; cbn [edges]. rewrite elem_of_union, elem_of_singleton, elem_of_list_singleton. tauto.
  Qed.

  (** ** Rows *)
  Definition fresh_refs (g : graph) : Prop := ∀ x, x ∉ nodes g → fwd g !! x = None ∧ bwd g !! x = None.
  Lemma mirrored_fresh g : mirrored g → fresh_refs g.
  Proof.
    intros Hg x Hx. split.
    - destruct (fwd g !! x) as [y|] eqn:E; [|done]. by destruct (proj2 (Hg x y) E).
    - destruct (bwd g !! x) as [y|] eqn:E; [|done]. apply (proj1 (Hg y x)) in E. by destruct (proj2 (Hg y x) E).
  Qed.
  Lemma grows_node x g : grows g (add_node x g).
  Proof. split; cbn; [set_solver|done|done|done]. Qed.
  Lemma mirrored_node x g : mirrored g → mirrored (add_node x g).
  Proof. intros Hg a b. split; [apply Hg|]. intros H. destruct (proj2 (Hg a b) H). cbn. set_solver. Qed.
  Lemma mirrored_edge x y g : mirrored g → mirrored (add_edge x y g).
  Proof. intros Hg. exact Hg. Qed.
  Lemma grows_ref x y g : fwd g !! x = None → bwd g !! y = None → grows g (add_ref x y g).
  Proof. intros Hx Hy. split; cbn; [done|done|by apply insert_subseteq|by apply insert_subseteq]. Qed.
  Lemma mirrored_ref x y g : mirrored g → x ∈ nodes g → y ∈ nodes g → fwd g !! x = None → bwd g !! y = None →
    mirrored (add_ref x y g).
  Proof.
    intros Hg Hx Hy Hfx Hby a b. cbn [add_ref fwd bwd nodes]. split.
    - rewrite !lookup_insert_Some. split.
      + intros [[<- <-]|[Hne H]]; [by left|]. right. apply (proj1 (Hg _ _)) in H. split; [|done]. intros <-. congruence.
      + intros [[<- <-]|[Hne H]]; [by left|]. right. apply (proj1 (Hg _ _)) in H. split; [|done]. intros <-. congruence.
    - rewrite lookup_insert_Some. intros [[<- <-]|[Hne H]]; [done|]. by apply (proj2 (Hg a b)).
  Qed.

  (** What is there while an entity is being made. *)
  Record making (g : graph) (c : N) (g' : graph) : Prop := {
    mk_grows : grows g g';
    mk_mirrored : mirrored g';
    mk_anew : refers_anew g g';
    mk_others : ∀ x, x ∈ nodes g → x ≠ c → fwd g' !! x = fwd g !! x
  }.
  Lemma grows_refl g : grows g g.
  Proof. by split. Qed.
  Lemma grows_trans g1 g2 g3 : grows g1 g2 → grows g2 g3 → grows g1 g3.
  Proof. intros [] []. split; by etrans. Qed.
  Lemma making_start g c : mirrored g → making g c g.
  Proof. intros Hg. split; [apply grows_refl|done|by left|done]. Qed.
  Lemma making_node g c g1 x : making g c g1 → making g c (add_node x g1).
  Proof.
    intros [H1 H2 H4 H5]. split; try done; [by eapply grows_trans, grows_node|by apply mirrored_node].
  Qed.
  Lemma making_edge g c g1 x y : making g c g1 → making g c (add_edge x y g1).
  Proof.
    intros [H1 H2 H4 H5]. split; try done. eapply grows_trans; [exact H1|]. split; cbn; [done|set_solver|done|done].
  Qed.
  Lemma making_ref g c g1 x y : making g c g1 → x ∈ nodes g1 → y ∈ nodes g1 → fwd g1 !! x = None → bwd g1 !! y = None →
    (x ∈ nodes g → x = c) → y ∉ nodes g → making g c (add_ref x y g1).
  Proof.
    intros [H1 H2 H4 H5] Hx Hy Hfx Hby Hxc Hyg. split; cbn.
    - eapply grows_trans; [exact H1|]. by apply grows_ref.
    - by apply mirrored_ref.
    - intros a b. cbn. rewrite lookup_insert_Some. intros [[<- <-]|[_ H]]; [|by apply H4]. right. split; [|done].
      destruct (fwd g !! x) as [z|] eqn:E; [|done]. rewrite (lookup_weaken _ _ _ _ E (gr_fwd _ _ H1)) in Hfx. done.
    - intros a Ha Hac. rewrite lookup_insert_ne; [by apply H5|]. intros <-. by apply Hac, Hxc.
  Qed.

  (** One step of a row: a storage call that goes well, or one that does not. *)
  Lemma exec_make {B} (f : N → prog B) g m out g' m' : exec (x <- st_create;; f x) g m out g' m' →
    (∃ x, x ∉ nodes g ∧ exec (f x) (add_node x g) m out g' m') ∨ g' = g ∧ m' = m ∧ missed out.
  Proof.
    intros Hx. apply exec_call_any in Hx as [(r&g1&(x&->&_&Hn&_&->)&Hx)|[[Hf Hx]|(Hf&->&->&->)]].
    - left. by exists x.
    - right. cbn [bind of_res] in Hx. apply exec_throw_any in Hx as (->&->&->). by repeat split; auto.
    - right. by repeat split; auto.
  Qed.
  Lemma exec_refer {B} (f : prog B) x y g m out g' m' : x ∈ nodes g → y ∈ nodes g → fwd g !! x = None → bwd g !! y = None →
    exec (st_setref x y;;; f) g m out g' m' →
    exec f (add_ref x y g) m out g' m' ∨ g' = g ∧ m' = m ∧ missed out.
  Proof.
    intros Hx Hy Hf Hb He. apply exec_call_any in He as [(r&g1&[Hg _]&He)|[[Hf' He]|(Hf'&->&->&->)]].
    - left. destruct (Hg (conj (or_introl Hx) (or_introl Hy)) Hf Hb) as [-> ->]. exact He.
    - right. cbn [bind of_res] in He. apply exec_throw_any in He as (->&->&->). by repeat split; auto.
    - right. by repeat split; auto.
  Qed.
  Lemma exec_tie {B} (f : prog B) x y g m out g' m' : valid zp g x → valid zp g y →
    exec (st_connect x y;;; f) g m out g' m' →
    exec f (add_edge x y g) m out g' m' ∨ g' = g ∧ m' = m ∧ missed out.
  Proof.
    intros Hx Hy He. apply exec_call_any in He as [(r&g1&[Hg _]&He)|[[Hf' He]|(Hf'&->&->&->)]].
    - left. destruct (Hg (conj Hx Hy)) as [-> ->]. exact He.
    - right. cbn [bind of_res] in He. apply exec_throw_any in He as (->&->&->). by repeat split; auto.
    - right. by repeat split; auto.
  Qed.

  (** The functions CreateEntity are all alike. *)
  Definition make_four {A} (f : N → N → N → A) (c : N) : prog A :=
    x <- st_create;; y <- st_create;; z <- st_create;;
    st_setref c x;;; st_setref x y;;; st_setref y z;;; Ret (f x y z).

  Lemma make_four_rule {A} (f : N → N → N → A) c g m out g' m' :
    mirrored g → c ∈ nodes g → fwd g !! c = None → exec (make_four f c) g m out g' m' →
    m' = m ∧ making g c g' ∧ edges g' = edges g ∧
    ((∃ x y z, out = OOk (f x y z) ∧ built c [x; y; z] g g') ∨ missed out).
  Proof.
    intros Hg Hc Hfc Hx. unfold make_four in Hx.
    pose proof (making_start g c Hg) as M0.
    apply exec_make in Hx as [(x&Nx&Hx)|(->&->&Ho)]; [|by auto].
    pose proof (making_node _ _ _ x M0) as M1.
    apply exec_make in Hx as [(y&Ny&Hx)|(->&->&Ho)]; [|by auto].
    pose proof (making_node _ _ _ y M1) as M2.
    apply exec_make in Hx as [(z&Nz&Hx)|(->&->&Ho)]; [|by auto].
    pose proof (making_node _ _ _ z M2) as M3. cbn [add_node nodes] in Ny, Nz.
    assert (Hyx : y ≠ x ∧ y ∉ nodes g) by set_solver. assert (Hzx : z ≠ x ∧ z ≠ y ∧ z ∉ nodes g) by set_solver.
    destruct Hyx as [Hyx Nyg], Hzx as (Hzx&Hzy&Nzg).
    assert (Hcx : c ≠ x ∧ c ≠ y ∧ c ≠ z) by (split_and!; by intros ->). destruct Hcx as (Hcx&Hcy&Hcz).
    pose proof (mirrored_fresh g Hg) as Hfr.
    apply exec_refer in Hx as [Hx|(->&->&Ho)]; [|by auto| | | |]; cbn [add_node add_ref nodes fwd bwd].
    2,3: rewrite !elem_of_union, !elem_of_singleton; tauto.
    2: done.
    2: by apply Hfr.
    assert (M4 : making g c (add_ref c x (add_node z (add_node y (add_node x g))))).
    { apply making_ref; cbn [add_node nodes fwd bwd]; [done|rewrite !elem_of_union, !elem_of_singleton; tauto..|done|by apply Hfr|done|done]. }
    apply exec_refer in Hx as [Hx|(->&->&Ho)]; [|by auto| | | |]; cbn [add_node add_ref nodes fwd bwd].
    2,3: rewrite !elem_of_union, !elem_of_singleton; tauto.
    2: by rewrite lookup_insert_ne by done; apply Hfr.
    2: by rewrite lookup_insert_ne by done; apply Hfr.
    assert (M5 : making g c (add_ref x y (add_ref c x (add_node z (add_node y (add_node x g)))))).
    { apply making_ref; cbn [add_node add_ref nodes fwd bwd]; [done|rewrite !elem_of_union, !elem_of_singleton; tauto..| | |done|done];
        rewrite lookup_insert_ne by done; by apply Hfr. }
    apply exec_refer in Hx as [Hx|(->&->&Ho)]; [|by auto| | | |]; cbn [add_node add_ref nodes fwd bwd].
    2,3: rewrite !elem_of_union, !elem_of_singleton; tauto.
    2: by rewrite !lookup_insert_ne by done; apply Hfr.
    2: by rewrite !lookup_insert_ne by done; apply Hfr.
    assert (M6 : making g c (add_ref y z (add_ref x y (add_ref c x (add_node z (add_node y (add_node x g))))))).
    { apply making_ref; cbn [add_node add_ref nodes fwd bwd]; [done|rewrite !elem_of_union, !elem_of_singleton; tauto..| | |done|done];
        rewrite !lookup_insert_ne by done; by apply Hfr. }
    apply exec_ret_any in Hx as (->&->&->). split; [done|]. split; [done|]. split; [done|]. left. exists x, y, z. split; [done|].
    split; [|split; [|split; [done|apply M6]]].
    - split.
      + repeat constructor; rewrite ?elem_of_cons, ?elem_of_nil; naive_solver.
      + intros a. cbn [add_node add_ref nodes]. rewrite !elem_of_union, !elem_of_singleton, !elem_of_cons, elem_of_nil.
        split; [|naive_solver]. intros [->|[->|[->|?]]]; tauto.
    - cbn [row add_ref fwd]. rewrite lookup_insert. split_and!; try done.
      + rewrite !lookup_insert_ne by done. by rewrite lookup_insert.
      + rewrite lookup_insert_ne by done. by rewrite lookup_insert.
  Qed.

  Theorem builds_rule A p c (rowof : A → list N) g m out g' m' : builds A p c rowof →
    mirrored g → c ∈ nodes g → fwd g !! c = None → exec p g m out g' m' →
    m' = m ∧ grows g g' ∧ mirrored g' ∧ edges g' = edges g ∧ refers_anew g g' ∧
    ((∃ e l, out = OOk e ∧ rowof e = c :: l ∧ built c l g g') ∨ fk = true ∧ (out = OErr EStorage ∨ out = OKilled)).
  Proof.
    intros Hb Hg Hc Hf Hx.
    assert (H : ∃ f : N → N → N → A, p = make_four f c ∧ ∀ x y z, rowof (f x y z) = [c; x; y; z]).
    { destruct Hb;
        [exists (CharEnt c)|exists (WordEnt c)|exists (PhraseEnt c)|exists (StoryEnt c)|exists (FactEnt c)|exists (RemarkEnt c)];
        split; reflexivity. }
    destruct H as (f&->&Hrow). apply make_four_rule in Hx as (->&[]&He&Ho); [|done..]. split_and!; try done.
    destruct Ho as [(x&y&z&->&Hbl)|Ho]; [left|by right]. exists (f x y z), [x; y; z]. by rewrite Hrow.
  Qed.

  (** A node of a class. *)
  Lemma class_new_exact k g m out g' m' : valid zp g k → exec (class_new k) g m out g' m' →
    m' = m ∧ ((∃ c, c ∉ nodes g ∧ out = OOk c ∧ g' = add_edge c k (add_node c g)) ∨
              missed out ∧ (g' = g ∨ ∃ c, g' = add_node c g)).
  Proof.
    intros Hk Hx. unfold class_new in Hx.
    apply exec_make in Hx as [(c&Nc&Hx)|(->&->&Ho)]; [|by auto 10].
    apply exec_tie in Hx as [Hx|(->&->&Ho)].
    - apply exec_ret_any in Hx as (->&->&->). split; [done|]. left. eauto.
    - split; [done|]. right. eauto.
    - left. cbn [add_node nodes]. set_solver.
    - destruct Hk as [Hk|Hk]; [left|by right]. cbn [add_node nodes]. set_solver.
  Qed.
  Theorem class_new_rule k g m out g' m' : valid zp g k → exec (class_new k) g m out g' m' →
    m' = m ∧ grows g g' ∧ fwd g' = fwd g ∧ bwd g' = bwd g ∧
    ((∃ c, out = OOk c ∧ brand_new [c] g g' ∧ ∀ e, e ∈ edges g' ↔ e ∈ edges g ∨ e = (c, k)) ∨
     fk = true ∧ (out = OErr EStorage ∨ out = OKilled)).
  Proof.
    intros Hk Hx. apply class_new_exact in Hx as [-> [(c&Nc&->&->)|[Ho [->|[c ->]]]]]; [| | |done].
    - split_and!; [done| |done|done|].
      + split; cbn; [set_solver|set_solver|done|done].
      + left. exists c. split; [done|]. split.
        * split; [apply NoDup_singleton|]. intros a. cbn [add_node add_edge nodes].
          rewrite elem_of_union, elem_of_singleton, elem_of_list_singleton. split; [|tauto]. intros [->|?]; tauto.
        * intros e. cbn [add_node add_edge edges]. rewrite elem_of_union, elem_of_singleton. tauto.
    - split_and!; [done|apply grows_refl|done|done|by right].
    - split_and!; [done|apply grows_node|done|done|by right].
  Qed.

  Lemma valid_node x y g : valid zp g x → valid zp (add_node y g) x.
  Proof. intros [H|H]; [left|by right]. cbn. set_solver. Qed.

  Lemma exec_class {B} (f : N → prog B) k g m out g' m' : valid zp g k → exec (c <- class_new k;; f c) g m out g' m' →
    (∃ c, c ∉ nodes g ∧ exec (f c) (add_edge c k (add_node c g)) m out g' m') ∨
    m' = m ∧ missed out ∧ (g' = g ∨ ∃ c, g' = add_node c g).
  Proof.
    intros Hk Hx. unfold class_new in Hx.
    apply exec_call_any in Hx as [(r&g1&(x&->&_&Hn&_&->)&Hx)|[[Hf Hx]|(Hf&->&->&->)]].
    - cbn [bind of_res] in Hx. apply exec_call_any in Hx as [(r&g1&[Hg _]&Hx)|[[Hf Hx]|(Hf&->&->&->)]].
      + destruct Hg as [-> ->]; [split; [left; cbn; set_solver|by apply valid_node]|]. left. exists x. by split.
      + right. cbn [bind of_res] in Hx. apply exec_throw_any in Hx as (->&->&->). repeat split; eauto.
      + right. repeat split; eauto.
    - right. cbn [bind of_res] in Hx. apply exec_throw_any in Hx as (->&->&->). repeat split; eauto.
    - right. repeat split; eauto.
  Qed.

  (** A detail. *)
  Theorem detail_create_rule ob pr g m out g' m' : mirrored g →
    valid zp g detailIdentifier → valid zp g (pe_detail ob) → valid zp g (pe_detail pr) →
    exec (detail_create_entity ob pr) g m out g' m' →
    m' = m ∧ grows g g' ∧ mirrored g' ∧ refers_anew g g' ∧
    ((∃ c x y, out = OOk (DetailEnt c x y) ∧ brand_new [c; x; y] g g' ∧ row g' [c; x; y] ∧
        ∀ e, e ∈ edges g' ↔ e ∈ edges g ∨ e ∈ [(c, detailIdentifier); (pe_detail ob, x); (x, pe_detail pr)]) ∨
     fk = true ∧ (out = OErr EStorage ∨ out = OKilled)).
  Proof.
    intros Hg Hk Ho Hp Hx. unfold detail_create_entity in Hx. pose proof (mirrored_fresh g Hg) as Hfr.
    assert (Hkeep : ∀ c, making g c g' → missed out →
      grows g g' ∧ mirrored g' ∧ refers_anew g g' ∧
      ((∃ c x y, out = OOk (DetailEnt c x y) ∧ brand_new [c; x; y] g g' ∧ row g' [c; x; y] ∧
        ∀ e, e ∈ edges g' ↔ e ∈ edges g ∨ e ∈ [(c, detailIdentifier); (pe_detail ob, x); (x, pe_detail pr)]) ∨
       fk = true ∧ (out = OErr EStorage ∨ out = OKilled))).
    { intros c [] H. split_and!; [done..|by right]. }
    apply exec_class in Hx as [(c&Nc&Hx)|(->&Hmi&Hg')]; [| |done].
    2: { split; [done|]. apply (Hkeep 0%N); [|done].
      destruct Hg' as [->|[c ->]]; [|apply making_node]; by apply making_start. }
    pose proof (making_edge _ _ _ c detailIdentifier (making_node _ _ _ c (making_start g c Hg))) as M0.
    apply exec_make in Hx as [(x&Nx&Hx)|(->&->&Hmi)]; [|by split; [|eapply Hkeep]].
    pose proof (making_node _ _ _ x M0) as M1.
    apply exec_tie in Hx as [Hx|(->&->&Hmi)]; [|by split; [|eapply Hkeep]|by do 2 apply valid_node|by left; cbn; set_solver].
    pose proof (making_edge _ _ _ (pe_detail ob) x M1) as M2.
    apply exec_tie in Hx as [Hx|(->&->&Hmi)]; [|by split; [|eapply Hkeep]|by left; cbn; set_solver|by do 2 apply valid_node].
    pose proof (making_edge _ _ _ x (pe_detail pr) M2) as M3.
    apply exec_make in Hx as [(y&Ny&Hx)|(->&->&Hmi)]; [|by split; [|eapply Hkeep]].
    pose proof (making_node _ _ _ y M3) as M4.
    cbn [add_node add_edge nodes] in Nx, Ny.
    assert (Hd : x ≠ c ∧ x ∉ nodes g ∧ y ≠ c ∧ y ≠ x ∧ y ∉ nodes g) by (clear -Nx Ny; set_solver).
    destruct Hd as (Hxc&Nxg&Hyc&Hyx&Nyg).
    apply exec_refer in Hx as [Hx|(->&->&Hmi)]; [|by split; [|eapply Hkeep]| | | |]; cbn [add_node add_edge nodes fwd bwd].
    2,3: rewrite !elem_of_union, !elem_of_singleton; tauto.
    2,3: by apply Hfr.
    match type of Hx with exec _ ?G _ _ _ _ => assert (M5 : making g c G) end.
    { apply making_ref; cbn [add_node add_edge nodes fwd bwd]; [done|rewrite !elem_of_union, !elem_of_singleton; tauto..|by apply Hfr|by apply Hfr|done|done]. }
    apply exec_refer in Hx as [Hx|(->&->&Hmi)]; [|by split; [|eapply Hkeep]| | | |]; cbn [add_node add_edge add_ref nodes fwd bwd].
    2,3: rewrite !elem_of_union, !elem_of_singleton; tauto.
    2,3: by rewrite lookup_insert_ne by done; apply Hfr.
    match type of Hx with exec _ ?G _ _ _ _ => assert (M6 : making g c G) end.
    { apply making_ref; cbn [add_node add_edge add_ref nodes fwd bwd]; [done|rewrite !elem_of_union, !elem_of_singleton; tauto..| | |done|done];
        rewrite lookup_insert_ne by done; by apply Hfr. }
    apply exec_ret_any in Hx as (->&->&->). split; [done|]. destruct M6 as [G1 G2 G3 _]. split_and!; [done..|]. clear G1 G2 G3.
    left. exists c, x, y. split; [done|]. split; [|split].
    - split.
      + repeat constructor; rewrite ?elem_of_cons, ?elem_of_nil; naive_solver.
      + intros a. cbn [add_node add_edge add_ref nodes]. rewrite !elem_of_union, !elem_of_singleton, !elem_of_cons, elem_of_nil.
        split; [|naive_solver]. intros [->|[->|[->|?]]]; tauto.
    - cbn [row add_ref fwd]. rewrite lookup_insert. split_and!; try done. rewrite lookup_insert_ne by done. by rewrite lookup_insert.
    - intros e. cbn [add_node add_edge add_ref edges]. rewrite !elem_of_union, !elem_of_singleton, !elem_of_cons, elem_of_nil. tauto.
  Qed.

  (** Stubs. *)
  Theorem stub_fact_rule e g m out g' m' : valid zp g (re_fact e) → exec (remark_create_next_story_fact e) g m out g' m' →
    g' = g ∧ m' = m ∧ (fk = false → (out = OOk None ∧ ∃ y, only_neighbour Outgoing g (re_fact e) y) ∨
                                    ((¬ ∃ y, only_neighbour Outgoing g (re_fact e) y) ∧ out = OErr ERemarkFacts)) ∧
    ∀ v, out = OOk v → v = None.
  Proof.
    intros Hv Hx. unfold remark_create_next_story_fact in Hx.
    apply exec_call_any in Hx as [(r&g1&[Hg _]&Hx)|[[Hf Hx]|(Hf&->&->&->)]].
    - destruct (Hg Hv) as (l&->&Hnd&Hl&->). cbn [bind of_res] in Hx.
      assert (H1 : ∀ y, only_neighbour Outgoing g (re_fact e) y ↔ l = [y]) by (intros y; by apply list_one).
      destruct l as [|a [|b l]]; cbn [single bind] in Hx;
        [apply exec_throw_any in Hx|apply exec_ret_any in Hx|apply exec_throw_any in Hx]; destruct Hx as (->&->&->);
        (split_and!; [done|done|intros _|by intros v [=]]).
      + right. split; [|done]. intros [y Hy%H1]. done.
      + left. split; [done|]. exists a. by apply H1.
      + right. split; [|done]. intros [y Hy%H1]. done.
    - cbn [bind of_res] in Hx. apply exec_throw_any in Hx as (->&->&->). split_and!; [done|done| |by intros v [=]]. by rewrite Hf.
    - split_and!; [done|done| |by intros v [=]]. by rewrite Hf.
  Qed.
  Theorem stub_extend_rule e g m out g' m' :
    exec (detail_extend_object e) g m out g' m' ∨ exec (detail_extend_property e) g m out g' m' → g' = g ∧ m' = m ∧ out = OOk None.
  Proof. intros [Hx|Hx]; apply exec_ret_any in Hx as (->&->&->); done. Qed.
End writes.

Lemma reach_mirrored zp faults fuel t w : reach zp faults fuel t w → mirrored (store w).
Proof.
  intros Hr. destruct (reach_J _ _ _ _ _ Hr) as (d&G&HJ&_). pose proof (J_ok _ _ _ _ _ _ HJ) as Hok.
  intros x y. split; [apply (ok_inv _ _ _ Hok)|]. intros Hxy. by destruct (ok_coherent _ _ _ Hok x y Hxy) as (_&?&?).
Qed.
