(** Interrupted first uses of the class and bit layers. *)
From stdpp Require Import gmap.
From Coq Require Import NArith ZArith Lia.
From Verif Require Import Base GoText Model1 Storage Spec SpecLayers LayerProofs.
Local Open Scope nat_scope.

Section inversion.
  Context {zp : zpolicy} {fk : bool}.

  Lemma exec_call_any {A} c (k : res (answer c) → prog A) g m o g2 m2 :
    exec zp fk (Call c k) g m o g2 m2 →
    (∃ r g1, gstep zp g c r g1 ∧ exec zp fk (k r) g1 m o g2 m2) ∨
    fk = true ∧ exec zp fk (k (Err EStorage)) g m o g2 m2 ∨
    fk = true ∧ o = OKilled ∧ g2 = g ∧ m2 = m.
  Proof.
    intros H. remember (Call c k) as p eqn:Hp. destruct H; try done.
    all: pose (f := λ p : prog A, match p return {c : call & res (answer c) → prog A} with
      Call c k => existT c k | _ => existT c0 k0 end);
      assert (Hs : existT c0 k0 = existT c k :> {c : call & res (answer c) → prog A}) by exact (f_equal f Hp);
      set (P := λ s : {c : call & res (answer c) → prog A},
        (∃ r g1, gstep zp g (projT1 s) r g1 ∧ exec zp fk (projT2 s r) g1 m o g2 m2) ∨
        fk = true ∧ exec zp fk (projT2 s (Err EStorage)) g m o g2 m2 ∨
        fk = true ∧ o = OKilled ∧ g2 = g ∧ m2 = m) || idtac.
    - change (P (existT c k)). rewrite <- Hs. left. exists r, g1. done.
    - change (P (existT c k)). rewrite <- Hs. right. left. done.
    - right. right. done.
  Qed.

  Lemma exec_bind_any {A B} (p : prog A) (f : A → prog B) g m o g2 m2 :
    exec zp fk (bind p f) g m o g2 m2 →
    (∃ a g1 m1, exec zp fk p g m (OOk a) g1 m1 ∧ exec zp fk (f a) g1 m1 o g2 m2) ∨
    (∀ b, o ≠ OOk b) ∧ ∃ o', exec zp fk p g m o' g2 m2 ∧ ∀ a, o' ≠ OOk a.
  Proof.
    revert g m. induction p as [a|e| | |c k IH|k IH|m' k IH]; intros g m Hx; simpl in Hx.
    - left. eexists _, _, _. split; [constructor|done].
    - right. inversion Hx; subst. split; [done|]. eexists. split; [constructor|done].
    - right. inversion Hx; subst. split; [done|]. eexists. split; [constructor|done].
    - right. inversion Hx; subst. split; [done|]. eexists. split; [constructor|done].
    - apply exec_call_any in Hx as [(r&g1&Hg&Hx)|[[Hf Hx]|(Hf&->&->&->)]].
      + apply IH in Hx as [(a&g3&m3&H1&H2)|(H&o'&H1&H2)].
        * left. eexists _, _, _. split; [by eapply ExCall|done].
        * right. split; [done|]. eexists. split; [by eapply ExCall|done].
      + apply IH in Hx as [(a&g3&m3&H1&H2)|(H&o'&H1&H2)].
        * left. eexists _, _, _. split; [by eapply ExFault|done].
        * right. split; [done|]. eexists. split; [by eapply ExFault|done].
      + right. split; [done|]. eexists. split; [by eapply ExKill|done].
    - inversion Hx; subst. match goal with H : exec _ _ (bind _ _) _ _ _ _ _ |- _ => apply IH in H as [(a&g3&m3&H1&H2)|(H&o'&H1&H2)] end.
      + left. eexists _, _, _. split; [by eapply ExLoad|done].
      + right. split; [done|]. eexists. split; [by eapply ExLoad|done].
    - inversion Hx; subst. match goal with H : exec _ _ (bind _ _) _ _ _ _ _ |- _ => apply IH in H as [(a&g3&m3&H1&H2)|(H&o'&H1&H2)] end.
      + left. eexists _, _, _. split; [by eapply ExStore|done].
      + right. split; [done|]. eexists. split; [by eapply ExStore|done].
  Qed.

  Lemma exec_ret_any {A} (a : A) g m o g2 m2 : exec zp fk (Ret a) g m o g2 m2 → o = OOk a ∧ g2 = g ∧ m2 = m.
  Proof. intros H. by inversion H. Qed.
  Lemma exec_throw_any {A} e g m o g2 m2 : exec zp fk (Throw e : prog A) g m o g2 m2 → o = OErr e ∧ g2 = g ∧ m2 = m.
  Proof. intros H. by inversion H. Qed.

  (** One storage call. *)
  Lemma exec_invoke c g m o g2 m2 :
    exec zp fk (invoke c) g m o g2 m2 →
    m2 = m ∧ ((∃ r, gstep zp g c r g2 ∧ o = match r with Ok a => OOk a | Err e => OErr e end) ∨
              fk = true ∧ g2 = g ∧ (o = OErr EStorage ∨ o = OKilled)).
  Proof.
    intros Hx. apply exec_call_any in Hx as [(r&g1&Hg&Hx)|[[Hf Hx]|(Hf&->&->&->)]].
    - destruct r as [a|e]; [apply exec_ret_any in Hx|apply exec_throw_any in Hx];
        destruct Hx as (->&->&->); (split; [done|]); left; eexists; (split; [exact Hg|done]).
    - apply exec_throw_any in Hx as (->&->&->). split; [done|]. right. auto.
    - split; [done|]. right. auto.
  Qed.

  (** ** The class layer *)
  Lemma exec_class_create_any k g m o g2 m2 :
    chain (k - 1) (k - 1) g → (1 <= k)%N → exec zp fk (class_create k) g m o g2 m2 →
    m2 = m ∧ (chain k (k - 1) g2 ∧ o = OOk tt ∨ g2 = g ∧ ∀ a, o ≠ OOk a).
  Proof.
    intros (Hn&Hs&He&Hf&Hb) Hk Hx. unfold class_create, st_create in Hx.
    apply exec_bind_any in Hx as [(a&g1&m1&H1&H2)|(Ho&o'&H1&Ho')].
    - apply (exec_invoke CCreate) in H1 as [-> [(r&Hg&Hr)|(?&?&[?|?])]]; [|done..].
      destruct Hg as (x&->&Hx0&Hxn&Hxs&->). simplify_eq.
      specialize (Hxs He). assert (x = k) as -> by lia. rewrite N.eqb_refl in H2.
      apply exec_ret_any in H2 as (->&->&->). split; [done|]. left. split; [|done]. split_and!; simpl; auto.
      + intros x. rewrite elem_of_union, elem_of_singleton, Hn. lia.
      + rewrite size_union by set_solver. rewrite size_singleton. lia.
    - apply (exec_invoke CCreate) in H1 as [-> [(r&Hg&Hr)|(?&->&?)]].
      + destruct Hg as (x&->&_). subst. by destruct (Ho' x).
      + split; [done|]. by right.
  Qed.

  Lemma exec_class_next_any k g m o g2 m2 :
    chain (k - 1) (k - 1) g → (2 <= k)%N → exec zp fk (class_create_next k) g m o g2 m2 →
    m2 = m ∧ (1%N ∈ nodes g2) ∧ (∀ a, o = OOk a → chain k k g2).
  Proof.
    intros Hc Hk Hx. pose proof Hc as (Hn0&_). unfold class_create_next in Hx.
    apply exec_bind_any in Hx as [([]&g1&m1&H1&H2)|(Ho&o'&H1&Ho')].
    2: { apply exec_class_create_any in H1 as [-> [[_ ->]|[-> _]]]; [by destruct (Ho' tt)| |done|lia].
      split_and!; [done|apply Hn0; lia|]. intros a ->. by destruct (Ho a). }
    apply exec_class_create_any in H1 as [-> [[(Hn&Hs&He&Hf&Hb) _]|[_ H]]]; [|by destruct (H tt)|done|lia].
    assert (H1 : (1 ∈ nodes g1)%N) by (apply Hn; lia).
    apply (exec_invoke (CSetRef _ _)) in H2 as [-> [(r&[Hy _]&->)|(?&->&H)]].
    2: { split_and!; [done..|]. intros a ->. by destruct H. }
    destruct Hy as [-> ->].
    - split; left; apply Hn; lia.
    - rewrite Hf. replace (k - 1 <? k - 1)%N with false by lia. by rewrite andb_false_r.
    - rewrite Hb. replace (k <=? k - 1)%N with false by lia. by rewrite andb_false_r.
    - split_and!; [done..|]. intros _ _. split_and!; simpl; auto.
      + intros x. destruct (decide (x = k - 1)%N) as [->|Hne].
        * rewrite lookup_insert. replace (1 <=? k - 1)%N with true by lia.
          replace (k - 1 <? k)%N with true by lia. simpl. f_equal. lia.
        * rewrite lookup_insert_ne by done. rewrite Hf.
          destruct (N.leb_spec 1 x), (N.ltb_spec x (k - 1)), (N.ltb_spec x k); simpl; done || lia.
      + intros x. destruct (decide (x = k)%N) as [->|Hne].
        * rewrite lookup_insert. replace (2 <=? k)%N with true by lia.
          replace (k <=? k)%N with true by lia. done.
        * rewrite lookup_insert_ne by done. rewrite Hb.
          destruct (N.leb_spec 2 x), (N.leb_spec x (k - 1)), (N.leb_spec x k); simpl; done || lia.
  Qed.

  Lemma chain_empty : chain 0 0 empty_graph.
  Proof.
    split_and!; try done; intros x.
    - simpl. split; [set_solver|lia].
    - simpl. rewrite lookup_empty. by destruct (N.ltb_spec x 0); [lia|rewrite andb_false_r].
    - simpl. rewrite lookup_empty. by destruct (N.leb_spec 2 x), (N.leb_spec x 0); [lia|..].
  Qed.

  Lemma class_interrupted m out g' m' :
    exec zp fk class_provide empty_graph m out g' m' →
    m' = m ∧ (g' = empty_graph ∧ (∀ a, out ≠ OOk a) ∨ 1%N ∈ nodes g' ∧ ∀ a, out = OOk a → g' = class_graph).
  Proof.
    intros Hx. unfold class_provide, st_has in Hx.
    apply exec_bind_any in Hx as [(b&g1&m1&H1&H2)|(Ho&o'&H1&Ho')].
    2: { apply (exec_invoke (CHas _)) in H1 as [-> [(r&[-> ->]&->)|(?&->&?)]]; [by edestruct Ho'|]. split; [done|]. left. done. }
    apply (exec_invoke (CHas _)) in H1 as [-> [(r&[-> ->]&Hr)|(?&?&[?|?])]]; [|done..]. injection Hr as ->.
    rewrite bool_decide_false in H2 by set_solver. unfold class_create_all in H2.
    apply exec_bind_any in H2 as [([]&g1&m1&H1&Hx)|(Ho&o'&H1&Ho')].
    2: { apply exec_class_create_any in H1 as [-> [[_ ->]|[-> _]]];
        [by destruct (Ho' tt)| |apply chain_empty|done]. split; [done|]. by left. }
    apply exec_class_create_any in H1 as [-> [[H1 _]|[_ H]]]; [|by destruct (H tt)|apply chain_empty|done].
    assert (H1' : chain 1 1 g1).
    { change (chain 1 0 g1) in H1. destruct H1 as (?&?&?&Hf&Hb). split_and!; auto; intros x.
      - rewrite Hf. destruct (N.leb_spec 1 x), (N.ltb_spec x 0), (N.ltb_spec x 1);
          unfold bitIdentifier in *; simpl; done || lia.
      - rewrite Hb. destruct (N.leb_spec 2 x), (N.leb_spec x 0), (N.leb_spec x 1);
          unfold bitIdentifier in *; simpl; done || lia. }
    clear H1.
    Local Ltac next Hx H k :=
      apply exec_bind_any in Hx as [([]&?&?&Ha&Hx)|(Ho&?&Ha&_)];
      [apply (exec_class_next_any k) in Ha as (->&_&Hc); [specialize (Hc _ eq_refl); clear H|exact H|done]
      |apply (exec_class_next_any k) in Ha as (->&?&_); [|exact H|done]; split; [done|]; right; split; [done|];
       intros a ->; by destruct (Ho a)].
    next Hx H1' characterIdentifier. rename Hc into H2. next Hx H2 wordIdentifier. rename Hc into H3.
    next Hx H3 phraseIdentifier. rename Hc into H4. next Hx H4 detailIdentifier. rename Hc into H5.
    next Hx H5 remarkIdentifier. rename Hc into H6. next Hx H6 factIdentifier.
    apply exec_class_next_any in Hx as (->&?&Hc'); [|done|done]. split; [done|]. right. split; [done|].
    intros a Ha. exact (chain_class_graph _ (Hc' a Ha)).
  Qed.
End inversion.

Lemma class_stays zp fk g m out g' m' :
  1%N ∈ nodes g → exec zp fk class_provide g m out g' m' → g' = g ∧ m' = m ∧ (fk = false → out = OOk tt).
Proof.
  intros H1 Hx. unfold class_provide, st_has in Hx.
  apply exec_bind_any in Hx as [(b&g1&m1&Ha&Hb)|(Ho&o'&Ha&Ho')].
  - apply (exec_invoke (CHas _)) in Ha as [-> [(r&[-> ->]&Hr)|(?&?&[?|?])]]; [|done..]. injection Hr as ->.
    rewrite bool_decide_true in Hb by done. by apply exec_ret_any in Hb as (->&->&->).
  - apply (exec_invoke (CHas _)) in Ha as [-> [(r&[-> ->]&->)|(->&->&?)]]; [by edestruct Ho'|]. done.
Qed.

(** A retry after an interrupted first use reports success but repairs
    nothing. *)
Theorem class_retry zp m1 out1 g1 m1' m2 out2 g2 m2' :
  exec zp true class_provide empty_graph m1 out1 g1 m1' → exec zp false class_provide g1 m2 out2 g2 m2' →
  out2 = OOk tt ∧ (g1 = empty_graph ∧ g2 = class_graph ∨ g1 ≠ empty_graph ∧ g2 = g1).
Proof.
  intros [_ [[-> _]|[H _]]]%class_interrupted Hx.
  - apply class_first_use in Hx as (->&->&->). split; [done|]. by left.
  - apply class_stays in Hx as (->&->&->); [|done|done]. split; [done|]. right. split; [|done].
    intros ->. set_solver.
Qed.

(** ** The bit layer *)
Section bits.
  Context {zp : zpolicy}.

  (** The class layer is complete and there is no bit yet. *)
  Definition fresh (g : graph) : Prop :=
    (∀ k, (1 <= k <= 8)%N → k ∈ nodes g) ∧ 0%N ∉ nodes g ∧ edges g = ∅ ∧
    ∀ x, x ∉ nodes g ∨ (8 < x)%N → fwd g !! x = None ∧ bwd g !! x = None.

  Definition failed {A} (out : outcome A) : Prop := ∀ v, out ≠ OOk v.

  (** Two bits, the second one without its character node unless all went
      well. *)
  Definition two_bits (out : outcome (bit_ent * bit_ent)) (g : graph) : Prop :=
    ∃ z o, (be_class z < be_class o)%N ∧ be_value z = false ∧ be_value o = true ∧
      edges g = {[(be_class z, 1%N); (be_class o, 1%N)]} ∧ 1%N ∈ nodes g ∧ be_class z ∈ nodes g ∧ be_class o ∈ nodes g ∧
      default 0%N (fwd g !! be_class z) = be_char z ∧ default 0%N (fwd g !! be_class o) = be_char o ∧
      (out = OOk (z, o) ∧ be_char z ≠ 0%N ∧ be_char o ≠ 0%N ∨ failed out ∧ be_char o = 0%N).

  (** What a first use of the bit layer leaves, interrupted or not. *)
  Definition bits_left (out : outcome (bit_ent * bit_ent)) (g : graph) : Prop :=
    fresh g ∧ failed out ∨
    (∃ x, edges g = {[(x, 1%N)]}) ∧ 1%N ∈ nodes g ∧ failed out ∨
    two_bits out g.

  Lemma exec_load {A} fk (k : cache → prog A) g m o g2 m2 : exec zp fk (LoadBits k) g m o g2 m2 → exec zp fk (k m) g m o g2 m2.
  Proof. intros Hx. by inversion Hx. Qed.
  Lemma exec_store {A} fk n (p : prog A) g m o g2 m2 : exec zp fk (StoreBits n p) g m o g2 m2 → exec zp fk p g n o g2 m2.
  Proof. intros Hx. by inversion Hx. Qed.

  Lemma exec_create fk g m o g2 m2 : exec zp fk st_create g m o g2 m2 →
    m2 = m ∧ ((∃ x, o = OOk x ∧ x ≠ 0%N ∧ x ∉ nodes g ∧ g2 = add_node x g) ∨ fk = true ∧ g2 = g ∧ failed o).
  Proof.
    intros Hx. apply (exec_invoke CCreate) in Hx as [-> [(r&(x&->&?&?&_&->)&->)|(?&->&[->| ->])]]; (split; [done|]); [left; by exists x|by right..].
  Qed.
  Lemma exec_connect fk x y g m o g2 m2 : valid zp g x → valid zp g y → exec zp fk (st_connect x y) g m o g2 m2 →
    m2 = m ∧ (o = OOk tt ∧ g2 = add_edge x y g ∨ fk = true ∧ g2 = g ∧ failed o).
  Proof.
    intros H1 H2 Hx. apply (exec_invoke (CConnect _ _)) in Hx as [-> [(r&[Hr _]&->)|(?&->&[->| ->])]]; (split; [done|]);
      [|right; done..]. destruct Hr as [-> ->]; [done|]. by left.
  Qed.
  Lemma exec_setref fk x y g m o g2 m2 : valid zp g x → valid zp g y → fwd g !! x = None → bwd g !! y = None →
    exec zp fk (st_setref x y) g m o g2 m2 →
    m2 = m ∧ (o = OOk tt ∧ g2 = add_ref x y g ∨ fk = true ∧ g2 = g ∧ failed o).
  Proof.
    intros H1 H2 H3 H4 Hx. apply (exec_invoke (CSetRef _ _)) in Hx as [-> [(r&[Hr _]&->)|(?&->&[->| ->])]]; (split; [done|]);
      [|right; done..]. destruct Hr as [-> ->]; [done..|]. by left.
  Qed.

  Lemma fresh_class_graph : fresh class_graph.
  Proof.
    split_and!.
    - intros k Hk. unfold class_graph. simpl. rewrite !elem_of_union, !elem_of_singleton. lia.
    - unfold class_graph. simpl. rewrite !elem_of_union, !elem_of_singleton, elem_of_empty. lia.
    - done.
    - intros x Hx.
      assert (Hx' : ∀ k, (1 <= k <= 8)%N → x ≠ k).
      { intros k Hk ->. destruct Hx as [Hx|Hx]; [|lia]. apply Hx. unfold class_graph. simpl.
        rewrite !elem_of_union, !elem_of_singleton. lia. }
      unfold class_graph. simpl. split; rewrite !lookup_insert_ne; try done; apply not_eq_sym, Hx'; lia.
  Qed.

  Lemma fresh_node x g : x ∉ nodes g → x ≠ 0%N → fresh g → fresh (add_node x g) ∧ (8 < x)%N.
  Proof.
    intros Hx H0 (Hk&Hz&He&Hr).
    assert (H8 : (8 < x)%N).
    { destruct (decide (8 < x)%N) as [|Hn]; [done|]. destruct Hx. apply Hk. lia. }
    split; [|done]. split_and!; simpl.
    - intros k ?%Hk. set_solver.
    - set_solver.
    - done.
    - intros y Hy. apply Hr. set_solver.
  Qed.

  Lemma two_of (a b : bit_ent) x y : x = be_class a → y = be_class b →
    ({[(y, 1%N)]} ∪ ({[(x, 1%N)]} ∪ ∅) : gset (N * N)) = {[(be_class a, 1%N); (be_class b, 1%N)]}.
  Proof. intros -> ->. set_solver. Qed.

  (** The second half: two bit classes exist. *)
  Lemma bits_second_half fk zc oc g m out g' m' :
    (zc < oc)%N → zc ∈ nodes g → oc ∈ nodes g → 1%N ∈ nodes g → edges g = {[(zc, 1%N); (oc, 1%N)]} →
    fwd g !! zc = None → fwd g !! oc = None → (∀ x, x ∉ nodes g → bwd g !! x = None) →
    exec zp fk (zeroCharacter <- st_create;;
          st_setref zc zeroCharacter;;;
          oneCharacter <- st_create;;
          st_setref oc oneCharacter;;;
          Ret (BitEnt false zc zeroCharacter, BitEnt true oc oneCharacter)) g m out g' m' →
    two_bits out g' ∧ (fk = false → ∃ v, out = OOk v).
  Proof.
    intros Hlt Hzc Hoc H1 He Hfz Hfo Hb Hx.
    assert (Hne : zc ≠ oc) by lia.
    apply exec_bind_any in Hx as [(x&g1&m1&Hc&Hx)|(Ho&o'&Hc&Ho')].
    2: { apply exec_create in Hc as [-> [(x&->&_)|(Hfk&->&_)]]; [by destruct (Ho' x)|]. split; [|by rewrite Hfk].
      exists (BitEnt false zc 0), (BitEnt true oc 0). simpl. rewrite Hfz, Hfo. split_and!; auto. }
    apply exec_create in Hc as [-> [(x'&[= <-]&Hx0&Hxn&->)|(_&_&Hf)]]; [|by destruct (Hf x)].
    apply exec_bind_any in Hx as [([]&g1&m1&Hc&Hx)|(Ho&o'&Hc&Ho')].
    2: { apply exec_setref in Hc as [-> [[-> _]|(Hfk&->&_)]]; [by destruct (Ho' tt)| |left; set_solver|left; set_solver|done|by apply Hb].
      split; [|by rewrite Hfk].
      exists (BitEnt false zc 0), (BitEnt true oc 0). simpl. rewrite Hfz, Hfo. split_and!; auto; set_solver. }
    apply exec_setref in Hc as [-> [[_ ->]|(_&_&Hf)]]; [|by destruct (Hf tt)|left; set_solver|left; set_solver|done|by apply Hb].
    apply exec_bind_any in Hx as [(y&g1&m1&Hc&Hx)|(Ho&o'&Hc&Ho')].
    2: { apply exec_create in Hc as [-> [(y&->&_)|(Hfk&->&_)]]; [by destruct (Ho' y)|]. split; [|by rewrite Hfk].
      exists (BitEnt false zc x), (BitEnt true oc 0). simpl. rewrite lookup_insert, lookup_insert_ne, Hfo by done.
      split_and!; auto; set_solver. }
    apply exec_create in Hc as [-> [(y'&[= <-]&Hy0&Hyn&->)|(_&_&Hf)]]; [|by destruct (Hf y)]. simpl in Hyn.
    assert (Hyx : y ≠ x) by set_solver.
    assert (Hby : (<[x:=zc]> (bwd g)) !! y = None) by (rewrite lookup_insert_ne by done; apply Hb; set_solver).
    assert (Hfo' : (<[zc:=x]> (fwd g)) !! oc = None) by (by rewrite lookup_insert_ne by done).
    apply exec_bind_any in Hx as [([]&g1&m1&Hc&Hx)|(Ho&o'&Hc&Ho')].
    2: { apply exec_setref in Hc as [-> [[-> _]|(Hfk&->&_)]]; [by destruct (Ho' tt)| |left; set_solver|left; set_solver|done|done].
      split; [|by rewrite Hfk].
      exists (BitEnt false zc x), (BitEnt true oc 0). simpl. rewrite Hfo', lookup_insert.
      split_and!; auto; set_solver. }
    apply exec_setref in Hc as [-> [[_ ->]|(_&_&Hf)]]; [|by destruct (Hf tt)|left; set_solver|left; set_solver|done|done].
    apply exec_ret_any in Hx as (->&->&->). split; [|eauto].
    exists (BitEnt false zc x), (BitEnt true oc y). simpl. rewrite lookup_insert, lookup_insert_ne, lookup_insert by done.
    split_and!; auto; try set_solver.
  Qed.

  Lemma nil_of (l : list N) : (∀ y, y ∉ l) → l = [].
  Proof. destruct l as [|x l]; [done|]. intros H. destruct (H x). left. Qed.

  (** [class_new bitIdentifier] twice, then the second half. *)
  Definition make_bits : prog (bit_ent * bit_ent) :=
    c0 <- class_new bitIdentifier;;
    c1 <- class_new bitIdentifier;;
    let (zeroClass, oneClass) := if (c0 <? c1)%N then (c0, c1) else (c1, c0) in
    zeroCharacter <- st_create;;
    st_setref zeroClass zeroCharacter;;;
    oneCharacter <- st_create;;
    st_setref oneClass oneCharacter;;;
    Ret (BitEnt false zeroClass zeroCharacter, BitEnt true oneClass oneCharacter).

  Lemma exec_class_new fk k g m o g2 m2 : k ∈ nodes g → exec zp fk (class_new k) g m o g2 m2 →
    m2 = m ∧ ((∃ x, o = OOk x ∧ x ≠ 0%N ∧ x ∉ nodes g ∧ g2 = add_edge x k (add_node x g)) ∨
              fk = true ∧ failed o ∧ (g2 = g ∨ ∃ x, x ≠ 0%N ∧ x ∉ nodes g ∧ g2 = add_node x g)).
  Proof.
    intros Hk Hx. unfold class_new in Hx.
    apply exec_bind_any in Hx as [(x&g1&m1&Hc&Hx)|(Ho&o'&Hc&Ho')].
    2: { apply exec_create in Hc as [-> [(x&->&_)|(Hfk&->&_)]]; [by destruct (Ho' x)|]. split; [done|]. right. auto. }
    apply exec_create in Hc as [-> [(x'&[= <-]&Hx0&Hxn&->)|(_&_&Hf)]]; [|by destruct (Hf x)].
    apply exec_bind_any in Hx as [([]&g1&m1&Hc&Hx)|(Ho&o'&Hc&Ho')].
    2: { apply exec_connect in Hc as [-> [[-> _]|(Hfk&->&_)]]; [by destruct (Ho' tt)| |left; set_solver|left; set_solver].
      split; [done|]. right. split_and!; eauto. }
    apply exec_connect in Hc as [-> [[_ ->]|(_&_&Hf)]]; [|by destruct (Hf tt)|left; set_solver|left; set_solver].
    apply exec_ret_any in Hx as (->&->&->). split; [done|]. left. eauto.
  Qed.

  Lemma make_bits_left fk g m out g' m' : fresh g → exec zp fk make_bits g m out g' m' →
    bits_left out g' ∧ (fk = false → ∃ v, out = OOk v).
  Proof.
    intros Hg Hx. pose proof Hg as (Hk&Hz&He&Hr). assert (H1 : 1%N ∈ nodes g) by (apply Hk; lia).
    unfold make_bits in Hx.
    apply exec_bind_any in Hx as [(a&g1&m1&Hc&Hx)|(Ho&o'&Hc&Ho')].
    2: { apply exec_class_new in Hc as [-> [(x&->&_)|(Hfk&_&[->|(x&?&?&->)])]]; [by destruct (Ho' x)|..|done].
      - split; [by left|by rewrite Hfk].
      - split; [left; split; [by apply fresh_node|done]|by rewrite Hfk]. }
    apply exec_class_new in Hc as [-> [(x&[= <-]&Ha0&Han&->)|(_&Hf&_)]]; [|by destruct (Hf a)|done].
    destruct (fresh_node a g Han Ha0 Hg) as [_ Ha8].
    apply exec_bind_any in Hx as [(b&g1&m1&Hc&Hx)|(Ho&o'&Hc&Ho')].
    2: { apply exec_class_new in Hc as [-> [(x&->&_)|(Hfk&_&Hc)]]; [by destruct (Ho' x)| |simpl; set_solver].
      split; [|by rewrite Hfk]. right. left. destruct Hc as [->|(x&_&_&->)]; simpl.
      - split_and!; [|set_solver|done]. exists a. rewrite He. set_solver.
      - split_and!; [|set_solver|done]. exists a. rewrite He. set_solver. }
    apply exec_class_new in Hc as [-> [(x&[= <-]&Hb0&Hbn&->)|(_&Hf&_)]]; [|by destruct (Hf b)|simpl; set_solver].
    simpl in Hbn.
    assert (Hb8 : (8 < b)%N). { destruct (decide (8 < b)%N) as [|Hn]; [done|]. destruct Hbn.
      apply elem_of_union. right. apply Hk. lia. }
    assert (Hab : a ≠ b) by set_solver.
    assert (Hna : fwd g !! a = None) by (by apply Hr; right). assert (Hnb : fwd g !! b = None) by (by apply Hr; right).
    assert (Hnx : ∀ x, x ∉ {[b]} ∪ ({[a]} ∪ nodes g) → bwd g !! x = None) by (intros x Hx'; apply Hr; left; set_solver).
    clear Hr Hk Hz Hg.
    set (g2 := add_edge b bitIdentifier (add_node b (add_edge a bitIdentifier (add_node a g)))) in *.
    assert (Ga : a ∈ nodes g2) by (simpl; set_solver). assert (Gb : b ∈ nodes g2) by (simpl; set_solver).
    assert (G1 : 1%N ∈ nodes g2) by (simpl; set_solver).
    destruct (N.ltb_spec a b) as [Hlt|Hge].
    - assert (Ge : edges g2 = {[(a, 1%N); (b, 1%N)]}) by (simpl; rewrite He; set_solver).
      destruct (bits_second_half fk a b g2 m out g' m' Hlt Ga Gb G1 Ge Hna Hnb Hnx Hx) as [HB HB'].
      split; [by right; right|done].
    - assert (Ge : edges g2 = {[(b, 1%N); (a, 1%N)]}) by (simpl; rewrite He; set_solver).
      assert (Hlt : (b < a)%N) by lia.
      destruct (bits_second_half fk b a g2 m out g' m' Hlt Gb Ga G1 Ge Hnb Hna Hnx Hx) as [HB HB'].
      split; [by right; right|done].
  Qed.

  Lemma bits_left_failed o o' g : failed o → failed o' → bits_left o g → bits_left o' g.
  Proof.
    intros Hf Hf' [[? _]|[(?&?&_)|(z&o1&H)]]; [by left|by right; left|].
    right. right. exists z, o1. destruct H as (?&?&?&?&?&?&?&?&?&H). split_and!; auto.
    destruct H as [[-> _]|[_ ?]]; [by destruct (Hf (z, o1))|by right].
  Qed.

  Lemma bits_first_use fk g out g' m' : fresh g → exec zp fk bit_initialize g None out g' m' →
    bits_left out g' ∧ (fk = false → ∃ v, out = OOk v).
  Proof.
    intros Hg Hx. apply exec_load in Hx.
    pose proof Hg as (Hk&Hz&He&Hr). assert (H1 : 1%N ∈ nodes g) by (apply Hk; lia).
    apply exec_bind_any in Hx as [([]&g1&m1&Hc&Hx)|(Ho&o'&Hc&Ho')].
    2: { apply class_stays in Hc as (->&->&Hc); [|done]. split; [by left|]. intros ->. by destruct (Ho' tt); apply Hc. }
    apply class_stays in Hc as (->&->&_); [|done].
    apply exec_bind_any in Hx as [(l&g1&m1&Hc&Hx)|(Ho&o'&Hc&Ho')].
    2: { apply (exec_invoke (CSources _)) in Hc as [-> [(r&[Hc _]&->)|(->&->&_)]].
      - destruct Hc as (l&->&_); [by left|]. by destruct (Ho' l).
      - split; [by left|done]. }
    apply (exec_invoke (CSources _)) in Hc as [-> [(r&[Hc _]&Hr')|(_&_&[?|?])]]; [|done..].
    destruct Hc as (l'&->&_&Hl&->); [by left|]. injection Hr' as <-.
    assert (l = []) as ->. { apply nil_of. intros y Hy%Hl. rewrite He in Hy. set_solver. }
    apply exec_bind_any in Hx as [([z o]&g1&m1&Hc&Hx)|(Ho&o'&Hc&Ho')].
    - apply (make_bits_left fk g None (OOk (z, o)) g1 m1) in Hc as [HB _]; [|done].
      apply exec_store, exec_ret_any in Hx as (->&->&->).
      split; [done|eauto].
    - apply (make_bits_left fk g None o' g' m') in Hc as [HB HB']; [|done]. split.
      + by eapply bits_left_failed.
      + intros Hf. destruct (HB' Hf) as [v ->]. by destruct (Ho' v).
  Qed.

  (** Later uses with a new cache. *)
  Lemma bits_one fk g x out g' m' : edges g = {[(x, 1%N)]} → 1%N ∈ nodes g →
    exec zp fk bit_initialize g None out g' m' → g' = g ∧ failed out ∧ (fk = false → out = OErr EWrongBitCount).
  Proof.
    intros He H1 Hx. apply exec_load in Hx.
    apply exec_bind_any in Hx as [([]&g1&m1&Hc&Hx)|(Ho&o'&Hc&Ho')].
    2: { apply class_stays in Hc as (->&->&Hc); [|done]. split_and!; [done..|]. intros ->. by destruct (Ho' tt); apply Hc. }
    apply class_stays in Hc as (->&->&_); [|done].
    apply exec_bind_any in Hx as [(l&g1&m1&Hc&Hx)|(Ho&o'&Hc&Ho')].
    2: { apply (exec_invoke (CSources _)) in Hc as [-> [(r&[Hc _]&->)|(->&->&_)]].
      - destruct Hc as (l&->&_); [by left|]. by destruct (Ho' l).
      - split; done. }
    apply (exec_invoke (CSources _)) in Hc as [-> [(r&[Hc _]&Hr')|(_&_&[?|?])]]; [|done..].
    destruct Hc as (l'&->&Hnd&Hl&->); [by left|]. injection Hr' as <-.
    assert (l = [x]) as ->.
    { assert (Hl' : ∀ y, y ∈ l ↔ y = x) by (intros y; rewrite Hl, He; set_solver).
      destruct l as [|a [|b l]].
      - destruct (proj1 (elem_of_nil x) (proj2 (Hl' x) eq_refl)).
      - f_equal. apply Hl'. left.
      - assert (a = x) by (apply Hl'; left). assert (b = x) by (apply Hl'; right; left). subst.
        inversion Hnd as [|? ? Hn _]; subst. destruct Hn. left. }
    cbn [bind] in Hx. apply exec_throw_any in Hx as (->&->&->). done.
  Qed.

  Lemma list_two (l : list N) a b : NoDup l → a ≠ b → (∀ y, y ∈ l ↔ y = a ∨ y = b) → l = [a; b] ∨ l = [b; a].
  Proof.
    intros Hnd Hab Hl. destruct l as [|x [|y [|w l]]].
    - destruct (proj1 (elem_of_nil a) (proj2 (Hl a) (or_introl eq_refl))).
    - assert (a = x) by (apply elem_of_list_singleton, Hl; auto). assert (b = x) by (apply elem_of_list_singleton, Hl; auto). congruence.
    - assert (Hx : x = a ∨ x = b) by (apply Hl; left). assert (Hy : y = a ∨ y = b) by (apply Hl; right; left).
      inversion Hnd as [|? ? Hn _]; subst. assert (x ≠ y) by (intros ->; apply Hn; left). naive_solver.
    - assert (Hx : x = a ∨ x = b) by (apply Hl; left). assert (Hy : y = a ∨ y = b) by (apply Hl; right; left).
      assert (Hw : w = a ∨ w = b) by (apply Hl; right; right; left).
      inversion Hnd as [|? ? Hn Hnd']; subst. inversion Hnd' as [|? ? Hn' _]; subst.
      assert (x ≠ y) by (intros ->; apply Hn; left). assert (x ≠ w) by (intros ->; apply Hn; right; left).
      assert (y ≠ w) by (intros ->; apply Hn'; left). naive_solver.
  Qed.

  Definition read_bits (zeroClass oneClass : N) : prog (bit_ent * bit_ent) :=
    '(_, zeroCharacter) <- st_getref zeroClass;;
    '(_, oneCharacter) <- st_getref oneClass;;
    Ret (BitEnt false zeroClass zeroCharacter, BitEnt true oneClass oneCharacter).

  Lemma read_two a b g m out g' m' : a ∈ nodes g → b ∈ nodes g → exec zp false (read_bits a b) g m out g' m' →
    g' = g ∧ out = OOk (BitEnt false a (default 0%N (fwd g !! a)), BitEnt true b (default 0%N (fwd g !! b))).
  Proof.
    intros Ha Hb Hx. unfold read_bits in Hx.
    apply exec_bind_any in Hx as [([? x]&g1&m1&Hc&Hx)|(Ho1&o'&Hc&Ho')].
    2: { apply (exec_invoke (CGetRef _)) in Hc as [-> [(r&[Hc _]&->)|(?&_)]]; [|done].
      destruct Hc as (->&_); [by left|]. by edestruct Ho'. }
    apply (exec_invoke (CGetRef _)) in Hc as [-> [(r&[Hc _]&Hr')|(?&_)]]; [|done].
    destruct Hc as (->&->); [by left|]. injection Hr' as -> ->.
    apply exec_bind_any in Hx as [([? y]&g1&m1&Hc&Hx)|(Ho1&o'&Hc&Ho')].
    2: { apply (exec_invoke (CGetRef _)) in Hc as [-> [(r&[Hc _]&->)|(?&_)]]; [|done].
      destruct Hc as (->&_); [by left|]. by edestruct Ho'. }
    apply (exec_invoke (CGetRef _)) in Hc as [-> [(r&[Hc _]&Hr')|(?&_)]]; [|done].
    destruct Hc as (->&->); [by left|]. injection Hr' as -> ->.
    by apply exec_ret_any in Hx as (->&->&->).
  Qed.

  Lemma bits_two g z o out g' m' : (be_class z < be_class o)%N → be_value z = false → be_value o = true →
    edges g = {[(be_class z, 1%N); (be_class o, 1%N)]} → 1%N ∈ nodes g → be_class z ∈ nodes g → be_class o ∈ nodes g →
    default 0%N (fwd g !! be_class z) = be_char z → default 0%N (fwd g !! be_class o) = be_char o →
    exec zp false bit_initialize g None out g' m' → g' = g ∧ out = OOk (z, o).
  Proof.
    intros Hlt Hvz Hvo He H1 Hz Ho Hfz Hfo Hx. apply exec_load in Hx.
    apply exec_bind_any in Hx as [([]&g1&m1&Hc&Hx)|(Ho1&o'&Hc&Ho')].
    2: { apply class_stays in Hc as (->&->&Hc); [|done]. by destruct (Ho' tt); apply Hc. }
    apply class_stays in Hc as (->&->&_); [|done].
    apply exec_bind_any in Hx as [(l&g1&m1&Hc&Hx)|(Ho1&o'&Hc&Ho')].
    2: { apply (exec_invoke (CSources _)) in Hc as [-> [(r&[Hc _]&->)|(?&_)]]; [|done].
      destruct Hc as (l&->&_); [by left|]. by destruct (Ho' l). }
    apply (exec_invoke (CSources _)) in Hc as [-> [(r&[Hc _]&Hr')|(?&_)]]; [|done].
    destruct Hc as (l'&->&Hnd&Hl&->); [by left|]. injection Hr' as <-.
    assert (Hl' : l = [be_class z; be_class o] ∨ l = [be_class o; be_class z]).
    { apply list_two; [done|lia|]. intros y. rewrite Hl, He. set_solver. }
    assert (Hx' : exec zp false (zo <- read_bits (be_class z) (be_class o);; StoreBits (Some zo) (Ret zo)) g None out g' m').
    { destruct Hl' as [-> | ->].
      - replace (be_class z <? be_class o)%N with true in Hx by (symmetry; by apply N.ltb_lt). exact Hx.
      - replace (be_class o <? be_class z)%N with false in Hx by (symmetry; apply N.ltb_ge; lia). exact Hx. }
    clear Hx. rename Hx' into Hx. unfold read_bits in Hx.
    apply exec_bind_any in Hx as [([z' o']&g1&m1&Hc&Hx)|(Ho1&o'&Hc&Ho')].
    - apply exec_store, exec_ret_any in Hx as (->&->&->).
      apply read_two in Hc as [-> Hc]; [|done..]. split; [done|]. rewrite Hc, Hfz, Hfo. destruct z, o; simpl in *; by subst.
    - apply read_two in Hc as [-> Hc]; [|done..]. by edestruct Ho'.
  Qed.

  (** A first use of the bit layer that may be interrupted, a restart, a second
      use. *)
  Theorem bit_retry out1 g1 m1 out2 g2 m2 :
    exec zp true bit_initialize class_graph None out1 g1 m1 → exec zp false bit_initialize g1 None out2 g2 m2 →
    edges g1 = ∅ ∧ failed out1 ∧ (∃ z o, out2 = OOk (z, o) ∧ be_char z ≠ 0%N ∧ be_char o ≠ 0%N) ∨
    (∃ x, edges g1 = {[(x, 1%N)]}) ∧ failed out1 ∧ out2 = OErr EWrongBitCount ∧ g2 = g1 ∨
    ∃ z o, edges g1 = {[(be_class z, 1%N); (be_class o, 1%N)]} ∧ be_class z ≠ be_class o ∧
      out2 = OOk (z, o) ∧ g2 = g1 ∧
      (out1 = OOk (z, o) ∧ be_char z ≠ 0%N ∧ be_char o ≠ 0%N ∨ failed out1 ∧ be_char o = 0%N).
  Proof.
    intros Hx Hy. apply bits_first_use in Hx as [[[Hf Ho]|[([x He]&H1&Ho)|(z&o&Hlt&Hvz&Hvo&He&H1&Hz&Hoo&Hfz&Hfo&Hd)]] _];
      [| | |apply fresh_class_graph].
    - left. pose proof Hf as (_&_&He&_). split; [done|]. split; [done|].
      apply bits_first_use in Hy as [HB Hok]; [|done]. destruct (Hok eq_refl) as [[z o] ->].
      destruct HB as [[_ Hn]|[(_&_&Hn)|(z'&o'&HB)]]; [by destruct (Hn (z, o))..|].
      destruct HB as (_&_&_&_&_&_&_&_&_&[([= -> ->]&?&?)|[Hn _]]); [eauto|by destruct (Hn (z, o))].
    - right. left. apply (bits_one _ _ x) in Hy as (->&_&Hy); [|done..]. split; [by exists x|]. auto.
    - right. right. exists z, o. apply (bits_two g1 z o) in Hy as (->&->); [|done..].
      split; [done|]. split; [lia|]. done.
  Qed.
End bits.
