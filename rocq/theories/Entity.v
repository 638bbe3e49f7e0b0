(** Creation of entities: the class layer and the part all layers share. *)
From stdpp Require Import gmap.
From Coq Require Import NArith ZArith Lia.
From Verif Require Import Base GoText Model1 Model2 Model3 Storage Inv Wp Steps.
Local Open Scope nat_scope.

(** The common shape of character/storage.go 20-59, word/storage.go 20-59,
    phrase/storage.go 20-59, story/storage.go 21-60, fact/storage.go 21-60 and
    remark/storage.go 21-60. *)
Definition create3 {B} (mk : N → N → N → N → B) (class : N) : prog B :=
  a <- st_create;;
  b <- st_create;;
  c <- st_create;;
  st_setref class a;;;
  st_setref a b;;;
  st_setref b c;;;
  Ret (mk class a b c).

(** What creating an entity of class [k] with nodes [x a b c] does. *)
Record new_ent (k : N) (G : ghost) (g : graph) (x a b c : N) (la lb lc : label)
    (G' : ghost) (g' : graph) : Prop := {
  ne_x : lab G !! x = None;
  ne_a : lab G !! a = None;
  ne_b : lab G !! b = None;
  ne_c : lab G !! c = None;
  ne_nodup : NoDup [x; a; b; c];
  ne_lab : lab G' = <[c:=lc]> (<[b:=lb]> (<[a:=la]> (<[x:=LCls k]> (lab G))));
  ne_bits : bits G' = bits G;
  ne_edges : edges g' = {[(x, k)]} ∪ edges g;
  ne_refs : refs3 g' x a b c
}.

Definition iso (g : graph) (x : N) : Prop := ∀ y, (x, y) ∉ edges g ∧ (y, x) ∉ edges g.

Section new_ent_facts.
  Context {F k G g x a b c la lb lc G' g'} (Hok : ok F G g) (Hup : up G)
    (Hk : (1 <= k <= 8)%N) (H : new_ent k G g x a b c la lb lc G' g').

  Lemma ne_labs : labs4 G' x a b c (LCls k) la lb lc.
  Proof.
    destruct H as [? ? ? ? Hnd Hl ???]. rewrite !NoDup_cons, !not_elem_of_cons in Hnd.
    destruct Hnd as ((?&?&?&?)&(?&?&?)&(?&?)&?&?).
    unfold labs4. rewrite Hl. split_and!; by simplify_map_eq.
  Qed.
  Lemma ne_iso y : y = a ∨ y = b ∨ y = c → iso g' y.
  Proof.
    destruct H as [? ? ? ? Hnd Hl ? He ?]. rewrite !NoDup_cons, !not_elem_of_cons in Hnd.
    destruct Hnd as ((?&?&?&?)&(?&?&?)&(?&?)&?&?).
    intros Hy z. rewrite He. pose proof (Hup k Hk).
    assert (y ≠ x ∧ y ≠ k ∧ lab G !! y = None) as (?&?&Hfr) by naive_solver congruence.
    pose proof (ok_iso Hok y Hfr z). set_solver.
  Qed.
  Lemma ne_out z : (x, z) ∈ edges g' → z = k.
  Proof.
    rewrite (ne_edges _ _ _ _ _ _ _ _ _ _ _ _ H). pose proof (ok_iso Hok x (ne_x _ _ _ _ _ _ _ _ _ _ _ _ H) z). set_solver.
  Qed.
  Lemma ne_edge y z : (y, z) ∈ edges g' → y = x ∧ z = k ∨ (y, z) ∈ edges g.
  Proof using H. clear Hok Hup Hk. rewrite (ne_edges _ _ _ _ _ _ _ _ _ _ _ _ H). set_solver. Qed.
  Lemma ne_old y l : lab G' !! y = Some l → lab G !! y = Some l ∨ y = x ∨ y = a ∨ y = b ∨ y = c.
  Proof using H.
    clear Hok Hup Hk. rewrite (ne_lab _ _ _ _ _ _ _ _ _ _ _ _ H). rewrite !lookup_insert_Some. naive_solver.
  Qed.
End new_ent_facts.

Section entity.
  Context {zp : zpolicy} {fk : bool} {F : nat}.
  Notation wp := (wp zp fk F).
  Notation W := (W zp fk F).
  Notation R := (R zp fk F).
  Notation E0 := (E0 fk).

  (** ** class *)
  Lemma R_class_provide G g : up G → R class_provide (λ _ _ _, True) E0 G g.
  Proof.
    intros Hup. eapply R_seq; [apply R_has|done|].
    intros b G' g' Hok' X ->. rewrite bool_decide_true.
    - by apply R_ret.
    - eapply ok_lab_node; [done|by apply (up_mono X Hup)|done].
  Qed.

  (** In the middle of the first initialisation: class nodes up to [k], linked
      up to [c]. *)
  Definition roots (B : bstate) (k c : N) (G : ghost) (g : graph) : Prop :=
    (∀ j, (1 <= j <= k)%N → lab G !! j = Some (LRoot j)) ∧
    bits G = B ∧ N.of_nat (size (nodes g)) = k ∧ edges g = ∅ ∧
    (∀ j, (c <= j)%N → fwd g !! j = None) ∧ (∀ j, (c < j)%N → bwd g !! j = None).

  Lemma W_class_create n B k G g :
    (1 <= k <= 8)%N → roots B (k - 1) (k - 1) G g →
    W n (class_create k) (λ _ G' g', roots B k (k - 1) G' g') E0 G g.
  Proof.
    intros Hk (Hl&HB&Hs&He&Hf&Hb). eapply (W_bind _ _ _ _ 0 _ _
      (λ x G' g', x = k ∧ roots B k (k - 1) G' g') E0); [|lia| |by auto].
    - apply wp_W. intros Hok Hq. apply wp_invoke; [|by apply fin_E0].
      intros r g' (x&->&Hx0&Hx&Hxs&->). specialize (Hxs He).
      assert (x = k) as -> by lia.
      assert (lab G !! k = None) as Hfr by by eapply ok_fresh_lab.
      assert (ext G g (set_lab k (LRoot k) G) (add_node k g)) as X.
      { apply ext_set_lab; auto. simpl. set_solver. }
      exists k, (set_lab k (LRoot k) G). split_and!; auto.
      + apply ok_add_node; auto; [|congruence]. by intros ? [=].
      + split_and!; [done| |done|].
        * split; [done|]. simpl. by rewrite He.
        * split_and!; simpl; auto.
          -- intros j Hj. destruct (decide (j = k)) as [->|]; simplify_map_eq; [done|].
             apply Hl. lia.
          -- rewrite size_union by set_solver. rewrite size_singleton. lia.
    - intros x G' g' Hok' Hq' X [-> Hr]. rewrite N.eqb_refl. by apply W_ret.
  Qed.

  Lemma W_class_create_next n B k G g :
    (2 <= k <= 8)%N → roots B (k - 1) (k - 1) G g →
    W n (class_create_next k) (λ _ G' g', roots B k k G' g') E0 G g.
  Proof.
    intros Hk Hr. eapply W_seq; [apply (W_class_create n); [lia|done]|done|lia|].
    intros ? G' g' Hok' Hq' X (Hl&HB&Hs&He&Hf&Hb).
    assert (lab G' !! k = Some (LRoot k)) by (apply Hl; lia).
    eapply W_conseq; [|apply le_n| |by auto].
    - eapply (W_setref n (k - 1) k (LRoot (k - 1)) (LRoot k)); auto.
      + apply Hl. lia.
      + simpl. lia.
      + apply Hb. lia.
      + done.
    - intros ? G2 g2 ??? [-> ->]. split_and!; simpl; auto.
      + intros j Hj. rewrite lookup_insert_ne by lia. apply Hf. lia.
      + intros j Hj. rewrite lookup_insert_ne by lia. apply Hb. lia.
  Qed.

  (** An initialised store, or a new one. *)
  Definition started (G : ghost) (g : graph) : Prop := up G ∨ nodes g = ∅.

  Lemma W_class_provide n G g :
    started G g → W n class_provide (λ _ G' g', up G' ∧ bits G' = bits G ∧ edges g' = edges g) E0 G g.
  Proof.
    intros [Hup|Hne].
    - eapply W_conseq; [by apply R_W, R_class_provide|apply le_n| |by intros ? ? ? ? ? ? (->&->&?)].
      intros ? G' g' ??? (->&->&_). done.
    - apply W_intro. intros Hok Hq.
      assert (∀ x y, (x, y) ∉ edges g) as Hnoe.
      { intros x y Hxy. destruct (ok_edge _ _ _ Hok _ _ Hxy) as (lx&ly&Hx&Hy&Hxy'&_).
        destruct (decide (lx = LZero)) as [->|Hlx].
        - destruct (decide (ly = LZero)) as [->|Hly]; [done|].
          pose proof (ok_lab_node Hok _ _ Hy Hly). set_solver.
        - pose proof (ok_lab_node Hok _ _ Hx Hlx). set_solver. }
      assert (∀ j, j ≠ 0%N → lab G !! j = None) as Hnl.
      { intros j Hj. eapply ok_fresh_lab; [done..|set_solver]. }
      assert (∀ j, fwd g !! j = None) as Hnf.
      { intros j. destruct (fwd g !! j) as [y|] eqn:Ej; [|done].
        destruct (ok_ref _ _ _ Hok _ _ Ej) as (lx&ly&Hx&Hy&Hxy').
        destruct (decide (j = 0%N)) as [->|Hj]; [|by rewrite Hnl in Hx].
        rewrite (ok_zero _ _ _ Hok) in Hx. simplify_eq. done. }
      assert (∀ j, bwd g !! j = None) as Hnb.
      { intros j. destruct (bwd g !! j) as [y|] eqn:Ej; [|done].
        apply (ok_inv _ _ _ Hok) in Ej. by rewrite Hnf in Ej. }
      eapply (W_bind _ _ _ _ n _ _ (λ b G' g', b = false ∧ G' = G ∧ g' = g) E0);
        [|apply le_n| |by auto].
      { eapply W_conseq; [by apply R_W, R_has|apply le_n| |by intros ? ? ? ? ? ? (->&->&?)].
        intros b G' g' ??? (->&->&->). split_and!; auto. apply bool_decide_false. set_solver. }
      intros b G0 g0 _ _ _ (->&->&->).
      assert (roots (bits G) 0 0 G g) as Hr0.
      { split_and!; auto; [intros; lia| |].
        - rewrite Hne. by rewrite size_empty.
        - apply set_eq. intros [x y]. pose proof (Hnoe x y). set_solver. }
      eapply W_conseq with (n' := n) (E := E0)
        (Q := λ _ G' g', roots (bits G) 8 8 G' g'); [|apply le_n| |by auto].
      2: { intros ? G' g' ??? (Hl&HB&_&He&_). split_and!; auto.
        rewrite He. destruct Hr0 as (_&_&_&He0&_). done. }
      unfold class_create_all.
      eapply (W_bind _ _ _ _ n _ _ (λ _ G' g', roots (bits G) 1 1 G' g') E0); [|apply le_n| |by auto].
      { eapply W_conseq; [apply (W_class_create n (bits G)); [done|exact Hr0]|apply le_n| |by auto].
        intros ? G' g' ??? (Hl&HB&Hs&He&Hf&Hb). unfold bitIdentifier in *. split_and!; auto.
        - intros j Hj. apply Hf. lia.
        - intros j Hj. apply Hb. lia. }
      intros ? G1 g1 _ _ _ Hr1.
      do 6 (eapply W_seq; [by eapply (W_class_create_next n (bits G)); [|eassumption]|done|apply le_n|];
        intros ? ? ? _ _ _ ?).
      by eapply (W_class_create_next n (bits G)); [|eassumption].
  Qed.

  Lemma W_class_new n k G g :
    up G → (2 <= k <= 8)%N →
    W n (class_new k) (λ x G' g', lab G !! x = None ∧ x ≠ 0%N ∧
      G' = set_lab x (LCls k) G ∧ g' = add_edge x k (add_node x g)) E0 G g.
  Proof.
    intros Hup Hk. pose proof (Hup k ltac:(lia)) as HL.
    eapply W_seq; [apply (W_create n (LCls k)); done|done|apply le_n|].
    intros x G1 g1 Hok1 Hq1 X1 (Hx&Hx0&->&->).
    assert (x ≠ k) by congruence.
    eapply W_seq; [|done|apply le_n|].
    - eapply (W_connect n x k (LCls k) (LRoot k)); simpl; auto; simplify_map_eq; auto; try done; try lia.
      all: unfold bitIdentifier; lia.
    - intros ? G2 g2 Hok2 Hq2 X2 (->&->). apply W_ret. intros. split_and!; auto.
  Qed.

  Lemma W_create3 {B} n (mk : N → N → N → N → B) x lx la lb lc G g :
    lab G !! x = Some lx → fwd g !! x = None → (∀ k, lx = LCls k → (x, k) ∈ edges g) →
    ref_ok lx la → ref_ok la lb → ref_ok lb lc →
    label_ok F la → label_ok F lb → label_ok F lc → plain la → plain lb → plain lc →
    W n (create3 mk x) (λ e G' g', ∃ a b c, e = mk x a b c ∧
      lab G !! a = None ∧ lab G !! b = None ∧ lab G !! c = None ∧ NoDup [a; b; c] ∧
      lab G' = <[c:=lc]> (<[b:=lb]> (<[a:=la]> (lab G))) ∧ bits G' = bits G ∧
      edges g' = edges g ∧ refs3 g' x a b c) E0 G g.
  Proof.
    intros Hx Hfx Hcl R1 R2 R3 L1 L2 L3 P1 P2 P3.
    apply W_intro. intros Hok _.
    eapply W_seq; [by apply (W_create n la)|done|apply le_n|].
    intros a G1 g1 _ _ _ (Ha&Ha0&->&->).
    eapply W_seq; [by apply (W_create n lb)|done|apply le_n|].
    intros b G2 g2 _ _ _ (Hb&Hb0&->&->).
    eapply W_seq; [by apply (W_create n lc)|done|apply le_n|].
    intros c G3 g3 _ _ _ (Hc&Hc0&->&->). simpl in Hb, Hc.
    rewrite lookup_insert_None in Hb. destruct Hb as [Hb Hab].
    rewrite !lookup_insert_None in Hc. destruct Hc as [[Hc Hac] Hbc].
    assert (x ≠ a ∧ x ≠ b ∧ x ≠ c) as (?&?&?) by (split_and!; congruence).
    pose proof (ok_fwd_none Hok _ Ha). pose proof (ok_bwd_none Hok _ Ha).
    pose proof (ok_fwd_none Hok _ Hb). pose proof (ok_bwd_none Hok _ Hb).
    pose proof (ok_fwd_none Hok _ Hc). pose proof (ok_bwd_none Hok _ Hc).
    eapply W_seq; [eapply (W_setref n x a lx la); simpl; by simplify_map_eq|done|apply le_n|].
    intros ? G4 g4 _ _ _ (->&->).
    eapply W_seq; [eapply (W_setref n a b la lb); simpl; [by simplify_map_eq..|by intros k ->; destruct lx]|done|apply le_n|].
    intros ? G4 g4 _ _ _ (->&->).
    eapply W_seq; [eapply (W_setref n b c lb lc); simpl; [by simplify_map_eq..|by intros k ->; destruct la]|done|apply le_n|].
    intros ? G4 g4 _ _ _ (->&->).
    apply W_ret. intros _ _. exists a, b, c. split_and!; simpl; auto.
    - rewrite !NoDup_cons, !not_elem_of_cons. split_and!; auto using NoDup_nil_2, not_elem_of_nil.
    - unfold refs3. simpl. split_and!; by simplify_map_eq.
  Qed.

  (** A new entity of class [k]. *)
  Lemma W_entity {B C} n (mk : N → N → N → N → B) k la lb lc f (Q : post C) (E : post abn) G g :
    up G → (2 <= k <= 8)%N →
    ref_ok (LCls k) la → ref_ok la lb → ref_ok lb lc →
    label_ok F la → label_ok F lb → label_ok F lc → plain la → plain lb → plain lc →
    (∀ x a b c G' g', ok F G' g' → quiet G' → extn n G g G' g' →
      new_ent k G g x a b c la lb lc G' g' → W n (f (mk x a b c)) Q E G' g') →
    le_E0 fk E →
    W n (class <- class_new k;; e <- create3 mk class;; f e) Q E G g.
  Proof.
    intros Hup Hk R1 R2 R3 L1 L2 L3 P1 P2 P3 Hf HE. apply W_intro. intros Hok _.
    eapply W_seq; [by apply (W_class_new n k)|done|apply le_n|].
    intros x G1 g1 Hok1 _ X1 (Hx&Hx0&->&->).
    eapply W_seq; [|done|apply le_n|].
    { eapply (W_create3 n mk x (LCls k) la lb lc); auto; simpl; [by simplify_map_eq|..].
      - by apply (ok_fwd_none Hok).
      - intros k' [= <-]. set_solver. }
    intros e G2 g2 Hok2 Hq2 X2 (a&b&c&->&Ha&Hb&Hc&Hnd&Hl&Hbi&He&Hr). simpl in Ha, Hb, Hc, Hl, Hbi, He.
    rewrite lookup_insert_None in Ha, Hb, Hc.
    apply Hf; eauto using extn_trans.
    split; try apply Hr; try tauto; try done.
    rewrite NoDup_cons, !not_elem_of_cons. split_and!; try done; try apply not_elem_of_nil; naive_solver.
  Qed.
End entity.
