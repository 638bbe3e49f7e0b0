(** Characters made on contents in order are found again, and the contents stay in order. *)
From stdpp Require Import gmap.
From Coq Require Import NArith ZArith Lia Ascii.
From Verif Require Import Base GoText Model1 Model2 Model3 Storage Spec SpecText SpecGuards SpecWalk SpecMoments SpecEntities SpecSpelling SpecFactories SpecKept
  Codec InitProofs GuardProofs StoryWrites FactoryProofs GuardFaults SpellProofs KeptProofs ExtendProofs.
Local Open Scope nat_scope.

Section order.
  Context (zero one : N) (Hzo : zero ≠ one).
  Notation bit_of := (λ v : bool, if v then one else zero).
  Notation says := (says_bit zero one).
  Notation kept g e bs := (char_kept zero one g (ce_class e) (ce_bit e) (ce_char e) (ce_word e) bs).

  Lemma says_fun g c u u' : coherent g → says g c u → says g c u' → u = u'.
  Proof.
    intros Hg (a&b&d&R&Hb) (a'&b'&d'&R'&Hb'). destruct (row_same _ Hg _ _ _ _ _ _ _ R R') as (_&->&_).
    assert (bit_of u = bit_of u') as E by (apply Hb', Hb; done). destruct u, u'; congruence.
  Qed.
  Lemma kept_fun g bs e e' : coherent g → kept g e bs → kept g e' bs → e = e'.
  Proof.
    intros Hg (R&v&vs&a0&b0&x0&d0&->&R0&Hv&Hf) (R'&v'&vs'&a0'&b0'&x0'&d0'&[= <- <-]&R0'&Hv'&Hf').
    assert (b0 = b0') as <- by by apply Hv', Hv. cbn [row] in R0, R0'. assert (x0 = x0') as <- by (destruct R0 as (_&?&_), R0' as (_&?&_); congruence).
    enough (ce_char e = ce_char e') as E.
    { destruct e, e'; cbn in *; subst. by destruct (row_same _ Hg _ _ _ _ _ _ _ R R') as (->&->&->). }
    clear R R' R0 R0' Hv Hv'. revert Hf'. generalize (ce_char e'). clear e'. induction Hf as [x|x x' y u us Hc Hf IH]; intros y' Hf'.
    - by inversion Hf'.
    - inversion Hf' as [|? x2 ? ? ? Hc2 Hf2]; subst. apply IH. destruct Hc as (Hn&Hs&Hc), Hc2 as (Hn2&Hs2&Hc2).
      destruct (Hc _ Hn2) as [-> |(w&Hw&Hne)]; [done|]. by destruct Hne; eapply says_fun.
  Qed.

  (** What both steps need: a new entity [e1] with a digit, all else as it was. *)
  Record added (g g' : graph) (y : N) (v : bool) (e1 : char_ent) : Prop := {
    sp_coherent : coherent g;
    sp_new : ∀ x, x ∈ char_row e1 → x ∉ nodes g;
    sp_rows : ∀ l, row g l → row g' l;
    sp_row : row g' (char_row e1);
    sp_edges : ∀ x y, (x, y) ∈ edges g → (x, y) ∈ edges g';
    sp_only : only_neighbour Outgoing g' (ce_bit e1) (bit_of v);
    sp_none : no_neighbour Outgoing g' (ce_char e1);
    sp_other : ∀ x c, x ∈ nodes g → x ≠ y → (x, c) ∈ edges g' → (x, c) ∈ edges g;
    sp_anchored : anchored g;
    sp_bits : ∀ v, bit_of v ∈ nodes g
  }.
  Lemma step_says g g' y v e1 c u : added g g' y v e1 → (∀ a b d, row g [a; b; c; d] → only_neighbour Outgoing g b (bit_of u) → b ≠ y) →
    says g c u → says g' c u.
  Proof.
    intros S Hy (a&b&d&R&Hb). exists a, b, d. split; [by apply (sp_rows _ _ _ _ _ S)|]. intros x. split.
    - intros Hx. apply Hb. apply (sp_other _ _ _ _ _ S); [|by eapply Hy|done]. by destruct (row_nodes _ (sp_coherent _ _ _ _ _ S) _ _ _ _ R) as (_&?&_).
    - intros ->. apply (sp_edges _ _ _ _ _ S). by apply Hb.
  Qed.
  Lemma step_new g g' y v e1 : added g g' y v e1 → says g' (ce_char e1) v.
  Proof. intros S. exists (ce_class e1), (ce_bit e1), (ce_word e1). split; [apply (sp_row _ _ _ _ _ S)|apply (sp_only _ _ _ _ _ S)]. Qed.

  (** The step of a tail. *)
  Section tail.
    Context (g g' : graph) (e e1 : char_ent) (v : bool).
    Context (S : added g g' (ce_char e) v e1) (Hn : neat zero one g) (Hr : row g (char_row e)) (Hc : no_child g (says g) (ce_char e) v).
    Context (He : ∀ c, (ce_char e, c) ∈ edges g' ↔ (ce_char e, c) ∈ edges g ∨ c = ce_char e1).
    Lemma tail_says c u : says g c u → says g' c u.
    Proof.
      apply (step_says _ _ _ _ _ _ _ S). intros a b d R _ ->. destruct e as [a0 b0 x d0]. cbn in *.
      destruct Hr as (R1&R2&R3&_), R as (Q1&Q2&Q3&_). assert (a = b0) as ->.
      { apply (sp_coherent _ _ _ _ _ S) in Q1 as [Q1 _]. apply (sp_coherent _ _ _ _ _ S) in R2 as [R2 _]. congruence. }
      apply (nt_short _ _ _ Hn a0 b0 x c d). cbn. split_and!; done.
    Qed.
    Lemma tail_old x : x ∈ nodes g → x ≠ ce_char e → ∀ c, (x, c) ∈ edges g' ↔ (x, c) ∈ edges g.
    Proof. intros Hx Hne c. split; [by apply (sp_other _ _ _ _ _ S)|apply (sp_edges _ _ _ _ _ S)]. Qed.
    Lemma tail_child x x' u : clear_child g (says g) x x' u → clear_child g' (says g') x x' u.
    Proof.
      intros (H1&H2&H3). split; [by apply (sp_edges _ _ _ _ _ S)|]. split; [by apply tail_says|]. intros c Hx.
      assert ((x, c) ∈ edges g ∨ x = ce_char e ∧ c = ce_char e1) as [Hx'|[-> ->]].
      { destruct (decide (x = ce_char e)) as [-> |Hne]; [apply He in Hx as [?| ->]; [by left|by right]|].
        left. apply (sp_other _ _ _ _ _ S); [|done|done]. by eapply (sp_anchored _ _ _ _ _ S). }
      - destruct (H3 c Hx') as [-> |(w&Hw&Hne)]; [by left|right]. exists w. split; [by apply tail_says|done].
      - right. exists v. split; [by eapply step_new|]. destruct (Hc _ H1) as (w&Hw&Hne). intros ->. apply Hne.
        by eapply says_fun; [apply (sp_coherent _ _ _ _ _ S)| |].
    Qed.
    Lemma tail_follow x vs y : follow g (says g) x vs y → follow g' (says g') x vs y.
    Proof. induction 1 as [|x x' y u us Hc1 _ IH]; econstructor; [by apply tail_child|done]. Qed.
    Lemma bit_not_last u : bit_of u ≠ ce_char e.
    Proof. intros E. unfold char_row in Hr. rewrite <- E in Hr. exact (nt_bits _ _ _ Hn u _ _ _ Hr). Qed.
    Lemma tail_bit u c : (bit_of u, c) ∈ edges g' ↔ (bit_of u, c) ∈ edges g.
    Proof. apply tail_old; [apply (sp_bits _ _ _ _ _ S)|apply bit_not_last]. Qed.
    Lemma tail_kept a b x d bs : char_kept zero one g a b x d bs → char_kept zero one g' a b x d bs.
    Proof.
      intros (R&u&us&a0&b0&x0&d0&->&R0&Hv&Hf). split; [by apply (sp_rows _ _ _ _ _ S)|].
      exists u, us, a0, b0, x0, d0. split; [done|]. split; [by apply (sp_rows _ _ _ _ _ S)|]. split; [|by apply tail_follow].
      intros c. rewrite <- (Hv c). apply tail_bit.
    Qed.
    Lemma last_child : clear_child g' (says g') (ce_char e) (ce_char e1) v.
    Proof.
      split; [apply He; by right|]. split; [by eapply step_new|]. intros c [Hx| ->]%He; [right|by left].
      destruct (Hc c Hx) as (w&Hw&Hne). exists w. split; [by apply tail_says|done].
    Qed.
    Lemma follow_snoc G x vs y y' u : follow G (says G) x vs y → clear_child G (says G) y y' u → follow G (says G) x (vs ++ [u]) y'.
    Proof. induction 1 as [|x x' y w ws Hc1 _ IH]; intros Hy; cbn [app]; econstructor; [done|constructor|done|by apply IH]. Qed.
    Lemma tail_new_kept bs : kept g e bs → kept g' e1 (bs ++ [v]).
    Proof.
      intros Hk. apply tail_kept in Hk as (R&u&us&a0&b0&x0&d0&->&R0&Hv&Hf). split; [apply (sp_row _ _ _ _ _ S)|].
      exists u, (us ++ [v]), a0, b0, x0, d0. split; [done|]. split; [done|]. split; [done|]. eapply follow_snoc; [done|]. apply last_child.
    Qed.
    Lemma tail_order : in_order zero one g → in_order zero one g'.
    Proof.
      intros Ht u us. destruct (Ht u us) as [(a&b&x&d&Hk)|[(ws&w&ws'&a&b&x&d&E&Hk&Hx)|Hno]].
      - left. exists a, b, x, d. by apply tail_kept.
      - destruct (decide (x = ce_char e)) as [-> |Hne].
        + assert (CharEnt a b (ce_char e) d = e) as Ee.
          { destruct Hk as [R _]. destruct e as [a0 b0 x0 d0]. cbn in *. by destruct (row_same _ (sp_coherent _ _ _ _ _ S) _ _ _ _ _ _ _ R Hr) as (->&->&->). }
          destruct (decide (w = v)) as [-> |Hwv].
          * assert (kept g' e1 (ws ++ [v])) as Hk1 by (apply tail_new_kept; rewrite <- Ee; exact Hk).
            destruct ws' as [|w' ws']; [left|right; left].
            -- rewrite E. by eexists _, _, _, _.
            -- exists (ws ++ [v]), w', ws'. eexists _, _, _, _. split; [by rewrite <- app_assoc|]. split; [exact Hk1|].
               intros c Hc1. by destruct (sp_none _ _ _ _ _ S c).
          * right. left. exists ws, w, ws', a, b, (ce_char e), d. split; [done|]. split; [by apply tail_kept|].
            intros c [Hc1| ->]%He.
            -- destruct (Hx c Hc1) as (w1&Hw1&Hne). exists w1. split; [by apply tail_says|done].
            -- exists v. split; [by eapply step_new|congruence].
        + right. left. exists ws, w, ws', a, b, x, d. split; [done|]. split; [by apply tail_kept|]. intros c Hc1.
          assert (x ∈ nodes g) as Hxn by (destruct Hk as [R _]; by eapply coherent_third; [apply (sp_coherent _ _ _ _ _ S)|]).
          apply (sp_other _ _ _ _ _ S) in Hc1; [|done|done]. destruct (Hx c Hc1) as (w1&Hw1&Hne'). exists w1. split; [by apply tail_says|done].
      - right. right. intros c Hc1. apply (Hno c). by apply tail_bit.
    Qed.
  End tail.

  (** The step of a head. *)
  Section head.
    Context (g g' : graph) (e1 : char_ent) (v : bool).
    Context (S : added g g' (bit_of v) v e1) (Hn : neat zero one g) (Hno : no_neighbour Outgoing g (bit_of v)).
    Context (He : ∀ c, (bit_of v, c) ∈ edges g' ↔ c = ce_bit e1).
    Lemma head_says c u : says g c u → says g' c u.
    Proof.
      apply (step_says _ _ _ _ _ _ _ S). intros a b d R Hb ->. destruct (Hno (bit_of u)). by apply Hb.
    Qed.
    Lemma head_old x c : x ∈ nodes g → x ≠ bit_of v → (x, c) ∈ edges g' ↔ (x, c) ∈ edges g.
    Proof. intros Hx Hne. split; [by apply (sp_other _ _ _ _ _ S)|apply (sp_edges _ _ _ _ _ S)]. Qed.
    Lemma third_not_bit a b x d : row g [a; b; x; d] → x ≠ bit_of v.
    Proof. intros R E. rewrite E in R. exact (nt_bits _ _ _ Hn v _ _ _ R). Qed.
    Lemma head_child x x' u : clear_child g (says g) x x' u → clear_child g' (says g') x x' u.
    Proof.
      intros (H1&H2&H3). split; [by apply (sp_edges _ _ _ _ _ S)|]. split; [by apply head_says|]. intros c Hx.
      assert (x ≠ bit_of v) as Hne by (intros ->; by destruct (Hno x')).
      apply (sp_other _ _ _ _ _ S) in Hx; [|by eapply (sp_anchored _ _ _ _ _ S)|done].
      destruct (H3 c Hx) as [-> |(w&Hw&Hne')]; [by left|right]. exists w. split; [by apply head_says|done].
    Qed.
    Lemma head_kept a b x d bs : char_kept zero one g a b x d bs → char_kept zero one g' a b x d bs.
    Proof.
      intros (R&u&us&a0&b0&x0&d0&->&R0&Hv&Hf). split; [by apply (sp_rows _ _ _ _ _ S)|].
      exists u, us, a0, b0, x0, d0. split; [done|]. split; [by apply (sp_rows _ _ _ _ _ S)|]. split.
      - assert (bit_of u ≠ bit_of v) as Hne by (intros E; destruct (Hno b0); rewrite <- E; by apply Hv).
        intros c. rewrite <- (Hv c). apply head_old; [apply (sp_bits _ _ _ _ _ S)|done].
      - clear -Hf S Hn Hno. induction Hf as [|x x' y w ws Hc1 _ IH]; econstructor; [by apply head_child|done].
    Qed.
    Lemma head_new_kept : kept g' e1 [v].
    Proof.
      split; [apply (sp_row _ _ _ _ _ S)|]. exists v, [], (ce_class e1), (ce_bit e1), (ce_char e1), (ce_word e1). split; [done|].
      split; [apply (sp_row _ _ _ _ _ S)|]. split; [exact He|constructor].
    Qed.
    Lemma head_order : in_order zero one g → in_order zero one g'.
    Proof.
      intros Ht u us. destruct (Ht u us) as [(a&b&x&d&Hk)|[(ws&w&ws'&a&b&x&d&E&Hk&Hx)|Hno2]].
      - left. exists a, b, x, d. by apply head_kept.
      - right. left. exists ws, w, ws', a, b, x, d. split; [done|]. split; [by apply head_kept|]. intros c Hc1. destruct Hk as [R _].
        apply (sp_other _ _ _ _ _ S) in Hc1; [|by eapply coherent_third; [apply (sp_coherent _ _ _ _ _ S)|]|by eapply third_not_bit].
        destruct (Hx c Hc1) as (w1&Hw1&Hne'). exists w1. split; [by apply head_says|done].
      - destruct (decide (u = v)) as [-> |Huv].
        + destruct us as [|w ws]; [left|right; left].
          * eexists _, _, _, _. exact head_new_kept.
          * exists [v], w, ws. eexists _, _, _, _. split; [done|]. split; [exact head_new_kept|]. intros c Hc1. by destruct (sp_none _ _ _ _ _ S c).
        + right. right. intros c Hc1. apply (Hno2 c). apply head_old; [apply (sp_bits _ _ _ _ _ S)|by destruct u, v|done].
    Qed.
  End head.

  (** The steps as they are described for the factories. *)
  Lemma row_more ns es rs g g' l : enlarged ns es rs g g' → row g l → row g' l.
  Proof.
    intros E. induction l as [|x [|y l] IH]; intros R; [done|done|]. destruct R as [R1 R2]. split; [|by apply IH].
    apply (en_fwd _ _ _ _ _ E). by left.
  Qed.
  Lemma neat_more c a b d es g g' : mirrored g → (∀ v, bit_of v ∈ nodes g) → enlarged [c; a; b; d] es (chain_of [c; a; b; d]) g g' →
    neat zero one g → neat zero one g'.
  Proof.
    intros Hg Hb E [N1 N2]. pose proof (en_distinct _ _ _ _ _ E) as Hnd.
    assert (∀ x y, x ∈ nodes g → fwd g' !! x = Some y → fwd g !! x = Some y) as Hold.
    { intros x y Hx [?|Hxy]%(en_fwd _ _ _ _ _ E); [done|]. exfalso. apply (en_new _ _ _ _ _ E x); [|done].
      cbn in Hxy. rewrite !elem_of_cons in Hxy. rewrite !elem_of_cons. destruct Hxy as [[= -> ->]|[[= -> ->]|[[= -> ->]|[]%elem_of_nil]]]; tauto. }
    assert (∀ x y, fwd g !! x = Some y → x ∈ nodes g ∧ y ∈ nodes g) as Hin by (intros x y; apply Hg).
    assert (∀ x y, fwd g' !! x = Some y → fwd g !! x = Some y ∨ (x = c ∧ y = a ∨ x = a ∧ y = b ∨ x = b ∧ y = d)) as Hsteps.
    { intros x y [?|Hxy]%(en_fwd _ _ _ _ _ E); [by left|right]. cbn in Hxy. rewrite !elem_of_cons in Hxy.
      destruct Hxy as [[= -> ->]|[[= -> ->]|[[= -> ->]|[]%elem_of_nil]]]; tauto. }
    rewrite !NoDup_cons, !elem_of_cons in Hnd. destruct Hnd as (D1&D2&D3&_).
    assert (∀ x, x = c ∨ x = a ∨ x = b ∨ x = d → x ∉ nodes g) as Hnew.
    { intros x Hx. apply (en_new _ _ _ _ _ E). rewrite !elem_of_cons. tauto. }
    split.
    - intros x1 x2 x3 x4 x5 (F1&F2&F3&F4&_).
      destruct (Hsteps _ _ F1) as [O1|S1].
      + destruct (Hin _ _ O1) as [_ I2]. apply Hold in F2; [|done]. destruct (Hin _ _ F2) as [_ I3]. apply Hold in F3; [|done].
        destruct (Hin _ _ F3) as [_ I4]. apply Hold in F4; [|done]. apply (N1 x1 x2 x3 x4 x5). cbn. split_and!; done.
      + assert (x2 ∉ nodes g) as I2 by (apply Hnew; tauto).
        destruct (Hsteps _ _ F2) as [O2|S2]; [by destruct (Hin _ _ O2)|]. assert (x3 ∉ nodes g) as I3 by (apply Hnew; tauto).
        destruct (Hsteps _ _ F3) as [O3|S3]; [by destruct (Hin _ _ O3)|]. assert (x4 ∉ nodes g) as I4 by (apply Hnew; tauto).
        destruct (Hsteps _ _ F4) as [O4|S4]; [by destruct (Hin _ _ O4)|].
        destruct S1 as [[-> ->]|[[-> ->]|[-> ->]]], S2 as [[? ?]|[[? ?]|[? ?]]], S3 as [[? ?]|[[? ?]|[? ?]]], S4 as [[? ?]|[[? ?]|[? ?]]]; subst; tauto.
    - intros v x1 x2 x4 (F1&F2&F3&_). specialize (Hb v).
      destruct (Hsteps _ _ F2) as [O2|S2]; [|by apply (Hnew (bit_of v)); [tauto|]]. destruct (Hin _ _ O2) as [I2 _].
      destruct (Hsteps _ _ F1) as [O1|S1]; [|by apply (Hnew x2); [tauto|]]. apply Hold in F3; [|done].
      apply (N2 v x1 x2 x4). cbn. split_and!; done.
  Qed.
  Lemma tail_added zp z o g g' y v e1 : be_char z = zero → be_char o = one → seated zp z o g → y ∈ nodes g →
    new_tail char_row characterIdentifier (bit_of v) y g (OOk e1) g' →
    added g g' y v e1 ∧ (∀ c, (y, c) ∈ edges g' ↔ (y, c) ∈ edges g ∨ c = ce_char e1) ∧ (neat zero one g → neat zero one g').
  Proof.
    intros Ez Eo S Hy H. pose proof (new_tail_next z o _ _ _ _ _ _ S Hy H) as (S2&R2&C2). destruct H as (e'&c&a&b&d&[= <-]&Er&E).
    assert (∀ v, bit_of v ∈ nodes g) as Hbits by (intros []; [rewrite <- Eo|rewrite <- Ez]; apply S).
    assert (∀ x, x ∈ [c; a; b; d] → x ∉ nodes g) as Hnew by apply (en_new _ _ _ _ _ E).
    assert (c ∉ nodes g ∧ a ∉ nodes g) as [Hcn Han] by (split; apply Hnew; rewrite !elem_of_cons; tauto).
    assert (ce_bit e1 = a ∧ ce_char e1 = b) as [Ea Eb] by by injection Er.
    pose proof (en_distinct _ _ _ _ _ E) as Hnd. rewrite !NoDup_cons, !elem_of_cons in Hnd. destruct Hnd as (D1&D2&D3&_).
    assert (∀ x u, (x, u) ∈ edges g' ↔ (x, u) ∈ edges g ∨ (x = c ∧ u = characterIdentifier ∨ x = a ∧ u = bit_of v ∨ x = y ∧ u = b)) as He.
    { intros x u. rewrite (en_edges _ _ _ _ _ E), !elem_of_cons, elem_of_nil. intuition congruence. }
    split; [split|split].
    - apply mirrored_coherent, S.
    - intros x. rewrite Er. apply Hnew.
    - intros l. by eapply row_more.
    - exact R2.
    - intros x u Hx. apply He. by left.
    - rewrite Ea. intros x. cbn [near]. rewrite He. split.
      + intros [Hx|[[-> _]|[[_ ->]|[-> _]]]]; [|by destruct D1; left|done|done]. destruct Han. by eapply (st_anchored _ _ _ _ S).
      + intros ->. right. right. left. done.
    - exact C2.
    - intros x u Hx Hne [?|[[-> _]|[[-> _]|[-> _]]]]%He; done.
    - apply S.
    - exact Hbits.
    - rewrite Eb. intros u. rewrite He. split; [|intros [?| ->]; [by left|right; right; right; done]].
      intros [?|[[-> _]|[[-> _]|[_ ->]]]]; [by left|done|done|by right].
    - by eapply neat_more; [apply S| |].
  Qed.
  Lemma head_added zp z o g g' v e1 : be_char z = zero → be_char o = one → seated zp z o g → no_neighbour Outgoing g (bit_of v) →
    new_head char_row characterIdentifier (bit_of v) g (OOk e1) g' →
    added g g' (bit_of v) v e1 ∧ (∀ c, (bit_of v, c) ∈ edges g' ↔ c = ce_bit e1) ∧ (neat zero one g → neat zero one g').
  Proof.
    intros Ez Eo S Hno H. assert (∀ v, bit_of v ∈ nodes g) as Hbits by (intros []; [rewrite <- Eo|rewrite <- Ez]; apply S).
    pose proof (new_head_next z o _ _ _ _ _ S (Hbits v) H) as (S2&R2&C2). destruct H as (e'&c&a&b&d&[= <-]&Er&E).
    assert (∀ x, x ∈ [c; a; b; d] → x ∉ nodes g) as Hnew by apply (en_new _ _ _ _ _ E).
    assert (c ∉ nodes g ∧ a ∉ nodes g) as [Hcn Han] by (split; apply Hnew; rewrite !elem_of_cons; tauto).
    assert (ce_bit e1 = a) as Ea by by injection Er. pose proof (Hbits v) as Hbv.
    pose proof (en_distinct _ _ _ _ _ E) as Hnd. rewrite !NoDup_cons, !elem_of_cons in Hnd. destruct Hnd as (D1&D2&D3&_).
    assert (∀ x u, (x, u) ∈ edges g' ↔ (x, u) ∈ edges g ∨ (x = c ∧ u = characterIdentifier ∨ x = a ∧ u = bit_of v ∨ x = bit_of v ∧ u = a)) as He.
    { intros x u. rewrite (en_edges _ _ _ _ _ E), !elem_of_cons, elem_of_nil. intuition congruence. }
    split; [split|split].
    - apply mirrored_coherent, S.
    - intros x. rewrite Er. apply Hnew.
    - intros l. by eapply row_more.
    - exact R2.
    - intros x u Hx. apply He. by left.
    - rewrite Ea. intros x. cbn [near]. rewrite He. split.
      + intros [Hx|[[-> _]|[[_ ->]|[-> _]]]]; [|by destruct D1; left|done|done]. destruct Han. by eapply (st_anchored _ _ _ _ S).
      + intros ->. right. right. left. done.
    - exact C2.
    - intros x u Hx Hne [?|[[-> _]|[[-> _]|[-> _]]]]%He; done.
    - apply S.
    - exact Hbits.
    - rewrite Ea. intros u. rewrite He. split; [|intros ->; right; right; right; done].
      intros [Hu|[[Hu _]|[[Hu _]|[_ ->]]]]; [by destruct (Hno u)|destruct Hcn; rewrite <- Hu; exact Hbv|destruct Han; rewrite <- Hu; exact Hbv|done].
    - by eapply neat_more; [apply S| |].
  Qed.

  Definition keeps (g g' : graph) : Prop := ∀ a b x d bs, char_kept zero one g a b x d bs → char_kept zero one g' a b x d bs.
  Lemma drawn_keeps zp z o e vs g r g' : be_char z = zero → be_char o = one → drawn zero one e vs g r g' → seated zp z o g → neat zero one g →
    in_order zero one g → row g (char_row e) → (∀ v vs', vs = v :: vs' → no_child g (says g) (ce_char e) v) → ∀ bs, kept g e bs →
    kept g' r (bs ++ vs) ∧ keeps g g' ∧ seated zp z o g' ∧ neat zero one g' ∧ in_order zero one g'.
  Proof.
    intros Ez Eo. induction 1 as [e g|e v vs g e1 g1 e' g' Ht Hd IH]; intros S Hn Ho Hr Hc bs Hk.
    - rewrite app_nil_r. split_and!; try done. by intros ?.
    - assert (ce_char e ∈ nodes g) as Hy by (destruct e; eapply coherent_third; [apply mirrored_coherent, S|exact Hr]).
      pose proof (new_tail_next z o _ _ _ _ _ _ S Hy Ht) as (S1&R1&C1).
      destruct (tail_added _ _ _ _ _ _ _ _ Ez Eo S Hy Ht) as (A&He&Hn1). specialize (Hc v vs eq_refl).
      pose proof (tail_kept g g1 e e1 v A Hn Hr Hc He) as K1.
      destruct (IH S1 (Hn1 Hn) (tail_order g g1 e e1 v A Hn Hr Hc He Ho) R1) with (bs ++ [v]) as (B1&B2&B3).
      + intros ? ? _ c Hc1. by destruct (C1 c).
      + by apply (tail_new_kept g g1 e e1 v A Hn Hr Hc He).
      + rewrite <- app_assoc in B1. split; [exact B1|]. split; [|done]. intros a b x d bs' Hk'. by apply B2, K1.
  Qed.
End order.

(** Contents in order, with the bits known to the program. *)
Theorem character_settles zp z o g n bs out g' m' : seated zp z o g → neat (be_char z) (be_char o) g → in_order (be_char z) (be_char o) g →
  be_value z = false → be_value o = true → be_char z ≠ be_char o → digits_of n bs →
  exec zp false (char_provide n) g (Some (z, o)) out g' m' →
  m' = Some (z, o) ∧ seated zp z o g' ∧ neat (be_char z) (be_char o) g' ∧ in_order (be_char z) (be_char o) g' ∧
  (∃ e, out = OOk (Some e) ∧ char_kept (be_char z) (be_char o) g' (ce_class e) (ce_bit e) (ce_char e) (ce_word e) bs) ∧
  (∀ a b x d bs', char_kept (be_char z) (be_char o) g a b x d bs' → char_kept (be_char z) (be_char o) g' a b x d bs') ∧
  ((∃ a b x d, char_kept (be_char z) (be_char o) g a b x d bs) → g' = g).
Proof.
  intros S Hn Hord Hz Ho Hzo Hd Hx. pose proof (mirrored_coherent _ (st_mirrored _ _ _ _ S)) as Hg.
  assert (∀ a b x d, char_kept (be_char z) (be_char o) g a b x d bs → g' = g ∧ m' = Some (z, o) ∧ out = OOk (Some (CharEnt a b x d))) as Hfound.
  { intros a b x d Hk.
    pose proof (char_found z o g Hz Ho Hzo Hg (st_one _ _ _ _ S) (st_zero_bit _ _ _ _ S) (st_one_bit _ _ _ _ S) a b x d bs n Hd Hk _ _ _ Hx) as (->&->&H1&H2).
    destruct (H1 eq_refl) as [e ->]. destruct (H2 e eq_refl) as [-> |[? _]]; done. }
  assert (∃ v vs, bs = v :: vs) as (v&vs&->) by (destruct Hd as [_ [-> |[l ->]]]; eauto).
  destruct (Hord v vs) as [(a&b&x&d&Hk)|[(us&u&us'&a&b&x&d&E&Hk&Hc)|Hno]].
  - destruct (Hfound _ _ _ _ Hk) as (->&->&->). split_and!; try done. by exists (CharEnt a b x d).
  - assert ((∃ a b x d, char_kept (be_char z) (be_char o) g a b x d (v :: vs)) → g' = g) as Hsame by (intros (a2&b2&x2&d2&Hk2); by eapply Hfound).
    rewrite E in Hd. pose proof (character_is_extended zp false z o g n us u us' a b x d out g' m' S Hz Ho Hzo Hd Hk Hc Hx) as (->&_&_&[(r&->&Hdr)|[? _]]); [|done].
    destruct (drawn_keeps (be_char z) (be_char o) Hzo zp z o (CharEnt a b x d) (u :: us') g r g' eq_refl eq_refl Hdr S Hn Hord) with us as (B1&B2&B3&B4&B5).
    + by destruct Hk.
    + by intros ? ? [= <- <-].
    + exact Hk.
    + rewrite <- E in B1. split_and!; try done. by exists r.
  - assert ((∃ a b x d, char_kept (be_char z) (be_char o) g a b x d (v :: vs)) → g' = g) as Hsame by (intros (a2&b2&x2&d2&Hk2); by eapply Hfound).
    pose proof (character_is_made zp false z o g n v vs out g' m' S Hz Ho Hzo Hd Hno Hx) as (->&_&_&[[(e&g1&r&He&->&Hdr)|[? _]]|[? _]]); [|done..].
    assert ((if v then be_char o else be_char z) ∈ nodes g) as Hb by (destruct v; apply S).
    pose proof (new_head_next z o _ _ _ _ _ S Hb He) as (S1&R1&C1).
    destruct (head_added (be_char z) (be_char o) zp z o g g1 v e eq_refl eq_refl S Hno He) as (A&He1&Hn1).
    destruct (drawn_keeps (be_char z) (be_char o) Hzo zp z o e vs g1 r g' eq_refl eq_refl Hdr S1 (Hn1 Hn)) with [v] as (B1&B2&B3&B4&B5).
    + by eapply head_order.
    + exact R1.
    + intros ? ? _ c Hc1. by destruct (C1 c).
    + by eapply head_new_kept.
    + split_and!; try done.
      * by exists r.
      * intros a b x d bs' Hk. eapply B2. by eapply head_kept.
Qed.
Theorem settled_alone zero one g bs e e' : coherent g → zero ≠ one →
  char_kept zero one g (ce_class e) (ce_bit e) (ce_char e) (ce_word e) bs →
  char_kept zero one g (ce_class e') (ce_bit e') (ce_char e') (ce_word e') bs → e = e'.
Proof. intros Hg Hzo. by apply kept_fun. Qed.

(** Contents are in order if that can be seen at a set of nodes. *)
Lemma order_seen zero one g (P : N → Prop) :
  (∀ v : bool, no_neighbour Outgoing g (if v then one else zero) ∨
    ∃ a b x d, row g [a; b; x; d] ∧ only_neighbour Outgoing g (if v then one else zero) b ∧ P x) →
  (∀ x v, P x → no_child g (says_bit zero one g) x v ∨ ∃ x', clear_child g (says_bit zero one g) x x' v ∧ P x') →
  in_order zero one g.
Proof.
  intros Hb Hx v vs. destruct (Hb v) as [?|(a0&b0&x0&d0&R0&Hv&HP)]; [by right; right|].
  assert (∀ us a b x d, P x → char_kept zero one g a b x d us → ∀ ws, us ++ ws = v :: vs →
    (∃ a b x d, char_kept zero one g a b x d (v :: vs)) ∨
    (∃ us u us' a b x d, v :: vs = us ++ u :: us' ∧ char_kept zero one g a b x d us ∧ no_child g (says_bit zero one g) x u)) as H.
  { intros us a b x d HPx Hk ws. revert us a b x d HPx Hk. induction ws as [|w ws IH]; intros us a b x d HPx Hk E.
    - left. rewrite app_nil_r in E. subst us. by exists a, b, x, d.
    - destruct (Hx x w HPx) as [Hno|(x'&Hc&HP')].
      + right. exists us, w, ws, a, b, x, d. split_and!; done.
      + destruct (proj1 (proj2 Hc)) as (a'&b'&d'&R'&_). apply (IH (us ++ [w]) a' b' x' d' HP'); [|by rewrite <- app_assoc].
        destruct Hk as (R&u&us1&a1&b1&x1&d1&->&R1&Hu&Hf). split; [done|]. exists u, (us1 ++ [w]), a1, b1, x1, d1. split_and!; try done.
        clear -Hf Hc. induction Hf as [|y y' t q qs Hc1 _ IH]; cbn [app]; econstructor; [done|constructor|done|by apply IH]. }
  destruct (H [v] a0 b0 x0 d0 HP) with vs as [?|?]; [|done|by left|by right; left].
  split; [done|]. exists v, [], a0, b0, x0, d0. split_and!; try done. constructor.
Qed.
Theorem bare_in_order zero one g : (∀ v : bool, no_neighbour Outgoing g (if v then one else zero)) → in_order zero one g.
Proof. intros H v vs. right; right. apply H. Qed.

(** * Many characters, one after the other *)
Theorem supplied_settle zp z o l g g' : supplied zp z o l g g' → seated zp z o g → neat (be_char z) (be_char o) g → in_order (be_char z) (be_char o) g →
  be_value z = false → be_value o = true → be_char z ≠ be_char o → (∀ n e, (n, e) ∈ l → ∃ bs, digits_of n bs) →
  seated zp z o g' ∧ neat (be_char z) (be_char o) g' ∧ in_order (be_char z) (be_char o) g' ∧
  (∀ n e bs, (n, e) ∈ l → digits_of n bs → char_kept (be_char z) (be_char o) g' (ce_class e) (ce_bit e) (ce_char e) (ce_word e) bs) ∧
  (∀ a b x d bs, char_kept (be_char z) (be_char o) g a b x d bs → char_kept (be_char z) (be_char o) g' a b x d bs).
Proof.
  intros Hs. induction Hs as [g|n e l g g1 m1 g' Hx Hs IH]; intros S Hn Ho Hz Hone Hzo Hl.
  - split_and!; try done. intros n e bs H. by apply elem_of_nil in H.
  - destruct (Hl n e) as [bs Hb]; [by left|].
    destruct (character_settles zp z o g n bs _ g1 m1 S Hn Ho Hz Hone Hzo Hb Hx) as (_&S1&N1&O1&(e'&[= <-]&K)&Hkeep&_).
    destruct IH as (S2&N2&O2&K2&Hkeep2); try done; [intros n' e' Hi; apply (Hl n' e'); by right|].
    split_and!; try done.
    + intros n' e' bs' Hi Hb'. apply elem_of_cons in Hi as [[= -> ->]|Hi]; [|by apply (K2 n' e')].
      assert (bs' = bs) as ->; [|by apply Hkeep2]. pose proof (digits_collect _ _ Hb) as E1. pose proof (digits_collect _ _ Hb') as E2. congruence.
    + intros a b x d bs' Hk. apply Hkeep2. by apply Hkeep.
Qed.
Theorem supplied_same zp z o l g g' n e e' : supplied zp z o l g g' → seated zp z o g → neat (be_char z) (be_char o) g → in_order (be_char z) (be_char o) g →
  be_value z = false → be_value o = true → be_char z ≠ be_char o → (∀ n e, (n, e) ∈ l → ∃ bs, digits_of n bs) →
  (n, e) ∈ l → (n, e') ∈ l → e = e'.
Proof.
  intros Hs S Hn Ho Hz Hone Hzo Hl Hi Hi'. destruct (supplied_settle zp z o l g g' Hs S Hn Ho Hz Hone Hzo Hl) as (S2&_&_&K&_).
  destruct (Hl n e Hi) as [bs Hb]. eapply (settled_alone _ _ g' bs); [apply mirrored_coherent; apply S2|done|by apply (K n)|by apply (K n)].
Qed.
Theorem settled_again zp fk z o g bs n e out g' m' : seated zp z o g → be_value z = false → be_value o = true → be_char z ≠ be_char o →
  digits_of n bs → char_kept (be_char z) (be_char o) g (ce_class e) (ce_bit e) (ce_char e) (ce_word e) bs →
  exec zp fk (char_provide n) g (Some (z, o)) out g' m' →
  g' = g ∧ m' = Some (z, o) ∧ gives fk out (λ r, r = Some e ∨ fk = true ∧ r = None).
Proof.
  intros S Hz Ho Hzo Hd Hk Hx. destruct e as [a b x d].
  eapply (char_found z o g Hz Ho Hzo); [apply mirrored_coherent; apply S|apply S..|exact Hd|exact Hk|exact Hx].
Qed.
