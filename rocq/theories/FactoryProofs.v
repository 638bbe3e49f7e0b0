(** What the factories of characters, words and phrases make or find. *)
From stdpp Require Import gmap.
From Coq Require Import NArith ZArith Lia.
From Verif Require Import Base GoText Model1 Model2 Model3 Model4 Storage Spec SpecMoments SpecGuards SpecWalk SpecEntities SpecFactories Inv DetailProofs
  HistoryProofs InitProofs GuardProofs LookupProofs WriteProofs StoryWrites.
Local Open Scope nat_scope.

Section factories.
  Context {zp : zpolicy} {fk : bool}.
  Notation exec := (exec zp fk).

  Lemma step_targets {B} (f : list N → prog B) x g m out g' m' : valid zp g x → exec (l <- st_targets x;; f l) g m out g' m' →
    (∃ l, NoDup l ∧ (∀ z, z ∈ l ↔ near Outgoing g x z) ∧ exec (f l) g m out g' m') ∨
    g' = g ∧ m' = m ∧ fk = true ∧ ∀ b, out ≠ OOk b.
  Proof.
    intros Hv Hx. apply exec_call_any in Hx as [(r&g1&[Hc _]&Hx)|[[? Hx]|(?&->&->&->)]].
    - destruct (Hc Hv) as (l&->&Hnd&Hl&->). left. exists l. split_and!; done.
    - cbn [bind of_res] in Hx. apply exec_throw_any in Hx as (->&->&->). by right.
    - by right.
  Qed.

  Definition head_of {A} (second : A → N) (h : N → N → N → N → A) (tie_back : N → prog unit) (read : N → prog A) asked x k er : prog A :=
    has <- (l <- st_targets asked;; zero_or_one er l);;
    if negb has then
      c <- class_new k;; e <- make_four (h c) c;;
      st_connect (second e) x;;; tie_back (second e);;; Ret e
    else t <- (l <- st_targets x;; single er l);; read t.

  Lemma head_of_new {A} rowof second (h : N → N → N → N → A) tie_back read asked x k er g m out g' m' :
    (∀ c a b d, second (h c a b d) = a ∧ rowof (h c a b d) = [c; a; b; d]) →
    (∀ B (f : prog B) a g1 out1 g1' m1, mirrored g1 → x ∈ nodes g1 → a ∈ nodes g1 → (asked = x → no_neighbour Outgoing g1 x) →
      exec (tie_back a;;; f) g1 m out1 g1' m1 →
      (∃ g2, enlarged [] [(x, a)] [] g1 g2 ∧ exec f g2 m out1 g1' m1) ∨ broken_off (fk:=fk) g1 g1' m m1 out1) →
    mirrored g → asked ∈ nodes g → x ∈ nodes g → valid zp g k → no_neighbour Outgoing g asked →
    exec (head_of second h tie_back read asked x k er) g m out g' m' → brings fk (new_head rowof k x g) g m out g' m'.
  Proof.
    intros Hh Ht Hg Ha Hxn Hk Hno Hx. unfold head_of in Hx. apply exec_assoc, step_targets in Hx as [(l&Hnd&Hl&Hx)|(->&->&?&?)]; [| |by left].
    2: { by apply brings_cut, broken_here. }
    apply (list_none l _ Hl) in Hno as Hl0. subst l. cbn [zero_or_one bind negb] in Hx.
    apply (step_entity h) in Hx as [(c&a&b&d&g1&E1&Hx)|Hb]; [|by apply brings_cut|done..].
    destruct (Hh c a b d) as [Hs Hrow]. rewrite Hs in Hx. pose proof (en_mirrored _ _ _ _ _ E1) as Hg1.
    assert (Hold : ∀ y, y ∈ nodes g → y ∈ nodes g1) by (intros y Hy; apply (en_nodes _ _ _ _ _ E1); by left).
    assert (Ha1 : a ∈ nodes g1) by (apply (en_nodes _ _ _ _ _ E1); right; rewrite !elem_of_cons; tauto).
    apply step_tie in Hx as [(g2&E2&Hx)|Hb]; [|by apply brings_cut; [|eapply broken_trans]|done|left; auto|left; auto].
    pose proof (en_mirrored _ _ _ _ _ E2) as Hg2. pose proof (enlarged_trans _ _ _ _ _ _ _ _ _ E1 E2) as E3. cbn [app] in E3.
    apply Ht in Hx as [(g3&E4&Hx)|Hb]; [|by apply brings_cut; [|eapply broken_trans]|done| | |].
    - pose proof (enlarged_trans _ _ _ _ _ _ _ _ _ E3 E4) as E5. cbn [app] in E5.
      apply exec_ret_any in Hx as (->&->&->). eapply brings_done; [done|exact E5|].
      exists (h c a b d), c, a, b, d. split_and!; [done|done|]. exact E5.
    - apply (en_nodes _ _ _ _ _ E3). by left.
    - apply (en_nodes _ _ _ _ _ E2). by left.
    - intros -> y Hy. unfold near in Hy. apply (en_edges _ _ _ _ _ E3) in Hy as [Hy|Hy]; [by apply (Hno y)|].
      rewrite !elem_of_cons, elem_of_nil in Hy. destruct Hy as [[= -> _]|[[= -> _]|[]]];
        (eapply (en_new _ _ _ _ _ E1); [|exact Hxn]; rewrite !elem_of_cons; tauto).
  Qed.

  Lemma surely_ask {B} (f : bool → prog B) asked er z g m out g' m' : valid zp g asked → only_neighbour Outgoing g asked z →
    exec (has <- (l <- st_targets asked;; zero_or_one er l);; f has) g m out g' m' →
    exec (f true) g m out g' m' ∨ g' = g ∧ m' = m ∧ fk = true ∧ ∀ b, out ≠ OOk b.
  Proof.
    intros Hv Hz Hx. apply exec_assoc, step_targets in Hx as [(l&Hnd&Hl&Hx)|?]; [|by right|done].
    apply (list_one l _ z Hnd Hl) in Hz as ->. by left.
  Qed.

  Lemma head_of_found {A} second (h : N → N → N → N → A) tie_back read asked x k er y z e g m out g' m' :
    valid zp g asked → valid zp g x → only_neighbour Outgoing g asked z → only_neighbour Outgoing g x y →
    surely (zp:=zp) (fk:=fk) (read y) g e →
    exec (head_of second h tie_back read asked x k er) g m out g' m' → g' = g ∧ m' = m ∧ answers fk out e.
  Proof.
    intros Ha Hv Hz Hy Hr Hx. unfold head_of in Hx. apply (surely_ask _ _ _ z) in Hx as [Hx|(->&->&?&?)]; [| |done..].
    2: { split_and!; [done..|]. split; [congruence|naive_solver]. }
    cbn [negb] in Hx. apply exec_assoc, step_targets in Hx as [(l&Hnd&Hl&Hx)|(->&->&?&?)]; [| |done].
    2: { split_and!; [done..|]. split; [congruence|naive_solver]. }
    apply (list_one l _ y Hnd Hl) in Hy as ->. cbn [single bind] in Hx. by eapply Hr.
  Qed.

  Lemma head_of_crowded {A} second (h : N → N → N → N → A) tie_back read asked x k er g m out g' m' :
    valid zp g asked → valid zp g x → (∃ z, near Outgoing g asked z) →
    (∀ z, ¬ only_neighbour Outgoing g asked z) ∨ (∀ y, ¬ only_neighbour Outgoing g x y) →
    exec (head_of second h tie_back read asked x k er) g m out g' m' → g' = g ∧ m' = m ∧ refuses fk out er.
  Proof.
    intros Ha Hv [w Hw] Hno Hx. unfold head_of in Hx. apply exec_assoc, step_targets in Hx as [(l&Hnd&Hl&Hx)|(->&->&?&?)]; [| |done].
    2: { split_and!; [done..|]. split; [congruence|done]. }
    destruct l as [|a [|b l]]; [by apply Hl, elem_of_nil in Hw| |]; cbn [zero_or_one bind negb] in Hx.
    - destruct Hno as [Hno|Hno]; [by destruct (Hno a (proj2 (list_one [a] _ a Hnd Hl) eq_refl))|].
      apply exec_assoc, step_targets in Hx as [(l&Hnd'&Hl'&Hx)|(->&->&?&?)]; [| |done].
      2: { split_and!; [done..|]. split; [congruence|done]. }
      destruct l as [|a' [|b' l]]; cbn [single bind] in Hx; [| |by apply exec_throw_any in Hx as (->&->&->); split_and!].
      + by apply exec_throw_any in Hx as (->&->&->); split_and!.
      + by destruct (Hno a' (proj2 (list_one [a'] _ a' Hnd' Hl') eq_refl)).
    - by apply exec_throw_any in Hx as (->&->&->); split_and!.
  Qed.

  Lemma tie_plain x asked m g0 : ∀ B (f : prog B) a g1 out1 g1' m1, mirrored g1 → x ∈ nodes g1 → a ∈ nodes g1 →
    (asked = x → no_neighbour Outgoing g1 g0) → exec (st_connect x a;;; f) g1 m out1 g1' m1 →
    (∃ g2, enlarged [] [(x, a)] [] g1 g2 ∧ exec f g2 m out1 g1' m1) ∨ broken_off (fk:=fk) g1 g1' m m1 out1.
  Proof. intros B f a g1 out1 g1' m1 Hg Hx Ha _ He. eapply step_tie; [done|by left|by left|exact He]. Qed.

  Lemma tie_bit e m : ∀ B (f : prog B) a g1 out1 g1' m1, mirrored g1 → be_char e ∈ nodes g1 → a ∈ nodes g1 →
    (be_char e = be_char e → no_neighbour Outgoing g1 (be_char e)) → exec (bit_point_to_character e a;;; f) g1 m out1 g1' m1 →
    (∃ g2, enlarged [] [(be_char e, a)] [] g1 g2 ∧ exec f g2 m out1 g1' m1) ∨ broken_off (fk:=fk) g1 g1' m m1 out1.
  Proof.
    intros B f a g1 out1 g1' m1 Hg Hx Ha Hno He. unfold bit_point_to_character in He.
    apply exec_assoc, step_targets in He as [(l&Hnd&Hl&He)|(->&->&?&?)]; [| |by left].
    - specialize (Hno eq_refl). apply (list_none l _ Hl) in Hno as ->. eapply step_tie; [done|by left|by left|exact He].
    - right. by apply broken_here.
  Qed.

  Theorem heads_new A p asked x k er (rowof : A → list N) g m out g' m' : heads A p asked x k er rowof →
    mirrored g → asked ∈ nodes g → x ∈ nodes g → valid zp g k → no_neighbour Outgoing g asked →
    exec p g m out g' m' → brings fk (new_head rowof k x g) g m out g' m'.
  Proof.
    intros Hp Hg Ha Hxn Hk Hno Hx. destruct Hp as [b|c|w].
    - eapply (head_of_new char_row ce_bit CharEnt (bit_point_to_character b) char_read_by_bit (be_char b) (be_char b) characterIdentifier EBitTargets);
        [by intros; split|apply tie_bit|done..|exact Hx].
    - eapply (head_of_new word_row we_char WordEnt (st_connect (ce_word c)) word_read_by_character (ce_char c) (ce_word c) wordIdentifier ECharTargetWords);
        [by intros; split|apply tie_plain|done..|exact Hx].
    - eapply (head_of_new phrase_row pe_word PhraseEnt (st_connect (we_phrase w)) phrase_read_by_word (we_phrase w) (we_phrase w) phraseIdentifier EWordTargetPhrases);
        [by intros; split|apply tie_plain|done..|exact Hx].
  Qed.

  Theorem heads_found A p asked x k er (rowof : A → list N) e c b d y z g m out g' m' : heads A p asked x k er rowof →
    coherent g → valid zp g asked → valid zp g x → only_neighbour Outgoing g asked z → only_neighbour Outgoing g x y →
    rowof e = [c; y; b; d] → row g [c; y; b; d] →
    exec p g m out g' m' → g' = g ∧ m' = m ∧ answers fk out e.
  Proof.
    intros Hp Hg Ha Hv Hz Hy He Hr Hx. destruct Hp as [bt|ch|w]; destruct e as [e1 e2 e3 e4]; injection He as -> -> -> ->.
    - eapply (head_of_found ce_bit CharEnt (bit_point_to_character bt) char_read_by_bit (be_char bt) (be_char bt) characterIdentifier EBitTargets y z);
        [done..| |exact Hx]. eapply surely_finds; [done|constructor|exact Hr].
    - eapply (head_of_found we_char WordEnt (st_connect (ce_word ch)) word_read_by_character (ce_char ch) (ce_word ch) wordIdentifier ECharTargetWords y z);
        [done..| |exact Hx]. eapply surely_finds; [done|constructor|exact Hr].
    - eapply (head_of_found pe_word PhraseEnt (st_connect (we_phrase w)) phrase_read_by_word (we_phrase w) (we_phrase w) phraseIdentifier EWordTargetPhrases y z);
        [done..| |exact Hx]. eapply surely_finds; [done|constructor|exact Hr].
  Qed.

  Theorem heads_crowded A p asked x k er (rowof : A → list N) g m out g' m' : heads A p asked x k er rowof →
    valid zp g asked → valid zp g x → (∃ z, near Outgoing g asked z) →
    (∀ z, ¬ only_neighbour Outgoing g asked z) ∨ (∀ y, ¬ only_neighbour Outgoing g x y) →
    exec p g m out g' m' → g' = g ∧ m' = m ∧ refuses fk out er.
  Proof.
    intros Hp Ha Hv Hw Hno Hx. destruct Hp as [bt|ch|w].
    - by eapply (head_of_crowded ce_bit CharEnt (bit_point_to_character bt) char_read_by_bit (be_char bt) (be_char bt) characterIdentifier EBitTargets).
    - by eapply (head_of_crowded we_char WordEnt (st_connect (ce_word ch)) word_read_by_character (ce_char ch) (ce_word ch) wordIdentifier ECharTargetWords).
    - by eapply (head_of_crowded pe_word PhraseEnt (st_connect (we_phrase w)) phrase_read_by_word (we_phrase w) (we_phrase w) phraseIdentifier EWordTargetPhrases).
  Qed.

  Definition tail_of {A} (second third : A → N) (h : N → N → N → N → A) x y k : prog A :=
    c <- class_new k;; e <- make_four (h c) c;; st_connect (second e) x;;; st_connect y (third e);;; Ret e.
  Lemma tail_of_new {A} rowof second third (h : N → N → N → N → A) x y k g m out g' m' :
    (∀ c a b d, second (h c a b d) = a ∧ third (h c a b d) = b ∧ rowof (h c a b d) = [c; a; b; d]) →
    mirrored g → valid zp g x → valid zp g y → valid zp g k →
    exec (tail_of second third h x y k) g m out g' m' → brings fk (new_tail rowof k x y g) g m out g' m'.
  Proof.
    intros Hh Hg Hxn Hy Hk Hx. unfold tail_of in Hx.
    apply (step_entity h) in Hx as [(c&a&b&d&g1&E1&Hx)|Hb]; [|by apply brings_cut|done..].
    destruct (Hh c a b d) as (Hs&Ht&Hrow). rewrite Hs, Ht in Hx. pose proof (en_mirrored _ _ _ _ _ E1) as Hg1.
    assert (Hold : ∀ n e r g0 v, enlarged n e r g g0 → valid zp g v → valid zp g0 v).
    { intros n e r g0 v E [Hv|?]; [left; apply (en_nodes _ _ _ _ _ E); by left|by right]. }
    apply step_tie in Hx as [(g2&E2&Hx)|Hb]; [|by apply brings_cut; [|eapply broken_trans]|done| |by eapply Hold].
    2: { left. apply (en_nodes _ _ _ _ _ E1). right. rewrite !elem_of_cons. tauto. }
    pose proof (en_mirrored _ _ _ _ _ E2) as Hg2. pose proof (enlarged_trans _ _ _ _ _ _ _ _ _ E1 E2) as E3. cbn [app] in E3.
    apply step_tie in Hx as [(g3&E4&Hx)|Hb]; [|by apply brings_cut; [|eapply broken_trans]|done|by eapply Hold|].
    2: { left. apply (en_nodes _ _ _ _ _ E3). right. rewrite !elem_of_cons. tauto. }
    pose proof (enlarged_trans _ _ _ _ _ _ _ _ _ E3 E4) as E5. cbn [app] in E5.
    apply exec_ret_any in Hx as (->&->&->). eapply brings_done; [done|exact E5|].
    exists (h c a b d), c, a, b, d. split_and!; [done|done|]. exact E5.
  Qed.
  Theorem tails_new A p x y k (rowof : A → list N) g m out g' m' : tails A p x y k rowof →
    mirrored g → valid zp g x → valid zp g y → valid zp g k →
    exec p g m out g' m' → brings fk (new_tail rowof k x y g) g m out g' m'.
  Proof.
    intros Hp Hg Hx Hy Hk He. destruct Hp as [b e|c e|w e].
    - by eapply (tail_of_new char_row ce_bit ce_char CharEnt).
    - by eapply (tail_of_new word_row we_char we_word WordEnt).
    - by eapply (tail_of_new phrase_row pe_word pe_phrase PhraseEnt).
  Qed.

  Lemma step_try_sources {B} (f : res (list N) → prog B) x g m out g' m' : valid zp g x → exec (l <- try (st_sources x);; f l) g m out g' m' →
    (∃ l, NoDup l ∧ (∀ z, z ∈ l ↔ near Incoming g x z) ∧ exec (f (Ok l)) g m out g' m') ∨
    (fk = true ∧ exec (f (Err EStorage)) g m out g' m') ∨
    g' = g ∧ m' = m ∧ fk = true ∧ ∀ b, out ≠ OOk b.
  Proof.
    intros Hv Hx. apply exec_call_any in Hx as [(r&g1&[Hc _]&Hx)|[[? Hx]|(?&->&->&->)]].
    - destruct (Hc Hv) as (l&->&Hnd&Hl&->). left. exists l. split_and!; done.
    - right. left. done.
    - by right; right.
  Qed.

  (** A new node has no references. *)
  Lemma enlarged_free n e g g' : mirrored g → enlarged n e [] g g' → ∀ a, a ∈ n →
    a ∈ nodes g' ∧ (∀ b, fwd g' !! a ≠ Some b) ∧ ∀ b, fwd g' !! b ≠ Some a.
  Proof.
    intros Hg E a Ha. pose proof (en_new _ _ _ _ _ E a Ha) as Hna. split_and!.
    - apply (en_nodes _ _ _ _ _ E). by right.
    - intros b [H|H%elem_of_nil]%(en_fwd _ _ _ _ _ E); [|done]. apply Hna. by apply (proj2 (Hg a b)).
    - intros b. exact (enlarged_nothing_refers _ _ g g' b a Hg E Ha).
  Qed.

  Theorem detail_made o p g m out g' m' : mirrored g → valid zp g detailIdentifier → valid zp g (pe_detail o) → valid zp g (pe_detail p) →
    exec (detail_create_entity o p) g m out g' m' → brings fk (new_detail o p g) g m out g' m'.
  Proof.
    intros Hg Hk Ho Hp Hx. unfold detail_create_entity, phrase_add_target_detail, phrase_add_source_detail in Hx.
    assert (Hold : ∀ n e r g0 v, enlarged n e r g g0 → valid zp g v → valid zp g0 v).
    { intros n e r g0 v E [Hv|?]; [left; apply (en_nodes _ _ _ _ _ E); by left|by right]. }
    apply step_class in Hx as [(c&g1&E1&Hx)|Hb]; [|by apply brings_cut|done..]. pose proof (en_mirrored _ _ _ _ _ E1) as Hg1.
    apply step_make in Hx as [(x&g2&E2&Hx)|Hb]; [|by apply brings_cut; [|eapply broken_trans]|done].
    pose proof (en_mirrored _ _ _ _ _ E2) as Hg2. pose proof (enlarged_trans _ _ _ _ _ _ _ _ _ E1 E2) as E3. cbn [app] in E3. clear E1 E2.
    assert (Hx2 : x ∈ nodes g2) by (apply (en_nodes _ _ _ _ _ E3); right; rewrite !elem_of_cons; tauto).
    apply step_tie in Hx as [(g3&E4&Hx)|Hb]; [|by apply brings_cut; [|eapply broken_trans]|done|by eapply Hold|by left].
    pose proof (en_mirrored _ _ _ _ _ E4) as Hg3. pose proof (enlarged_trans _ _ _ _ _ _ _ _ _ E3 E4) as E5. cbn [app] in E5. clear E3 E4.
    apply step_tie in Hx as [(g4&E6&Hx)|Hb]; [|by apply brings_cut; [|eapply broken_trans]|done| |by eapply Hold].
    2: { left. apply (en_nodes _ _ _ _ _ E5). right. rewrite !elem_of_cons. tauto. }
    pose proof (en_mirrored _ _ _ _ _ E6) as Hg4. pose proof (enlarged_trans _ _ _ _ _ _ _ _ _ E5 E6) as E7. cbn [app] in E7. clear E5 E6.
    apply step_make in Hx as [(y&g5&E8&Hx)|Hb]; [|by apply brings_cut; [|eapply broken_trans]|done].
    pose proof (en_mirrored _ _ _ _ _ E8) as Hg5. pose proof (enlarged_trans _ _ _ _ _ _ _ _ _ E7 E8) as E. cbn [app] in E. clear E7 E8.
    pose proof (enlarged_free _ _ _ _ Hg E) as Hfree. pose proof (en_distinct _ _ _ _ _ E) as Hnd.
    rewrite !NoDup_cons, !elem_of_cons, !elem_of_nil in Hnd.
    assert (Hne : c ≠ x ∧ c ≠ y ∧ x ≠ y) by naive_solver. destruct Hne as (Hcx&Hcy&Hxy). clear Hnd.
    destruct (Hfree c) as (Nc&Fc&Bc); [rewrite !elem_of_cons; tauto|].
    destruct (Hfree x) as (Nx&Fx&Bx); [rewrite !elem_of_cons; tauto|].
    destruct (Hfree y) as (Ny&Fy&By); [rewrite !elem_of_cons; tauto|].
    apply step_refer in Hx as [(g6&E9&Hx)|Hb]; [|by apply brings_cut; [|eapply broken_trans]|done..].
    pose proof (en_mirrored _ _ _ _ _ E9) as Hg6. pose proof (enlarged_trans _ _ _ _ _ _ _ _ _ E E9) as E10. cbn [app] in E10.
    assert (F6 : ∀ a b, fwd g6 !! a = Some b ↔ fwd g5 !! a = Some b ∨ a = c ∧ b = x).
    { intros a b. rewrite (en_fwd _ _ _ _ _ E9), elem_of_list_singleton, pair_equal_spec. done. }
    apply step_refer in Hx as [(g7&E11&Hx)|Hb]; [|by apply brings_cut; [|eapply broken_trans]|done|..].
    - pose proof (enlarged_trans _ _ _ _ _ _ _ _ _ E10 E11) as E12. cbn [app] in E12.
      apply exec_ret_any in Hx as (->&->&->). eapply brings_done; [done|exact E12|]. exists c, x, y. split; [done|exact E12].
    - apply (en_nodes _ _ _ _ _ E9). by left.
    - apply (en_nodes _ _ _ _ _ E9). by left.
    - intros b [H|[-> _]]%F6; [by apply (Fx b)|done].
    - intros b [H|[_ H]]%F6; [by apply (By b)|done].
  Qed.

  Theorem detail_new o p g m out g' m' : mirrored g → valid zp g detailIdentifier → valid zp g (pe_detail o) → valid zp g (pe_detail p) →
    (∀ d, ¬ joint_detail g o p d) →
    exec (detail_provide_entity o p) g m out g' m' → brings fk (new_detail o p g) g m out g' m'.
  Proof.
    intros Hg Hk Ho Hp Hno Hx. unfold detail_provide_entity, phrase_get_target_details, phrase_get_source_details in Hx.
    apply step_targets in Hx as [(ts&Hnt&Hts&Hx)|(->&->&?&?)]; [| |done].
    2: { by apply brings_cut, broken_here. }
    apply step_try_sources in Hx as [(ss&Hns&Hss&Hx)|[[_ Hx]|(->&->&?&?)]]; [| | |done].
    - cbv beta iota zeta in Hx. destruct (common_details ts ss) as [|d l] eqn:E; [by eapply detail_made|].
      assert (Hd : d ∈ common_details ts ss) by (rewrite E; apply elem_of_list_here).
      rewrite elem_common in Hd. destruct Hd as [H1%Hts H2%Hss]. by destruct (Hno d).
    - cbv beta iota zeta in Hx. replace (common_details ts []) with (@nil N) in Hx; [by eapply detail_made|].
      clear. unfold common_details. induction ts as [|t ts IH]; [done|]. cbn [flat_map filter List.filter app]. exact IH.
    - by apply brings_cut, broken_here.
  Qed.
End factories.
