(** Storage contents with texts, made by hand: a remark with the object
    [3 32 1] (bytes) and the property [1]; and a character whose chain never ends. *)
From stdpp Require Import gmap.
From Coq Require Import NArith ZArith Lia Ascii.
From Verif Require Import Base GoText Model1 Model2 Model3 Model4 Storage RefStorage RefProofs SpecText Spec SpecMachine SpecGuards SpecWalk SpecEntities SpecSpelling
  PlayProofs InitProofs LookupProofs SpellProofs Claims WalkCases.
Local Open Scope N_scope.

Definition letters : prog unit :=
  create_some 33;;;
  make_row 3 4 5 6;;; make_row 7 8 9 10;;;
  make_row 11 12 13 14;;; make_row 15 16 17 18;;;
  make_row 19 20 21 22;;; make_row 23 24 25 26;;; make_row 27 28 29 30;;; st_setref 31 32;;;
  st_connect 4 2;;; st_connect 8 2;;; st_connect 5 9;;;
  st_connect 12 6;;; st_connect 16 10;;;
  st_connect 20 18;;; st_connect 24 14;;; st_connect 21 25;;; st_connect 28 14;;;
  st_connect 26 31;;; st_connect 31 30;;; st_connect 32 33.
Definition letters_state : rstate := r_state (run (ref_storage ZStrict) letters [] (RState 1 empty_graph) None).
Definition letters_graph : graph := rs_graph letters_state.
Definition B_zero : bit_ent := BitEnt false 50 1.
Definition B_one : bit_ent := BitEnt true 51 2.
Definition R_letters : remark_ent := RemarkEnt 60 33 61 62.
Definition byte_text (l : list N) : text := map ascii_of_N l.

Lemma letters_rinv : rinv letters_state.
Proof.
  apply (run_exec ZStrict (ref_storage ZStrict) letters [] rinv rs_graph (RState 1 empty_graph) None false);
    [apply (ref_storage_stands ZStrict)|by intros _|apply (ref_storage_stands ZStrict)].
Qed.
Lemma letters_exec {A} fk (p : prog A) evs out : (fk = false → evs = []) →
  r_out (run (ref_storage ZStrict) p evs letters_state (Some (B_zero, B_one))) = out →
  ∃ g' m', exec ZStrict fk p letters_graph (Some (B_zero, B_one)) out g' m'.
Proof.
  intros Hf <-. eexists _, _.
  apply (run_exec ZStrict (ref_storage ZStrict) p evs rinv rs_graph letters_state (Some (B_zero, B_one)) fk);
    [apply (ref_storage_stands ZStrict)| |apply letters_rinv].
  intros e. destruct fk; [done|]. by rewrite Hf.
Qed.
Lemma letters_coherent : coherent letters_graph.
Proof.
  assert (H : map_Forall (λ x y, bwd letters_graph !! y = Some x ∧ x ∈ nodes letters_graph ∧ y ∈ nodes letters_graph) (fwd letters_graph))
    by (apply (bool_decide_unpack _); vm_compute; exact I).
  intros x y Hxy. apply (H x y Hxy).
Qed.
Lemma only_in g x y : filter (λ e, e.2 = x) (edges g) = {[ (y, x) ]} → only_neighbour Incoming g x y.
Proof.
  intros H z. cbn [near]. split.
  - intros Hz. assert (Hm : (z, x) ∈ filter (λ e : N * N, e.2 = x) (edges g)) by by apply elem_of_filter.
    rewrite H in Hm. apply elem_of_singleton in Hm. congruence.
  - intros ->. assert (Hm : (y, x) ∈ filter (λ e : N * N, e.2 = x) (edges g)) by (rewrite H; by apply elem_of_singleton).
    by apply elem_of_filter in Hm as [_ ?].
Qed.
Lemma none_in g x : set_Forall (λ e : N * N, e.2 ≠ x) (edges g) → no_neighbour Incoming g x.
Proof. intros H y Hy. by apply (H _ Hy). Qed.
Ltac out_now := apply only_out; apply (bool_decide_unpack _); vm_compute; exact I.
Ltac in_now := apply only_in; apply (bool_decide_unpack _); vm_compute; exact I.
Ltac none_now := apply none_in; apply (bool_decide_unpack _); vm_compute; exact I.
Ltac row_now := (repeat split); vm_compute; reflexivity.

Lemma letters_one : letter_at 1 2 letters_graph 6 (byte_text [1]) ∧ letter_at 1 2 letters_graph 10 (byte_text [3]).
Proof.
  assert (H1 : bits_at 1 2 letters_graph 5 [true]).
  { apply (bits_first 1 2 letters_graph 3 4 5 6 true); [row_now|out_now|none_now]. }
  split.
  - split; [apply U1; vm_compute; split; congruence|]. exists 3, 4, 5, [true]. split; [row_now|]. split; [exact H1|vm_compute; reflexivity].
  - split; [apply U1; vm_compute; split; congruence|]. exists 7, 8, 9, [true; true]. split; [row_now|]. split; [|vm_compute; reflexivity].
    apply (bits_next 1 2 letters_graph 7 8 9 10 true 5 [true]); [row_now|out_now|in_now|exact H1].
Qed.
Lemma letters_words : word_at 1 2 letters_graph 14 (byte_text [1]) ∧ word_at 1 2 letters_graph 18 (byte_text [3]).
Proof.
  destruct letters_one as [H1 H2]. split.
  - exists 11, 12, 13, [byte_text [1]]. split; [row_now|]. split; [|vm_compute; reflexivity].
    apply (letters_first 1 2 letters_graph 11 12 13 14 6); [row_now|out_now|exact H1|none_now].
  - exists 15, 16, 17, [byte_text [3]]. split; [row_now|]. split; [|vm_compute; reflexivity].
    apply (letters_first 1 2 letters_graph 15 16 17 18 10); [row_now|out_now|exact H2|none_now].
Qed.
Lemma letters_remark : remark_at 1 2 letters_graph 33 (byte_text [3; 32; 1]) (byte_text [1]).
Proof.
  destruct letters_words as [H1 H2].
  assert (H3 : words_at 1 2 letters_graph 21 [byte_text [3]]).
  { apply (words_first 1 2 letters_graph 19 20 21 22 18); [row_now|out_now|exact H2|none_now]. }
  split; [apply (bool_decide_unpack _); vm_compute; exact I|]. exists 32, 31, 26, 30.
  split; [in_now|]. split; [row_now|]. split; [in_now|]. split; [out_now|]. split.
  - exists 23, 24, 25, [byte_text [3]; byte_text [1]]. split; [row_now|]. split; [|vm_compute; reflexivity].
    apply (words_next 1 2 letters_graph 23 24 25 26 14 _ 21 [byte_text [3]]); [row_now|out_now|exact H1|in_now|exact H3].
  - exists 27, 28, 29, [byte_text [1]]. split; [row_now|]. split; [|vm_compute; reflexivity].
    apply (words_first 1 2 letters_graph 27 28 29 30 14); [row_now|out_now|exact H1|none_now].
Qed.

(** * A chain that never ends *)
Definition ring : prog unit :=
  create_some 6;;; make_row 3 4 5 6;;; st_connect 4 2;;; st_connect 5 5.
Definition ring_graph : graph := rs_graph (r_state (run (ref_storage ZStrict) ring [] (RState 1 empty_graph) None)).
Lemma ring_coherent : coherent ring_graph.
Proof.
  assert (H : map_Forall (λ x y, bwd ring_graph !! y = Some x ∧ x ∈ nodes ring_graph ∧ y ∈ nodes ring_graph) (fwd ring_graph))
    by (apply (bool_decide_unpack _); vm_compute; exact I).
  intros x y Hxy. apply (H x y Hxy).
Qed.
Lemma ring_row : row ring_graph [3; 4; 5; 6].
Proof. row_now. Qed.
Lemma ring_edges : only_neighbour Outgoing ring_graph 4 2 ∧ comes_after ring_graph 5 5.
Proof. split; [out_now|in_now]. Qed.

Section ring.
  Context (zp : zpolicy).
  Notation exec := (exec zp false).
  Notation sure := (sure (zp:=zp) (fk:=false) B_zero B_one ring_graph).
  Definition never {A} (p : prog A) : Prop := ∀ out g1 m1, exec p ring_graph (Some (B_zero, B_one)) out g1 m1 → out = ODiverge.
  Lemma never_bind {A B} (p : prog A) (f : A → prog B) v : sure p v → never (f v) → never (x <- p;; f x).
  Proof.
    intros Hp Hf out g1 m1 Hx. apply exec_bind_any in Hx as [(a&g2&m2&Hc&Hx)|(Ho1&o'&Hc&Ho')]; apply Hp in Hc as (->&->&[Ha Hb]).
    - rewrite (Hb a eq_refl) in Hx. by eapply Hf.
    - by destruct (Ho' v); apply Ha.
  Qed.
  Lemma never_try {A B} (p : prog A) (f : A → prog B) v : sure p v → never (f v) → never (r <- try p;; x <- deref (nil_on_err r);; f x).
  Proof.
    intros Hp Hf out g1 m1 Hx. apply exec_bind_any in Hx as [(r&g2&m2&Hc&Hx)|(Ho1&o'&Hc&Ho')];
      apply exec_try in Hc as (o2&Hc&Ho2); apply Hp in Hc as (->&->&[Ha Hb]); specialize (Ha eq_refl); subst o2.
    - injection Ho2 as ->. by eapply Hf.
    - by destruct (Ho' (Ok v)).
  Qed.
  Lemma ring_bit : sure (char_extract_bit_value (Some (CharEnt 3 4 5 6))) true.
  Proof.
    apply sure_digit; [done..|exact ring_coherent|exact ring_row|apply ring_edges].
  Qed.
  Lemma never_left {A B} (p : prog A) (f : A → prog B) : never p → never (x <- p;; f x).
  Proof.
    unfold never. generalize ring_graph (Some (B_zero, B_one)). induction p as [a|e| | |c k IH|k IH|m' k IH]; intros g m Hp out g1 m1 Hx; cbn [bind] in Hx.
    - by specialize (Hp _ _ _ (ExRet _ _ _ _ _)).
    - by specialize (Hp _ _ _ (ExThrow _ _ _ _ _)).
    - by specialize (Hp _ _ _ (ExPanic _ _ _ _)).
    - by inversion Hx.
    - apply exec_call_any in Hx as [(r&g2&Hc&Hx)|[[Hf Hx]|(Hf&_)]]; [|done..].
      eapply IH; [|exact Hx]. intros out2 g3 m3 Hx2. eapply Hp. by eapply ExCall.
    - inversion Hx; subst. eapply IH; [|eassumption]. intros out2 g3 m3 Hx2. eapply Hp. by constructor.
    - inversion Hx; subst. eapply IH; [|eassumption]. intros out2 g3 m3 Hx2. eapply Hp. by constructor.
  Qed.
  Lemma ring_loop fuel path : never (char_extract_loop fuel (Some (CharEnt 3 4 5 6)) path).
  Proof.
    assert (Hn : 5 ∈ nodes ring_graph) by (apply (bool_decide_unpack _); vm_compute; exact I).
    destruct (sure_source (zp:=zp) (fk:=false) B_zero B_one ring_graph 5 5 ECharSources Hn (proj2 ring_edges)) as [H1 H2].
    revert path. induction fuel as [|fuel IH]; intros path; [intros out g1 m1 Hx; by inversion Hx|].
    cbn [char_extract_loop]. eapply never_bind; [exact H1|]. cbn [negb]. eapply never_try.
    { unfold char_get_previous_element. cbn [deref bind]. eapply sure_bind; [exact H2|].
      eapply sure_bind; [eapply sure_read; [exact ring_coherent|constructor|exact ring_row]|apply sure_ret]. }
    eapply never_bind; [exact ring_bit|]. apply IH.
  Qed.
  Lemma ring_never fuel : never (char_extract fuel (Some (CharEnt 3 4 5 6))).
  Proof. unfold char_extract. eapply never_bind; [exact ring_bit|]. apply never_left, ring_loop. Qed.
End ring.
Lemma ring_endless : ∃ g z o a b x d, coherent g ∧ be_value z = false ∧ be_value o = true ∧ be_char z ≠ be_char o ∧
  row g [a; b; x; d] ∧ only_neighbour Outgoing g b (be_char o) ∧ comes_after g x x ∧
  ∀ zp fuel out g' m', exec zp false (char_extract fuel (Some (CharEnt a b x d))) g (Some (z, o)) out g' m' → out = ODiverge.
Proof.
  exists ring_graph, B_zero, B_one, 3, 4, 5, 6.
  split; [exact ring_coherent|]. split; [done|]. split; [done|]. split; [done|]. split; [exact ring_row|].
  split; [apply ring_edges|]. split; [apply ring_edges|]. intros zp fuel out g' m' Hx. by eapply ring_never.
Qed.

(** * A second detail *)
Lemma letters_mirrored : mirrored letters_graph.
Proof.
  assert (H : map_Forall (λ x y, bwd letters_graph !! y = Some x ∧ x ∈ nodes letters_graph ∧ y ∈ nodes letters_graph) (fwd letters_graph))
    by (apply (bool_decide_unpack _); vm_compute; exact I).
  assert (H' : map_Forall (λ y x, fwd letters_graph !! x = Some y) (bwd letters_graph))
    by (apply (bool_decide_unpack _); vm_compute; exact I).
  intros x y. split; [split|]; [intros Hx; apply (H x y Hx)|apply H'|intros Hx; apply (H x y Hx)].
Qed.
Definition P_object : phrase_ent := PhraseEnt 23 24 25 26.
Definition P_property : phrase_ent := PhraseEnt 27 28 29 30.
Lemma letters_joint z : joint_detail letters_graph P_object P_property z ↔ z = 31.
Proof.
  assert (H : only_neighbour Outgoing letters_graph 26 31) by out_now. split.
  - intros [Hz _]. by apply H.
  - intros ->. split; apply (bool_decide_unpack _); vm_compute; exact I.
Qed.
Lemma second_detail : ¬ ∀ fk o p d g m e g' m', mirrored g → detailIdentifier ∈ nodes g → pe_detail o ∈ nodes g → pe_detail p ∈ nodes g →
  (∀ z, joint_detail g o p z ↔ z = d) → exec ZStrict fk (detail_provide_entity o p) g m (OOk e) g' m' → de_phrase e = d.
Proof.
  intros H. destruct (letters_exec true (detail_provide_entity P_object P_property) [Normal; Fault] (OOk (DetailEnt 46 48 51)))
    as (g'&m'&Hx); [done|vm_compute; reflexivity|].
  assert (de_phrase (DetailEnt 46 48 51) = 31); [|done].
  eapply H; [exact letters_mirrored| | | |exact letters_joint|exact Hx]; apply (bool_decide_unpack _); vm_compute; exact I.
Qed.
