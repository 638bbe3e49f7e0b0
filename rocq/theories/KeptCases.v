(** Storage contents made by hand, in which texts are found: the characters 1, 2, 3
    and 6, the words [3], [3 2] and [3 6] (bytes), and the phrases [3 2], [3 2 32 3],
    [3 2 32 3 6] and [3], with a detail of the second and the last. *)
From stdpp Require Import gmap.
From Coq Require Import NArith ZArith Lia Ascii.
From Verif Require Import Base GoText Model1 Model2 Model3 Model4 Storage RefStorage RefProofs SpecText Spec SpecMachine SpecGuards SpecWalk SpecEntities SpecSpelling SpecKept
  PlayProofs InitProofs LookupProofs SpellProofs Claims WalkCases SpellCases.
Local Open Scope N_scope.

Definition keeping : prog unit :=
  create_some 49;;;
  make_row 3 4 5 6;;; make_row 7 8 9 10;;; make_row 11 12 13 14;;; make_row 15 16 17 18;;;
  make_row 19 20 21 22;;; make_row 23 24 25 26;;; make_row 27 28 29 30;;;
  make_row 31 32 33 34;;; make_row 35 36 37 38;;; make_row 39 40 41 42;;; make_row 43 44 45 46;;;
  st_setref 47 48;;; st_setref 48 49;;;
  st_connect 2 4;;; st_connect 4 2;;; st_connect 5 9;;; st_connect 8 2;;; st_connect 5 13;;; st_connect 12 1;;;
  st_connect 9 17;;; st_connect 16 1;;;
  st_connect 10 20;;; st_connect 20 10;;; st_connect 21 25;;; st_connect 24 14;;; st_connect 21 29;;; st_connect 28 18;;;
  st_connect 26 32;;; st_connect 32 26;;; st_connect 33 37;;; st_connect 36 22;;; st_connect 33 41;;; st_connect 40 30;;;
  st_connect 22 44;;; st_connect 44 22;;;
  st_connect 38 48;;; st_connect 48 46.
Definition kept_state : rstate := r_state (run (ref_storage ZStrict) keeping [] (RState 1 empty_graph) None).
Definition kept_graph : graph := rs_graph kept_state.
Definition K_char : char_ent := CharEnt 7 8 9 10.
Definition K_word : word_ent := WordEnt 23 24 25 26.
Definition K_object : phrase_ent := PhraseEnt 35 36 37 38.
Definition K_property : phrase_ent := PhraseEnt 43 44 45 46.
Definition K_detail : detail_ent := DetailEnt 47 48 49.

Lemma kept_rinv : rinv kept_state.
Proof.
  apply (run_exec ZStrict (ref_storage ZStrict) keeping [] rinv rs_graph (RState 1 empty_graph) None false);
    [apply (ref_storage_stands ZStrict)|by intros _|apply (ref_storage_stands ZStrict)].
Qed.
Lemma kept_exec {A} fk (p : prog A) evs out : (fk = false → evs = []) →
  r_out (run (ref_storage ZStrict) p evs kept_state (Some (B_zero, B_one))) = out →
  ∃ g' m', exec ZStrict fk p kept_graph (Some (B_zero, B_one)) out g' m'.
Proof.
  intros Hf <-. eexists _, _.
  apply (run_exec ZStrict (ref_storage ZStrict) p evs rinv rs_graph kept_state (Some (B_zero, B_one)) fk);
    [apply (ref_storage_stands ZStrict)| |apply kept_rinv].
  intros e. destruct fk; [done|]. by rewrite Hf.
Qed.
Lemma kept_mirrored : mirrored kept_graph.
Proof.
  assert (H : map_Forall (λ x y, bwd kept_graph !! y = Some x ∧ x ∈ nodes kept_graph ∧ y ∈ nodes kept_graph) (fwd kept_graph))
    by (apply (bool_decide_unpack _); vm_compute; exact I).
  assert (H' : map_Forall (λ y x, fwd kept_graph !! x = Some y) (bwd kept_graph))
    by (apply (bool_decide_unpack _); vm_compute; exact I).
  intros x y. split; [split|]; [intros Hx; apply (H x y Hx)|apply H'|intros Hx; apply (H x y Hx)].
Qed.
Lemma kept_nodes : 1 ∈ nodes kept_graph ∧ 2 ∈ nodes kept_graph ∧ detailIdentifier ∈ nodes kept_graph ∧ 48 ∈ nodes kept_graph.
Proof. repeat split; apply (bool_decide_unpack _); vm_compute; exact I. Qed.
Lemma two_out g x (y z : N) : filter (λ e, e.1 = x) (edges g) = {[ (x, y); (x, z) ]} → ∀ c, near Outgoing g x c → c = y ∨ c = z.
Proof.
  intros H c Hc. assert (Hm : (x, c) ∈ filter (λ e : N * N, e.1 = x) (edges g)) by by apply elem_of_filter.
  rewrite H in Hm. apply elem_of_union in Hm as [Hm|Hm]; apply elem_of_singleton in Hm; [left|right]; congruence.
Qed.
Ltac near_now := cbn [near]; apply (bool_decide_unpack _); vm_compute; exact I.

Lemma kept_char : letter_kept 1 2 kept_graph 7 8 9 10 (byte_text [3]).
Proof.
  split; [apply U1; vm_compute; split; congruence|]. exists [true; true]. split; [split; [vm_compute; reflexivity|right; by eexists]|].
  split; [row_now|]. exists true, [true], 3, 4, 5, 6. split; [done|]. split; [row_now|]. split; [out_now|].
  eapply follow_child; [|apply follow_here]. split; [near_now|]. split.
  - exists 7, 8, 10. split; [row_now|out_now].
  - intros c Hc. destruct (two_out kept_graph 5 9 13) with c as [-> | ->]; [near_now|exact Hc|by left|].
    right. exists false. split; [|done]. exists 11, 12, 14. split; [row_now|out_now].
Qed.
Lemma kept_letters : letter_at 1 2 kept_graph 10 (byte_text [3]) ∧ letter_at 1 2 kept_graph 14 (byte_text [2]) ∧
  letter_at 1 2 kept_graph 18 (byte_text [6]).
Proof.
  assert (H1 : bits_at 1 2 kept_graph 5 [true]).
  { apply (bits_first 1 2 kept_graph 3 4 5 6 true); [row_now|out_now|none_now]. }
  assert (H2 : bits_at 1 2 kept_graph 9 [true; true]).
  { apply (bits_next 1 2 kept_graph 7 8 9 10 true 5 [true]); [row_now|out_now|in_now|exact H1]. }
  assert (H3 : bits_at 1 2 kept_graph 13 [true; false]).
  { apply (bits_next 1 2 kept_graph 11 12 13 14 false 5 [true]); [row_now|out_now|in_now|exact H1]. }
  assert (H4 : bits_at 1 2 kept_graph 17 [true; true; false]).
  { apply (bits_next 1 2 kept_graph 15 16 17 18 false 9 [true; true]); [row_now|out_now|in_now|exact H2]. }
  split; [|split]; (split; [apply U1; vm_compute; split; congruence|]).
  - exists 7, 8, 9, [true; true]. split; [row_now|]. split; [exact H2|vm_compute; reflexivity].
  - exists 11, 12, 13, [true; false]. split; [row_now|]. split; [exact H3|vm_compute; reflexivity].
  - exists 15, 16, 17, [true; true; false]. split; [row_now|]. split; [exact H4|vm_compute; reflexivity].
Qed.
Lemma kept_words : word_at 1 2 kept_graph 22 (byte_text [3]) ∧ word_at 1 2 kept_graph 30 (byte_text [3; 6]).
Proof.
  destruct kept_letters as (L3&L2&L6).
  assert (H : letters_at 1 2 kept_graph 21 [byte_text [3]]).
  { apply (letters_first 1 2 kept_graph 19 20 21 22 10); [row_now|out_now|exact L3|none_now]. }
  split.
  - exists 19, 20, 21, [byte_text [3]]. split; [row_now|]. split; [exact H|vm_compute; reflexivity].
  - exists 27, 28, 29, [byte_text [3]; byte_text [6]]. split; [row_now|]. split; [|vm_compute; reflexivity].
    apply (letters_next 1 2 kept_graph 27 28 29 30 18 _ 21 [byte_text [3]]); [row_now|out_now|exact L6|in_now|exact H].
Qed.
Lemma kept_word3 : word_kept 1 2 kept_graph 19 20 21 22 [byte_text [3]].
Proof.
  split; [row_now|]. split; [apply Forall_cons_2; [apply kept_char|apply Forall_nil_2]|].
  exists (byte_text [3]), [], 7, 8, 9, 10, 17, 19, 20, 21, 22. split; [done|]. split; [apply kept_char|].
  split; [out_now|]. split; [out_now|]. split; [row_now|apply follow_here].
Qed.
Lemma kept_word32 : word_kept 1 2 kept_graph 23 24 25 26 [byte_text [3]; byte_text [2]].
Proof.
  destruct kept_letters as (L3&L2&L6).
  split; [row_now|]. split; [apply Forall_cons_2; [apply L3|apply Forall_cons_2; [apply L2|apply Forall_nil_2]]|].
  exists (byte_text [3]), [byte_text [2]], 7, 8, 9, 10, 17, 19, 20, 21, 22. split; [done|]. split; [apply kept_char|].
  split; [out_now|]. split; [out_now|]. split; [row_now|]. eapply follow_child; [|apply follow_here].
  split; [near_now|]. split.
  - exists 23, 24, 26, 14. split; [row_now|]. split; [out_now|exact L2].
  - intros c Hc. destruct (two_out kept_graph 21 25 29) with c as [-> | ->]; [near_now|exact Hc|by left|].
    right. exists (byte_text [6]). split; [|by vm_compute]. exists 27, 28, 30, 18. split; [row_now|]. split; [out_now|exact L6].
Qed.
Lemma kept_object : phrase_kept 1 2 kept_graph 35 36 37 38 [byte_text [3; 2]; byte_text [3]].
Proof.
  destruct kept_words as (W3&W36).
  split; [row_now|]. split; [apply (bool_decide_unpack _); vm_compute; exact I|].
  exists [byte_text [3]; byte_text [2]], [byte_text [3]], 23, 24, 25, 26, 31, 32, 33, 34. split; [vm_compute; reflexivity|].
  split; [apply kept_word32|]. split; [out_now|]. split; [row_now|]. eapply follow_child; [|apply follow_here].
  split; [near_now|]. split.
  - exists 35, 36, 38, 22. split; [row_now|]. split; [out_now|exact W3].
  - intros c Hc. destruct (two_out kept_graph 33 37 41) with c as [-> | ->]; [near_now|exact Hc|by left|].
    right. exists (byte_text [3; 6]). split; [|by vm_compute]. exists 39, 40, 42, 30. split; [row_now|]. split; [out_now|exact W36].
Qed.
Lemma kept_property : phrase_kept 1 2 kept_graph 43 44 45 46 [byte_text [3]].
Proof.
  split; [row_now|]. split; [apply (bool_decide_unpack _); vm_compute; exact I|].
  exists [byte_text [3]], [], 19, 20, 21, 22, 43, 44, 45, 46. split; [vm_compute; reflexivity|].
  split; [apply kept_word3|]. split; [out_now|]. split; [row_now|apply follow_here].
Qed.
Lemma kept_joint z : joint_detail kept_graph K_object K_property z ↔ z = 48.
Proof.
  assert (H : only_neighbour Outgoing kept_graph 38 48) by out_now. split.
  - intros [Hz _]. by apply H.
  - intros ->. split; apply (bool_decide_unpack _); vm_compute; exact I.
Qed.

(** * Texts that are not there yet *)
Lemma kept_word36 : word_kept 1 2 kept_graph 27 28 29 30 [byte_text [3]; byte_text [6]].
Proof.
  destruct kept_letters as (L3&L2&L6).
  split; [row_now|]. split; [apply Forall_cons_2; [apply L3|apply Forall_cons_2; [apply L6|apply Forall_nil_2]]|].
  exists (byte_text [3]), [byte_text [6]], 7, 8, 9, 10, 17, 19, 20, 21, 22. split; [done|]. split; [apply kept_char|].
  split; [out_now|]. split; [out_now|]. split; [row_now|]. eapply follow_child; [|apply follow_here].
  split; [near_now|]. split.
  - exists 27, 28, 30, 18. split; [row_now|]. split; [out_now|exact L6].
  - intros c Hc. destruct (two_out kept_graph 21 25 29) with c as [-> | ->]; [near_now|exact Hc| |by left].
    right. exists (byte_text [2]). split; [|by vm_compute]. exists 23, 24, 26, 14. split; [row_now|]. split; [out_now|exact L2].
Qed.
Lemma kept_seated : seated ZStrict B_zero B_one kept_graph.
Proof.
  split; [exact kept_mirrored| |near_now..|left; near_now].
  assert (H : set_Forall (λ e : N * N, e.1 ∈ nodes kept_graph) (edges kept_graph)) by (apply (bool_decide_unpack _); vm_compute; exact I).
  intros x y Hx. exact (H (x, y) Hx).
Qed.
Lemma kept_no_digit : no_child kept_graph (says_bit 1 2 kept_graph) 9 true.
Proof.
  intros c Hc. assert (H : only_neighbour Outgoing kept_graph 9 17) by out_now. apply H in Hc as ->.
  exists false. split; [|done]. exists 15, 16, 18. split; [row_now|out_now].
Qed.
Lemma kept_no_letter : no_child kept_graph (says_letter 1 2 kept_graph) 21 (byte_text [3]).
Proof.
  destruct kept_letters as (L3&L2&L6). intros c Hc. destruct (two_out kept_graph 21 25 29) with c as [-> | ->]; [near_now|exact Hc| |].
  - exists (byte_text [2]). split; [|by vm_compute]. exists 23, 24, 26, 14. split; [row_now|]. split; [out_now|exact L2].
  - exists (byte_text [6]). split; [|by vm_compute]. exists 27, 28, 30, 18. split; [row_now|]. split; [out_now|exact L6].
Qed.
Lemma kept_no_word : no_child kept_graph (says_word 1 2 kept_graph) 33 (concat [byte_text [3]; byte_text [2]]).
Proof.
  destruct kept_words as (W3&W36). intros c Hc. destruct (two_out kept_graph 33 37 41) with c as [-> | ->]; [near_now|exact Hc| |].
  - exists (byte_text [3]). split; [|by vm_compute]. exists 35, 36, 38, 22. split; [row_now|]. split; [out_now|exact W3].
  - exists (byte_text [3; 6]). split; [|by vm_compute]. exists 39, 40, 42, 30. split; [row_now|]. split; [out_now|exact W36].
Qed.
Lemma no_out g x : filter (λ e, e.1 = x) (edges g) = ∅ → no_neighbour Outgoing g x.
Proof.
  intros H c Hc. assert (Hm : (x, c) ∈ filter (λ e : N * N, e.1 = x) (edges g)) by by apply elem_of_filter.
  rewrite H in Hm. by apply not_elem_of_empty in Hm.
Qed.

(** * A word that is not found
    The character 2 has no child, so its word [74; 75; 76; 77] is not looked for. *)
Definition unkept_state : rstate :=
  r_state (run (ref_storage ZStrict) (x <- st_create;; y <- st_create;; u <- st_create;; v <- st_create;;
    make_row x y u v;;; st_connect 14 y;;; st_connect y 14) [] kept_state None).
Definition unkept_graph : graph := rs_graph unkept_state.
Lemma unkept_rinv : rinv unkept_state.
Proof.
  eapply (run_exec ZStrict (ref_storage ZStrict) _ [] rinv rs_graph kept_state None false);
    [apply (ref_storage_stands ZStrict)|by intros _|apply kept_rinv].
Qed.
Lemma unkept_mirrored : mirrored unkept_graph.
Proof.
  assert (H : map_Forall (λ x y, bwd unkept_graph !! y = Some x ∧ x ∈ nodes unkept_graph ∧ y ∈ nodes unkept_graph) (fwd unkept_graph))
    by (apply (bool_decide_unpack _); vm_compute; exact I).
  assert (H' : map_Forall (λ y x, fwd unkept_graph !! x = Some y) (bwd unkept_graph))
    by (apply (bool_decide_unpack _); vm_compute; exact I).
  intros x y. split; [split|]; [intros Hx; apply (H x y Hx)|apply H'|intros Hx; apply (H x y Hx)].
Qed.
Lemma unkept_char : letter_kept 1 2 unkept_graph 11 12 13 14 (byte_text [2]).
Proof.
  split; [apply U1; vm_compute; split; congruence|]. exists [true; false]. split; [split; [vm_compute; reflexivity|right; by eexists]|].
  split; [row_now|]. exists true, [false], 3, 4, 5, 6. split; [done|]. split; [row_now|]. split; [out_now|].
  eapply follow_child; [|apply follow_here]. split; [near_now|]. split.
  - exists 11, 12, 14. split; [row_now|out_now].
  - intros c Hc. destruct (two_out unkept_graph 5 9 13) with c as [-> | ->]; [near_now|exact Hc| |by left].
    right. exists true. split; [|done]. exists 7, 8, 10. split; [row_now|out_now].
Qed.
Lemma unkept_word : ¬ ∀ z o g a1 b1 x1 d1 c a b x d fuel e g' m', mirrored g → 1 ∈ nodes g → be_char z ∈ nodes g → be_char o ∈ nodes g →
  be_value z = false → be_value o = true → be_char z ≠ be_char o → letter_kept (be_char z) (be_char o) g a1 b1 x1 d1 c →
  row g [a; b; x; d] → only_neighbour Outgoing g d1 b → only_neighbour Outgoing g b d1 →
  exec ZStrict false (word_provide fuel c) g (Some (z, o)) (OOk e) g' m' → e = WordEnt a b x d.
Proof.
  intros H.
  assert (Hx : r_out (run (ref_storage ZStrict) (word_provide 9 (byte_text [2])) [] unkept_state (Some (B_zero, B_one))) = OOk (WordEnt 80 82 83 84))
    by (vm_compute; reflexivity).
  assert (He : WordEnt 80 82 83 84 = WordEnt 74 75 76 77); [|discriminate He].
  eapply (H B_zero B_one unkept_graph 11 12 13 14 (byte_text [2]) 74 75 76 77 9%nat);
    [exact unkept_mirrored|near_now|near_now|near_now|reflexivity|reflexivity|by vm_compute|exact unkept_char|row_now|out_now|out_now|].
  rewrite <- Hx.
  apply (run_exec ZStrict (ref_storage ZStrict) (word_provide 9 (byte_text [2])) [] rinv rs_graph unkept_state (Some (B_zero, B_one)) false);
    [apply (ref_storage_stands ZStrict)|by intros _|apply unkept_rinv].
Qed.
