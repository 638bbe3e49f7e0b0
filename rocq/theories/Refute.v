(** The claims of [Claims] do not hold: witnesses, computed on the executable
    storage. *)
From stdpp Require Import gmap.
From Coq Require Import NArith ZArith Lia.
From Coq Require String.
From Verif Require Import Base GoText Model1 Model2 Model3 Model4 Storage RefStorage RefProofs SpecText SpecMachine Spec SpecPlay SpecCost
  Utf8Proofs PlayProofs Claims.
Import String.StringSyntax.
Local Open Scope string_scope.
Local Open Scope nat_scope.

Local Notation F := 60.
Local Notation R0 := (RemarkEnt 9 11 12 13).

Definition cs (a b : String.string) : opn := CreateStory (lit a) (lit b).
Definition at_nth (n : nat) (e : event) : list event := repeat Normal n ++ [e].

Lemma fits_small n s : 3 * length s + 31 <=? n = true → fits n s.
Proof. intros H%Nat.leb_le. exact H. Qed.
Ltac small := apply fits_small; vm_compute; reflexivity.
Ltac ended := apply play_plays; vm_compute; reflexivity.
Lemma legal_b zp fuel t i o : allowedb zp false fuel t (Do i o []) = true → legal fuel t (Called i o OKilled).
Proof. intros H%allowedb_sound. apply H. Qed.
Ltac lawful zp := apply (legal_b zp); vm_compute; reflexivity.

(** ** Interrupted initialisation *)

(** The process is killed after creating the first class node. *)
Lemma claim_class_restart_false zp : ¬ claim_class_restart zp.
Proof.
  intros H. specialize (H (ref_storage zp) [Normal; Normal; Kill] (ref_storage_meets zp)).
  destruct zp; destruct H as [_ H]; vm_compute in H; done.
Qed.

(** The process is killed when it has connected one bit. *)
Lemma claim_bit_restart_false zp : ¬ claim_bit_restart zp.
Proof.
  intros H. specialize (H (ref_storage zp) (at_nth 4 Kill) (ref_storage_meets zp)).
  destruct zp; destruct H as [v H]; vm_compute in H; done.
Qed.

(** ** Texts *)
Lemma claim_no_panic_false zp : ¬ claim_no_panic zp.
Proof.
  intros H. refine (H (ref_storage zp) F (on (ref_storage zp)) 0 (cs "a 0" "b") (ref_storage_meets zp) _ _ _).
  - apply plays_on.
  - lawful zp.
  - by destruct zp; vm_compute.
Qed.

Lemma claim_word_accepted_false zp : ¬ claim_word_accepted zp.
Proof.
  intros H.
  destruct (H (ref_storage zp) F (play (ref_storage zp) F [Do 0 (cs "a" "b") []]) 0 (lit "0") (ref_storage_meets zp)) as [e He].
  - ended.
  - small.
  - destruct zp; vm_compute; by eexists.
  - by destruct zp; vm_compute in He.
Qed.

Lemma claim_words_shared_false zp : ¬ claim_words_shared zp.
Proof.
  intros H. specialize (H (ref_storage zp) F (on (ref_storage zp)) 0 (lit "a") (ref_storage_meets zp) (plays_on _ _ _ _)).
  assert (Hf : fits F (lit "a")) by small. specialize (H Hf). red in H.
  destruct zp; vm_compute in H; by specialize (H _ _ eq_refl eq_refl).
Qed.
Lemma claim_phrases_shared_false zp : ¬ claim_phrases_shared zp.
Proof.
  intros H. specialize (H (ref_storage zp) F (on (ref_storage zp)) 0 (lit "a") (ref_storage_meets zp) (plays_on _ _ _ _)).
  assert (Hf : fits F (lit "a")) by small. specialize (H Hf). red in H.
  destruct zp; vm_compute in H; by specialize (H _ _ eq_refl eq_refl).
Qed.
Lemma claim_details_shared_false zp : ¬ claim_details_shared zp.
Proof.
  intros H. specialize (H (ref_storage zp) F (on (ref_storage zp)) 0 (lit "a") (lit "b") (ref_storage_meets zp) (plays_on _ _ _ _)).
  assert (Hf : fits F (lit "a")) by small. assert (Hf' : fits F (lit "b")) by small. specialize (H Hf Hf'). red in H.
  destruct zp; vm_compute in H; by specialize (H _ _ eq_refl eq_refl).
Qed.

(** ** Navigation *)
Local Notation R1 := (RemarkEnt 132 134 135 136).
Ltac first_entry := vm_compute; apply elem_of_list_here.
Ltac second_entry := vm_compute; apply elem_of_list_further, elem_of_list_here.

Definition after_remark (zp : zpolicy) := play (ref_storage zp) F [Do 0 (cs "a" "b") []; Do 0 (AddRemarkToFact R0 (lit "c")) []].
Lemma claim_next_remark_false zp : ¬ claim_next_remark zp.
Proof.
  intros H. specialize (H (ref_storage zp) F (after_remark zp) 0 0 R0 (lit "c") R1 (ref_storage_meets zp)).
  destruct zp; (specialize (H ltac:(ended) ltac:(first_entry))); vm_compute in H; done.
Qed.

Definition after_story (zp : zpolicy) := play (ref_storage zp) F [Do 0 (cs "a" "b") []].
Lemma R0_issued zp : issued (k_trace (after_story zp)) R0.
Proof. apply issuedb_sound. destruct zp; vm_compute; reflexivity. Qed.

Lemma claim_add_fact_false : ¬ claim_add_fact ZStrict.
Proof.
  intros H.
  destruct (H (ref_storage ZStrict) F (after_story ZStrict) 0 R0 (lit "c") (lit "d") (ref_storage_meets _)) as [r Hr].
  - ended.
  - apply R0_issued.
  - small.
  - small.
  - vm_compute. by eexists.
  - by vm_compute in Hr.
Qed.

Definition after_fact := play (ref_storage ZNode) F [Do 0 (cs "a" "b") []; Do 0 (AddFactToStory R0 (lit "c") (lit "d")) []].
(** GetFirstFact answers with something that is no remark. *)
Lemma claim_same_story_false : ¬ claim_same_story ZNode.
Proof.
  intros H. specialize (H (ref_storage ZNode) F after_fact 0 R0 (lit "c") (lit "d") R1 R0 0 (ref_storage_meets _)).
  specialize (H ltac:(ended) ltac:(first_entry)).
  assert (Ho : opened true (k_trace after_fact) R1 R0).
  { vm_compute. apply opened_fact; [done|]. apply opened_story. }
  specialize (H Ho). vm_compute in H. done.
Qed.

(** No answer at all if node 0 is unknown; else the wrong answer for the added
    fact itself. *)
Lemma claim_has_next_fact_false zp : ¬ claim_has_next_fact zp.
Proof.
  intros H. destruct zp.
  - destruct (H (ref_storage ZStrict) F (after_story ZStrict) 0 R0 (ref_storage_meets _) ltac:(ended) (R0_issued _)) as (b&Hb&_).
    by vm_compute in Hb.
  - assert (Hi : issued (k_trace after_fact) R1) by (apply issuedb_sound; vm_compute; reflexivity).
    destruct (H (ref_storage ZNode) F after_fact 0 R1 (ref_storage_meets _) ltac:(ended) Hi) as (b&Hb&Hn).
    vm_compute in Hb. injection Hb as <-. destruct Hn as [Hn _]. destruct (Hn eq_refl) as (i&ob&pr&r&Hin).
    vm_compute in Hin. apply elem_of_cons in Hin as [Hin|Hin]; [done|]. by apply elem_of_list_singleton in Hin.
Qed.
Lemma claim_get_next_fact_false : ¬ claim_get_next_fact ZNode.
Proof.
  intros H.
  destruct (H (ref_storage ZNode) F after_fact 0 0 R0 (lit "c") (lit "d") (ref_storage_meets _) ltac:(ended)) as [r Hr].
  - exists R1. first_entry.
  - by vm_compute in Hr.
Qed.

Definition after_facts := play (ref_storage ZNode) F
  [Do 0 (cs "a" "b") []; Do 0 (AddFactToStory R0 (lit "c") (lit "d")) []; Do 0 (AddFactToStory R0 (lit "c") (lit "d")) []].
Lemma claim_child_story_false zp : ¬ claim_child_story zp.
Proof.
  intros H. destruct zp.
  - destruct (H (ref_storage ZStrict) F (after_story ZStrict) 0 R0 (lit "c") (lit "d") (ref_storage_meets _)) as [r Hr].
    + ended.
    + apply R0_issued.
    + small.
    + small.
    + vm_compute. by eexists.
    + by vm_compute in Hr.
  - destruct (H (ref_storage ZNode) F after_facts 0 R0 (lit "c") (lit "d") (ref_storage_meets _)) as [r Hr].
    + ended.
    + apply issuedb_sound. vm_compute. reflexivity.
    + small.
    + small.
    + vm_compute. by eexists.
    + by vm_compute in Hr.
Qed.

Definition after_children := play (ref_storage ZNode) F
  [Do 0 (cs "a" "b") []; Do 0 (CreateChildStory R0 (lit "c") (lit "d")) []; Do 0 (CreateChildStory R0 (lit "e") (lit "f")) []].
Lemma claim_next_story_false : ¬ claim_next_story ZNode.
Proof.
  intros H.
  specialize (H (ref_storage ZNode) F after_children 0 0 0 R0 (lit "c") (lit "d") (lit "e") (lit "f") R1
    (RemarkEnt 215 217 218 219) (ref_storage_meets _) ltac:(ended) ltac:(done) ltac:(second_entry) ltac:(first_entry)).
  destruct H as [H|H]; vm_compute in H; done.
Qed.
Lemma claim_has_parent_false : ¬ claim_has_parent ZNode.
Proof.
  intros H.
  specialize (H (ref_storage ZNode) F after_children 0 0 R0 (lit "c") (lit "d") R1 (ref_storage_meets _) ltac:(ended) ltac:(second_entry)).
  by vm_compute in H.
Qed.
Lemma claim_to_parent_false : ¬ claim_to_parent ZNode.
Proof.
  intros H.
  destruct (H (ref_storage ZNode) F after_children 0 0 R0 (lit "c") (lit "d") R1 (ref_storage_meets _) ltac:(ended) ltac:(second_entry)) as [f Hf].
  by vm_compute in Hf.
Qed.
(** Node 27 is the class node of a character of the first text. *)
Lemma claim_found_character_false zp : ¬ claim_found_character zp.
Proof.
  intros H. destruct zp.
  - refine (H (ref_storage ZStrict) F (after_story ZStrict) 0 27%N _ (ref_storage_meets _) ltac:(ended) _ _); vm_compute; reflexivity.
  - refine (H (ref_storage ZNode) F (after_story ZNode) 0 27%N _ (ref_storage_meets _) ltac:(ended) _ _); vm_compute; reflexivity.
Qed.
Lemma claim_has_next_story_false zp : ¬ claim_has_next_story zp.
Proof.
  intros H. destruct zp.
  - destruct (H (ref_storage ZStrict) F (after_story ZStrict) 0 R0 (ref_storage_meets _) ltac:(ended) (R0_issued _))
      as [Hb|(i&b&ob&pr&r&Hin)].
    + by vm_compute in Hb.
    + vm_compute in Hin. by apply elem_of_list_singleton in Hin.
  - assert (Hi : issued (k_trace after_fact) R0) by (apply issuedb_sound; vm_compute; reflexivity).
    destruct (H (ref_storage ZNode) F after_fact 0 R0 (ref_storage_meets _) ltac:(ended) Hi) as [Hb|(i&b&ob&pr&r&Hin)].
    + by vm_compute in Hb.
    + vm_compute in Hin. apply elem_of_cons in Hin as [Hin|Hin]; [done|]. by apply elem_of_list_singleton in Hin.
Qed.

Lemma claim_foreign_identifiers_false zp : ¬ claim_foreign_identifiers zp.
Proof.
  intros H.
  assert (Hi : issued (k_trace (after_story zp)) (RemarkEnt 1 2 3 4)).
  { destruct zp; (eapply (H _ F _ 0 1%N); [apply ref_storage_meets|ended|]); vm_compute; reflexivity. }
  destruct Hi as (i&o&Hc&Hin). destruct zp; vm_compute in Hin; by apply elem_of_list_singleton in Hin.
Qed.

(** ** Faults *)

(** The fault hits a read whose error is ignored; the call succeeds. *)
Lemma claim_errors_surface_false zp : ¬ claim_errors_surface zp.
Proof.
  intros H.
  destruct (H (ref_storage zp) F (after_story zp) 0 (cs "a" "b") 122 (ref_storage_meets _)) as [e He].
  - ended.
  - lawful zp.
  - apply Nat.ltb_lt. destruct zp; vm_compute; reflexivity.
  - destruct zp; vm_compute in He; done.
Qed.

(** The object is stored before the property is looked at. *)
Lemma claim_no_trace_false zp : ¬ claim_no_trace zp.
Proof.
  intros H.
  specialize (H (ref_storage zp) F (after_story zp) 0 (cs "c" "") ENoCharacters CCreate (ref_storage_meets _)).
  specialize (H ltac:(ended) ltac:(lawful zp)).
  destruct zp; vm_compute in H; by specialize (H eq_refl).
Qed.

Definition before_fault (zp : zpolicy) := play (ref_storage zp) F [Do 0 (cs "0" "a") []; Do 0 (cs "1" "b") []].
(** The fault leaves a detail that belongs to no remark. *)
Lemma claim_retry_false zp : ¬ claim_retry zp.
Proof.
  intros H.
  destruct (H (ref_storage zp) F (before_fault zp) 0 (lit "0") (lit "1") 92 (RemarkEnt 186 188 189 190) (ref_storage_meets _)) as (r&Hr&Ht).
  - destruct zp; ended.
  - apply settledb_sound. destruct zp; vm_compute; reflexivity.
  - small.
  - small.
  - apply normalise_id_iff. vm_compute. reflexivity.
  - apply normalise_id_iff. vm_compute. reflexivity.
  - destruct zp; vm_compute; reflexivity.
  - destruct zp.
    + clear H Ht. vm_compute in Hr. discriminate Hr.
    + clear H. vm_compute in Hr. injection Hr as <-. vm_compute in Ht. discriminate Ht.
Qed.

(** ** Two Graph values at once: both find no class node and create one. *)
Lemma claim_concurrent_first_use_false zp : ¬ claim_concurrent_first_use zp.
Proof.
  intros H.
  specialize (H (ref_storage zp) F (lit "a") (lit "b") (lit "a") (lit "b") [true; false; false; true] (EWrongClassNode 1)
    (ref_storage_meets _) ltac:(small) ltac:(small) ltac:(small) ltac:(small)).
  destruct zp; vm_compute in H; apply H; by eexists.
Qed.

(** ** Two Graph values at once: the second sees the half-made detail of the
    first, or both find no detail and create one. *)
Definition turns (k : nat) : list bool := repeat true k ++ repeat false 300 ++ repeat true 300.
Definition race_now (zp : zpolicy) (k : nat) :=
  race (ref_storage zp) (turns k) (create_story F (lit "0") (lit "1"))
    (create_story F (lit "0") (lit "1")) (k_state (before_fault zp)) (k_mem (before_fault zp) 0) (k_mem (before_fault zp) 1).
(** The second one succeeds and reads back. *)
Definition second_well (zp : zpolicy) (z : prog remark_ent * prog remark_ent * rstate * cache * cache) : bool :=
  match z with
  | (_, Throw _, _, _, _) => false
  | (_, Ret r, s, _, mq) =>
    match r_out (run (ref_storage zp) (get_object_and_property F r) [] s mq) with
    | OOk (a, b) => bool_decide (a = lit "0") && bool_decide (b = lit "1")
    | _ => false
    end
  | _ => true
  end.
(** Both succeed, and a third one does not. *)
Definition third_fails (zp : zpolicy) (z : prog remark_ent * prog remark_ent * rstate * cache * cache) : bool :=
  match z with
  | (Ret _, Ret _, s, mp, _) =>
    match r_out (run (ref_storage zp) (create_story F (lit "0") (lit "1")) [] s mp) with OOk _ => false | _ => true end
  | _ => false
  end.
Lemma claim_overlapping_writers_false zp : ¬ claim_overlapping_writers zp.
Proof.
  intros H. assert (Hv : second_well zp (race_now zp 92) = false) by (destruct zp; vm_compute; reflexivity).
  destruct (race_now zp 92) as [[[[p q] s] mp] mq] eqn:E.
  destruct (H (ref_storage zp) F (before_fault zp) 0 1 (lit "0") (lit "1") (lit "0") (lit "1") (turns 92) p q s mp mq (ref_storage_meets _)) as [H1 H2]; clear H.
  - destruct zp; ended.
  - apply settledb_sound. destruct zp; vm_compute; reflexivity.
  - done.
  - small.
  - small.
  - small.
  - small.
  - apply normalise_id_iff. vm_compute. reflexivity.
  - apply normalise_id_iff. vm_compute. reflexivity.
  - apply normalise_id_iff. vm_compute. reflexivity.
  - apply normalise_id_iff. vm_compute. reflexivity.
  - destruct zp; do 3 eexists; vm_compute; reflexivity.
  - destruct zp; do 3 eexists; vm_compute; reflexivity.
  - exact E.
  - clear E. destruct q as [r|e| | | | |]; cbn [second_well] in Hv; try discriminate Hv.
    + specialize (H2 r eq_refl). rewrite H2 in Hv. vm_compute in Hv. discriminate Hv.
    + by destruct (H1 e).
Qed.
Lemma claim_after_writers_false zp : ¬ claim_after_writers zp.
Proof.
  intros H. assert (Hv : third_fails zp (race_now zp 88) = true) by (destruct zp; vm_compute; reflexivity).
  destruct (race_now zp 88) as [[[[p q] s] mp] mq] eqn:E.
  destruct p as [r|e| | | | |]; cbn [third_fails] in Hv; try discriminate Hv.
  destruct q as [r'|e| | | | |]; cbn [third_fails] in Hv; try discriminate Hv.
  specialize (H (ref_storage zp) F (before_fault zp) 0 1 (lit "0") (lit "1") (lit "0") (lit "1") (lit "0") (lit "1") (turns 88)
    (Ret r) (Ret r') s mp mq (ref_storage_meets _)).
  edestruct H as [r'' Hr]; clear H; [..|exact E|reflexivity|reflexivity|].
  - destruct zp; ended.
  - apply settledb_sound. destruct zp; vm_compute; reflexivity.
  - discriminate.
  - small.
  - small.
  - small.
  - small.
  - small.
  - small.
  - apply normalise_id_iff. vm_compute. reflexivity.
  - apply normalise_id_iff. vm_compute. reflexivity.
  - apply normalise_id_iff. vm_compute. reflexivity.
  - apply normalise_id_iff. vm_compute. reflexivity.
  - apply normalise_id_iff. vm_compute. reflexivity.
  - apply normalise_id_iff. vm_compute. reflexivity.
  - destruct zp; do 4 eexists; vm_compute; reflexivity.
  - rewrite Hr in Hv. discriminate Hv.
Qed.

(** ** Parallel edges *)
Record pstate := PState { ps_rest : rstate; ps_edges : list (N * N) }.
(** As [rstep], but a neighbour is listed once for each Connect. *)
Definition parallel_step (zp : zpolicy) (s : pstate) (c : call) : res (answer c) * pstate :=
  let g := rs_graph (ps_rest s) in
  let old c := let rs := rstep zp (ps_rest s) c in (fst rs, PState (snd rs) (ps_edges s)) in
  match c return res (answer c) * pstate with
  | CSources x => if rvalid zp g x then (Ok (map fst (filter (λ e, e.2 = x) (ps_edges s))), s) else (Err EStorage, s)
  | CTargets x => if rvalid zp g x then (Ok (map snd (filter (λ e, e.1 = x) (ps_edges s))), s) else (Err EStorage, s)
  | CConnect x y =>
    if rvalid zp g x && rvalid zp g y
    then (Ok tt, PState (RState (rs_next (ps_rest s) + 1) (add_edge x y g)) ((x, y) :: ps_edges s))
    else (Err EStorage, s)
  | c => old c
  end.
Definition parallel_storage (zp : zpolicy) : storage := Storage pstate (PState (RState 1 empty_graph) []) (parallel_step zp).

Definition pinv (s : pstate) : Prop :=
  rinv (ps_rest s) ∧ ∀ e, e ∈ ps_edges s ↔ e ∈ edges (rs_graph (ps_rest s)).
Lemma parallel_storage_meets zp : meets_parallel zp (parallel_storage zp).
Proof.
  exists pinv, (λ s, rs_graph (ps_rest s)). split_and!; [|done|].
  { split; [apply (ref_storage_stands zp)|]. simpl. set_solver. }
  intros s c [Hi He]. pose proof (ref_storage_stands zp) as (_&_&Hs). specialize (Hs (ps_rest s) c Hi).
  destruct c as [x| |x|x|x y|x|x y|x y|x]; simpl in *.
  - by split.
  - split; [|apply Hs]. split; [apply Hs|]. simpl. done.
  - destruct Hs as [Hs [Hv Hn]]. pose proof (rvalid_spec zp (rs_graph (ps_rest s)) x) as Hb.
    destruct (rvalid zp (rs_graph (ps_rest s)) x); simpl; (split; [done|]); (eapply guarded_intro; [exact Hb|..]; try done).
    intros _. eexists. split_and!; [done| |done]. intros y. rewrite <- He, elem_of_list_fmap. split.
    + intros ([a b]&->&[Hx Hin]%elem_of_list_filter). simpl in *. by subst.
    + intros Hin. exists (y, x). split; [done|]. by apply elem_of_list_filter.
  - destruct Hs as [Hs [Hv Hn]]. pose proof (rvalid_spec zp (rs_graph (ps_rest s)) x) as Hb.
    destruct (rvalid zp (rs_graph (ps_rest s)) x); simpl; (split; [done|]); (eapply guarded_intro; [exact Hb|..]; try done).
    intros _. eexists. split_and!; [done| |done]. intros y. rewrite <- He, elem_of_list_fmap. split.
    + intros ([a b]&->&[Hx Hin]%elem_of_list_filter). simpl in *. by subst.
    + intros Hin. exists (x, y). split; [done|]. by apply elem_of_list_filter.
  - destruct Hs as [Hs1 Hs2]. split; [|exact Hs2]. split; [exact Hs1|]. simpl.
    by destruct (rvalid zp (rs_graph (ps_rest s)) x && rvalid zp (rs_graph (ps_rest s)) y).
  - destruct Hs as [Hs1 Hs2]. split; [|exact Hs2]. split; [exact Hs1|]. simpl.
    by destruct (rvalid zp (rs_graph (ps_rest s)) x).
  - assert (Hb : rvalid zp (rs_graph (ps_rest s)) x && rvalid zp (rs_graph (ps_rest s)) y = true ↔
      valid zp (rs_graph (ps_rest s)) x ∧ valid zp (rs_graph (ps_rest s)) y) by (rewrite andb_true_iff, !rvalid_spec; done).
    destruct (rvalid zp (rs_graph (ps_rest s)) x && rvalid zp (rs_graph (ps_rest s)) y); simpl.
    + split; [|eapply guarded_intro; [exact Hb|done..]].
      destruct Hi as (H1&H2&H3). split; [split_and!; simpl|].
      * lia.
      * intros z Hz%H2. lia.
      * intros Hz. exfalso. set_solver.
      * simpl. intros e. rewrite elem_of_cons, He. set_solver.
    + split; [done|]. eapply guarded_intro; [exact Hb|done..].
  - by split.
  - by split.
Qed.

(** A word of two letters. *)
Lemma claim_parallel_edges_false zp : ¬ claim_parallel_edges zp.
Proof.
  intros H.
  specialize (H (parallel_storage zp) F (lit "ab")).
  destruct (r_out (run (parallel_storage zp) (word_provide F (lit "ab")) [] (st_init (parallel_storage zp)) None)) as [e| | | |] eqn:He;
    try (destruct zp; vm_compute in He; done).
  assert (Hv : valid_utf8 (lit "ab")) by (apply normalise_id_iff; vm_compute; reflexivity).
  specialize (H e (parallel_storage_meets zp) ltac:(small) Hv He).
  destruct zp; vm_compute in He; injection He as <-; vm_compute in H; done.
Qed.

(** ** A crash in the first call

    A storage that numbers its nodes 1, 2, 3, ... for ever. *)
Definition dense_step (zp : zpolicy) (s : rstate) (c : call) : res (answer c) * rstate :=
  let rs := rstep zp s c in
  (fst rs, match c with CConnect _ _ => RState (rs_next s) (rs_graph (snd rs)) | _ => snd rs end).
Definition dense_storage (zp : zpolicy) : storage := Storage rstate (RState 1 empty_graph) (dense_step zp).

Lemma dense_storage_meets zp : meets zp (dense_storage zp).
Proof.
  exists rinv, rs_graph. pose proof (ref_storage_stands zp) as (Hi&Ha&Hs). split_and!; [exact Hi|exact Ha|].
  intros s c Hc. destruct (Hs s c Hc) as [H1 H2]. destruct c as [x| |x|x|x y|x|x y|x y|x]; try (by split).
  simpl in *. destruct (rvalid zp (rs_graph s) x && rvalid zp (rs_graph s) y); simpl in *; (split; [|exact H2]).
  - destruct Hc as (Hp&Hlt&_). split_and!; simpl; [done|done|]. intros He. exfalso. set_solver.
  - destruct Hc as (Hp&Hlt&Hn). split_and!; simpl; done.
Qed.

(** Killed at the tenth storage call, when five of the eight class nodes
    exist.  The next nodes made, whatever for, take the numbers of the missing
    ones. *)
Lemma claim_first_crash_false zp : ¬ claim_first_crash zp.
Proof.
  intros H.
  assert (Hv : ∀ a : String.string, string_of_runes (runes_of (lit a)) = lit a → valid_utf8 (lit a))
    by (intros a Ha; by apply normalise_id_iff).
  specialize (H (dense_storage zp) F 0 (lit "a") (lit "b") 9).
  destruct (r_out (now F (play (dense_storage zp) F [Do 0 (cs "a" "b") (at_nth 9 Kill); Boot 0]) 0 (cs "a" "b") []))
    as [[r| | |]| | | |] eqn:He; try (destruct zp; vm_compute in He; discriminate).
  specialize (H r (dense_storage_meets zp) ltac:(small) ltac:(small) (Hv "a" eq_refl) (Hv "b" eq_refl) He).
  destruct zp; vm_compute in He; injection He as <-; vm_compute in H; discriminate.
Qed.
