(** The properties of /verif/properties.jsonl.

    Vocabulary: [Spec] (API calls, histories), [SpecText] (UTF-8, words),
    [SpecMachine] (the machine of C18), [SpecLayers] (direct use of the lower
    layers), [SpecPlay] (histories on a concrete storage), [SpecMoments] (the
    storage within calls, overlapping calls), [SpecCrowd] (any number of overlapping
    calls), [SpecGuards] (looking at
    neighbours), [SpecWalk] (walks from fact to fact), [SpecEntities] (what entities
    and repositories write), [SpecFactories] (what factories make), [SpecSpelling] (what texts
    are in the storage), [SpecKept] (texts that can be found), [SpecCost] (numbers of storage calls), [SpecGrowth] (what calls
    add), [Claims] (what does not hold).
    Each theorem is followed by a case that meets its hypotheses. *)
From stdpp Require Import gmap.
From Coq Require Import NArith ZArith Lia.
From Coq Require String.
From Verif Require Import Base GoText Model1 Model2 Model3 Model4 Storage RefStorage RefProofs SpecText SpecMachine Spec SpecPlay SpecCost
  SpecLayers SpecMoments SpecGrowth SpecCrowd SpecGuards SpecWalk SpecEntities SpecFactories SpecSpelling SpecKept SpecSiblings WriteProofs StoryWrites SiblingProofs FactoryProofs GuardFaults SpellProofs KeptProofs ExtendProofs OrderProofs PathProofs Codec Utf8Proofs HistoryProofs ApiProofs LayerProofs InitProofs GuardProofs PlayProofs LaterProofs EmptyProofs MomentProofs LookupProofs WalkProofs
  CallProofs GrowthProofs FaultProofs FuelProofs CostProofs Claims WalkCases SpellCases KeptCases OrderCases SiblingCases Refute Samples CrowdProofs CrowdTold CrowdFresh.
Import String.StringSyntax.
Local Open Scope string_scope.
Local Open Scope nat_scope.

(** * C01 Character codec round trip *)
Theorem C01_round_trip zp faults fuel t l w fk r e m out g' m' :
  grown zp faults fuel t l w → (PutChar r, OOk (LChar (Some e))) ∈ l → 31 ≤ fuel → cache_in w m →
  exec zp fk (char_extract fuel (Some e)) (store w) m out g' m' →
  g' = store w ∧ answers fk out r.
Proof. intros Hw. exact (char_reads_back Hw fk r e m out g' m'). Qed.
Print Assumptions C01_round_trip.
Theorem C01_accepted zp faults fuel t l w i r out g' m' :
  grown zp faults fuel t l w → lfits fuel (PutChar r) → (0 ≤ r)%Z →
  exec zp false (put fuel (PutChar r)) (store w) (mem w i) out g' m' →
  ∃ e, out = OOk (LChar (Some e)).
Proof. exact (char_accepted zp faults fuel t l w i r out g' m'). Qed.
Print Assumptions C01_accepted.
Theorem C01_negative_refused zp fk fuel g m r out g' m' :
  (r < 0)%Z → exec zp fk (put fuel (PutChar r)) g m out g' m' →
  g' = g ∧ (out = OErr EInvalidBitName ∨ fk = true ∧ out = OKilled).
Proof. exact (char_refused zp fk fuel g m r out g' m'). Qed.
Print Assumptions C01_negative_refused.
Example C01_case : grown ZStrict false FU [] layer_trace (lseen layer_play) ∧
  (PutChar 200, OOk (LChar (Some C200))) ∈ layer_trace ∧ cache_in (lseen layer_play) None ∧
  ∃ g' m', exec ZStrict false (char_extract FU (Some C200)) (store (lseen layer_play)) None (OOk 200%Z) g' m'.
Proof.
  split_and!; [apply layer_grown|do 5 apply elem_of_list_further; apply elem_of_list_here|by left|].
  eexists _, _. apply (sample_exec _ []). vm_compute. reflexivity.
Qed.

(** * C02 Characters are shared *)
Theorem C02_shared zp faults fuel t l w fk r e m out g' m' :
  grown zp faults fuel t l w → (PutChar r, OOk (LChar (Some e))) ∈ l → cache_in w m →
  exec zp fk (char_provide r) (store w) m out g' m' →
  g' = store w ∧ (fk = false → out = OOk (Some e)) ∧ ∀ e', out = OOk (Some e') → e' = e.
Proof. intros Hw. exact (char_shared Hw fk r e m out g' m'). Qed.
Print Assumptions C02_shared.
Example C02_case : ∃ g' m', exec ZStrict true (char_provide 200) (store (lseen layer_play)) None (OErr EStorage) g' m'.
Proof. eexists _, _. apply (sample_exec _ [Normal; Normal; Normal; Fault]). vm_compute. reflexivity. Qed.

(** * C03 Word round trip *)
Theorem C03_round_trip zp faults fuel t l w fk s e m out g' m' :
  grown zp faults fuel t l w → (PutWord s, OOk (LWord e)) ∈ l → valid_utf8 s → 31 ≤ fuel → cache_in w m →
  exec zp fk (word_extract fuel e) (store w) m out g' m' →
  g' = store w ∧ answers fk out s.
Proof. intros Hw Hin Hs. exact (word_reads_back Hw fk s s e m out g' m' Hin (repaired_valid s Hs)). Qed.
Print Assumptions C03_round_trip.
Theorem C03_any_bytes zp faults fuel t l w fk s s' e m out g' m' :
  grown zp faults fuel t l w → (PutWord s, OOk (LWord e)) ∈ l → repaired s s' → 31 ≤ fuel → cache_in w m →
  exec zp fk (word_extract fuel e) (store w) m out g' m' →
  g' = store w ∧ answers fk out s'.
Proof. intros Hw. exact (word_reads_back Hw fk s s' e m out g' m'). Qed.
Print Assumptions C03_any_bytes.
Example C03_case : (PutWord (lit "do"), OOk (LWord Wdo)) ∈ layer_trace ∧ valid_utf8 (lit "do") ∧
  ∃ g' m', exec ZStrict false (word_extract FU Wdo) (store (lseen layer_play)) None (OOk (lit "do")) g' m'.
Proof.
  split_and!; [do 6 apply elem_of_list_further; apply elem_of_list_here|plain_text|].
  eexists _, _. apply (sample_exec _ []). vm_compute. reflexivity.
Qed.

(** * C04 Phrase round trip *)
Theorem C04_round_trip zp faults fuel t l w fk s e m out g' m' :
  grown zp faults fuel t l w → (PutPhrase s, OOk (LPhrase e)) ∈ l → valid_utf8 s → 31 ≤ fuel → cache_in w m →
  exec zp fk (phrase_extract fuel e) (store w) m out g' m' →
  g' = store w ∧ answers fk out s.
Proof. intros Hw Hin Hs. exact (phrase_reads_back Hw fk s s e m out g' m' Hin (repaired_valid s Hs)). Qed.
Print Assumptions C04_round_trip.
Theorem C04_any_bytes zp faults fuel t l w fk s s' e m out g' m' :
  grown zp faults fuel t l w → (PutPhrase s, OOk (LPhrase e)) ∈ l → repaired s s' → 31 ≤ fuel → cache_in w m →
  exec zp fk (phrase_extract fuel e) (store w) m out g' m' →
  g' = store w ∧ answers fk out s'.
Proof. intros Hw. exact (phrase_reads_back Hw fk s s' e m out g' m'). Qed.
Print Assumptions C04_any_bytes.
Example C04_case : (PutPhrase (lit "do it"), OOk (LPhrase Pdoit)) ∈ layer_trace ∧ valid_utf8 (lit "do it") ∧
  ∃ g' m', exec ZStrict false (phrase_extract FU Pdoit) (store (lseen layer_play)) None (OOk (lit "do it")) g' m'.
Proof.
  split_and!; [do 4 apply elem_of_list_further; apply elem_of_list_here|plain_text|].
  eexists _, _. apply (sample_exec _ []). vm_compute. reflexivity.
Qed.

(** * C05 Object and property read back

    [leads]: at any later moment. *)
Theorem C05_reads_back zp faults fuel t w fk i ob pr r w' t1 w1 fk' j out w2 :
  happens zp faults fuel t w fk i (CreateStory ob pr) (OOk (VRem r)) w' → valid_utf8 ob → valid_utf8 pr →
  leads zp faults fuel (Called i (CreateStory ob pr) (OOk (VRem r)) :: t) w' t1 w1 →
  hstep zp fk' fuel w1 (Called j (GetObjectAndProperty r) out) w2 →
  store w2 = store w1 ∧ answers fk' out (VText ob pr).
Proof.
  intros Hh Ho Hp.
  exact (own_texts_read t w i (CreateStory ob pr) ob pr ob pr r w' t1 w1 j out w2 Hh eq_refl (repaired_valid ob Ho) (repaired_valid pr Hp)).
Qed.
Print Assumptions C05_reads_back.
Theorem C05_on_every_storage zp faults fuel S x r o p j :
  meets zp S → plays zp faults fuel S x → tells (k_trace x) r o p →
  r_out (now fuel x j (GetObjectAndProperty r) []) = OOk (VText o p).
Proof. intros HS Hx. exact (plays_texts HS Hx r o p j). Qed.
Print Assumptions C05_on_every_storage.
Example C05_case :
  happens ZStrict false FU [] first_world false 0 (CreateStory (lit "a cat") (lit "is")) (OOk (VRem R0))
    (seen (play strict FU [Do 0 (CreateStory (lit "a cat") (lit "is")) []])) ∧
  valid_utf8 (lit "a cat") ∧ valid_utf8 (lit "is").
Proof.
  split_and!; [|plain_text|plain_text].
  apply (sample_happens ZStrict false (on strict) 0 (CreateStory (lit "a cat") (lit "is")) []); [apply plays_on|vm_compute; reflexivity..].
Qed.
Example C05_case_storage : meets ZStrict strict ∧ plays ZStrict true FU strict strict_play ∧
  tells (k_trace strict_play) R1 (lit "a cat") (lit "eats").
Proof. split_and!; [apply ref_storage_meets|apply strict_plays|]. rewrite strict_trace_eq. apply strict_tells_1. Qed.

(** * C06 Invalid UTF-8 is normalised, not preserved *)
Theorem C06_normalised zp faults fuel t w fk i ob pr ob' pr' r w' t1 w1 fk' j out w2 :
  happens zp faults fuel t w fk i (CreateStory ob pr) (OOk (VRem r)) w' → repaired ob ob' → repaired pr pr' →
  leads zp faults fuel (Called i (CreateStory ob pr) (OOk (VRem r)) :: t) w' t1 w1 →
  hstep zp fk' fuel w1 (Called j (GetObjectAndProperty r) out) w2 →
  store w2 = store w1 ∧ answers fk' out (VText ob' pr').
Proof.
  intros Hh.
  exact (own_texts_read t w i (CreateStory ob pr) ob pr ob' pr' r w' t1 w1 j out w2 Hh eq_refl).
Qed.
Print Assumptions C06_normalised.
Theorem C06_unique (s : text) : ∃ t, repaired s t ∧ valid_utf8 t ∧ ∀ t', repaired s t' → t' = t.
Proof. exact (repaired_unique s). Qed.
Print Assumptions C06_unique.
Theorem C06_exact_iff_valid (s : text) : repaired s s ↔ valid_utf8 s.
Proof. exact (repaired_self s). Qed.
Print Assumptions C06_exact_iff_valid.
(** The bytes FF 61. *)
Definition broken : text := [Ascii.ascii_of_N 255; Ascii.ascii_of_N 97].
Example C06_case : repaired broken (replacement ++ lit "a") ∧ ¬ valid_utf8 broken ∧
  ∃ r, happens ZStrict false FU [] first_world false 0 (CreateStory broken (lit "is")) (OOk (VRem r))
    (seen (play strict FU [Do 0 (CreateStory broken (lit "is")) []])).
Proof.
  split_and!.
  - apply repaired_iff. vm_compute. reflexivity.
  - intros H%normalise_id_iff. by vm_compute in H.
  - eexists. apply (sample_happens ZStrict false (on strict) 0 (CreateStory broken (lit "is")) []); [apply plays_on|vm_compute; reflexivity..].
Qed.

(** * C07 Issued remarks never change *)
Theorem C07_never_change zp faults fuel t w r o p t' w' fk j out w'' :
  reach zp faults fuel t w → tells t r o p → leads zp faults fuel t w t' w' →
  hstep zp fk fuel w' (Called j (GetObjectAndProperty r) out) w'' →
  store w'' = store w' ∧ answers fk out (VText o p).
Proof. exact (texts_for_ever t w r o p t' w' j out w''). Qed.
Print Assumptions C07_never_change.
Theorem C07_every_remark_tells zp faults fuel t w r :
  reach zp faults fuel t w → issued t r → ∃ o p, tells t r o p ∧ ∀ o' p', tells t r o' p' → o' = o ∧ p' = p.
Proof. exact (issued_tells zp faults fuel t w r). Qed.
Print Assumptions C07_every_remark_tells.
(** From the first call of [strict_acts] to the last: a failing, a panicking and
    a killed call. *)
Example C07_case :
  let x := play strict FU (take 2 strict_acts) in
  reach ZStrict true FU (k_trace x) (seen x) ∧ tells (k_trace x) R1 (lit "a cat") (lit "eats") ∧
  leads ZStrict true FU (k_trace x) (seen x) strict_trace (seen strict_play) ∧
  ∃ w', hstep ZStrict false FU (seen strict_play) (Called 7 (GetObjectAndProperty R1) (OOk (VText (lit "a cat") (lit "eats")))) w'.
Proof.
  intros x. assert (Hx : plays ZStrict true FU strict x) by (apply play_plays; vm_compute; reflexivity). split_and!.
  - by apply sample_reach.
  - assert (Ht : k_trace x = drop 4 strict_trace) by (vm_compute; reflexivity). rewrite Ht. simpl.
    eapply tells_remark; [apply tells_story; plain_text|plain_text].
  - rewrite <- strict_trace_eq.
    assert (Hd : strict_play = fold_left (perform FU) (drop 2 strict_acts) x)
      by (unfold strict_play, x, play; rewrite <- fold_left_app, take_drop; reflexivity).
    rewrite Hd. apply sample_leads; [done|vm_compute; reflexivity].
  - eexists. apply (sample_step ZStrict true _ 7 _ []); [apply strict_plays|vm_compute; reflexivity].
Qed.

(** * C08 Identifier round trip and restart *)
Theorem C08_identifier zp faults fuel t w r t' w' fk j out w'' :
  reach zp faults fuel t w → issued t r → leads zp faults fuel t w t' w' →
  hstep zp fk fuel w' (Called j (GetRemark (get_identifier r)) out) w'' →
  store w'' = store w' ∧ answers fk out (VRem r).
Proof. exact (identifier_for_ever t w r t' w' j out w''). Qed.
Print Assumptions C08_identifier.
Theorem C08_on_every_storage zp faults fuel S x r j :
  meets zp S → plays zp faults fuel S x → issued (k_trace x) r →
  r_out (now fuel x j (GetRemark (get_identifier r)) []) = OOk (VRem r).
Proof. intros HS Hx. exact (plays_identifier HS Hx r j). Qed.
Print Assumptions C08_on_every_storage.
Example C08_case : reach ZStrict true FU strict_trace (seen strict_play) ∧ issued strict_trace R1 ∧
  ∃ w', hstep ZStrict false FU (seen strict_play) (Called 1 (GetRemark 251) (OOk (VRem R1))) w'.
Proof.
  split_and!; [apply strict_reach|apply strict_issued|].
  eexists. apply (sample_step ZStrict true _ 1 _ []); [apply strict_plays|vm_compute; reflexivity].
Qed.

(** * C09 Identifiers are unique *)
Theorem C09_unique zp faults fuel t w fk i o r w' r' :
  happens zp faults fuel t w fk i o (OOk (VRem r)) w' → creating o = true → issued t r' →
  get_identifier r ≠ get_identifier r'.
Proof. exact (identifier_unique zp faults fuel t w fk i o r w' r'). Qed.
Print Assumptions C09_unique.
Example C09_case : issued (drop 1 lenient_trace) R1 ∧
  happens ZNode false FU (drop 1 lenient_trace) (seen (play lenient FU (take 2 lenient_acts))) false 1
    (AddFactToStory R0 (lit "x") (lit "y")) (OOk (VRem R2)) (seen lenient_play).
Proof.
  split; [apply issuedb_sound; vm_compute; reflexivity|].
  assert (Ht : k_trace (play lenient FU (take 2 lenient_acts)) = drop 1 lenient_trace) by (vm_compute; reflexivity).
  rewrite <- Ht. apply (sample_happens ZNode false _ 1 _ []); [apply play_plays; vm_compute; reflexivity|vm_compute; reflexivity..].
Qed.

(** * C10 The store is append-only *)
Theorem C10_append_only zp faults fuel t w t' w' :
  reach zp faults fuel t w → leads zp faults fuel t w t' w' →
  nodes (store w) ⊆ nodes (store w') ∧ edges (store w) ⊆ edges (store w') ∧
  fwd (store w) ⊆ fwd (store w') ∧ bwd (store w) ⊆ bwd (store w').
Proof. exact (leads_grows zp faults fuel t w t' w'). Qed.
Print Assumptions C10_append_only.
(** Also within calls. *)
Theorem C10_at_every_call zp faults fuel a b :
  seen_at zp faults fuel a → rtc (moves zp faults fuel) a b → grows (mo_store a) (mo_store b).
Proof. exact (moments_grow a b). Qed.
Print Assumptions C10_at_every_call.
(** [specified]: neither Disconnect nor Delete, and SetReference only where no
    reference is overwritten. *)
Theorem C10_calls_made zp faults fuel a fk i o c k m :
  seen_at zp faults fuel a → mo_running a = Some (Running fk i o (Call c k) m) → specified zp (mo_store a) c.
Proof. exact (moments_specified a fk i o c k m). Qed.
Print Assumptions C10_calls_made.
(** Whatever the storage answers, and for any receiver. *)
Theorem C10_never_removes fuel o : makes_only appends (call_of fuel o).
Proof. exact (calls_append fuel o). Qed.
Print Assumptions C10_never_removes.
(** The moments considered are those of the histories. *)
Theorem C10_moments zp faults fuel t w t' w' :
  rtc (moves zp faults fuel) (between t w) (between t' w') ↔ leads zp faults fuel t w t' w'.
Proof. exact (moments_histories t w t' w'). Qed.
Print Assumptions C10_moments.
(** After 83 steps of a further call. *)
Example C10_case :
  let y := march ZStrict 83 (start strict_play 1 late) (k_state strict_play) in
  seen_at ZStrict true FU (within (k_trace strict_play) (k_mem strict_play) true 1 late (fst y) (snd y)) ∧
  awaits (fst y) = Some (CSetRef 507 508) ∧
  size (nodes (rs_graph (snd y))) = 20 + size (nodes (rs_graph (k_state strict_play))).
Proof.
  intros y. split; [apply (sample_moment ZStrict true strict_play true); [apply strict_plays|apply late_allowed]|].
  vm_compute. done.
Qed.

(** * C11 Class layer initialisation is idempotent *)
Theorem C11_first_use zp m out g' m' :
  exec zp false class_provide empty_graph m out g' m' → out = OOk tt ∧ g' = class_graph ∧ m' = m.
Proof. exact (class_first_use zp m out g' m'). Qed.
Print Assumptions C11_first_use.
Theorem C11_idempotent zp faults fuel t l w fk m out g' m' :
  grown zp faults fuel t l w → (∃ v, (PutClass, OOk v) ∈ l) ∨ settled_by t l → cache_in w m →
  exec zp fk class_provide (store w) m out g' m' → g' = store w ∧ answers fk out ().
Proof. intros Hw. exact (class_shared Hw fk m out g' m'). Qed.
Print Assumptions C11_idempotent.
Example C11_case : (∃ v, (PutClass, OOk v) ∈ layer_trace) ∧
  ∃ g' m', exec ZStrict false class_provide (store (lseen layer_play)) None (OOk tt) g' m'.
Proof.
  split; [eexists; apply elem_of_list_here|].
  eexists _, _. apply (sample_exec _ []). vm_compute. reflexivity.
Qed.

(** * C12 Class layer initialisation survives interruption *)
Theorem C12_refuted zp : ¬ claim_class_restart zp.
Proof. exact (claim_class_restart_false zp). Qed.
Print Assumptions C12_refuted.
(** What happens instead: after an interrupted first use every retry reports
    success, and changes nothing unless the store is still empty. *)
Theorem C12_rule zp m1 out1 g1 m1' m2 out2 g2 m2' :
  exec zp true class_provide empty_graph m1 out1 g1 m1' → exec zp false class_provide g1 m2 out2 g2 m2' →
  out2 = OOk tt ∧ (g1 = empty_graph ∧ g2 = class_graph ∨ g1 ≠ empty_graph ∧ g2 = g1).
Proof. exact (class_retry zp m1 out1 g1 m1' m2 out2 g2 m2'). Qed.
Print Assumptions C12_rule.
(** Killed with three class nodes made. *)
Example C12_case : ∃ g m out2 g2 m2,
  exec ZStrict true class_provide empty_graph None OKilled g m ∧ nodes g = {[1; 2; 3]}%N ∧
  exec ZStrict false class_provide g None out2 g2 m2.
Proof.
  destruct (ref_exec ZStrict class_provide (repeat Normal 5 ++ [Kill]) _ None rinv_empty) as [Hi Hx].
  eexists _, _, _, _, _. split; [exact Hx|]. split; [apply (bool_decide_unpack _); vm_compute; exact I|].
  apply (ref_exec ZStrict class_provide [] _ None Hi).
Qed.

(** * C13 Bit layer is canonical *)
Theorem C13_canonical zp faults fuel t l w fk1 fk2 b m1 m2 e1 e2 g1 g2 m1' m2' :
  grown zp faults fuel t l w → settled_by t l → cache_in w m1 → cache_in w m2 →
  exec zp fk1 (bit_provide b) (store w) m1 (OOk e1) g1 m1' →
  exec zp fk2 (bit_provide b) (store w) m2 (OOk e2) g2 m2' → e1 = e2 ∧ g1 = store w ∧ g2 = store w.
Proof. intros Hw. exact (bit_unique Hw fk1 fk2 b m1 m2 e1 e2 g1 g2 m1' m2'). Qed.
Print Assumptions C13_canonical.
Theorem C13_for_ever zp faults fuel t l w fk b e m out g' m' :
  grown zp faults fuel t l w → (PutBit b, OOk (LBit e)) ∈ l → cache_in w m →
  exec zp fk (bit_provide b) (store w) m out g' m' → g' = store w ∧ answers fk out e.
Proof. intros Hw. exact (bit_shared Hw fk b e m out g' m'). Qed.
Print Assumptions C13_for_ever.
Theorem C13_two_bits zp faults fuel t l w b e e' :
  grown zp faults fuel t l w → (PutBit b, OOk (LBit e)) ∈ l → (PutBit (negb b), OOk (LBit e')) ∈ l →
  be_class e ≠ be_class e' ∧ be_char e ≠ be_char e' ∧ be_value e = b ∧ be_value e' = negb b.
Proof. intros Hw. exact (bits_differ Hw b e e'). Qed.
Print Assumptions C13_two_bits.
Example C13_case : (PutBit true, OOk (LBit B1)) ∈ layer_trace ∧ (PutBit (negb true), OOk (LBit B0)) ∈ layer_trace ∧
  settled_by [] layer_trace ∧
  ∃ g' m', exec ZStrict false (bit_provide true) (store (lseen layer_play)) None (OOk B1) g' m'.
Proof.
  split_and!.
  - do 3 apply elem_of_list_further; apply elem_of_list_here.
  - do 1 apply elem_of_list_further; apply elem_of_list_here.
  - right. exists (PutBit true), (LBit B1). split; [|done]. do 3 apply elem_of_list_further; apply elem_of_list_here.
  - eexists _, _. apply (sample_exec _ []). vm_compute. reflexivity.
Qed.

(** * C14 Bit layer initialisation survives interruption *)
Theorem C14_refuted zp : ¬ claim_bit_restart zp.
Proof. exact (claim_bit_restart_false zp). Qed.
Print Assumptions C14_refuted.
(** What happens instead: a use after an interrupted first use succeeds with
    good bits if no bit was connected, fails if one was, and otherwise gives two
    bits of which the second has node 0 as its character node, unless the first
    use was complete. *)
Theorem C14_rule zp out1 g1 m1 out2 g2 m2 :
  exec zp true bit_initialize class_graph None out1 g1 m1 → exec zp false bit_initialize g1 None out2 g2 m2 →
  edges g1 = ∅ ∧ (∀ v, out1 ≠ OOk v) ∧ (∃ z o, out2 = OOk (z, o) ∧ be_char z ≠ 0%N ∧ be_char o ≠ 0%N) ∨
  (∃ x, edges g1 = {[(x, 1%N)]}) ∧ (∀ v, out1 ≠ OOk v) ∧ out2 = OErr EWrongBitCount ∧ g2 = g1 ∨
  ∃ z o, edges g1 = {[(be_class z, 1%N); (be_class o, 1%N)]} ∧ be_class z ≠ be_class o ∧
    out2 = OOk (z, o) ∧ g2 = g1 ∧
    (out1 = OOk (z, o) ∧ be_char z ≠ 0%N ∧ be_char o ≠ 0%N ∨ (∀ v, out1 ≠ OOk v) ∧ be_char o = 0%N).
Proof. exact (bit_retry out1 g1 m1 out2 g2 m2). Qed.
Print Assumptions C14_rule.
(** Killed before the second bit has its character node. *)
Example C14_case : ∃ g m out2 g2 m2,
  exec ZStrict true bit_initialize class_graph None OKilled g m ∧ edges g = {[(9, 1); (11, 1)]}%N ∧
  exec ZStrict false bit_initialize g None out2 g2 m2 ∧ out2 = OOk (BitEnt false 9 13, BitEnt true 11 0).
Proof.
  destruct (ref_exec ZStrict bit_initialize (repeat Normal 8 ++ [Kill]) _ None rinv_class) as [Hi Hx].
  eexists _, _, _, _, _. split; [exact Hx|]. split; [apply (bool_decide_unpack _); vm_compute; exact I|].
  split; [apply (ref_exec ZStrict bit_initialize [] _ None Hi)|vm_compute; reflexivity].
Qed.

(** * C15 Empty text is rejected with an error

    [given o = Some (ob, pr)]: the call [o] is given the object [ob], if any, and
    the property [pr].  Without storage errors the error is that of an empty
    word; only if the object by itself is not acceptable the call may end
    otherwise. *)
Theorem C15_rejected zp faults fuel t w fk i o out w' ob pr :
  happens zp faults fuel t w fk i o out w' → given o = Some (ob, pr) →
  blank_start pr ∨ (∃ s, ob = Some s ∧ blank_start s) →
  (∀ v, out ≠ OOk v) ∧
  (fk = false → ∃ obt, (ob = Some obt ∨ ob = None ∧ ∃ a q, receiver o = Some a ∧ tells t a obt q) ∧
     (out = OErr ENoCharacters ∨
      ¬ blank_start obt ∧ (out = OErr ECharTargetWords ∨ out = OPanic ∧ 2 ≤ length (split_space obt)))).
Proof. exact (blank_refused zp faults fuel t w fk i o ob pr out w'). Qed.
Print Assumptions C15_rejected.
Example C15_case : blank_start [] ∧ given (AddRemarkToFact R0 []) = Some (None, []) ∧
  happens ZStrict true FU (k_trace strict_play) (seen strict_play) false 0 (AddRemarkToFact R0 []) (OErr ENoCharacters)
    (seen (perform FU strict_play (Do 0 (AddRemarkToFact R0 []) []))).
Proof.
  split_and!; [by left|done|].
  apply (sample_happens ZStrict true strict_play 0 _ []); [apply strict_plays|vm_compute; reflexivity..].
Qed.

(** * C16 No panic on any input *)
Theorem C16_refuted zp : ¬ claim_no_panic zp.
Proof. exact (claim_no_panic_false zp). Qed.
Print Assumptions C16_refuted.
Theorem C16_panic_rule zp fuel t w i o out w' :
  happens zp false fuel t w false i o out w' → valid_trace (Called i o out :: t) → creating o = true →
  (out = OPanic ↔ predict zp (m_run t) o = Some MPanic).
Proof. exact (panic_rule zp fuel t w i o out w'). Qed.
Print Assumptions C16_panic_rule.
(** The calls that create nothing never panic. *)
Theorem C16_readers_partial zp faults fuel t w i o out w' :
  happens zp faults fuel t w false i o out w' → creating o = false → out ≠ OPanic.
Proof. exact (reading_no_panic zp faults fuel t w i o out w'). Qed.
Print Assumptions C16_readers_partial.
(** Of these, those that do not extract texts do not panic on any receiver and
    whatever the storage answers. *)
Theorem C16_navigation_partial fuel o :
  match o with
  | GetRemark _ | HasNextRemark _ | GetNextRemark _ | HasNextFact _ | GetNextFact _ | GetFirstFact _
  | HasNextStory _ | GetNextStory _ => True
  | _ => False
  end → panics_nowhere (call_of fuel o).
Proof. exact (calls_no_panic fuel o). Qed.
Print Assumptions C16_navigation_partial.
Example C16_case :
  happens ZNode false FU (k_trace lenient_play) (seen lenient_play) false 0 (CreateStory (lit "a  b") (lit "c")) OPanic
    (seen (perform FU lenient_play (Do 0 (CreateStory (lit "a  b") (lit "c")) []))) ∧
  predict ZNode (m_run (k_trace lenient_play)) (CreateStory (lit "a  b") (lit "c")) = Some MPanic ∧
  valid_trace (Called 0 (CreateStory (lit "a  b") (lit "c")) OPanic :: k_trace lenient_play).
Proof.
  split_and!.
  - apply (sample_happens ZNode false lenient_play 0 _ []); [apply lenient_plays|vm_compute; reflexivity..].
  - vm_compute. reflexivity.
  - rewrite lenient_trace_eq. constructor; [repeat constructor; plain_text|apply lenient_valid].
Qed.

(** * C17 Acceptance of a word does not depend on history *)
Theorem C17_refuted zp : ¬ claim_word_accepted zp.
Proof. exact (claim_word_accepted_false zp). Qed.
Print Assumptions C17_refuted.
Theorem C17_rule zp fuel t l w i o out g' m' :
  grown zp false fuel t l w → lfits fuel o → valid_trace t → Forall (λ x, lvalid (fst x)) l → lvalid o →
  exec zp false (put fuel o) (store w) (mem w i) out g' m' →
  kind out = Some (l_predict (l_run (ms_view (m_run t)) l) o).
Proof. exact (put_predicted zp fuel t l w i o out g' m'). Qed.
Print Assumptions C17_rule.
Example C17_case : lfits FU (PutWord (lit "do")) ∧ Forall (λ x, lvalid (fst x)) layer_trace ∧
  ∃ g' m', exec ZStrict false (put FU (PutWord (lit "do"))) (store (lseen layer_play)) (mem (lseen layer_play) 0) (OOk (LWord Wdo)) g' m'.
Proof.
  split_and!.
  - split; [lia|]. unfold fits. vm_compute. lia.
  - repeat constructor. simpl. plain_text.
  - eexists _, _. apply (sample_exec _ []). vm_compute. reflexivity.
Qed.

(** * C18 Outcome of every creating call follows a simple abstract machine *)
Theorem C18_predicted zp fuel t w i o out w' :
  happens zp false fuel t w false i o out w' → valid_trace (Called i o out :: t) → creating o = true →
  kind out = predict zp (m_run t) o.
Proof. intros (Hr&Hl&Hx&_). exact (outcome_predicted zp fuel t w i o out w' Hr Hl Hx). Qed.
Print Assumptions C18_predicted.
Example C18_case : valid_trace lenient_trace ∧
  happens ZNode false FU lenient_trace (seen lenient_play) false 0 (CreateStory (lit "a 0") (lit "b")) OPanic
    (seen (perform FU lenient_play (Do 0 (CreateStory (lit "a 0") (lit "b")) []))).
Proof.
  split; [apply lenient_valid|]. rewrite <- lenient_trace_eq.
  apply (sample_happens ZNode false lenient_play 0 _ []); [apply lenient_plays|vm_compute; reflexivity..].
Qed.

(** * C19 Equal texts share one entity *)
Theorem C19_words_refuted zp : ¬ claim_words_shared zp.
Proof. exact (claim_words_shared_false zp). Qed.
Print Assumptions C19_words_refuted.
Theorem C19_phrases_refuted zp : ¬ claim_phrases_shared zp.
Proof. exact (claim_phrases_shared_false zp). Qed.
Print Assumptions C19_phrases_refuted.
Theorem C19_details_refuted zp : ¬ claim_details_shared zp.
Proof. exact (claim_details_shared_false zp). Qed.
Print Assumptions C19_details_refuted.
(** They do if the machine says that the first word is not made anew. *)
Theorem C19_words_partial zp fuel t l w i s e out g' m' :
  grown zp false fuel t l w → valid_trace t → Forall (λ x, lvalid (fst x)) l → fits fuel s →
  (PutWord s, OOk (LWord e)) ∈ l →
  fst (m_word (pV (l_run (ms_view (m_run t)) l)) (runes_of s)) = Some false →
  exec zp false (put fuel (PutWord s)) (store w) (mem w i) out g' m' →
  out = OOk (LWord e).
Proof. exact (word_shared zp fuel t l w i s e out g' m'). Qed.
Print Assumptions C19_words_partial.
Theorem C19_phrases_partial zp fuel t l w i s ws e out g' m' :
  grown zp false fuel t l w → valid_trace t → Forall (λ x, lvalid (fst x)) l → fits fuel s → valid_utf8 s →
  (PutPhrase s, OOk (LPhrase e)) ∈ l → code_points s = ws →
  fst (m_word (pV (l_run (ms_view (m_run t)) l)) (hd [] ws)) = Some false →
  exec zp false (put fuel (PutPhrase s)) (store w) (mem w i) out g' m' →
  ∀ v, out = OOk v → v = LPhrase e.
Proof. exact (phrase_shared zp fuel t l w i s ws e out g' m'). Qed.
Print Assumptions C19_phrases_partial.
Example C19_case :
  fst (m_word (pV (l_run (ms_view (m_run [])) layer_trace)) (runes_of (lit "do"))) = Some false ∧
  fst (m_word (pV (l_run (ms_view (m_run [])) layer_trace)) (hd [] (code_points (lit "do it")))) = Some false.
Proof. vm_compute. done. Qed.

(** * C20 AddRemarkToFact reads back *)
Theorem C20_reads_back zp faults fuel t w fk i a ob q pr pr' r w' t1 w1 fk' j out w2 :
  happens zp faults fuel t w fk i (AddRemarkToFact a pr) (OOk (VRem r)) w' →
  tells t a ob q → repaired pr pr' →
  leads zp faults fuel (Called i (AddRemarkToFact a pr) (OOk (VRem r)) :: t) w' t1 w1 →
  hstep zp fk' fuel w1 (Called j (GetObjectAndProperty r) out) w2 →
  store w2 = store w1 ∧ answers fk' out (VText ob pr').
Proof. exact (added_remark_read t w i a ob q pr pr' r w' t1 w1 j out w2). Qed.
Print Assumptions C20_reads_back.
Example C20_case : tells lenient_trace R2 (lit "x") (lit "y") ∧
  ∃ r, happens ZNode false FU lenient_trace (seen lenient_play) false 1 (AddRemarkToFact R2 (lit "is")) (OOk (VRem r))
    (seen (perform FU lenient_play (Do 1 (AddRemarkToFact R2 (lit "is")) []))).
Proof.
  split; [apply lenient_tells|]. rewrite <- lenient_trace_eq. eexists.
  apply (sample_happens ZNode false lenient_play 1 _ []); [apply lenient_plays|vm_compute; reflexivity..].
Qed.

(** * C21 Added remarks can be reached from the fact *)
Theorem C21_refuted zp : ¬ claim_next_remark zp.
Proof. exact (claim_next_remark_false zp). Qed.
Print Assumptions C21_refuted.
(** On no storage, and for no remark. *)
Theorem C21_never zp faults fuel S x r j :
  meets zp S → plays zp faults fuel S x → issued (k_trace x) r →
  r_out (now fuel x j (HasNextRemark r) []) = OOk (VBool false) ∧
  r_out (now fuel x j (GetNextRemark r) []) = OErr ERemarkNext.
Proof. intros HS Hx. exact (plays_next_remark HS Hx r j). Qed.
Print Assumptions C21_never.
Example C21_case : meets ZStrict strict ∧ plays ZStrict true FU strict strict_play ∧ issued (k_trace strict_play) R0 ∧
  Called 1 (AddRemarkToFact R0 (lit "eats")) (OOk (VRem R1)) ∈ k_trace strict_play.
Proof.
  split_and!; [apply ref_storage_meets|apply strict_plays|apply issuedb_sound; vm_compute; reflexivity|].
  rewrite strict_trace_eq. do 4 apply elem_of_list_further. apply elem_of_list_here.
Qed.

(** * C22 Story text *)
Theorem C22_story zp faults fuel t w r r0 o p t' w' fk j out w'' :
  reach zp faults fuel t w → opened false t r r0 → tells t r0 o p → leads zp faults fuel t w t' w' →
  hstep zp fk fuel w' (Called j (GetStory r) out) w'' → (fk = true → zp = ZStrict) →
  store w'' = store w' ∧ answers fk out (VStory (o ++ [space] ++ p ++ [space])).
Proof. intros Hr Ho Ht Hl Hx Hz. exact (story_for_ever Hz t w r r0 o p t' w' j out w'' Hr Ho Ht Hl Hx). Qed.
Print Assumptions C22_story.
Theorem C22_on_every_storage zp faults fuel S x r r0 o p j :
  meets zp S → plays zp faults fuel S x → opened false (k_trace x) r r0 → tells (k_trace x) r0 o p →
  r_out (now fuel x j (GetStory r) []) = OOk (VStory (o ++ [space] ++ p ++ [space])).
Proof. intros HS Hx. exact (plays_story HS Hx r r0 o p j). Qed.
Print Assumptions C22_on_every_storage.
Example C22_case : opened false strict_trace R1 R0 ∧ tells strict_trace R0 (lit "a cat") (lit "is") ∧
  ∃ w', hstep ZStrict false FU (seen strict_play) (Called 1 (GetStory R1) (OOk (VStory (lit "a cat is ")))) w'.
Proof.
  split_and!; [apply strict_opened|apply strict_tells_0|].
  eexists. apply (sample_step ZStrict true _ 1 _ []); [apply strict_plays|vm_compute; reflexivity].
Qed.

(** * C23 AddFactToStory extends the story *)
Theorem C23_refuted : ¬ claim_add_fact ZStrict.
Proof. exact claim_add_fact_false. Qed.
Print Assumptions C23_refuted.
Theorem C23_same_story_refuted : ¬ claim_same_story ZNode.
Proof. exact claim_same_story_false. Qed.
Print Assumptions C23_same_story_refuted.
(** Without node 0 it never succeeds. *)
Theorem C23_strict_never faults fuel t w fk i a ob pr out w' v :
  happens ZStrict faults fuel t w fk i (AddFactToStory a ob pr) out w' → out ≠ OOk v.
Proof. exact (strict_add_fact faults fuel t w fk i a ob pr out w' v). Qed.
Print Assumptions C23_strict_never.
(** With node 0: what it makes reads back. *)
Theorem C23_texts_partial zp faults fuel t w fk i a ob pr ob' pr' r w' t1 w1 fk' j out w2 :
  happens zp faults fuel t w fk i (AddFactToStory a ob pr) (OOk (VRem r)) w' → repaired ob ob' → repaired pr pr' →
  leads zp faults fuel (Called i (AddFactToStory a ob pr) (OOk (VRem r)) :: t) w' t1 w1 →
  hstep zp fk' fuel w1 (Called j (GetObjectAndProperty r) out) w2 →
  store w2 = store w1 ∧ answers fk' out (VText ob' pr').
Proof. intros Hh. exact (own_texts_read t w i (AddFactToStory a ob pr) ob pr ob' pr' r w' t1 w1 j out w2 Hh eq_refl). Qed.
Print Assumptions C23_texts_partial.
Example C23_case : ∃ r,
  happens ZNode false FU (k_trace lenient_play) (seen lenient_play) false 0 (AddFactToStory R2 (lit "a cat") (lit "is")) (OOk (VRem r))
    (seen (perform FU lenient_play (Do 0 (AddFactToStory R2 (lit "a cat") (lit "is")) []))).
Proof.
  eexists. apply (sample_happens ZNode false lenient_play 0 _ []); [apply lenient_plays|vm_compute; reflexivity..].
Qed.

(** * C24 Next fact navigation *)
Theorem C24_has_refuted zp : ¬ claim_has_next_fact zp.
Proof. exact (claim_has_next_fact_false zp). Qed.
Print Assumptions C24_has_refuted.
Theorem C24_get_refuted : ¬ claim_get_next_fact ZNode.
Proof. exact claim_get_next_fact_false. Qed.
Print Assumptions C24_get_refuted.
(** Without node 0 all four calls always fail. *)
Theorem C24_C26_strict_never faults fk fuel t w i o r out w' :
  reach ZStrict faults fuel t w → issued t r →
  (o = HasNextFact r ∨ o = GetNextFact r ∨ o = HasNextStory r ∨ o = GetNextStory r) →
  hstep ZStrict fk fuel w (Called i o out) w' →
  store w' = store w ∧ refuses fk out EStorage.
Proof. intros Hr. exact (strict_navigation Hr i o r out w'). Qed.
Print Assumptions C24_C26_strict_never.
(** With node 0, HasNextFact says if any fact was ever added to any story. *)
Theorem C24_lenient_has fuel t w i r out w' :
  reach ZNode false fuel t w → issued t r →
  hstep ZNode false fuel w (Called i (HasNextFact r) out) w' →
  store w' = store w ∧ ∃ b, out = OOk (VBool b) ∧ (b = true ↔ fact_added t).
Proof. exact (lenient_has_next_fact fuel t w i r out w'). Qed.
Print Assumptions C24_lenient_has.
Example C24_case : reach ZNode false FU lenient_trace (seen lenient_play) ∧ issued lenient_trace R2 ∧
  fact_added lenient_trace ∧ ∃ w', hstep ZNode false FU (seen lenient_play) (Called 0 (HasNextFact R2) (OOk (VBool true))) w'.
Proof.
  split_and!; [apply lenient_reach|apply lenient_issued|apply lenient_added|].
  eexists. apply (sample_step ZNode false _ 0 _ []); [apply lenient_plays|vm_compute; reflexivity].
Qed.

(** * C25 Child stories *)
Theorem C25_refuted zp : ¬ claim_child_story zp.
Proof. exact (claim_child_story_false zp). Qed.
Print Assumptions C25_refuted.
Theorem C25_strict_never faults fuel t w fk i a ob pr out w' v :
  happens ZStrict faults fuel t w fk i (CreateChildStory a ob pr) out w' → out ≠ OOk v.
Proof. exact (strict_child_story faults fuel t w fk i a ob pr out w' v). Qed.
Print Assumptions C25_strict_never.
(** What it makes reads back and has itself as first fact. *)
Theorem C25_texts_partial zp faults fuel t w fk i a ob pr ob' pr' r w' t1 w1 fk' j out w2 :
  happens zp faults fuel t w fk i (CreateChildStory a ob pr) (OOk (VRem r)) w' → repaired ob ob' → repaired pr pr' →
  leads zp faults fuel (Called i (CreateChildStory a ob pr) (OOk (VRem r)) :: t) w' t1 w1 →
  hstep zp fk' fuel w1 (Called j (GetObjectAndProperty r) out) w2 →
  store w2 = store w1 ∧ answers fk' out (VText ob' pr').
Proof. intros Hh. exact (own_texts_read t w i (CreateChildStory a ob pr) ob pr ob' pr' r w' t1 w1 j out w2 Hh eq_refl). Qed.
Print Assumptions C25_texts_partial.
Theorem C25_first_fact_partial zp faults fuel t w fk i a ob pr r w' t1 w1 j out w2 :
  happens zp faults fuel t w fk i (CreateChildStory a ob pr) (OOk (VRem r)) w' →
  leads zp faults fuel (Called i (CreateChildStory a ob pr) (OOk (VRem r)) :: t) w' t1 w1 →
  hstep zp false fuel w1 (Called j (GetFirstFact r) out) w2 →
  store w2 = store w1 ∧ out = OOk (VRem r).
Proof. exact (child_first_fact zp faults fuel t w fk i a ob pr r w' t1 w1 j out w2). Qed.
Print Assumptions C25_first_fact_partial.
Example C25_case :
  happens ZNode false FU (drop 2 lenient_trace) (seen (play lenient FU (take 1 lenient_acts))) false 0
    (CreateChildStory R0 (lit "My") (lit "mice")) (OOk (VRem R1)) (seen (play lenient FU (take 2 lenient_acts))).
Proof.
  assert (Ht : k_trace (play lenient FU (take 1 lenient_acts)) = drop 2 lenient_trace) by (vm_compute; reflexivity).
  rewrite <- Ht. apply (sample_happens ZNode false _ 0 _ []); [apply play_plays; vm_compute; reflexivity|vm_compute; reflexivity..].
Qed.

(** * C26 Next story navigation *)
Theorem C26_get_refuted : ¬ claim_next_story ZNode.
Proof. exact claim_next_story_false. Qed.
Print Assumptions C26_get_refuted.
Theorem C26_has_refuted zp : ¬ claim_has_next_story zp.
Proof. exact (claim_has_next_story_false zp). Qed.
Print Assumptions C26_has_refuted.

(** * C27 Read calls do not write *)
Theorem C27_reads_keep zp faults fuel t w fk i o out w' :
  happens zp faults fuel t w fk i o out w' → creating o = false → store w' = store w.
Proof. intros (Hr&Hl&Hx&Hf). exact (reading_keeps zp faults fuel t w fk i o out w' Hr Hl Hx Hf). Qed.
Print Assumptions C27_reads_keep.
(** For any receiver and whatever the storage answers. *)
Theorem C27_only_looks fuel o :
  match o with
  | GetRemark _ | HasNextRemark _ | HasNextFact _ | GetNextFact _ | GetFirstFact _
  | HasNextStory _ | GetNextStory _ => True
  | _ => False
  end → makes_only only_looks (call_of fuel o).
Proof. exact (calls_look fuel o). Qed.
Print Assumptions C27_only_looks.
Example C27_case : creating (GetStory R0) = false ∧
  happens ZStrict true FU (k_trace strict_play) (seen strict_play) true 1 (GetStory R0) (OErr EStorage)
    (seen (perform FU strict_play (Do 1 (GetStory R0) (repeat Normal 9 ++ [Fault])))).
Proof.
  split; [done|].
  apply (sample_happens ZStrict true strict_play 1 (GetStory R0) (repeat Normal 9 ++ [Fault])); [apply strict_plays|vm_compute; reflexivity..].
Qed.

(** * C28 Readers next to one writer

    [tells], [issued] and [opened] speak of the moment before the reader and
    the writer start. *)
Theorem C28_texts zp faults fuel t w fk i r o p out b :
  reach zp faults fuel t w → tells t r o p →
  overlaps zp faults fuel fk (between t w) (call_of fuel (GetObjectAndProperty r)) (mem w i) out b →
  rtc (moves zp faults fuel) (between t w) b ∧ answers fk out (VText o p).
Proof. intros Hr. exact (overlap_texts Hr i r o p out b). Qed.
Print Assumptions C28_texts.
Theorem C28_story zp faults fuel t w fk i r r0 o p out b :
  reach zp faults fuel t w → opened false t r r0 → tells t r0 o p → (fk = true → zp = ZStrict) →
  overlaps zp faults fuel fk (between t w) (call_of fuel (GetStory r)) (mem w i) out b →
  rtc (moves zp faults fuel) (between t w) b ∧ answers fk out (VStory (o ++ [space] ++ p ++ [space])).
Proof. intros Hr Ho Ht Hz. exact (overlap_story Hr Hz i r r0 o p out b Ho Ht). Qed.
Print Assumptions C28_story.
Theorem C28_first_fact zp faults fuel t w fk i r r0 out b :
  reach zp faults fuel t w → opened false t r r0 → (fk = true → zp = ZStrict) →
  overlaps zp faults fuel fk (between t w) (call_of fuel (GetFirstFact r)) (mem w i) out b →
  rtc (moves zp faults fuel) (between t w) b ∧ answers fk out (VRem r0).
Proof. intros Hr Ho Hz. exact (overlap_first_fact Hr Hz i r r0 out b Ho). Qed.
Print Assumptions C28_first_fact.
Theorem C28_identifier zp faults fuel t w fk i r out b :
  reach zp faults fuel t w → issued t r →
  overlaps zp faults fuel fk (between t w) (call_of fuel (GetRemark (get_identifier r))) (mem w i) out b →
  rtc (moves zp faults fuel) (between t w) b ∧ answers fk out (VRem r).
Proof. intros Hr. exact (overlap_identifier Hr i r out b). Qed.
Print Assumptions C28_identifier.
Theorem C28_has_next_remark zp faults fuel t w fk i r out b :
  reach zp faults fuel t w → issued t r →
  overlaps zp faults fuel fk (between t w) (call_of fuel (HasNextRemark r)) (mem w i) out b →
  rtc (moves zp faults fuel) (between t w) b ∧ answers fk out (VBool false).
Proof. intros Hr. exact (overlap_has_next_remark Hr i r out b). Qed.
Print Assumptions C28_has_next_remark.
(** The writer takes every fourth step and makes 28 nodes meanwhile. *)
Definition C28_steps : list bool := concat (repeat [true; false; false; false] 150).
Example C28_case :
  let z := weave ZStrict C28_steps (start strict_play 1 late) (start strict_play 0 (GetObjectAndProperty R1)) (k_state strict_play) in
  overlaps ZStrict true FU false (between (k_trace strict_play) (seen strict_play))
    (call_of FU (GetObjectAndProperty R1)) (k_mem strict_play 0)
    (OOk (VText (lit "a cat") (lit "eats"))) (within (k_trace strict_play) (k_mem strict_play) true 1 late (fst (fst z)) (snd z)) ∧
  size (nodes (rs_graph (snd z))) = 28 + size (nodes (rs_graph (k_state strict_play))).
Proof.
  intros z. split; [apply sample_overlap_call; [apply strict_plays|apply late_allowed|]|]; vm_compute; reflexivity.
Qed.

(** * C29 Concurrent first use *)
Theorem C29_refuted zp : ¬ claim_concurrent_first_use zp.
Proof. exact (claim_concurrent_first_use_false zp). Qed.
Print Assumptions C29_refuted.

(** * C30 Storage errors surface as errors *)
Theorem C30_refuted zp : ¬ claim_errors_surface zp.
Proof. exact (claim_errors_surface_false zp). Qed.
Print Assumptions C30_refuted.
(** But a read that succeeds all the same gives the right texts. *)
Theorem C30_no_wrong_texts_partial zp faults fuel S x r o p j evs v :
  meets zp S → plays zp faults fuel S x → tells (k_trace x) r o p →
  r_out (now fuel x j (GetObjectAndProperty r) evs) = OOk v → v = VText o p.
Proof. intros HS Hx. exact (plays_texts_faults HS Hx r o p j evs v). Qed.
Print Assumptions C30_no_wrong_texts_partial.
(** And five of the reads never succeed if a storage call fails or they are
    killed: on any storage, on any receiver. *)
Theorem C30_reads_notice_partial fuel o :
  match o with
  | GetRemark _ | GetObjectAndProperty _ | HasNextRemark _ | HasNextFact _ | GetNextFact _ => True
  | _ => False
  end → ∀ S evs s m v, struck S (call_of fuel o) evs s m = true → r_out (run S (call_of fuel o) evs s m) ≠ OOk v.
Proof. exact (reads_notice fuel o). Qed.
Print Assumptions C30_reads_notice_partial.
(** One storage error makes the read fail, another makes it panic. *)
Example C30_case :
  let read n := now FU strict_play 0 (GetObjectAndProperty R1) (repeat Normal n ++ [Fault]) in
  struck strict (call_of FU (GetObjectAndProperty R1)) (repeat Normal 280 ++ [Fault]) (k_state strict_play) (k_mem strict_play 0) = true ∧
  r_out (read 280) = OPanic ∧ r_out (read 281) = OErr EStorage ∧ r_out (read 400) = OOk (VText (lit "a cat") (lit "eats")).
Proof. vm_compute. done. Qed.

(** * C31 Failed calls leave no trace *)
Theorem C31_refuted zp : ¬ claim_no_trace zp.
Proof. exact (claim_no_trace_false zp). Qed.
Print Assumptions C31_refuted.

(** * C32 A transient storage error does no lasting damage *)
Theorem C32_refuted zp : ¬ claim_retry zp.
Proof. exact (claim_retry_false zp). Qed.
Print Assumptions C32_refuted.

(** * C33 Foreign identifiers are rejected *)
Theorem C33_refuted zp : ¬ claim_foreign_identifiers zp.
Proof. exact (claim_foreign_identifiers_false zp). Qed.
Print Assumptions C33_refuted.

(** * C34 Independence from parallel edges *)
Theorem C34_refuted zp : ¬ claim_parallel_edges zp.
Proof. exact (claim_parallel_edges_false zp). Qed.
Print Assumptions C34_refuted.

(** * C35 Termination *)
Theorem C35_terminates zp faults fuel t w fk i o out w' :
  happens zp faults fuel t w fk i o out w' → out ≠ ODiverge.
Proof. intros (Hr&Hl&Hx&Hf). exact (never_diverges zp faults fuel t w fk i o out w' Hr Hl Hx Hf). Qed.
Print Assumptions C35_terminates.
(** The fuel of the model is no bound: with more of it nothing changes. *)
Theorem C35_any_fuel zp faults n n' t w fk i o out w' :
  n ≤ n' → reach zp faults n t w → legal n t (Called i o out) →
  (fk = true → faults = true ∧ zp = ZStrict ∧ settled t) →
  (hstep zp fk n w (Called i o out) w' ↔ hstep zp fk n' w (Called i o out) w').
Proof. exact (step_any_fuel zp faults n n' t w fk i o out w'). Qed.
Print Assumptions C35_any_fuel.
Theorem C35_more_fuel zp faults n n' t w : n ≤ n' → reach zp faults n t w → reach zp faults n' t w.
Proof. exact (reach_any_fuel zp faults n n' t w). Qed.
Print Assumptions C35_more_fuel.
Theorem C35_less_fuel zp faults n n' t w : n ≤ n' → all_fit n t → reach zp faults n' t w → reach zp faults n t w.
Proof. exact (reach_less_fuel zp faults n n' t w). Qed.
Print Assumptions C35_less_fuel.
Theorem C35_on_every_storage zp faults n n' S x i o evs :
  meets zp S → n ≤ n' → plays zp faults n S x → allowed zp faults n (k_trace x) (Do i o evs) →
  r_out (now n x i o evs) ≠ ODiverge ∧ now n' x i o evs = now n x i o evs.
Proof. intros HS Hn Hx Ha. exact (conj (plays_terminates HS faults n x i o evs Hx Ha) (now_any_fuel HS faults n n' x i o evs Hn Hx Ha)). Qed.
Print Assumptions C35_on_every_storage.
Example C35_case : happens ZStrict true FU strict_trace (seen strict_play) true 0 (GetStory R0) (OErr EStorage)
  (seen (perform FU strict_play (Do 0 (GetStory R0) [Normal; Fault]))).
Proof.
  rewrite <- strict_trace_eq.
  apply (sample_happens ZStrict true strict_play 0 (GetStory R0) [Normal; Fault]); [apply strict_plays|vm_compute; reflexivity..].
Qed.

Example C35_fuel_case : FU ≤ 10 * FU ∧ reach ZStrict true FU strict_trace (seen strict_play) ∧ all_fit FU strict_trace ∧
  legal FU strict_trace (Called 0 (GetStory R0) (OErr EStorage)) ∧ allowed ZStrict true FU (k_trace strict_play) (Do 1 late []).
Proof.
  assert (Hr : reach ZStrict true FU strict_trace (seen strict_play)).
  { rewrite <- strict_trace_eq. apply sample_reach, strict_plays. }
  refine (conj _ (conj Hr (conj _ (conj _ _)))).
  - vm_compute. lia.
  - exact (reach_fits _ _ _ _ _ Hr).
  - rewrite <- strict_trace_eq.
    assert (Ha : allowed ZStrict true FU (k_trace strict_play) (Do 0 (GetStory R0) [])) by (apply allowedb_sound; vm_compute; reflexivity).
    apply Ha.
  - apply allowedb_sound. vm_compute. reflexivity.
Qed.

(** * C36 The stored graph is well typed *)
Theorem C36_typed zp faults fuel a : seen_at zp faults fuel a → ∃ K, typed zp (mo_store a) K.
Proof. exact (moments_typed zp faults fuel a). Qed.
Print Assumptions C36_typed.
Example C36_case :
  let y := march ZStrict 83 (start strict_play 1 late) (k_state strict_play) in
  seen_at ZStrict true FU (within (k_trace strict_play) (k_mem strict_play) true 1 late (fst y) (snd y)) ∧
  size (edges (rs_graph (snd y))) = 209.
Proof.
  intros y. split; [apply (sample_moment ZStrict true strict_play true); [apply strict_plays|apply late_allowed]|vm_compute; reflexivity].
Qed.

(** * C37 First fact of a story *)
Theorem C37_first_fact zp faults fuel t w r r0 t' w' fk j out w'' :
  reach zp faults fuel t w → opened false t r r0 → leads zp faults fuel t w t' w' →
  hstep zp fk fuel w' (Called j (GetFirstFact r) out) w'' → (fk = true → zp = ZStrict) →
  store w'' = store w' ∧ answers fk out (VRem r0).
Proof. intros Hr Ho Hl Hx Hz. exact (first_fact_for_ever Hz t w r r0 t' w' j out w'' Hr Ho Hl Hx). Qed.
Print Assumptions C37_first_fact.
Theorem C37_on_every_storage zp faults fuel S x r r0 j :
  meets zp S → plays zp faults fuel S x → opened false (k_trace x) r r0 →
  r_out (now fuel x j (GetFirstFact r) []) = OOk (VRem r0).
Proof. intros HS Hx. exact (plays_first_fact HS Hx r r0 j). Qed.
Print Assumptions C37_on_every_storage.
Example C37_case : opened false strict_trace R1 R0 ∧
  ∃ w', hstep ZStrict false FU (seen strict_play) (Called 1 (GetFirstFact R1) (OOk (VRem R0))) w'.
Proof.
  split; [apply strict_opened|].
  eexists. apply (sample_step ZStrict true _ 1 _ []); [apply strict_plays|vm_compute; reflexivity].
Qed.

(** * C38 Splitting and joining of phrases *)
Theorem C38_join_split (s : text) : join_space (split_space s) = s ∧ split_space s ≠ [] ∧ words s (split_space s).
Proof. exact (split_once s). Qed.
Print Assumptions C38_join_split.
Theorem C38_split_unique (s : text) ws : words s ws ↔ ws = split_space s.
Proof. exact (words_iff s ws). Qed.
Print Assumptions C38_split_unique.
Example C38_case : split_space (lit " a  b") = [[]; lit "a"; []; lit "b"].
Proof. reflexivity. Qed.

(** * C39 UTF-8 codec *)
Theorem C39_identity_iff_valid (s : text) : string_of_runes (runes_of s) = s ↔ valid_utf8 s.
Proof. exact (normalise_id_iff s). Qed.
Print Assumptions C39_identity_iff_valid.
Theorem C39_repairs (s t : text) : repaired s t ↔ t = string_of_runes (runes_of s).
Proof. exact (repaired_iff s t). Qed.
Print Assumptions C39_repairs.
Theorem C39_decodes cs : Forall utf8_char cs → runes_of (concat cs) = map code_point cs.
Proof. exact (runes_of_chars cs). Qed.
Print Assumptions C39_decodes.
Theorem C39_encodes r : scalar_value r → utf8_char (encode_rune r) ∧ code_point (encode_rune r) = r.
Proof. exact (encode_code_point r). Qed.
Print Assumptions C39_encodes.
Theorem C39_decode_encode rs : Forall scalar_value rs → runes_of (string_of_runes rs) = rs.
Proof. intros H. exact (runes_of_string_of_runes rs (Forall_impl _ _ _ H (λ r, proj2 (scalar_iff r)))). Qed.
Print Assumptions C39_decode_encode.
Theorem C39_split_commutes (s : text) :
  split_space (string_of_runes (runes_of s)) = map (λ w, string_of_runes (runes_of w)) (split_space s).
Proof. exact (normalise_split s). Qed.
Print Assumptions C39_split_commutes.
Example C39_case : Forall utf8_char [lit "a"; map Ascii.ascii_of_N [226; 130; 172]%N] ∧ scalar_value 8364 ∧
  code_point (map Ascii.ascii_of_N [226; 130; 172]%N) = 8364%Z.
Proof.
  split_and!; [|unfold scalar_value; lia|reflexivity].
  constructor; [apply U1; unfold between; vm_compute; split; discriminate|].
  constructor; [apply U3b; unfold tailb, between; vm_compute; split; discriminate|constructor].
Qed.

(** * C40 A crash in the very first call does no harm *)
Theorem C40_refuted zp : ¬ claim_first_crash zp.
Proof. exact (claim_first_crash_false zp). Qed.
Print Assumptions C40_refuted.

(** * C41 Class checks

    [class_is k x] is the check of internal/concrete/class/node. *)
Theorem C41_remarks zp faults fuel t w fk r k m out g' m' :
  reach zp faults fuel t w → issued t r → cache_in w m →
  exec zp fk (class_is k (re_class r)) (store w) m out g' m' →
  g' = store w ∧ answers fk out (bool_decide (k = 6%N)).
Proof. exact (remark_class zp faults fuel t w fk r k m out g' m'). Qed.
Print Assumptions C41_remarks.
Theorem C41_layers zp faults fuel t l w fk o v x k k' m out g' m' :
  grown zp faults fuel t l w → (o, OOk v) ∈ l → class_of v = Some (x, k) → cache_in w m →
  exec zp fk (class_is k' x) (store w) m out g' m' →
  g' = store w ∧ answers fk out (bool_decide (k = k')).
Proof. exact (layer_class zp faults fuel t l w fk o v x k k' m out g' m'). Qed.
Print Assumptions C41_layers.
Example C41_case : (PutBit true, OOk (LBit B1)) ∈ layer_trace ∧ class_of (LBit B1) = Some (be_class B1, 1%N) ∧
  ∃ g' m', exec ZStrict false (class_is 2 (be_class B1)) (store (lseen layer_play)) None (OOk false) g' m'.
Proof.
  split_and!.
  - do 3 apply elem_of_list_further; apply elem_of_list_here.
  - done.
  - eexists _, _. apply (sample_exec _ []). vm_compute. reflexivity.
Qed.

(** * C42 Missing and ambiguous neighbours

    [g] is any storage contents, not only what the program leaves behind. *)
Theorem C42_fetch zp p d x g m out g' m' : fetches p d x → valid zp g x →
  exec zp false p g m out g' m' →
  g' = g ∧ m' = m ∧ (∀ y, out = OOk y ↔ only_neighbour d g x y) ∧ ((∀ y, out ≠ OOk y) → ∃ er, out = OErr er).
Proof. exact (fetches_rule p d x g m out g' m'). Qed.
Print Assumptions C42_fetch.
Theorem C42_ask zp p d x b g m out g' m' : asks p d x b → valid zp g x →
  exec zp false p g m out g' m' →
  g' = g ∧ m' = m ∧ (out = OOk false ↔ no_neighbour d g x) ∧
  (out = OOk true ↔ if b then ∃ y, only_neighbour d g x y else ∃ y, near d g x y) ∧
  ((∀ v, out ≠ OOk v) → ∃ er, out = OErr er).
Proof. exact (asks_rule p d x b g m out g' m'). Qed.
Print Assumptions C42_ask.
Theorem C42_phrases zp e g m out g' m' : valid zp g (de_phrase e) →
  exec zp false (detail_get_object_and_property_phrases e) g m out g' m' →
  g' = g ∧ m' = m ∧
  (∀ o p, out = OOk (o, p) ↔ only_neighbour Incoming g (de_phrase e) o ∧ only_neighbour Outgoing g (de_phrase e) p) ∧
  ((∀ v, out ≠ OOk v) → ∃ er, out = OErr er).
Proof. exact (phrases_rule e g m out g' m'). Qed.
Print Assumptions C42_phrases.
Theorem C42_joint zp object property g m out g' m' :
  valid zp g (pe_detail object) → valid zp g (pe_detail property) →
  exec zp false (detail_provide_entity object property) g m out g' m' →
  (∀ d, valid zp g d → (∀ z, joint_detail g object property z ↔ z = d) →
    g' = g ∧ ∃ e, out = OOk e ∧ de_phrase e = d) ∧
  (∀ d1 d2, d1 ≠ d2 → joint_detail g object property d1 → joint_detail g object property d2 →
    g' = g ∧ out = OErr ETooManyDetails).
Proof. exact (joint_rule object property g m out g' m'). Qed.
Print Assumptions C42_joint.
Theorem C42_occupied zp e c y g m out g' m' : valid zp g (be_char e) → near Outgoing g (be_char e) y →
  exec zp false (bit_point_to_character e c) g m out g' m' → g' = g ∧ out = OErr EBitOccupied.
Proof. exact (occupied_rule e c y g m out g' m'). Qed.
Print Assumptions C42_occupied.
Theorem C42_bit_count zp g out g' m' : 1%N ∈ nodes g →
  (∃ x, (x, 1%N) ∈ edges g) → (¬ ∃ x y, x ≠ y ∧ ∀ z, (z, 1%N) ∈ edges g ↔ z = x ∨ z = y) →
  exec zp false bit_initialize g None out g' m' → g' = g ∧ out = OErr EWrongBitCount.
Proof. exact (bit_count_rule g out g' m'). Qed.
Print Assumptions C42_bit_count.
Theorem C42_no_bit zp x z o g out g' m' :
  exec zp false (bit_fetch x) g (Some (z, o)) out g' m' →
  g' = g ∧ (x ≠ be_char z → x ≠ be_char o → out = OErr EWrongBitId) ∧ (∀ e, out = OOk e → be_char e = x).
Proof. exact (bit_fetch_rule x z o g out g' m'). Qed.
Print Assumptions C42_no_bit.
Theorem C42_next_remark zp a g m out g' m' : 1%N ∈ nodes g → valid zp g (re_position a) →
  exec zp false (get_next_remark a) g m out g' m' →
  g' = g ∧ (∀ r, out = OOk r → only_neighbour Outgoing g (re_class r) 6%N) ∧
  ((∀ r, out ≠ OOk r) → ∃ er, out = OErr er).
Proof. exact (next_remark_rule a g m out g' m'). Qed.
Print Assumptions C42_next_remark.
(** The same when storage calls may fail: the answer is right, or the failure is reported. *)
Theorem C42_fetch_faults zp fk p d x g m out g' m' : fetches p d x → valid zp g x → exec zp fk p g m out g' m' →
  g' = g ∧ m' = m ∧
  ((∀ y, out = OOk y ↔ only_neighbour d g x y) ∧ ((∀ y, out ≠ OOk y) → ∃ er, out = OErr er) ∨
   fk = true ∧ (out = OErr EStorage ∨ out = OKilled)).
Proof. exact (fetches_any p d x g m out g' m'). Qed.
Print Assumptions C42_fetch_faults.
Theorem C42_ask_faults zp fk p d x b g m out g' m' : asks p d x b → valid zp g x → exec zp fk p g m out g' m' →
  g' = g ∧ m' = m ∧
  ((out = OOk false ↔ no_neighbour d g x) ∧
   (out = OOk true ↔ if b then ∃ y, only_neighbour d g x y else ∃ y, near d g x y) ∧
   ((∀ v, out ≠ OOk v) → ∃ er, out = OErr er) ∨
   fk = true ∧ (out = OErr EStorage ∨ out = OKilled)).
Proof. exact (asks_any p d x b g m out g' m'). Qed.
Print Assumptions C42_ask_faults.
Theorem C42_phrases_faults zp fk e g m out g' m' : valid zp g (de_phrase e) →
  exec zp fk (detail_get_object_and_property_phrases e) g m out g' m' →
  g' = g ∧ m' = m ∧
  ((∀ o p, out = OOk (o, p) ↔ only_neighbour Incoming g (de_phrase e) o ∧ only_neighbour Outgoing g (de_phrase e) p) ∧
   ((∀ v, out ≠ OOk v) → ∃ er, out = OErr er) ∨
   fk = true ∧ (out = OErr EStorage ∨ out = OKilled)).
Proof. exact (phrases_any e g m out g' m'). Qed.
Print Assumptions C42_phrases_faults.
(** The joint detail is the exception: a failing look at the second phrase is
    taken for a missing detail, and another one is made. *)
Theorem C42_joint_faults zp fk o p d g m out g' m' : mirrored g →
  valid zp g detailIdentifier → valid zp g (pe_detail o) → valid zp g (pe_detail p) →
  valid zp g d → (∀ z, joint_detail g o p z ↔ z = d) →
  exec zp fk (detail_provide_entity o p) g m out g' m' →
  g' = g ∧ m' = m ∧ (fk = false → ∃ e, out = OOk e) ∧ (∀ e, out = OOk e → de_phrase e = d) ∨
  fk = true ∧ brings fk (new_detail o p g) g m out g' m'.
Proof. exact (joint_any o p d g m out g' m'). Qed.
Print Assumptions C42_joint_faults.
Theorem C42_crowded_faults zp fk o p d1 d2 g m out g' m' : mirrored g →
  valid zp g detailIdentifier → valid zp g (pe_detail o) → valid zp g (pe_detail p) →
  d1 ≠ d2 → joint_detail g o p d1 → joint_detail g o p d2 →
  exec zp fk (detail_provide_entity o p) g m out g' m' →
  g' = g ∧ m' = m ∧ refuses fk out ETooManyDetails ∨ fk = true ∧ brings fk (new_detail o p g) g m out g' m'.
Proof. exact (crowded_any o p d1 d2 g m out g' m'). Qed.
Print Assumptions C42_crowded_faults.
Theorem C42_second_detail_refuted : ¬ ∀ fk o p d g m e g' m', mirrored g →
  detailIdentifier ∈ nodes g → pe_detail o ∈ nodes g → pe_detail p ∈ nodes g →
  (∀ z, joint_detail g o p z ↔ z = d) → exec ZStrict fk (detail_provide_entity o p) g m (OOk e) g' m' → de_phrase e = d.
Proof. exact second_detail. Qed.
Print Assumptions C42_second_detail_refuted.
Example C42_fetch_case : (∃ g' m', exec ZStrict false (word_get_target_phrase (WordEnt 1 1 1 5)) odd_graph None (OErr EWordTargetPhrases) g' m') ∧
  (∃ g' m', exec ZStrict false (word_get_target_phrase (WordEnt 1 1 1 10)) odd_graph None (OOk 11%N) g' m') ∧
  (∃ g' m', exec ZStrict false (word_get_source_word (WordEnt 1 1 1 1)) odd_graph None (OErr EWordSources) g' m').
Proof. split_and!; apply odd_exec; vm_compute; reflexivity. Qed.
Example C42_ask_case : (∃ g' m', exec ZStrict false (word_has_target_phrase (WordEnt 1 1 1 5)) odd_graph None (OErr EWordTargetPhrases) g' m') ∧
  (∃ g' m', exec ZStrict false (word_has_target_phrase (WordEnt 1 1 1 9)) odd_graph None (OOk false) g' m') ∧
  (∃ g' m', exec ZStrict false (word_has_source_word (WordEnt 1 1 1 1)) odd_graph None (OOk true) g' m').
Proof. split_and!; apply odd_exec; vm_compute; reflexivity. Qed.
Example C42_details_case : (∃ g' m', exec ZStrict false (detail_provide_entity (PhraseEnt 1 1 1 5) (PhraseEnt 1 1 1 5)) odd_graph None (OErr ETooManyDetails) g' m') ∧
  (∃ g' m', exec ZStrict false (detail_provide_entity (PhraseEnt 1 1 1 5) (PhraseEnt 1 1 1 8)) odd_graph None (OOk (DetailEnt 0 7 0)) g' m') ∧
  (∃ g' m', exec ZStrict false (detail_get_object_and_property_phrases (DetailEnt 0 7 0)) odd_graph None (OErr EDetailTargets) g' m').
Proof. split_and!; apply odd_exec; vm_compute; reflexivity. Qed.
Example C42_bits_case : (∃ g' m', exec ZStrict false bit_initialize odd_graph None (OErr EWrongBitCount) g' m') ∧
  (∃ g' m', exec ZStrict false (bit_point_to_character (BitEnt true 2 5) 9) odd_graph None (OErr EBitOccupied) g' m') ∧
  (∃ g' m', exec ZStrict false (bit_fetch 9) odd_graph (Some (B0, B1)) (OErr EWrongBitId) g' m').
Proof. split_and!; apply odd_exec; vm_compute; reflexivity. Qed.
Example C42_remark_case : (∃ g' m', exec ZStrict false (get_next_remark (RemarkEnt 1 1 10 1)) odd_graph None (OOk (RemarkEnt 13 12 11 0)) g' m') ∧
  (∃ g' m', exec ZStrict false (get_next_remark (RemarkEnt 1 1 7 1)) odd_graph None (OErr ERemarkNext) g' m').
Proof. split_and!; apply odd_exec; vm_compute; reflexivity. Qed.
Example C42_faults_case : mirrored letters_graph ∧ (∀ z, joint_detail letters_graph P_object P_property z ↔ z = 31%N) ∧
  (∃ g' m', exec ZStrict true (detail_provide_entity P_object P_property) letters_graph (Some (B_zero, B_one)) (OOk (DetailEnt 0 31 32)) g' m') ∧
  (∃ g' m', exec ZStrict true (detail_provide_entity P_object P_property) letters_graph (Some (B_zero, B_one)) (OOk (DetailEnt 46 48 51)) g' m') ∧
  (∃ g' m', exec ZStrict true (word_get_target_phrase (WordEnt 1 1 1 18)) letters_graph (Some (B_zero, B_one)) (OErr EStorage) g' m') ∧
  ∃ g' m', exec ZStrict true (word_has_source_word (WordEnt 1 1 1 18)) letters_graph (Some (B_zero, B_one)) OKilled g' m'.
Proof.
  split; [exact letters_mirrored|]. split; [exact letters_joint|].
  split; [apply (letters_exec true _ []); [done|vm_compute; reflexivity]|].
  split; [apply (letters_exec true _ [Normal; Fault]); [done|vm_compute; reflexivity]|].
  split; [apply (letters_exec true _ [Fault]); [done|vm_compute; reflexivity]|].
  apply (letters_exec true _ [Kill]); [done|vm_compute; reflexivity].
Qed.

(** * C43 Lookups agree

    The nodes of an entity form a [row]; [finds] lists the lookups. *)
Theorem C43_moments zp faults fuel fk a A (p : prog A) e l m out g' m' :
  seen_at zp faults fuel a → row (mo_store a) l → finds A p e l →
  exec zp fk p (mo_store a) m out g' m' → g' = mo_store a ∧ m' = m ∧ answers fk out e.
Proof. exact (lookup_moment zp faults fuel fk a A p e l m out g' m'). Qed.
Print Assumptions C43_moments.
Theorem C43_layers zp faults fuel fk t ls w A (p : prog A) e l m out g' m' :
  grown zp faults fuel t ls w → row (store w) l → finds A p e l →
  exec zp fk p (store w) m out g' m' → g' = store w ∧ m' = m ∧ answers fk out e.
Proof. exact (lookup_grown zp faults fuel fk t ls w A p e l m out g' m'). Qed.
Print Assumptions C43_layers.
Theorem C43_remark_row zp faults fuel t w r :
  reach zp faults fuel t w → issued t r → row (store w) (remark_row r).
Proof. exact (row_remark zp faults fuel t w r). Qed.
Print Assumptions C43_remark_row.
Theorem C43_layer_row zp faults fuel t l w o v :
  grown zp faults fuel t l w → (o, OOk v) ∈ l → row (store w) (layer_row v).
Proof. exact (row_layer zp faults fuel t l w o v). Qed.
Print Assumptions C43_layer_row.
Theorem C43_by_class_refuted zp : ¬ claim_found_character zp.
Proof. exact (claim_found_character_false zp). Qed.
Print Assumptions C43_by_class_refuted.
Example C43_moment_case :
  let y := march ZStrict 83 (start strict_play 1 late) (k_state strict_play) in
  let a := within (k_trace strict_play) (k_mem strict_play) true 1 late (fst y) (snd y) in
  seen_at ZStrict true FU a ∧ row (mo_store a) (remark_row R0) ∧ finds _ (remark_read_by_fact 13) R0 (remark_row R0).
Proof.
  intros y a. split; [apply (sample_moment ZStrict true strict_play true); [apply strict_plays|apply late_allowed]|].
  split; [vm_compute; auto|constructor].
Qed.
Example C43_layer_case : (PutPhrase (lit "do it"), OOk (LPhrase Pdoit)) ∈ layer_trace ∧
  row (store (lseen layer_play)) (layer_row (LPhrase Pdoit)) ∧
  finds _ (phrase_read_by_detail 194) Pdoit (layer_row (LPhrase Pdoit)) ∧
  ∃ g' m', exec ZStrict false (phrase_read_by_detail 194) (store (lseen layer_play)) None (OOk Pdoit) g' m'.
Proof.
  split_and!.
  - do 4 apply elem_of_list_further; apply elem_of_list_here.
  - vm_compute. auto.
  - constructor.
  - eexists _, _. apply (sample_exec _ []). vm_compute. reflexivity.
Qed.

(** * C44 Parent stories *)
Theorem C44_own_has zp faults fk fuel t w r r0 m out g' m' :
  reach zp faults fuel t w → (fk = true → zp = ZStrict) → opened false t r r0 → ¬ is_child t r0 →
  exec zp fk (has_parent_story r) (store w) m out g' m' → g' = store w ∧ answers fk out false.
Proof. intros Hr Hz. exact (own_has_parent Hr Hz r r0 m out g' m'). Qed.
Print Assumptions C44_own_has.
Theorem C44_own_get zp faults fk fuel t w r r0 m out g' m' :
  reach zp faults fuel t w → (fk = true → zp = ZStrict) → opened false t r r0 → ¬ is_child t r0 →
  exec zp fk (to_parent_story r) (store w) m out g' m' → g' = store w ∧ refuses fk out EStoryTargetTrees.
Proof. intros Hr Hz. exact (own_to_parent Hr Hz r r0 m out g' m'). Qed.
Print Assumptions C44_own_get.
(** Without node 0 there are no child stories. *)
Theorem C44_strict_own faults fuel t w r : reach ZStrict faults fuel t w → ¬ is_child t r.
Proof. exact (strict_no_child faults fuel t w r). Qed.
Print Assumptions C44_strict_own.
Theorem C44_has_refuted : ¬ claim_has_parent ZNode.
Proof. exact claim_has_parent_false. Qed.
Print Assumptions C44_has_refuted.
Theorem C44_get_refuted : ¬ claim_to_parent ZNode.
Proof. exact claim_to_parent_false. Qed.
Print Assumptions C44_get_refuted.
Example C44_case : reach ZStrict true FU strict_trace (seen strict_play) ∧ opened false strict_trace R1 R0 ∧
  (∃ g' m', exec ZStrict false (has_parent_story R1) (store (seen strict_play)) None (OOk false) g' m') ∧
  (∃ g' m', exec ZStrict false (to_parent_story R1) (store (seen strict_play)) None (OErr EStoryTargetTrees) g' m') ∧
  reach ZNode false FU lenient_trace (seen lenient_play) ∧ opened false lenient_trace R0 R0 ∧
  ¬ is_child lenient_trace R0 ∧ is_child lenient_trace R1 ∧
  (∃ g' m', exec ZNode false (has_parent_story R0) (store (seen lenient_play)) None (OOk false) g' m') ∧
  ∃ g' m', exec ZNode false (to_parent_story R0) (store (seen lenient_play)) None (OErr EStoryTargetTrees) g' m'.
Proof.
  split_and!; [apply strict_reach|apply strict_opened| | |apply lenient_reach|do 2 apply opened_later; apply opened_story| | | |].
  - eexists _, _; apply (play_exec ZStrict true strict_play _ []); [apply strict_plays|vm_compute; reflexivity].
  - eexists _, _; apply (play_exec ZStrict true strict_play _ []); [apply strict_plays|vm_compute; reflexivity].
  - intros (i&a&ob&pr&H). unfold lenient_trace in H. rewrite !elem_of_cons in H.
    repeat (destruct H as [H|H]; [discriminate H|]). by apply elem_of_nil in H.
  - repeat eexists. apply elem_of_list_further, elem_of_list_here.
  - eexists _, _; apply (play_exec ZNode false lenient_play _ []); [apply lenient_plays|vm_compute; reflexivity].
  - eexists _, _; apply (play_exec ZNode false lenient_play _ []); [apply lenient_plays|vm_compute; reflexivity].
Qed.

(** * C45 Cost of reading *)
Theorem C45_texts zp faults fuel S x r o p j evs v :
  meets zp S → plays zp faults fuel S x → tells (k_trace x) r o p →
  r_out (now fuel x j (GetObjectAndProperty r) evs) = OOk v →
  calls S (call_of fuel (GetObjectAndProperty r)) evs (k_state x) (k_mem x j) ≤ 160 * (length o + length p) + 46.
Proof. intros HS Hx. exact (plays_text_cost HS Hx r o p j evs v). Qed.
Print Assumptions C45_texts.
Theorem C45_story zp faults fuel S x r r0 o p j :
  meets zp S → plays zp faults fuel S x → opened false (k_trace x) r r0 → tells (k_trace x) r0 o p →
  calls S (call_of fuel (GetStory r)) [] (k_state x) (k_mem x j) ≤ 160 * (length o + length p) + 67.
Proof. exact (plays_story_cost zp faults fuel S x r r0 o p j). Qed.
Print Assumptions C45_story.
Theorem C45_navigation S fuel o evs s m : textless o → calls S (call_of fuel o) evs s m ≤ 20.
Proof. intros Ho. exact (atmost_calls 20 S (call_of fuel o) evs s m (textless_calls fuel o Ho)). Qed.
Print Assumptions C45_navigation.
Example C45_case : plays ZStrict true FU (ref_storage ZStrict) strict_play ∧ opened false (k_trace strict_play) R1 R0 ∧
  tells (k_trace strict_play) R0 (lit "a cat") (lit "is") ∧
  r_out (now FU strict_play 7 (GetObjectAndProperty R0) []) = OOk (VText (lit "a cat") (lit "is")) ∧
  calls (ref_storage ZStrict) (call_of FU (GetObjectAndProperty R0)) [] (k_state strict_play) (k_mem strict_play 7) = 264 ∧
  calls (ref_storage ZStrict) (call_of FU (GetStory R1)) [] (k_state strict_play) (k_mem strict_play 7) = 279 ∧
  calls (ref_storage ZStrict) (call_of FU (GetFirstFact R1)) [] (k_state strict_play) (k_mem strict_play 7) = 14.
Proof.
  split; [apply strict_plays|]. rewrite strict_trace_eq. split; [apply strict_opened|]. split; [apply strict_tells_0|].
  split_and!; vm_compute; reflexivity.
Qed.

(** * C46 Overlapping writers *)
Theorem C46_refuted zp : ¬ claim_overlapping_writers zp.
Proof. exact (claim_overlapping_writers_false zp). Qed.
Print Assumptions C46_refuted.
Theorem C46_later_refuted zp : ¬ claim_after_writers zp.
Proof. exact (claim_after_writers_false zp). Qed.
Print Assumptions C46_later_refuted.

(** * C47 Readers in a crowd of writers *)
Theorem C47_reads faults fk fuel t w s i o out :
  reach ZStrict faults fuel t w → settled t → crowded ZStrict fk fuel t w s →
  reads_from t o → since t s i o out →
  ∃ m m', remembers (store w) m ∧ exec ZStrict fk (call_of fuel o) (store w) m out (store w) m'.
Proof. intros Hr Hs. exact (crowd_reads Hr Hs s i o out). Qed.
Print Assumptions C47_reads.
Theorem C47_texts faults fk fuel t w s i r ob pr out :
  reach ZStrict faults fuel t w → settled t → crowded ZStrict fk fuel t w s →
  tells t r ob pr → since t s i (GetObjectAndProperty r) out → answers fk out (VText ob pr).
Proof. intros Hr Hs. exact (crowd_texts Hr Hs s i r ob pr out). Qed.
Print Assumptions C47_texts.
Theorem C47_identifier faults fk fuel t w s i r out :
  reach ZStrict faults fuel t w → settled t → crowded ZStrict fk fuel t w s →
  issued t r → since t s i (GetRemark (re_class r)) out → answers fk out (VRem r).
Proof. intros Hr Hs. exact (crowd_identifier Hr Hs s i r out). Qed.
Print Assumptions C47_identifier.
Theorem C47_first_fact faults fk fuel t w s i r r0 out :
  reach ZStrict faults fuel t w → settled t → crowded ZStrict fk fuel t w s →
  opened false t r r0 → since t s i (GetFirstFact r) out → answers fk out (VRem r0).
Proof. intros Hr Hs. exact (crowd_first_fact Hr Hs s i r r0 out). Qed.
Print Assumptions C47_first_fact.
Theorem C47_story faults fk fuel t w s i r r0 ob pr out :
  reach ZStrict faults fuel t w → settled t → crowded ZStrict fk fuel t w s →
  opened false t r r0 → tells t r0 ob pr → since t s i (GetStory r) out →
  answers fk out (VStory (ob ++ [space] ++ pr ++ [space])).
Proof. intros Hr Hs. exact (crowd_story Hr Hs s i r r0 ob pr out). Qed.
Print Assumptions C47_story.
Theorem C47_sorted faults fk fuel t w s :
  reach ZStrict faults fuel t w → settled t → crowded ZStrict fk fuel t w s →
  grows (store w) (sc_store s) ∧ ∃ K, sorted (sc_store s) K.
Proof. intros Hr Hs. exact (crowd_sorted Hr Hs s). Qed.
Print Assumptions C47_sorted.
Theorem C47_specified faults fk fuel t w s i o c k :
  reach ZStrict faults fuel t w → settled t → crowded ZStrict fk fuel t w s →
  sc_running s i = Some (o, Call c k) → specified ZStrict (sc_store s) c.
Proof. intros Hr Hs. exact (crowd_specified Hr Hs s i o c k). Qed.
Print Assumptions C47_specified.
Example C47_case : reach ZStrict true FU strict_trace (seen strict_play) ∧ settled strict_trace ∧
  crowded ZStrict true FU strict_trace (seen strict_play) busy ∧
  since strict_trace busy 0 (CreateStory (lit "Cow") (lit "is red")) (OOk (VRem R3)) ∧
  tells strict_trace R0 (lit "a cat") (lit "is") ∧ opened false strict_trace R1 R0 ∧
  reads_from strict_trace (GetObjectAndProperty R0) ∧
  since strict_trace busy 2 (GetObjectAndProperty R0) (OOk (VText (lit "a cat") (lit "is"))) ∧
  since strict_trace busy 3 (GetStory R1) (OOk (VStory (lit "a cat is "))) ∧
  since strict_trace busy 2 (GetFirstFact R1) (OOk (VRem R0)) ∧
  since strict_trace busy 3 (GetRemark 9) (OOk (VRem R0)) ∧
  ∃ o c k, sc_running busy 0 = Some (o, Call c k).
Proof.
  assert (Hi : issued strict_trace R0) by (apply issuedb_sound; vm_compute; reflexivity).
  split; [apply strict_reach|]. split; [by exists R0|]. split.
  { rewrite <- strict_trace_eq. apply (sample_crowded ZStrict true); [apply strict_plays|]. exact (proj1 (proj1 (Forall_app _ _ _) bustle_fits)). }
  split; [apply busy_since; do 4 apply elem_of_list_further; apply elem_of_list_here|].
  split; [apply strict_tells_0|]. split; [apply strict_opened|]. split; [split; [done|by exists R0]|].
  split; [apply busy_since; do 3 apply elem_of_list_further; apply elem_of_list_here|].
  split; [apply busy_since; do 2 apply elem_of_list_further; apply elem_of_list_here|].
  split; [apply busy_since; do 1 apply elem_of_list_further; apply elem_of_list_here|].
  split; [apply busy_since; apply elem_of_list_here|].
  assert (H : match sc_running busy 0 with Some (_, Call _ _) => true | _ => false end = true)
    by (vm_compute; reflexivity).
  destruct (sc_running busy 0) as [[o []]|]; try discriminate H. eauto.
Qed.

(** * C48 What a crowd makes reads back in the crowd *)
Theorem C48_texts faults fk fuel t w s s' i r ob pr out :
  reach ZStrict faults fuel t w → settled t →
  goes_on ZStrict fk fuel (still t w) s → goes_on ZStrict fk fuel s s' → sc_running s i = None →
  tells (sc_trace s) r ob pr → since (sc_trace s) s' i (GetObjectAndProperty r) out →
  answers fk out (VText ob pr).
Proof. intros Hr Hs H1 H2 Hi. exact (told_texts Hr Hs s s' i out H1 H2 Hi r ob pr). Qed.
Print Assumptions C48_texts.
Theorem C48_identifier faults fk fuel t w s s' i r out :
  reach ZStrict faults fuel t w → settled t →
  goes_on ZStrict fk fuel (still t w) s → goes_on ZStrict fk fuel s s' → sc_running s i = None →
  issued (sc_trace s) r → since (sc_trace s) s' i (GetRemark (re_class r)) out → answers fk out (VRem r).
Proof. intros Hr Hs H1 H2 Hi. exact (told_identifier Hr Hs s s' i out H1 H2 Hi r). Qed.
Print Assumptions C48_identifier.
Theorem C48_first_fact faults fk fuel t w s s' i r r0 out :
  reach ZStrict faults fuel t w → settled t →
  goes_on ZStrict fk fuel (still t w) s → goes_on ZStrict fk fuel s s' → sc_running s i = None →
  opened false (sc_trace s) r r0 → since (sc_trace s) s' i (GetFirstFact r) out → answers fk out (VRem r0).
Proof. intros Hr Hs H1 H2 Hi. exact (told_first_fact Hr Hs s s' i out H1 H2 Hi r r0). Qed.
Print Assumptions C48_first_fact.
Theorem C48_story faults fk fuel t w s s' i r r0 ob pr out :
  reach ZStrict faults fuel t w → settled t →
  goes_on ZStrict fk fuel (still t w) s → goes_on ZStrict fk fuel s s' → sc_running s i = None →
  opened false (sc_trace s) r r0 → tells (sc_trace s) r0 ob pr → since (sc_trace s) s' i (GetStory r) out →
  answers fk out (VStory (ob ++ [space] ++ pr ++ [space])).
Proof. intros Hr Hs H1 H2 Hi. exact (told_story Hr Hs s s' i out H1 H2 Hi r r0 ob pr). Qed.
Print Assumptions C48_story.
Example C48_case : reach ZStrict true FU strict_trace (seen strict_play) ∧ settled strict_trace ∧
  goes_on ZStrict true FU (still strict_trace (seen strict_play)) busy ∧ goes_on ZStrict true FU busy busier ∧
  sc_running busy 2 = None ∧ sc_running busy 3 = None ∧ sc_running busy 4 = None ∧ sc_running busy 5 = None ∧
  sc_running busy 0 ≠ None ∧
  tells (sc_trace busy) R3 (lit "Cow") (lit "is red") ∧ opened false (sc_trace busy) R3 R3 ∧
  issued (sc_trace busy) R3 ∧ re_class R3 = 479%N ∧ ¬ issued strict_trace R3 ∧
  since (sc_trace busy) busier 2 (GetObjectAndProperty R3) (OOk (VText (lit "Cow") (lit "is red"))) ∧
  since (sc_trace busy) busier 3 (GetStory R3) (OOk (VStory (lit "Cow is red "))) ∧
  since (sc_trace busy) busier 5 (GetFirstFact R3) (OOk (VRem R3)) ∧
  since (sc_trace busy) busier 4 (GetRemark 479) (OOk (VRem R3)) ∧
  since (sc_trace busy) busier 1 (CreateStory (lit "Hen") (lit "red")) (OOk (VRem R5)).
Proof.
  assert (Hi : issued strict_trace R0) by (apply issuedb_sound; vm_compute; reflexivity).
  split; [apply strict_reach|]. split; [by exists R0|].
  destruct (sample_goes_on ZStrict true strict_play bustle bustle_on strict_plays bustle_fits) as [H1 H2].
  split; [rewrite <- strict_trace_eq; exact H1|]. split; [exact H2|].
  destruct busy_idle as (B2&B3&B4&B5). split; [exact B2|]. split; [exact B3|]. split; [exact B4|]. split; [exact B5|].
  split; [exact busy_running|].
  split; [apply busy_tells|]. split; [apply busy_opened|].
  split; [rewrite busy_trace_eq; apply issuedb_sound; vm_compute; reflexivity|]. split; [reflexivity|].
  split. { intros (i&o&Hc&He). unfold strict_trace in He. rewrite !elem_of_cons in He.
    repeat (destruct He as [He|He]; [try discriminate He; injection He; intros; discriminate|]). by apply elem_of_nil in He. }
  split; [apply busier_since; do 4 apply elem_of_list_further; apply elem_of_list_here|].
  split; [apply busier_since; do 3 apply elem_of_list_further; apply elem_of_list_here|].
  split; [apply busier_since; do 2 apply elem_of_list_further; apply elem_of_list_here|].
  split; [apply busier_since; apply elem_of_list_here|].
  apply busier_since; do 1 apply elem_of_list_further; apply elem_of_list_here.
Qed.

(** * C49 The remarks a crowd makes are distinct *)
Theorem C49_fresh faults fk fuel t w s l1 l2 i o r r' :
  reach ZStrict faults fuel t w → settled t → crowded ZStrict fk fuel t w s →
  sc_trace s = l1 ++ Called i o (OOk (VRem r)) :: l2 ++ t → creating o = true → issued (l2 ++ t) r' →
  nodes_of r ## nodes_of r'.
Proof. intros Hr Hs. exact (crowd_fresh Hr Hs s l1 l2 i o r r'). Qed.
Print Assumptions C49_fresh.
Example C49_case : reach ZStrict true FU strict_trace (seen strict_play) ∧ settled strict_trace ∧
  crowded ZStrict true FU strict_trace (seen strict_play) busier ∧
  sc_trace busier = take 1 busier_trace ++
    Called 1 (CreateStory (lit "Hen") (lit "red")) (OOk (VRem R5)) :: (drop 2 busier_trace ++ busy_trace) ++ strict_trace ∧
  issued ((drop 2 busier_trace ++ busy_trace) ++ strict_trace) R3 ∧
  issued ((drop 2 busier_trace ++ busy_trace) ++ strict_trace) R4.
Proof.
  assert (Hi : issued strict_trace R0) by (apply issuedb_sound; vm_compute; reflexivity).
  split; [apply strict_reach|]. split; [by exists R0|].
  destruct (sample_goes_on ZStrict true strict_play bustle bustle_on strict_plays bustle_fits) as [H1 H2].
  split. { apply goes_on_crowd. rewrite <- strict_trace_eq. unfold goes_on in *. etrans; [exact H1|exact H2]. }
  split; [by rewrite busier_trace_eq, busy_trace_eq|]. split; apply issuedb_sound; vm_compute; reflexivity.
Qed.

(** * C50 Walks from fact to fact

    [g] is any storage contents in which references go both ways. *)
Theorem C50_walk zp p f f' g m out g' m' : coherent g → walk g f p f' →
  exec zp false (p (FactAgg f true)) g m out g' m' → g' = g ∧ m' = m ∧ out = OOk (FactAgg f' false).
Proof. intros Hg. exact (walk_rule Hg p f f' m out g' m'). Qed.
Print Assumptions C50_walk.
Theorem C50_look zp p f d x st g m out g' m' : coherent g → outlook g f p d x →
  exec zp false (p (FactAgg f st)) g m out g' m' →
  g' = g ∧ m' = m ∧ ∃ b, out = OOk b ∧ (b = true ↔ ∃ y, near d g x y).
Proof. intros Hg. exact (outlook_rule Hg p f d x st m out g' m'). Qed.
Print Assumptions C50_look.
(** The aggregate of a fact that was walked to has no storage to walk on. *)
Theorem C50_stuck zp p f f' g m out g' m' : coherent g → walk g f p f' →
  exec zp false (p (FactAgg f false)) g m out g' m' → g' = g ∧ m' = m ∧ out = OPanic.
Proof. intros Hg. exact (walk_stuck Hg p f f' m out g' m'). Qed.
Print Assumptions C50_stuck.
Theorem C50_walk_on_refuted : ¬ claim_walk_on ZStrict.
Proof. exact claim_walk_on_false. Qed.
Print Assumptions C50_walk_on_refuted.
(** What the program itself makes is such contents. *)
Theorem C50_coherent zp faults fuel t w : reach zp faults fuel t w → coherent (store w).
Proof. exact (reach_coherent zp faults fuel t w). Qed.
Print Assumptions C50_coherent.
Example C50_case : coherent couple_graph ∧
  walk couple_graph F_two fact_agg_to_next_story F_three ∧ walk couple_graph F_three fact_agg_to_parent_story F_one ∧
  outlook couple_graph F_two fact_agg_has_next_story Outgoing 3%N ∧
  (∃ g' m', exec ZStrict false (fact_agg_to_next_story (FactAgg F_two true)) couple_graph None (OOk (FactAgg F_three false)) g' m') ∧
  (∃ g' m', exec ZStrict false (fact_agg_to_parent_story (FactAgg F_three true)) couple_graph None (OOk (FactAgg F_one false)) g' m') ∧
  (∃ g' m', exec ZStrict false (fact_agg_to_next_story (FactAgg F_two false)) couple_graph None OPanic g' m') ∧
  (∃ g' m', exec ZStrict false (fact_agg_has_next_story (FactAgg F_two false)) couple_graph None (OOk true) g' m') ∧
  ∃ g' m', exec ZStrict false (fact_agg_has_next_story (FactAgg F_three true)) couple_graph None (OOk false) g' m'.
Proof.
  split_and!; [apply couple_coherent|apply couple_walks|apply couple_walks|apply couple_looks|..];
    apply couple_exec; vm_compute; reflexivity.
Qed.

(** * C51 What a call adds to the storage

    [volume t o v]: the call has [v] bytes of text to store. *)
Theorem C51_growth zp faults fuel t w fk i o out w' v :
  happens zp faults fuel t w fk i o out w' → settled t → volume t o v →
  node_count (store w') ≤ node_count (store w) + (88 * v + 23) ∧
  link_count (store w') ≤ link_count (store w) + (133 * v + 37).
Proof. exact (growth_one zp faults fuel t w fk i o out w' v). Qed.
Print Assumptions C51_growth.
Theorem C51_history zp faults fuel t w t' w' n b :
  reach zp faults fuel t w → settled t → leads zp faults fuel t w t' w' → amount t t' n b →
  node_count (store w') ≤ node_count (store w) + (88 * b + 23 * n) ∧
  link_count (store w') ≤ link_count (store w) + (133 * b + 37 * n).
Proof. exact (growth_history zp faults fuel t w t' w' n b). Qed.
Print Assumptions C51_history.
Theorem C51_amount zp faults fuel t w t' w' :
  reach zp faults fuel t w → leads zp faults fuel t w t' w' → ∃ n b, amount t t' n b.
Proof. exact (amount_exists zp faults fuel t w t' w'). Qed.
Print Assumptions C51_amount.
Example C51_case : settled strict_trace ∧ volume strict_trace late 9 ∧ volume strict_trace meows 10 ∧
  happens ZStrict true FU strict_trace (seen strict_play) false 1 late (OOk (VRem (RemarkEnt 479 481 482 483)))
    (seen (perform FU strict_play (Do 1 late []))) ∧
  happens ZStrict true FU strict_trace (seen strict_play) true 0 meows OKilled
    (seen (perform FU strict_play (Do 0 meows (repeat Normal 700 ++ [Kill])))) ∧
  gains strict_play (Do 1 late []) = (99, 148) ∧
  gains strict_play (Do 0 meows (repeat Normal 700 ++ [Kill])) = (60, 85) ∧
  reach ZStrict true FU strict_trace (seen strict_play) ∧
  leads ZStrict true FU strict_trace (seen strict_play) (Called 0 meows OKilled :: strict_trace)
    (seen (perform FU strict_play (Do 0 meows (repeat Normal 700 ++ [Kill])))) ∧
  amount strict_trace (Called 0 meows OKilled :: strict_trace) 1 10.
Proof.
  assert (Hm : happens ZStrict true FU strict_trace (seen strict_play) true 0 meows OKilled
    (seen (perform FU strict_play (Do 0 meows (repeat Normal 700 ++ [Kill]))))).
  { rewrite <- strict_trace_eq.
    apply (sample_happens ZStrict true strict_play 0 meows (repeat Normal 700 ++ [Kill])); [apply strict_plays|vm_compute; reflexivity..]. }
  assert (Hv : volume strict_trace meows 10) by apply (vol_remark _ R0 (lit "meows") _ _ strict_tells_0).
  split. { exists R0. apply issuedb_sound. vm_compute. reflexivity. }
  split; [by apply (vol_texts _ late (lit "Cow") (lit "is red"))|]. split; [exact Hv|].
  split.
  { rewrite <- strict_trace_eq.
    apply (sample_happens ZStrict true strict_play 1 late []); [apply strict_plays|vm_compute; reflexivity..]. }
  split; [exact Hm|]. split; [vm_compute; reflexivity|]. split; [vm_compute; reflexivity|]. split; [apply strict_reach|].
  split; [|exact (am_made _ _ 0 0 0 meows OKilled 10 (am_now _) Hv)].
  destruct Hm as (_&Hl&Hx&Hf). exact (leads_step _ _ _ _ _ true _ _ _ _ (leads_now _ _ _ _ _) Hl Hx Hf).
Qed.

(** * C52 What entities write

    [g] is any storage contents. *)
Theorem C52_ties zp fk p x y g m out g' m' : ties p x y → exec zp fk p g m out g' m' →
  m' = m ∧ ((out = OOk tt ∧ linked [(x, y)] g g') ∨
            g' = g ∧ ((fk = true ∧ (out = OErr EStorage ∨ out = OKilled)) ∨ ¬ (valid zp g x ∧ valid zp g y) ∧ out = OErr EStorage)).
Proof. exact (ties_rule p x y g m out g' m'). Qed.
Print Assumptions C52_ties.
Theorem C52_builds zp fk A p c (rowof : A → list N) g m out g' m' : builds A p c rowof →
  mirrored g → c ∈ nodes g → fwd g !! c = None → exec zp fk p g m out g' m' →
  m' = m ∧ grows g g' ∧ mirrored g' ∧ edges g' = edges g ∧ refers_anew g g' ∧
  ((∃ e l, out = OOk e ∧ rowof e = c :: l ∧ built c l g g') ∨ fk = true ∧ (out = OErr EStorage ∨ out = OKilled)).
Proof. exact (builds_rule A p c rowof g m out g' m'). Qed.
Print Assumptions C52_builds.
Theorem C52_class zp fk k g m out g' m' : valid zp g k → exec zp fk (class_new k) g m out g' m' →
  m' = m ∧ grows g g' ∧ fwd g' = fwd g ∧ bwd g' = bwd g ∧
  ((∃ c, out = OOk c ∧ brand_new [c] g g' ∧ ∀ e, e ∈ edges g' ↔ e ∈ edges g ∨ e = (c, k)) ∨
   fk = true ∧ (out = OErr EStorage ∨ out = OKilled)).
Proof. exact (class_new_rule k g m out g' m'). Qed.
Print Assumptions C52_class.
Theorem C52_detail zp fk ob pr g m out g' m' : mirrored g →
  valid zp g detailIdentifier → valid zp g (pe_detail ob) → valid zp g (pe_detail pr) →
  exec zp fk (detail_create_entity ob pr) g m out g' m' →
  m' = m ∧ grows g g' ∧ mirrored g' ∧ refers_anew g g' ∧
  ((∃ c x y, out = OOk (DetailEnt c x y) ∧ brand_new [c; x; y] g g' ∧ row g' [c; x; y] ∧
      ∀ e, e ∈ edges g' ↔ e ∈ edges g ∨ e ∈ [(c, detailIdentifier); (pe_detail ob, x); (x, pe_detail pr)]) ∨
   fk = true ∧ (out = OErr EStorage ∨ out = OKilled)).
Proof. exact (detail_create_rule ob pr g m out g' m'). Qed.
Print Assumptions C52_detail.
(** The functions that are not finished change nothing and return nothing. *)
Theorem C52_stub_fact zp fk e g m out g' m' : valid zp g (re_fact e) →
  exec zp fk (remark_create_next_story_fact e) g m out g' m' →
  g' = g ∧ m' = m ∧ (fk = false → (out = OOk None ∧ ∃ y, only_neighbour Outgoing g (re_fact e) y) ∨
                                  ((¬ ∃ y, only_neighbour Outgoing g (re_fact e) y) ∧ out = OErr ERemarkFacts)) ∧
  ∀ v, out = OOk v → v = None.
Proof. exact (stub_fact_rule e g m out g' m'). Qed.
Print Assumptions C52_stub_fact.
Theorem C52_stub_extend zp fk e g m out g' m' :
  exec zp fk (detail_extend_object e) g m out g' m' ∨ exec zp fk (detail_extend_property e) g m out g' m' →
  g' = g ∧ m' = m ∧ out = OOk None.
Proof. exact (stub_extend_rule e g m out g' m'). Qed.
Print Assumptions C52_stub_extend.
(** What the program itself makes is such contents. *)
Theorem C52_mirrored zp faults fuel t w : reach zp faults fuel t w → mirrored (store w).
Proof. exact (reach_mirrored zp faults fuel t w). Qed.
Print Assumptions C52_mirrored.
Example C52_case : mirrored couple_graph ∧ ties (phrase_mark (PhraseEnt 1 2 3 8) 10) 10 8 ∧
  4%N ∈ nodes couple_graph ∧ fwd couple_graph !! 4%N = None ∧ builds _ (word_create_entity 4) 4 (λ e, [we_class e; we_char e; we_word e; we_phrase e]) ∧
  valid ZStrict couple_graph detailIdentifier ∧ valid ZStrict couple_graph 8%N ∧ valid ZStrict couple_graph 12%N ∧
  (∃ g' m', exec ZStrict true (phrase_mark (PhraseEnt 1 2 3 8) 10) couple_graph None (OOk tt) g' m') ∧
  (∃ g' m', exec ZStrict false (phrase_mark (PhraseEnt 1 2 3 8) 99) couple_graph None (OErr EStorage) g' m') ∧
  (∃ g' m', exec ZStrict false (word_create_entity 4) couple_graph None (OOk (WordEnt 4 29 30 31)) g' m') ∧
  (∃ g' m', exec ZStrict true (word_create_entity 4) couple_graph None OKilled g' m') ∧
  (∃ g' m', exec ZStrict true (class_new detailIdentifier) couple_graph None (OErr EStorage) g' m') ∧
  (∃ g' m', exec ZStrict false (detail_create_entity (PhraseEnt 1 2 3 8) (PhraseEnt 1 2 3 12)) couple_graph None (OOk (DetailEnt 29 31 34)) g' m') ∧
  (∃ g' m', exec ZStrict false (remark_create_next_story_fact (RemarkEnt 1 2 3 8)) couple_graph None (OOk None) g' m') ∧
  (∃ g' m', exec ZStrict false (remark_create_next_story_fact (RemarkEnt 1 2 3 5)) couple_graph None (OErr ERemarkFacts) g' m') ∧
  ∃ g' m', exec ZStrict false (detail_extend_object (DetailEnt 1 2 3)) couple_graph None (OOk None) g' m'.
Proof.
  assert (Hn : ∀ x, bool_decide (x ∈ nodes couple_graph) = true → x ∈ nodes couple_graph) by (intros x; apply bool_decide_eq_true_1).
  split; [apply couple_mirrored|]. split; [exact (link_phrase_mark (PhraseEnt 1 2 3 8) 10)|].
  split; [apply Hn; vm_compute; reflexivity|]. split; [vm_compute; reflexivity|]. split; [constructor|].
  split; [left; apply Hn; vm_compute; reflexivity|]. split; [left; apply Hn; vm_compute; reflexivity|].
  split; [left; apply Hn; vm_compute; reflexivity|].
  split; [apply (couple_exec_fault _ []); vm_compute; reflexivity|].
  split; [apply couple_exec; vm_compute; reflexivity|]. split; [apply couple_exec; vm_compute; reflexivity|].
  split; [apply (couple_exec_fault _ [Normal; Normal; Normal; Normal; Kill]); vm_compute; reflexivity|].
  split; [apply (couple_exec_fault _ [Normal; Fault]); vm_compute; reflexivity|].
  split_and!; apply couple_exec; vm_compute; reflexivity.
Qed.

(** * C53 Reversing a path *)
Theorem C53_place A (zero : A) p i x : i < length p → path_reverse zero p !! i = Some x ↔ p !! (length p - S i) = Some x.
Proof. exact (path_reverse_place zero p i x). Qed.
Print Assumptions C53_place.
Theorem C53_length A (zero : A) p : length (path_reverse zero p) = length p.
Proof. exact (path_reverse_length zero p). Qed.
Print Assumptions C53_length.
Theorem C53_rev A (zero : A) p : path_reverse zero p = rev p.
Proof. exact (path_reverse_rev zero p). Qed.
Print Assumptions C53_rev.
Example C53_case : path_reverse 0 [3; 1; 4; 1; 5] = [5; 1; 4; 1; 3] ∧ 1 < length [3; 1; 4] ∧
  path_reverse 0 [3; 1; 4] !! 0 = Some 4.
Proof. split_and!; [reflexivity|simpl; lia|reflexivity]. Qed.

(** * C54 What the repositories of facts and stories write

    [g] is any mirrored storage contents with the class nodes. *)
Theorem C54_first_fact zp fk g m out g' m' : mirrored g → classes_there g →
  exec zp fk fact_create_first_story_fact g m out g' m' → brings fk (new_story g) g m out g' m'.
Proof. exact (first_fact_rule g m out g' m'). Qed.
Print Assumptions C54_first_fact.
(** If the storage takes 0 for a node, the next fact gets the story node of the
    last one as its story, which is not a story. *)
Theorem C54_next_fact fk f g m out g' m' : mirrored g → classes_there g → 0%N ∉ nodes g →
  is_fact g f → fwd g !! fe_story f = None →
  exec ZNode fk (fact_create_next_fact (fe_remark f)) g m out g' m' → brings fk (next_fact f (fe_story f) g) g m out g' m'.
Proof. exact (next_fact_rule (zp:=ZNode) f g m out g' m' eq_refl). Qed.
Print Assumptions C54_next_fact.
Theorem C54_next_fact_reached faults fuel t w f fk m out g' m' : reach ZNode faults fuel t w → settled t →
  is_fact (store w) f → (fe_class f, factIdentifier) ∈ edges (store w) →
  exec ZNode fk (fact_create_next_fact (fe_remark f)) (store w) m out g' m' →
  brings fk (next_fact f (fe_story f) (store w)) (store w) m out g' m'.
Proof. exact (next_fact_reached faults fuel t w f fk m out g' m'). Qed.
Print Assumptions C54_next_fact_reached.
(** A child story gets 0 as its parent. *)
Theorem C54_child_story fk f n g m out g' m' : mirrored g → classes_there g → 0%N ∉ nodes g →
  is_fact g f → fwd g !! fe_story f = None → no_neighbour Outgoing g 0 →
  exec ZNode fk (fact_create_child_story_fact n (fe_remark f)) g m out g' m' → brings fk (child_story 0 g) g m out g' m'.
Proof. exact (λ Hg Hc H0 Hf He Hno, child_story_rule (zp:=ZNode) f g m out g' m' n eq_refl Hg Hc H0 Hf He Hno). Qed.
Print Assumptions C54_child_story.
(** Otherwise neither is made, and nothing is left behind. *)
Theorem C54_strict fk f n g m out g' m' : mirrored g → 0%N ∉ nodes g → is_fact g f → fwd g !! fe_story f = None →
  exec ZStrict fk (fact_create_next_fact (fe_remark f)) g m out g' m' ∨
  exec ZStrict fk (fact_create_child_story_fact n (fe_remark f)) g m out g' m' →
  g' = g ∧ m' = m ∧ ∀ b, out ≠ OOk b.
Proof. exact (strict_end_rule (zp:=ZStrict) f g m out g' m' n eq_refl). Qed.
Print Assumptions C54_strict.
Example C54_case : mirrored lone_graph ∧ classes_there lone_graph ∧ 0%N ∉ nodes lone_graph ∧ is_fact lone_graph F_lone ∧
  fwd lone_graph !! fe_story F_lone = None ∧ no_neighbour Outgoing lone_graph 0 ∧
  (∃ g' m', exec ZStrict false fact_create_first_story_fact lone_graph None (OOk (FactAgg (FactEnt 21 23 24 25) true)) g' m') ∧
  (∃ g' m', exec ZStrict true fact_create_first_story_fact lone_graph None OKilled g' m') ∧
  (∃ g' m', exec ZNode false (fact_create_next_fact (fe_remark F_lone)) lone_graph None (OOk (FactAgg (FactEnt 21 23 24 25) true)) g' m') ∧
  (∃ g' m', exec ZNode true (fact_create_next_fact (fe_remark F_lone)) lone_graph None (OErr EStorage) g' m') ∧
  (∃ g' m', exec ZNode false (fact_create_child_story_fact 3 (fe_remark F_lone)) lone_graph None (OOk (FactAgg (FactEnt 27 29 30 31) true)) g' m') ∧
  (∃ g' m', exec ZStrict false (fact_create_next_fact (fe_remark F_lone)) lone_graph None (OErr EStorage) g' m') ∧
  (∃ g' m', exec ZStrict false (fact_create_child_story_fact 3 (fe_remark F_lone)) lone_graph None (OErr EStorage) g' m') ∧
  reach ZNode false FU lenient_trace (seen lenient_play) ∧ settled lenient_trace ∧ is_fact (store (seen lenient_play)) (FactEnt 237 239 240 241) ∧
  (237%N, factIdentifier) ∈ edges (store (seen lenient_play)).
Proof.
  destruct lone_stage as (H1&H2&H3&H4&H5).
  refine (conj lone_mirrored (conj H1 (conj H2 (conj H3 (conj H4 (conj H5 _)))))).
  split; [apply (lone_exec ZStrict false _ []); [done|vm_compute; reflexivity]|].
  split; [apply (lone_exec ZStrict true _ (repeat Normal 9 ++ [Kill])); [done|vm_compute; reflexivity]|].
  split; [apply (lone_exec ZNode false _ []); [done|vm_compute; reflexivity]|].
  split; [apply (lone_exec ZNode true _ (repeat Normal 9 ++ [Fault])); [done|vm_compute; reflexivity]|].
  split; [apply (lone_exec ZNode false _ []); [done|vm_compute; reflexivity]|].
  split; [apply (lone_exec ZStrict false _ []); [done|vm_compute; reflexivity]|].
  split; [apply (lone_exec ZStrict false _ []); [done|vm_compute; reflexivity]|].
  split; [exact lenient_reach|]. split; [exists R2; exact lenient_issued|].
  split; [split; [|split; [|split; [|split]]]; try (vm_compute; reflexivity); exact I|].
  apply (bool_decide_unpack _); vm_compute; exact I.
Qed.

(** * C55 What the factories make or find

    [g] is any storage contents; a new entity is made exactly if the node that is
    looked at points to nothing. *)
Theorem C55_head_new zp fk A p asked x k er (rowof : A → list N) g m out g' m' : heads A p asked x k er rowof →
  mirrored g → asked ∈ nodes g → x ∈ nodes g → valid zp g k → no_neighbour Outgoing g asked →
  exec zp fk p g m out g' m' → brings fk (new_head rowof k x g) g m out g' m'.
Proof. exact (heads_new A p asked x k er rowof g m out g' m'). Qed.
Print Assumptions C55_head_new.
Theorem C55_head_found zp fk A p asked x k er (rowof : A → list N) e c b d y z g m out g' m' : heads A p asked x k er rowof →
  coherent g → valid zp g asked → valid zp g x → only_neighbour Outgoing g asked z → only_neighbour Outgoing g x y →
  rowof e = [c; y; b; d] → row g [c; y; b; d] →
  exec zp fk p g m out g' m' → g' = g ∧ m' = m ∧ answers fk out e.
Proof. exact (heads_found A p asked x k er rowof e c b d y z g m out g' m'). Qed.
Print Assumptions C55_head_found.
Theorem C55_head_crowded zp fk A p asked x k er (rowof : A → list N) g m out g' m' : heads A p asked x k er rowof →
  valid zp g asked → valid zp g x → (∃ z, near Outgoing g asked z) →
  (∀ z, ¬ only_neighbour Outgoing g asked z) ∨ (∀ y, ¬ only_neighbour Outgoing g x y) →
  exec zp fk p g m out g' m' → g' = g ∧ m' = m ∧ refuses fk out er.
Proof. exact (heads_crowded A p asked x k er rowof g m out g' m'). Qed.
Print Assumptions C55_head_crowded.
Theorem C55_tail zp fk A p x y k (rowof : A → list N) g m out g' m' : tails A p x y k rowof →
  mirrored g → valid zp g x → valid zp g y → valid zp g k →
  exec zp fk p g m out g' m' → brings fk (new_tail rowof k x y g) g m out g' m'.
Proof. exact (tails_new A p x y k rowof g m out g' m'). Qed.
Print Assumptions C55_tail.
Theorem C55_detail zp fk o p g m out g' m' : mirrored g → valid zp g detailIdentifier → valid zp g (pe_detail o) → valid zp g (pe_detail p) →
  (∀ d, ¬ joint_detail g o p d) →
  exec zp fk (detail_provide_entity o p) g m out g' m' → brings fk (new_detail o p g) g m out g' m'.
Proof. exact (detail_new o p g m out g' m'). Qed.
Print Assumptions C55_detail.
Example C55_case :
  heads _ (char_provide_head_entity (BitEnt false 1 12)) 12 12 characterIdentifier EBitTargets char_row ∧
  heads _ (word_provide_head_entity (Some (CharEnt 1 1 9 13))) 9 13 wordIdentifier ECharTargetWords word_row ∧
  heads _ (word_provide_head_entity (Some (CharEnt 1 1 9 12))) 9 12 wordIdentifier ECharTargetWords word_row ∧
  tails _ (phrase_create_tail_entity (WordEnt 1 1 1 12) (PhraseEnt 1 1 11 1)) 12 11 phraseIdentifier phrase_row ∧
  mirrored lone_graph ∧ coherent lone_graph ∧ (∀ x, x ∈ [2; 4; 5; 9; 11; 12; 13]%N → x ∈ nodes lone_graph) ∧
  no_neighbour Outgoing lone_graph 12 ∧ only_neighbour Outgoing lone_graph 9 7 ∧ only_neighbour Outgoing lone_graph 13 16 ∧
  row lone_graph [14; 16; 17; 18]%N ∧ (∀ d, ¬ joint_detail lone_graph (PhraseEnt 1 1 1 12) (PhraseEnt 1 1 1 13) d) ∧
  (∃ g' m', exec ZStrict false (char_provide_head_entity (BitEnt false 1 12)) lone_graph None (OOk (CharEnt 21 23 24 25)) g' m') ∧
  (∃ g' m', exec ZStrict true (char_provide_head_entity (BitEnt false 1 12)) lone_graph None OKilled g' m') ∧
  (∃ g' m', exec ZStrict false (word_provide_head_entity (Some (CharEnt 1 1 9 13))) lone_graph None (OOk (WordEnt 14 16 17 18)) g' m') ∧
  (∃ g' m', exec ZStrict false (word_provide_head_entity (Some (CharEnt 1 1 9 12))) lone_graph None (OErr ECharTargetWords) g' m') ∧
  (∃ g' m', exec ZStrict false (phrase_create_tail_entity (WordEnt 1 1 1 12) (PhraseEnt 1 1 11 1)) lone_graph None (OOk (PhraseEnt 21 23 24 25)) g' m') ∧
  (∃ g' m', exec ZStrict true (detail_provide_entity (PhraseEnt 1 1 1 12) (PhraseEnt 1 1 1 13)) lone_graph None (OErr EStorage) g' m') ∧
  ∃ g' m', exec ZStrict false (detail_provide_entity (PhraseEnt 1 1 1 12) (PhraseEnt 1 1 1 13)) lone_graph None (OOk (DetailEnt 21 23 26)) g' m'.
Proof.
  split; [exact (head_char (BitEnt false 1 12))|]. split; [exact (head_word (CharEnt 1 1 9 13))|].
  split; [exact (head_word (CharEnt 1 1 9 12))|]. split; [exact (tail_phrase (WordEnt 1 1 1 12) (PhraseEnt 1 1 11 1))|].
  split; [exact lone_mirrored|]. split; [exact (mirrored_coherent _ lone_mirrored)|].
  assert (Hd : no_neighbour Outgoing lone_graph 12).
  { assert (H : set_Forall (λ e : N * N, e.1 ≠ 12%N) (edges lone_graph)) by (apply (bool_decide_unpack _); vm_compute; exact I).
    intros y Hy. by apply (H _ Hy). }
  split. { assert (H : Forall (λ x, x ∈ nodes lone_graph) [2; 4; 5; 9; 11; 12; 13]%N) by (apply (bool_decide_unpack _); vm_compute; exact I).
    by apply Forall_forall. }
  split; [exact Hd|]. split; [only_now|]. split; [only_now|].
  split; [split; [|split; [|split; [|split]]]; try (vm_compute; reflexivity); exact I|].
  split; [intros d [H _]; exact (Hd d H)|].
  split; [apply (lone_exec ZStrict false _ []); [done|vm_compute; reflexivity]|].
  split; [apply (lone_exec ZStrict true _ (repeat Normal 9 ++ [Kill])); [done|vm_compute; reflexivity]|].
  split; [apply (lone_exec ZStrict false _ []); [done|vm_compute; reflexivity]|].
  split; [apply (lone_exec ZStrict false _ []); [done|vm_compute; reflexivity]|].
  split; [apply (lone_exec ZStrict false _ []); [done|vm_compute; reflexivity]|].
  split; [apply (lone_exec ZStrict true _ (repeat Normal 6 ++ [Fault])); [done|vm_compute; reflexivity]|].
  apply (lone_exec ZStrict false _ []); [done|vm_compute; reflexivity].
Qed.

(** * C56 What a text is in the storage
    Reading a remark whose nodes form the chains of [SpecSpelling] gives the texts
    they spell, whoever made them; and the remarks of the calls form such chains. *)
Theorem C56_read zp fk z o g r ob pr : coherent g → be_value z = false → be_value o = true → be_char z ≠ be_char o →
  remark_at (be_char z) (be_char o) g (re_detail r) ob pr →
  ∃ n, ∀ fuel out g' m', n ≤ fuel → exec zp fk (get_object_and_property fuel r) g (Some (z, o)) out g' m' →
    g' = g ∧ m' = Some (z, o) ∧ answers fk out (ob, pr).
Proof. exact (texts_rule zp fk z o g r ob pr). Qed.
Print Assumptions C56_read.
Theorem C56_written zp faults fuel t w r ob pr : reach zp faults fuel t w → tells t r ob pr →
  coherent (store w) ∧ ∃ z o, be_value z = false ∧ be_value o = true ∧ be_char z ≠ be_char o ∧
    row (store w) [be_class z; be_char z] ∧ row (store w) [be_class o; be_char o] ∧
    (∀ x, (x, bitIdentifier) ∈ edges (store w) ↔ x = be_class z ∨ x = be_class o) ∧ (be_class z < be_class o)%N ∧
    remark_at (be_char z) (be_char o) (store w) (re_detail r) ob pr.
Proof. exact (told_spelled zp faults fuel t w r ob pr). Qed.
Print Assumptions C56_written.
(** On other contents reading need not end: not even if each node of the chain has
    exactly one before it. *)
Theorem C56_ends_refuted : ∃ g z o a b x d, coherent g ∧ be_value z = false ∧ be_value o = true ∧ be_char z ≠ be_char o ∧
  row g [a; b; x; d] ∧ only_neighbour Outgoing g b (be_char o) ∧ comes_after g x x ∧
  ∀ zp fuel out g' m', exec zp false (char_extract fuel (Some (CharEnt a b x d))) g (Some (z, o)) out g' m' → out = ODiverge.
Proof. exact ring_endless. Qed.
Print Assumptions C56_ends_refuted.
Example C56_case : coherent letters_graph ∧ be_value B_zero = false ∧ be_value B_one = true ∧ be_char B_zero ≠ be_char B_one ∧
  remark_at (be_char B_zero) (be_char B_one) letters_graph (re_detail R_letters) (byte_text [3; 32; 1]%N) (byte_text [1]%N) ∧
  (∃ g' m', exec ZStrict false (get_object_and_property 5 R_letters) letters_graph (Some (B_zero, B_one))
    (OOk (byte_text [3; 32; 1]%N, byte_text [1]%N)) g' m') ∧
  (∃ g' m', exec ZStrict true (get_object_and_property 5 R_letters) letters_graph (Some (B_zero, B_one)) (OErr EStorage) g' m') ∧
  ∃ g' m', exec ZStrict true (get_object_and_property 5 R_letters) letters_graph (Some (B_zero, B_one)) OPanic g' m'.
Proof.
  split; [exact letters_coherent|]. split; [reflexivity|]. split; [reflexivity|]. split; [by vm_compute|].
  split; [exact letters_remark|].
  split; [apply (letters_exec false _ []); [done|vm_compute; reflexivity]|].
  split; [apply (letters_exec true _ [Fault]); [done|vm_compute; reflexivity]|].
  apply (letters_exec true _ (repeat Normal 22 ++ [Fault])); [done|vm_compute; reflexivity].
Qed.
Example C56_written_case :
  let x := play strict FU (take 2 strict_acts) in
  reach ZStrict true FU (k_trace x) (seen x) ∧ tells (k_trace x) R1 (lit "a cat") (lit "eats").
Proof.
  intros x. assert (Hx : plays ZStrict true FU strict x) by (apply play_plays; vm_compute; reflexivity). split.
  - by apply sample_reach.
  - assert (Ht : k_trace x = drop 4 strict_trace) by (vm_compute; reflexivity). rewrite Ht. simpl.
    eapply tells_remark; [apply tells_story; plain_text|plain_text].
Qed.

(** * C57 What is there already is found
    On any contents: a text whose chain starts at a bit, a character or a word and
    branches clearly ([SpecKept]) is found, and nothing is written. *)
Theorem C57_character zp fk z o g a b x d c out g' m' : coherent g → 1%N ∈ nodes g → be_char z ∈ nodes g → be_char o ∈ nodes g →
  be_value z = false → be_value o = true → be_char z ≠ be_char o → letter_kept (be_char z) (be_char o) g a b x d c →
  exec zp fk (char_provide (code_point c)) g (Some (z, o)) out g' m' →
  g' = g ∧ m' = Some (z, o) ∧ gives fk out (λ e, e = Some (CharEnt a b x d) ∨ fk = true ∧ e = None).
Proof. exact (character_is_found zp fk z o g a b x d c out g' m'). Qed.
Print Assumptions C57_character.
Theorem C57_word zp fk z o g a b x d cs : coherent g → 1%N ∈ nodes g → be_char z ∈ nodes g → be_char o ∈ nodes g →
  be_value z = false → be_value o = true → be_char z ≠ be_char o → word_kept (be_char z) (be_char o) g a b x d cs →
  ∃ n, ∀ fuel out g' m', n ≤ fuel → exec zp fk (word_provide fuel (concat cs)) g (Some (z, o)) out g' m' →
  g' = g ∧ m' = Some (z, o) ∧ answers fk out (WordEnt a b x d).
Proof. exact (word_is_found zp fk z o g a b x d cs). Qed.
Print Assumptions C57_word.
Theorem C57_phrase zp fk z o g a b x d ws : coherent g → 1%N ∈ nodes g → be_char z ∈ nodes g → be_char o ∈ nodes g →
  be_value z = false → be_value o = true → be_char z ≠ be_char o → phrase_kept (be_char z) (be_char o) g a b x d ws →
  ∃ n, ∀ fuel out g' m', n ≤ fuel → exec zp fk (phrase_provide fuel (spaced ws)) g (Some (z, o)) out g' m' →
  g' = g ∧ m' = Some (z, o) ∧ answers fk out (PhraseEnt a b x d).
Proof. exact (phrase_is_found zp fk z o g a b x d ws). Qed.
Print Assumptions C57_phrase.
(** A detail as well, unless a storage call fails: then a second one may be made. *)
Theorem C57_detail zp fk z o g ob pr ws1 ws2 y : mirrored g → 1%N ∈ nodes g → be_char z ∈ nodes g → be_char o ∈ nodes g →
  detailIdentifier ∈ nodes g → y ∈ nodes g →
  be_value z = false → be_value o = true → be_char z ≠ be_char o →
  phrase_kept (be_char z) (be_char o) g (pe_class ob) (pe_word ob) (pe_phrase ob) (pe_detail ob) ws1 →
  phrase_kept (be_char z) (be_char o) g (pe_class pr) (pe_word pr) (pe_phrase pr) (pe_detail pr) ws2 →
  (∀ u, joint_detail g ob pr u ↔ u = y) →
  ∃ n, ∀ fuel out g' m', n ≤ fuel → exec zp fk (detail_provide fuel (spaced ws1) (spaced ws2)) g (Some (z, o)) out g' m' →
    g' = g ∧ m' = Some (z, o) ∧ gives fk out (λ e, de_phrase e = y) ∨
    fk = true ∧ brings fk (new_detail ob pr g) g (Some (z, o)) out g' m'.
Proof. exact (detail_is_found zp fk z o g ob pr ws1 ws2 y). Qed.
Print Assumptions C57_detail.
(** That the first character of a word must have a child: without one, the word is
    made a second time. *)
Theorem C57_childless_refuted : ¬ ∀ z o g a1 b1 x1 d1 c a b x d fuel e g' m', mirrored g → 1%N ∈ nodes g → be_char z ∈ nodes g → be_char o ∈ nodes g →
  be_value z = false → be_value o = true → be_char z ≠ be_char o → letter_kept (be_char z) (be_char o) g a1 b1 x1 d1 c →
  row g [a; b; x; d] → only_neighbour Outgoing g d1 b → only_neighbour Outgoing g b d1 →
  exec ZStrict false (word_provide fuel c) g (Some (z, o)) (OOk e) g' m' → e = WordEnt a b x d.
Proof. exact unkept_word. Qed.
Print Assumptions C57_childless_refuted.
Example C57_case : mirrored kept_graph ∧ coherent kept_graph ∧
  (1%N ∈ nodes kept_graph ∧ be_char B_one ∈ nodes kept_graph ∧ detailIdentifier ∈ nodes kept_graph ∧ 48%N ∈ nodes kept_graph) ∧
  letter_kept (be_char B_zero) (be_char B_one) kept_graph 7 8 9 10 (byte_text [3]%N) ∧
  word_kept (be_char B_zero) (be_char B_one) kept_graph 23 24 25 26 [byte_text [3]%N; byte_text [2]%N] ∧
  phrase_kept (be_char B_zero) (be_char B_one) kept_graph 35 36 37 38 [byte_text [3; 2]%N; byte_text [3]%N] ∧
  phrase_kept (be_char B_zero) (be_char B_one) kept_graph 43 44 45 46 [byte_text [3]%N] ∧
  (∀ u, joint_detail kept_graph K_object K_property u ↔ u = 48%N) ∧
  (∃ g' m', exec ZStrict false (detail_provide 9 (byte_text [3; 2; 32; 3]%N) (byte_text [3]%N)) kept_graph (Some (B_zero, B_one)) (OOk K_detail) g' m') ∧
  ∃ g' m', exec ZStrict true (char_provide 1) kept_graph (Some (B_zero, B_one)) (OOk None) g' m'.
Proof.
  split; [exact kept_mirrored|]. split; [exact (mirrored_coherent _ kept_mirrored)|]. split; [exact kept_nodes|].
  split; [exact kept_char|]. split; [exact kept_word32|]. split; [exact kept_object|]. split; [exact kept_property|].
  split; [exact kept_joint|].
  split; [apply (kept_exec false _ []); [done|vm_compute; reflexivity]|].
  apply (kept_exec true _ [Normal; Fault]); [done|vm_compute; reflexivity].
Qed.

(** * C58 What is not there yet is made
    On any contents: where the children are for other values only, the next element
    is made, exactly one entity that belongs to the wanted value and comes after the
    last one; what is there is not made again. *)
Theorem C58_digit zp fk z o g e v out g' m' : mirrored g → 1%N ∈ nodes g → be_char z ∈ nodes g → be_char o ∈ nodes g →
  be_value z = false → be_value o = true → be_char z ≠ be_char o → valid zp g characterIdentifier →
  row g (char_row e) → no_child g (says_bit (be_char z) (be_char o) g) (ce_char e) v →
  exec zp fk (char_provide_next_element (Some e) v) g (Some (z, o)) out g' m' →
  brings fk (λ out g', ∃ r, out = OOk (Some r) ∧
    new_tail char_row characterIdentifier (if v then be_char o else be_char z) (ce_char e) g (OOk r) g') g (Some (z, o)) out g' m'.
Proof. exact (digit_is_made zp fk z o g e v out g' m'). Qed.
Print Assumptions C58_digit.
(** The character node of the first letter is [d]; the edge to the new word is made
    twice, which is the same as once. *)
Theorem C58_letter zp fk z o g e c a b x d : mirrored g → 1%N ∈ nodes g → be_char z ∈ nodes g → be_char o ∈ nodes g →
  be_value z = false → be_value o = true → be_char z ≠ be_char o → valid zp g wordIdentifier →
  row g (word_row e) → letter_kept (be_char z) (be_char o) g a b x d c →
  no_child g (says_letter (be_char z) (be_char o) g) (we_word e) c →
  ∃ n, ∀ fuel out g' m', n ≤ fuel → exec zp fk (word_provide_next_element fuel e (code_point c)) g (Some (z, o)) out g' m' →
  brings fk (new_tail word_row wordIdentifier d (we_word e) g) g (Some (z, o)) out g' m'.
Proof. exact (letter_is_made zp fk z o g e c a b x d). Qed.
Print Assumptions C58_letter.
Theorem C58_word zp fk z o g e cs a b x d : mirrored g → 1%N ∈ nodes g → be_char z ∈ nodes g → be_char o ∈ nodes g →
  be_value z = false → be_value o = true → be_char z ≠ be_char o → valid zp g phraseIdentifier →
  row g (phrase_row e) → word_kept (be_char z) (be_char o) g a b x d cs →
  no_child g (says_word (be_char z) (be_char o) g) (pe_phrase e) (concat cs) →
  ∃ n, ∀ fuel out g' m', n ≤ fuel → exec zp fk (phrase_provide_next_element fuel e (concat cs)) g (Some (z, o)) out g' m' →
  brings fk (new_tail phrase_row phraseIdentifier d (pe_phrase e) g) g (Some (z, o)) out g' m'.
Proof. exact (word_is_made zp fk z o g e cs a b x d). Qed.
Print Assumptions C58_word.
(** At the start of a text: a new head. *)
Theorem C58_first_letter zp fk z o g c a b x d out g' m' : mirrored g → 1%N ∈ nodes g → be_char z ∈ nodes g → be_char o ∈ nodes g →
  be_value z = false → be_value o = true → be_char z ≠ be_char o → valid zp g wordIdentifier →
  letter_kept (be_char z) (be_char o) g a b x d c → no_neighbour Outgoing g x →
  exec zp fk (word_provide_first_element (code_point c)) g (Some (z, o)) out g' m' →
  brings fk (new_head word_row wordIdentifier d g) g (Some (z, o)) out g' m'.
Proof. exact (first_letter_is_made zp fk z o g c a b x d out g' m'). Qed.
Print Assumptions C58_first_letter.
Theorem C58_first_word zp fk z o g cs a b x d : mirrored g → 1%N ∈ nodes g → be_char z ∈ nodes g → be_char o ∈ nodes g →
  be_value z = false → be_value o = true → be_char z ≠ be_char o → valid zp g phraseIdentifier →
  word_kept (be_char z) (be_char o) g a b x d cs → no_neighbour Outgoing g d →
  ∃ n, ∀ fuel out g' m', n ≤ fuel → exec zp fk (phrase_provide_first_element fuel (concat cs)) g (Some (z, o)) out g' m' →
  brings fk (new_head phrase_row phraseIdentifier d g) g (Some (z, o)) out g' m'.
Proof. exact (first_word_is_made zp fk z o g cs a b x d). Qed.
Print Assumptions C58_first_word.
(** Whole characters: as many new entities as there are digits missing, in a row. *)
Theorem C58_character zp fk z o g n vs v vs' a b x d out g' m' : seated zp z o g →
  be_value z = false → be_value o = true → be_char z ≠ be_char o → digits_of n (vs ++ v :: vs') →
  char_kept (be_char z) (be_char o) g a b x d vs → no_child g (says_bit (be_char z) (be_char o) g) x v →
  exec zp fk (char_provide n) g (Some (z, o)) out g' m' →
  brings fk (λ out g', ∃ r, out = OOk (Some r) ∧ drawn (be_char z) (be_char o) (CharEnt a b x d) (v :: vs') g r g') g (Some (z, o)) out g' m'.
Proof. exact (character_is_extended zp fk z o g n vs v vs' a b x d out g' m'). Qed.
Print Assumptions C58_character.
Theorem C58_character_from_bit zp fk z o g n (v : bool) vs out g' m' : seated zp z o g →
  be_value z = false → be_value o = true → be_char z ≠ be_char o → digits_of n (v :: vs) →
  no_neighbour Outgoing g (if v then be_char o else be_char z) →
  exec zp fk (char_provide n) g (Some (z, o)) out g' m' →
  brings fk (λ out g', (∃ e g1 r, new_head char_row characterIdentifier (if v then be_char o else be_char z) g (OOk e) g1 ∧
      out = OOk (Some r) ∧ drawn (be_char z) (be_char o) e vs g1 r g') ∨
    fk = true ∧ vs = [] ∧ out = OOk None) g (Some (z, o)) out g' m'.
Proof. exact (character_is_made zp fk z o g n v vs out g' m'). Qed.
Print Assumptions C58_character_from_bit.
Example C58_case : seated ZStrict B_zero B_one kept_graph ∧
  (valid ZStrict kept_graph wordIdentifier ∧ valid ZStrict kept_graph phraseIdentifier) ∧
  (row kept_graph (char_row K_char) ∧ no_child kept_graph (says_bit 1 2 kept_graph) 9 true ∧
   digits_of 15 ([true; true] ++ [true; true]) ∧ char_kept 1 2 kept_graph 7 8 9 10 [true; true]) ∧
  (row kept_graph (word_row (WordEnt 19 20 21 22)) ∧ letter_kept 1 2 kept_graph 7 8 9 10 (byte_text [3]%N) ∧
   no_child kept_graph (says_letter 1 2 kept_graph) 21 (byte_text [3]%N)) ∧
  (row kept_graph (phrase_row (PhraseEnt 31 32 33 34)) ∧ word_kept 1 2 kept_graph 23 24 25 26 [byte_text [3]%N; byte_text [2]%N] ∧
   no_child kept_graph (says_word 1 2 kept_graph) 33 (concat [byte_text [3]%N; byte_text [2]%N])) ∧
  (letter_kept 1 2 unkept_graph 11 12 13 14 (byte_text [2]%N) ∧ no_neighbour Outgoing unkept_graph 13) ∧
  (word_kept 1 2 kept_graph 27 28 29 30 [byte_text [3]%N; byte_text [6]%N] ∧ no_neighbour Outgoing kept_graph 30) ∧
  (digits_of 0 [false] ∧ no_neighbour Outgoing kept_graph (be_char B_zero)) ∧
  (∃ g' m', exec ZStrict false (char_provide 15) kept_graph (Some (B_zero, B_one)) (OOk (Some (CharEnt 81 83 84 85))) g' m') ∧
  (∃ g' m', exec ZStrict false (word_provide_next_element 9 (WordEnt 19 20 21 22) 3) kept_graph (Some (B_zero, B_one)) (OOk (WordEnt 74 76 77 78)) g' m') ∧
  ∃ g' m', exec ZStrict false (phrase_provide_first_element 9 (byte_text [3; 6]%N)) kept_graph (Some (B_zero, B_one)) (OOk (PhraseEnt 74 76 77 78)) g' m'.
Proof.
  split; [exact kept_seated|]. split; [split; left; near_now|].
  split. { split; [row_now|]. split; [exact kept_no_digit|]. split; [split; [reflexivity|right; by eexists]|].
    destruct kept_char as (_&bs&[Hn Hd]&Hk). enough (bs = [true; true]) as <- by exact Hk.
    pose proof (digits_collect _ _ (conj Hn Hd)) as E. vm_compute in E. by injection E as <-. }
  split. { split; [row_now|]. split; [exact kept_char|exact kept_no_letter]. }
  split. { split; [row_now|]. split; [exact kept_word32|exact kept_no_word]. }
  split. { split; [exact unkept_char|]. apply no_out. near_now. }
  split. { split; [exact kept_word36|]. apply no_out. near_now. }
  split. { split; [split; [reflexivity|by left]|]. apply no_out. near_now. }
  split; [|split]; (eapply (kept_exec false _ []); [by intros _|vm_compute; reflexivity]).
Qed.

(** * C59 Characters are made once, and contents stay in order *)
(** [neat] and [in_order] are in [SpecKept]: no chain is longer than four, and every
    digit string is found, or breaks off where the next digit is missing, or starts at
    a bit without children. Without faults Provide keeps both, keeps every character
    that was found, and what it gives is found from then on. *)
Theorem C59_settles zp z o g n bs out g' m' : seated zp z o g → neat (be_char z) (be_char o) g → in_order (be_char z) (be_char o) g →
  be_value z = false → be_value o = true → be_char z ≠ be_char o → digits_of n bs →
  exec zp false (char_provide n) g (Some (z, o)) out g' m' →
  m' = Some (z, o) ∧ seated zp z o g' ∧ neat (be_char z) (be_char o) g' ∧ in_order (be_char z) (be_char o) g' ∧
  (∃ e, out = OOk (Some e) ∧ char_kept (be_char z) (be_char o) g' (ce_class e) (ce_bit e) (ce_char e) (ce_word e) bs) ∧
  (∀ a b x d bs', char_kept (be_char z) (be_char o) g a b x d bs' → char_kept (be_char z) (be_char o) g' a b x d bs') ∧
  ((∃ a b x d, char_kept (be_char z) (be_char o) g a b x d bs) → g' = g).
Proof. exact (character_settles zp z o g n bs out g' m'). Qed.
Print Assumptions C59_settles.
(** What is found is given again, and nothing is written, with faults and kills too. *)
Theorem C59_again zp fk z o g bs n e out g' m' : seated zp z o g → be_value z = false → be_value o = true → be_char z ≠ be_char o →
  digits_of n bs → char_kept (be_char z) (be_char o) g (ce_class e) (ce_bit e) (ce_char e) (ce_word e) bs →
  exec zp fk (char_provide n) g (Some (z, o)) out g' m' →
  g' = g ∧ m' = Some (z, o) ∧ gives fk out (λ r, r = Some e ∨ fk = true ∧ r = None).
Proof. exact (settled_again zp fk z o g bs n e out g' m'). Qed.
Print Assumptions C59_again.
(** There is one character at most for a digit string. *)
Theorem C59_one zero one g bs e e' : coherent g → zero ≠ one →
  char_kept zero one g (ce_class e) (ce_bit e) (ce_char e) (ce_word e) bs →
  char_kept zero one g (ce_class e') (ce_bit e') (ce_char e') (ce_word e') bs → e = e'.
Proof. exact (settled_alone zero one g bs e e'). Qed.
Print Assumptions C59_one.
(** Any number of characters, one after the other: all of them are found at the end. *)
Theorem C59_many zp z o l g g' : supplied zp z o l g g' → seated zp z o g → neat (be_char z) (be_char o) g → in_order (be_char z) (be_char o) g →
  be_value z = false → be_value o = true → be_char z ≠ be_char o → (∀ n e, (n, e) ∈ l → ∃ bs, digits_of n bs) →
  seated zp z o g' ∧ neat (be_char z) (be_char o) g' ∧ in_order (be_char z) (be_char o) g' ∧
  (∀ n e bs, (n, e) ∈ l → digits_of n bs → char_kept (be_char z) (be_char o) g' (ce_class e) (ce_bit e) (ce_char e) (ce_word e) bs) ∧
  (∀ a b x d bs, char_kept (be_char z) (be_char o) g a b x d bs → char_kept (be_char z) (be_char o) g' a b x d bs).
Proof. exact (supplied_settle zp z o l g g'). Qed.
Print Assumptions C59_many.
(** The same number is never given two characters. *)
Theorem C59_same zp z o l g g' n e e' : supplied zp z o l g g' → seated zp z o g → neat (be_char z) (be_char o) g → in_order (be_char z) (be_char o) g →
  be_value z = false → be_value o = true → be_char z ≠ be_char o → (∀ n e, (n, e) ∈ l → ∃ bs, digits_of n bs) →
  (n, e) ∈ l → (n, e') ∈ l → e = e'.
Proof. exact (supplied_same zp z o l g g' n e e'). Qed.
Print Assumptions C59_same.
(** Contents in which the bits have no children are in order. *)
Theorem C59_start zero one g : (∀ v : bool, no_neighbour Outgoing g (if v then one else zero)) → in_order zero one g.
Proof. exact (bare_in_order zero one g). Qed.
Print Assumptions C59_start.
Example C59_case : seated ZStrict B_zero B_one kept_graph ∧ neat 1 2 kept_graph ∧ in_order 1 2 kept_graph ∧
  (digits_of 15 [true; true; true; true] ∧ digits_of 0 [false] ∧ digits_of 2 [true; false]) ∧
  char_kept 1 2 kept_graph 7 8 9 10 [true; true] ∧
  (∃ g', supplied ZStrict B_zero B_one [(15%Z, CharEnt 81 83 84 85); (3%Z, K_char); (15%Z, CharEnt 81 83 84 85)] kept_graph g') ∧
  ∀ v : bool, no_neighbour Outgoing empty_graph (if v then 2 else 1)%N.
Proof.
  split; [exact kept_seated|]. split; [exact kept_neat|]. split; [exact kept_in_order|].
  split; [split; [|split]; (split; [reflexivity|first [by left|right; by eexists]])|].
  split. { destruct kept_char as (_&bs&[Hn Hd]&Hk). enough (bs = [true; true]) as <- by exact Hk.
    pose proof (digits_collect _ _ (conj Hn Hd)) as E. vm_compute in E. by injection E as <-. }
  split; [exact kept_supplied|]. intros v c Hc. exact (not_elem_of_empty (C := gset (N * N)) _ Hc).
Qed.

(** * C60 A further child of a story comes after the last one that follows it *)
(** On any contents: the walk along the positions ends at the last story. *)
Theorem C60_last zp fk g n s u fuel m out g' m' : mirrored g → n < fuel → is_story g s → last_story g n s u →
  exec zp fk (fact_last_sibling fuel s) g m out g' m' → g' = g ∧ m' = m ∧ answers fk out u.
Proof. exact (λ Hg Hn Hs Hl, surely_last (zp:=zp) (fk:=fk) g n s u fuel Hg Hn Hs Hl m out g' m'). Qed.
Print Assumptions C60_last.
(** Where the positions go on and on it never ends, unless a storage call fails. *)
Theorem C60_endless zp fk g P fuel s m out g' m' : mirrored g → endless_stories g P → P s →
  exec zp fk (fact_last_sibling fuel s) g m out g' m' → g' = g ∧ m' = m ∧ (fk = false → out = ODiverge) ∧ ∀ u, out ≠ OOk u.
Proof. exact (never_last (zp:=zp) (fk:=fk) g P fuel s m out g' m'). Qed.
Print Assumptions C60_endless.
(** CreateChildStoryFact for a story whose tree node leads somewhere: the walk starts
    at the story itself, not at its child (fact/repository.go 155). *)
Theorem C60_child zp fk f s u y n g m out g' m' fuel : mirrored g → classes_there g → is_fact g f → is_story g s → fe_story f = se_fact s →
  near Outgoing g (se_tree s) y → last_story g n s u → n < fuel →
  exec zp fk (fact_create_child_story_fact fuel (fe_remark f)) g m out g' m' → brings fk (further_story s u g) g m out g' m'.
Proof. exact (further_child_rule (zp:=zp) (fk:=fk) f s u y n g m out g' m' fuel). Qed.
Print Assumptions C60_child.
Example C60_case : mirrored line_graph ∧
  (classes_there line_graph ∧ is_fact line_graph L_fact ∧ is_story line_graph L_story ∧ near Outgoing line_graph (se_tree L_story) 18%N) ∧
  fe_story L_fact = se_fact L_story ∧ last_story line_graph 2 L_story L_third ∧
  mirrored circle_graph ∧ endless_stories circle_graph (λ s, s = L_story ∨ s = L_second ∨ s = L_third) ∧
  (∃ g' m', exec ZStrict false (fact_last_sibling 3 L_story) line_graph None (OOk L_third) g' m') ∧
  (∃ g' m', exec ZStrict false (fact_last_sibling 9 L_story) circle_graph None ODiverge g' m') ∧
  (∃ g' m', exec ZStrict true (fact_last_sibling 9 L_story) circle_graph None (OErr EStorage) g' m') ∧
  ∃ g' m', exec ZStrict false (fact_create_child_story_fact 3 (fe_remark L_fact)) line_graph None (OOk (FactAgg (FactEnt 34 36 37 38) true)) g' m'.
Proof.
  split; [exact line_mirrored|]. split; [exact line_stage|]. split; [reflexivity|]. split; [exact line_last|].
  split; [exact circle_mirrored|]. split; [exact circle_endless|].
  split; [eapply (exec_on false line_state _ []); [exact line_rinv|by intros _|vm_compute; reflexivity]|].
  split; [eapply (exec_on false circle_state _ []); [exact circle_rinv|by intros _|vm_compute; reflexivity]|].
  split; [eapply (exec_on true circle_state _ [Normal; Fault]); [exact circle_rinv|intros [=]|vm_compute; reflexivity]|].
  eapply (exec_on false line_state _ []); [exact line_rinv|by intros _|vm_compute; reflexivity].
Qed.
