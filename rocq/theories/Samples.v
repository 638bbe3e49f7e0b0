(** Concrete histories, to show that the hypotheses of the theorems are met. *)
From stdpp Require Import gmap.
From Coq Require Import NArith ZArith Lia.
From Coq Require String.
From Verif Require Import Base GoText Model1 Model2 Model3 Storage RefStorage RefProofs SpecText SpecMachine Spec SpecPlay
  SpecLayers SpecMoments SpecGrowth SpecCrowd Codec Utf8Proofs PlayProofs LaterProofs MomentProofs.
Import String.StringSyntax.
Local Open Scope string_scope.
Local Open Scope nat_scope.

Notation strict := (ref_storage ZStrict).
Notation lenient := (ref_storage ZNode).
Notation FU := 60.

Definition seen {zp} (x : machine (ref_storage zp)) : world := World (rs_graph (k_state x)) (k_mem x).

Lemma sample_inv zp faults x : plays zp faults FU (ref_storage zp) x → rinv (k_state x).
Proof. intros H. by apply (plays_reach (ref_storage_stands zp)) in H as [? _]. Qed.
Lemma sample_reach zp faults x : plays zp faults FU (ref_storage zp) x → reach zp faults FU (k_trace x) (seen x).
Proof. intros H. by apply (plays_reach (ref_storage_stands zp)) in H as [_ ?]. Qed.
Lemma sample_step zp faults x i o evs out :
  plays zp faults FU (ref_storage zp) x → r_out (now FU x i o evs) = out →
  hstep zp (negb (all_normal evs)) FU (seen x) (Called i o out) (seen (perform FU x (Do i o evs))).
Proof. intros H <-. apply (now_hstep (ref_storage_stands zp)). by eapply sample_inv. Qed.
Lemma sample_happens zp faults x i o evs out :
  plays zp faults FU (ref_storage zp) x → r_out (now FU x i o evs) = out →
  allowedb zp faults FU (k_trace x) (Do i o evs) = true →
  happens zp faults FU (k_trace x) (seen x) (negb (all_normal evs)) i o out (seen (perform FU x (Do i o evs))).
Proof.
  intros H Ho Ha%allowedb_sound. split_and!; [by apply sample_reach|apply Ha|by eapply sample_step|].
  intros Hn%negb_true_iff. by apply Ha.
Qed.

(** Two Graph values on a storage that does not know node 0; a storage call
    fails, a call is killed, a Graph value is replaced. *)
Definition R0 : remark_ent := RemarkEnt 9 11 12 13.
Definition strict_acts : list act :=
  [Do 0 (CreateStory (lit "a cat") (lit "is")) [];
   Do 1 (AddRemarkToFact R0 (lit "eats")) [];
   Do 0 (CreateStory (lit "Dogs") (lit "Cats")) (repeat Normal 20 ++ [Fault]);
   Do 1 (CreateStory (lit "Dogs") (lit "Cats")) (repeat Normal 70 ++ [Kill]);
   Boot 1;
   Do 1 (CreateChildStory R0 (lit "x") (lit "y")) []].
Definition strict_play : machine strict := play strict FU strict_acts.
(** Calls on added facts and child stories, on a storage that knows node 0. *)
Definition lenient_acts : list act :=
  [Do 0 (CreateStory (lit "a cat") (lit "is")) [];
   Do 0 (CreateChildStory R0 (lit "My") (lit "mice")) [];
   Do 1 (AddFactToStory R0 (lit "x") (lit "y")) []].
Definition lenient_play : machine lenient := play lenient FU lenient_acts.

Definition R1 : remark_ent := RemarkEnt 251 253 254 255.
Definition R2 : remark_ent := RemarkEnt 446 448 449 450.
Definition strict_trace : trace :=
  [Called 1 (CreateChildStory R0 (lit "x") (lit "y")) (OErr EStorage);
   Restarted 1;
   Called 1 (CreateStory (lit "Dogs") (lit "Cats")) OKilled;
   Called 0 (CreateStory (lit "Dogs") (lit "Cats")) OPanic;
   Called 1 (AddRemarkToFact R0 (lit "eats")) (OOk (VRem R1));
   Called 0 (CreateStory (lit "a cat") (lit "is")) (OOk (VRem R0))].
Definition lenient_trace : trace :=
  [Called 1 (AddFactToStory R0 (lit "x") (lit "y")) (OOk (VRem R2));
   Called 0 (CreateChildStory R0 (lit "My") (lit "mice")) (OOk (VRem R1));
   Called 0 (CreateStory (lit "a cat") (lit "is")) (OOk (VRem R0))].

Example strict_trace_eq : k_trace strict_play = strict_trace.
Proof. vm_compute. reflexivity. Qed.
Example lenient_trace_eq : k_trace lenient_play = lenient_trace.
Proof. vm_compute. reflexivity. Qed.
Example strict_plays : plays ZStrict true FU strict strict_play.
Proof. apply play_plays. vm_compute. reflexivity. Qed.
Example lenient_plays : plays ZNode false FU lenient lenient_play.
Proof. apply play_plays. vm_compute. reflexivity. Qed.
Example strict_reach : reach ZStrict true FU strict_trace (seen strict_play).
Proof. rewrite <- strict_trace_eq. apply sample_reach, strict_plays. Qed.
Example lenient_reach : reach ZNode false FU lenient_trace (seen lenient_play).
Proof. rewrite <- lenient_trace_eq. apply sample_reach, lenient_plays. Qed.

Lemma repaired_lit s : normalise s = s → repaired s s.
Proof. intros H. apply repaired_valid. by apply normalise_id_iff. Qed.
Ltac plain_text := (apply repaired_lit || apply normalise_id_iff); vm_compute; reflexivity.

Example strict_tells_0 : tells strict_trace R0 (lit "a cat") (lit "is").
Proof. do 5 apply tells_later. apply tells_story; plain_text. Qed.
Example strict_tells_1 : tells strict_trace R1 (lit "a cat") (lit "eats").
Proof. do 4 apply tells_later. eapply tells_remark; [apply tells_story; plain_text|plain_text]. Qed.
Example strict_opened : opened false strict_trace R1 R0.
Proof. do 4 apply opened_later. apply opened_remark, opened_story. Qed.
Example strict_issued : issued strict_trace R1.
Proof. apply issuedb_sound. vm_compute. reflexivity. Qed.
Example lenient_tells : tells lenient_trace R2 (lit "x") (lit "y").
Proof. apply tells_fact; plain_text. Qed.
Example lenient_opened : opened false lenient_trace R1 R1.
Proof. apply opened_later, opened_child. Qed.
Example lenient_issued : issued lenient_trace R2.
Proof. apply issuedb_sound. vm_compute. reflexivity. Qed.
Example lenient_valid : valid_trace lenient_trace.
Proof. repeat constructor; plain_text. Qed.
Example lenient_added : fact_added lenient_trace.
Proof. repeat eexists. apply elem_of_list_here. Qed.

(** Later moments. *)
Lemma sample_leads zp faults x acts :
  plays zp faults FU (ref_storage zp) x → allowed_all zp faults FU x acts = true →
  leads zp faults FU (k_trace x) (seen x) (k_trace (fold_left (perform FU) acts x)) (seen (fold_left (perform FU) acts x)).
Proof.
  induction acts as [|a acts IH] using rev_ind; intros Hx Ha; [apply leads_now|].
  rewrite fold_left_app. simpl.
  assert (Hb : allowed_all zp faults FU x acts = true ∧
    allowedb zp faults FU (k_trace (fold_left (perform FU) acts x)) a = true).
  { clear IH Hx. revert x Ha. induction acts as [|b acts IH]; intros x; simpl.
    - by rewrite andb_true_r.
    - intros [-> H]%andb_true_iff. by apply IH in H. }
  destruct Hb as [Hb Hc%allowedb_sound]. specialize (IH Hx Hb).
  assert (Hp : plays zp faults FU (ref_storage zp) (fold_left (perform FU) acts x)) by by apply allowed_all_plays.
  destruct a as [i o evs|i].
  - destruct Hc as [(H1&H2&H3) Hf]. eapply (leads_step _ _ _ _ _ (negb (all_normal evs))); [exact IH|done|by eapply sample_step|].
    intros Hn%negb_true_iff. by apply Hf.
  - eapply (leads_step _ _ _ _ _ false); [exact IH|done| |done]. apply (HRestart _ _ _ i (seen (fold_left (perform FU) acts x))).
Qed.

(** ** Layer calls on an empty store *)
Record lmachine (zp : zpolicy) := LMachine { lm_calls : list (lopn * outcome lvalue); lm_state : rstate; lm_mem : nat → cache }.
Arguments LMachine {zp}.
Arguments lm_calls {zp}.
Arguments lm_state {zp}.
Arguments lm_mem {zp}.
Definition lperform {zp} (x : lmachine zp) (o : lopn) : lmachine zp :=
  let r := run (ref_storage zp) (put FU o) [] (lm_state x) (lm_mem x 0) in
  LMachine ((o, r_out r) :: lm_calls x) (r_state r) (keep 0 (after (r_out r) (r_cache r)) (lm_mem x)).
Definition lplay (zp : zpolicy) (os : list lopn) : lmachine zp :=
  fold_left lperform os (LMachine [] (RState 1 empty_graph) (λ _, None)).
Definition lseen {zp} (x : lmachine zp) : world := World (rs_graph (lm_state x)) (lm_mem x).

Lemma lplay_grown zp os : Forall (lfits FU) os →
  rinv (lm_state (lplay zp os)) ∧ grown zp false FU [] (lm_calls (lplay zp os)) (lseen (lplay zp os)).
Proof.
  induction os as [|o os IH] using rev_ind; intros Hf.
  - split; [apply (ref_storage_stands zp)|]. apply grown_api, reach_first.
  - apply Forall_app in Hf as [Hf Ho]. inversion_clear Ho as [|? ? Ho1 _]. destruct (IH Hf) as [Hi Hg].
    unfold lplay. rewrite fold_left_app. simpl. fold (lplay zp os).
    destruct (run_exec zp (ref_storage zp) (put FU o) [] rinv rs_graph (lm_state (lplay zp os)) (lm_mem (lplay zp os) 0) false
      (proj2 (proj2 (ref_storage_stands zp)))) as [Hi' Hx]; [done|done|].
    split; [exact Hi'|]. eapply (grown_put _ _ _ _ false _ (lseen (lplay zp os)) 0); [exact Hg|exact Ho1|exact Hx|done].
Qed.

Definition layer_acts : list lopn := [PutWord (lit "do"); PutChar 200; PutPhrase (lit "do it"); PutBit true; PutChar 7; PutBit false; PutClass].
Definition layer_play : lmachine ZStrict := lplay ZStrict layer_acts.
Definition C200 : char_ent := CharEnt 106 108 109 110.
Definition C7 : char_ent := CharEnt 148 150 151 152.
Definition B0 : bit_ent := BitEnt false 9 13.
Definition B1 : bit_ent := BitEnt true 11 14.
Definition Wdo : word_ent := WordEnt 99 101 102 103.
Definition Pdoit : phrase_ent := PhraseEnt 190 192 193 194.
Definition layer_trace : list (lopn * outcome lvalue) :=
  [(PutClass, OOk LUnit); (PutBit false, OOk (LBit B0)); (PutChar 7, OOk (LChar (Some C7)));
   (PutBit true, OOk (LBit B1)); (PutPhrase (lit "do it"), OOk (LPhrase Pdoit));
   (PutChar 200, OOk (LChar (Some C200))); (PutWord (lit "do"), OOk (LWord Wdo))].
Example layer_trace_eq : lm_calls layer_play = layer_trace.
Proof. vm_compute. reflexivity. Qed.
Example layer_grown : grown ZStrict false FU [] layer_trace (lseen layer_play).
Proof.
  rewrite <- layer_trace_eq. apply lplay_grown. repeat (constructor; [split; [lia|]|]); try done;
    try (unfold is_rune; lia); unfold fits; vm_compute; lia.
Qed.
Lemma sample_exec {A} (p : prog A) evs m out :
  r_out (run strict p evs (lm_state layer_play) m) = out →
  exec ZStrict (negb (all_normal evs)) p (store (lseen layer_play)) m out
    (rs_graph (r_state (run strict p evs (lm_state layer_play) m))) (r_cache (run strict p evs (lm_state layer_play) m)).
Proof.
  intros <-. apply (run_exec ZStrict strict p evs rinv rs_graph).
  - apply (ref_storage_stands ZStrict).
  - intros Hn%negb_false_iff. by apply all_normal_spec.
  - apply lplay_grown. repeat (constructor; [split; [lia|]|]); try done;
      try (unfold is_rune; lia); unfold fits; vm_compute; lia.
Qed.

Lemma play_exec zp faults x {A} (p : prog A) evs m out :
  plays zp faults FU (ref_storage zp) x → r_out (run (ref_storage zp) p evs (k_state x) m) = out →
  exec zp (negb (all_normal evs)) p (store (seen x)) m out
    (rs_graph (r_state (run (ref_storage zp) p evs (k_state x) m))) (r_cache (run (ref_storage zp) p evs (k_state x) m)).
Proof.
  intros Hx <-. apply (run_exec zp (ref_storage zp) p evs rinv rs_graph).
  - apply (ref_storage_stands zp).
  - intros Hn%negb_false_iff. by apply all_normal_spec.
  - by eapply sample_inv.
Qed.

(** ** Moments within a call, and a reader next to it *)
Record strand (A : Type) := Strand { sd_prog : prog A; sd_cache : cache }.
Arguments Strand {A}.
Arguments sd_prog {A}.
Arguments sd_cache {A}.
(** One step; a program that has ended stays. *)
Definition advance {A} zp (x : strand A) (s : rstate) : strand A * rstate :=
  match sd_prog x with
  | Call c k => let rs := rstep zp s c in (Strand (k (fst rs)) (sd_cache x), snd rs)
  | LoadBits k => (Strand (k (sd_cache x)) (sd_cache x), s)
  | StoreBits m k => (Strand k m, s)
  | p => (Strand p (sd_cache x), s)
  end.
Fixpoint march {A} zp (n : nat) (x : strand A) (s : rstate) : strand A * rstate :=
  match n with O => (x, s) | S n => let y := advance zp x s in march zp n (fst y) (snd y) end.
(** [true]: the writer takes a step; [false]: the reader does. *)
Fixpoint weave {A B} zp (steps : list bool) (x : strand A) (y : strand B) (s : rstate) : strand A * strand B * rstate :=
  match steps with
  | [] => (x, y, s)
  | true :: steps => let z := advance zp x s in weave zp steps (fst z) y (snd z)
  | false :: steps => let z := advance zp y s in weave zp steps x (fst z) (snd z)
  end.
Definition within (t : trace) (mm : nat → cache) (fk : bool) (i : nat) (o : opn) (x : strand value) (s : rstate) : moment :=
  Moment t (rs_graph s) mm (Some (Running fk i o (sd_prog x) (sd_cache x))).

Lemma advance_moves zp faults t mm fk i o x s : rinv s →
  rinv (snd (advance zp x s)) ∧
  rtc (moves zp faults FU) (within t mm fk i o x s) (within t mm fk i o (fst (advance zp x s)) (snd (advance zp x s))).
Proof.
  intros Hi. destruct x as [p m]. destruct p as [| | | |c k|k|m' k]; simpl; (split; [try done|try apply rtc_refl]).
  - by apply (ref_storage_stands zp).
  - apply rtc_once. apply mv_call. by apply (ref_storage_stands zp).
  - apply rtc_once, mv_load.
  - apply rtc_once, mv_store.
Qed.
Lemma march_moves zp faults t mm fk i o n x s : rinv s →
  rtc (moves zp faults FU) (within t mm fk i o x s) (within t mm fk i o (fst (march zp n x s)) (snd (march zp n x s))).
Proof.
  revert x s. induction n as [|n IH]; intros x s Hi; [apply rtc_refl|].
  destruct (advance_moves zp faults t mm fk i o x s Hi) as [Hi' Hm]. simpl. etrans; [exact Hm|]. by apply IH.
Qed.
Lemma overlaps_moves zp faults fuel fk {A} a a' (p : prog A) m out b :
  rtc (moves zp faults fuel) a a' → overlaps zp faults fuel fk a' p m out b → overlaps zp faults fuel fk a p m out b.
Proof. induction 1; eauto using overlaps. Qed.
Lemma weave_overlaps {A} zp faults fk' t mm fk i o steps x (y : strand A) s out :
  rinv s → let z := weave zp steps x y s in final (sd_prog (snd (fst z))) = Some out →
  overlaps zp faults FU fk' (within t mm fk i o x s) (sd_prog y) (sd_cache y) out
    (within t mm fk i o (fst (fst z)) (snd z)).
Proof.
  revert x y s. induction steps as [|[] steps IH]; intros x y s Hi; simpl; intros Hf.
  - by apply ov_end.
  - destruct (advance_moves zp faults t mm fk i o x s Hi) as [Hi' Hm].
    eapply overlaps_moves; [exact Hm|]. by apply IH.
  - destruct y as [p m]. destruct p as [| | | |c k|k|m' k]; simpl in *; try by apply (IH _ (Strand _ _)).
    + destruct (ref_storage_stands zp) as (_&_&Hs). destruct (Hs s c Hi) as [Hi' Hg].
      eapply ov_call; [exact Hg|]. apply (IH x (Strand _ _)); done.
    + apply ov_load. apply (IH x (Strand _ _)); done.
    + apply ov_store. apply (IH x (Strand _ _)); done.
Qed.

Definition awaits {A} (x : strand A) : option call := match sd_prog x with Call c _ => Some c | _ => None end.
Definition start {zp} (x : machine (ref_storage zp)) (i : nat) (o : opn) : strand value :=
  Strand (call_of FU o) (k_mem x i).
Lemma sample_begin zp faults x (fk : bool) i o : plays zp faults FU (ref_storage zp) x →
  allowed zp faults FU (k_trace x) (Do i o (if fk then [Fault] else [])) →
  moves zp faults FU (between (k_trace x) (seen x)) (within (k_trace x) (k_mem x) fk i o (start x i o) (k_state x)).
Proof.
  intros Hx Ha. apply mv_begin.
  - destruct fk; apply Ha.
  - intros ->. by apply Ha.
Qed.
Lemma sample_moment zp faults x (fk : bool) i o n : plays zp faults FU (ref_storage zp) x →
  allowed zp faults FU (k_trace x) (Do i o (if fk then [Fault] else [])) →
  let y := march zp n (start x i o) (k_state x) in
  seen_at zp faults FU (within (k_trace x) (k_mem x) fk i o (fst y) (snd y)).
Proof.
  intros Hx Ha. unfold seen_at. etrans; [apply moments_histories, leads_from_first; by apply sample_reach|].
  eapply rtc_l; [by apply sample_begin|]. apply march_moves. by eapply sample_inv.
Qed.
Lemma sample_overlap {A} zp faults x (fk : bool) i o steps (y : strand A) out : plays zp faults FU (ref_storage zp) x →
  allowed zp faults FU (k_trace x) (Do i o (if fk then [Fault] else [])) →
  let z := weave zp steps (start x i o) y (k_state x) in final (sd_prog (snd (fst z))) = Some out →
  overlaps zp faults FU false (between (k_trace x) (seen x)) (sd_prog y) (sd_cache y) out
    (within (k_trace x) (k_mem x) fk i o (fst (fst z)) (snd z)).
Proof.
  intros Hx Ha z Hf. eapply overlaps_moves; [apply rtc_once; by apply sample_begin|].
  apply weave_overlaps; [by eapply sample_inv|done].
Qed.

Lemma sample_overlap_call zp faults x (fk : bool) i o steps j q out : plays zp faults FU (ref_storage zp) x →
  allowed zp faults FU (k_trace x) (Do i o (if fk then [Fault] else [])) →
  let z := weave zp steps (start x i o) (start x j q) (k_state x) in final (sd_prog (snd (fst z))) = Some out →
  overlaps zp faults FU false (between (k_trace x) (seen x)) (call_of FU q) (k_mem x j) out
    (within (k_trace x) (k_mem x) fk i o (fst (fst z)) (snd z)).
Proof. intros Hx Ha z Hf. exact (sample_overlap zp faults x fk i o steps (start x j q) out Hx Ha Hf). Qed.

(** In the history [strict_acts] a further CreateStory is under way. *)
Definition late : opn := CreateStory (lit "Cow") (lit "is red").
Example late_allowed : allowed ZStrict true FU (k_trace strict_play) (Do 1 late [Fault]).
Proof. apply allowedb_sound. vm_compute. reflexivity. Qed.

(** The nodes and the links a call adds. *)
Definition gains {zp} (x : machine (ref_storage zp)) (a : act) : nat * nat :=
  (node_count (store (seen (perform FU x a))) - node_count (store (seen x)),
   link_count (store (seen (perform FU x a))) - link_count (store (seen x))).
Definition meows : opn := AddRemarkToFact R0 (lit "meows").

(** ** Crowds *)
Inductive turn := Enter (i : nat) (o : opn) | Go (i n : nat) | Trip (i : nat) | Drop (i : nat) | Leave (i : nat) | Anew (i : nat).
Record troupe := Troupe {
  tp_trace : trace; tp_state : rstate; tp_mem : nat → cache; tp_running : nat → option (opn * prog value)
}.
Definition pace zp (x : troupe) (i : nat) : troupe :=
  let '(Troupe t s mm ru) := x in
  match ru i with
  | Some (o, Call c k) => let rs := rstep zp s c in Troupe t (snd rs) mm (set_at i (Some (o, k (fst rs))) ru)
  | Some (o, LoadBits k) => Troupe t s mm (set_at i (Some (o, k (mm i))) ru)
  | Some (o, StoreBits m k) => Troupe t s (set_at i m mm) (set_at i (Some (o, k)) ru)
  | _ => x
  end.
Definition tread zp (x : troupe) (a : turn) : troupe :=
  let '(Troupe t s mm ru) := x in
  match a with
  | Enter i o =>
    match ru i with
    | None => if negb (creating o) || match receiver o with Some r => issuedb t r | None => true end
              then Troupe t s mm (set_at i (Some (o, call_of FU o)) ru) else x
    | Some _ => x
    end
  | Go i n => Nat.iter n (λ x, pace zp x i) x
  | Trip i =>
    match ru i with
    | Some (o, Call c k) => Troupe t s mm (set_at i (Some (o, k (Err EStorage))) ru)
    | _ => x
    end
  | Drop i =>
    match ru i with
    | Some (o, Call c k) => Troupe (Called i o OKilled :: t) s (set_at i None mm) (set_at i None ru)
    | _ => x
    end
  | Leave i =>
    match ru i with
    | Some (o, p) =>
      match final p with Some out => Troupe (Called i o out :: t) s mm (set_at i None ru) | None => x end
    | None => x
    end
  | Anew i =>
    match ru i with None => Troupe (Restarted i :: t) s (set_at i None mm) ru | Some _ => x end
  end.
Definition gathered {zp} (x : machine (ref_storage zp)) : troupe :=
  Troupe (k_trace x) (k_state x) (k_mem x) (λ _, None).
Definition scene_of (x : troupe) : scene := Scene (tp_trace x) (rs_graph (tp_state x)) (tp_mem x) (tp_running x).
Definition mingle zp (x : troupe) (l : list turn) : troupe := fold_left (tread zp) l x.

Lemma sized_some fuel t g mm t' g' mm' ru i o p : sized fuel (Scene t g mm ru) → Forall (fits fuel) (texts o) →
  sized fuel (Scene t' g' mm' (set_at i (Some (o, p)) ru)).
Proof.
  intros H Ho j oj pj. simpl. unfold set_at. destruct (Nat.eqb j i); [by intros [= <- <-]|]. apply H.
Qed.
Lemma sized_none fuel t g mm t' g' mm' ru i : sized fuel (Scene t g mm ru) →
  sized fuel (Scene t' g' mm' (set_at i None ru)).
Proof. intros H j oj pj. simpl. unfold set_at. destruct (Nat.eqb j i); [done|]. apply H. Qed.
Lemma goes_once zp fk fuel s s' : crowd zp fk fuel s s' → sized fuel s' → sized fuel s' ∧ goes_on zp fk fuel s s'.
Proof. intros H1 H2. split; [done|]. by apply rtc_once. Qed.
Lemma goes_none zp fk fuel s : sized fuel s → sized fuel s ∧ goes_on zp fk fuel s s.
Proof. intros H. split; [done|]. apply rtc_refl. Qed.
Definition turn_fits (a : turn) : Prop := match a with Enter _ o => Forall (fits FU) (texts o) | _ => True end.

Lemma pace_crowd zp fk x i : rinv (tp_state x) → sized FU (scene_of x) →
  rinv (tp_state (pace zp x i)) ∧ sized FU (scene_of (pace zp x i)) ∧
  goes_on zp fk FU (scene_of x) (scene_of (pace zp x i)).
Proof.
  destruct x as [t s mm ru]. unfold pace. cbn [tp_state]. intros Hi Hz.
  destruct (ru i) as [[o [| | | |c k|k|m k]]|] eqn:E; (split; [try done|try by apply goes_none]).
  - by apply (ref_storage_stands zp).
  - apply goes_once; [|eapply sized_some; [exact Hz|exact (Hz _ _ _ E)]].
    eapply cr_call; [exact E|]. by apply (ref_storage_stands zp).
  - apply goes_once; [|eapply sized_some; [exact Hz|exact (Hz _ _ _ E)]]. by eapply (cr_load zp fk FU).
  - apply goes_once; [|eapply sized_some; [exact Hz|exact (Hz _ _ _ E)]]. by eapply (cr_store zp fk FU).
Qed.
Lemma tread_crowd zp x a : rinv (tp_state x) → sized FU (scene_of x) → turn_fits a →
  rinv (tp_state (tread zp x a)) ∧ sized FU (scene_of (tread zp x a)) ∧
  goes_on zp true FU (scene_of x) (scene_of (tread zp x a)).
Proof.
  intros Hi Hz Ha. destruct a as [i o|i n|i|i|i|i].
  2:{ assert (H : tread zp x (Go i n) = Nat.iter n (λ x, pace zp x i) x) by (by destruct x).
      rewrite H. clear H Ha. induction n as [|n (IH1&IH2&IH3)]; [split; [done|by apply goes_none]|]. simpl.
      destruct (pace_crowd zp true _ i IH1 IH2) as (H1&H2&H3). split; [done|split; [done|]]. unfold goes_on in *. etrans; done. }
  all: destruct x as [t s mm ru]; unfold tread; cbn [tp_state] in *.
  - destruct (ru i) eqn:E; [split; [done|by apply goes_none]|].
    destruct (_ || _) eqn:Hb; [|split; [done|by apply goes_none]]. split; [done|].
    apply goes_once; [|eapply sized_some; [exact Hz|exact Ha]]. apply cr_begin; [done|].
    intros Hc r Hr. rewrite Hc, Hr in Hb. by apply issuedb_sound.
  - destruct (ru i) as [[o []]|] eqn:E; (split; [done|]); try by apply goes_none.
    apply goes_once; [|eapply sized_some; [exact Hz|exact (Hz _ _ _ E)]]. by eapply (cr_fault zp true FU).
  - destruct (ru i) as [[o []]|] eqn:E; (split; [done|]); try by apply goes_none.
    apply goes_once; [|eapply sized_none; exact Hz]. by eapply (cr_kill zp true FU).
  - destruct (ru i) as [[o p]|] eqn:E; [|split; [done|by apply goes_none]].
    destruct (final p) eqn:Ef; (split; [done|]); [|by apply goes_none].
    apply goes_once; [|eapply sized_none; exact Hz]. by eapply (cr_end zp true FU).
  - destruct (ru i) eqn:E; (split; [done|]); [by apply goes_none|].
    apply goes_once; [|exact Hz]. by eapply (cr_restart zp true FU).
Qed.
Lemma mingle_crowd zp l x : rinv (tp_state x) → sized FU (scene_of x) → Forall turn_fits l →
  rinv (tp_state (mingle zp x l)) ∧ sized FU (scene_of (mingle zp x l)) ∧
  goes_on zp true FU (scene_of x) (scene_of (mingle zp x l)).
Proof.
  revert x. induction l as [|a l IH]; intros x Hi Hz Hl; [split; [done|by apply goes_none]|].
  apply Forall_cons_1 in Hl as [Ha Hl].
  destruct (tread_crowd zp x a Hi Hz Ha) as (H1&H2&H3). destruct (IH _ H1 H2 Hl) as (H4&H5&H6).
  split; [done|split; [done|]]. unfold goes_on in *. etrans; done.
Qed.
Lemma sample_goes_on zp faults x l1 l2 : plays zp faults FU (ref_storage zp) x → Forall turn_fits (l1 ++ l2) →
  let y := mingle zp (gathered x) l1 in
  goes_on zp true FU (still (k_trace x) (seen x)) (scene_of y) ∧ goes_on zp true FU (scene_of y) (scene_of (mingle zp y l2)).
Proof.
  intros Hx [H1 H2]%Forall_app. simpl.
  destruct (mingle_crowd zp l1 (gathered x)) as (A1&A2&A3); [by eapply sample_inv|by intros ? ? ?|done|].
  split; [exact A3|]. by apply mingle_crowd.
Qed.
Lemma goes_on_crowd zp fk fuel s s' : goes_on zp fk fuel s s' → rtc (crowd zp fk fuel) s s'.
Proof. apply rtc_subrel. by intros ? ? [? _]. Qed.
Lemma sample_crowded zp faults x l : plays zp faults FU (ref_storage zp) x → Forall turn_fits l →
  crowded zp true FU (k_trace x) (seen x) (scene_of (mingle zp (gathered x) l)).
Proof.
  intros Hx Hl. apply goes_on_crowd. apply (sample_goes_on zp faults x l []); [done|]. by rewrite app_nil_r.
Qed.

(** In the history [strict_acts] three writers and two readers set to work at
    once; one writer hits a failing storage call, one is killed. *)
Definition R3 : remark_ent := RemarkEnt 479 482 483 484.
Definition bustle : list turn :=
  [Enter 0 (CreateStory (lit "Cow") (lit "is red")); Enter 1 (CreateStory (lit "Cat") (lit "a cat"));
   Enter 2 (GetObjectAndProperty R0); Enter 3 (GetStory R1); Enter 4 (AddRemarkToFact R0 (lit "Cow"))] ++
  concat (repeat [Go 0 3; Go 1 2; Go 2 1; Go 3 2; Go 4 1] 150) ++ [Trip 1; Leave 1; Drop 4] ++
  concat (repeat [Go 0 3; Go 2 2; Go 3 2] 150) ++ [Leave 0; Leave 2; Leave 3] ++
  [Enter 0 (AddRemarkToFact R3 (lit "x")); Enter 3 (GetRemark 9); Enter 2 (GetFirstFact R1)] ++
  concat (repeat [Go 3 1; Go 0 2; Go 2 2] 12) ++ [Leave 2; Leave 3].
Definition busy : scene := scene_of (mingle ZStrict (gathered strict_play) bustle).
Definition busy_trace : trace :=
  [Called 3 (GetRemark 9) (OOk (VRem R0));
   Called 2 (GetFirstFact R1) (OOk (VRem R0));
   Called 3 (GetStory R1) (OOk (VStory (lit "a cat is ")));
   Called 2 (GetObjectAndProperty R0) (OOk (VText (lit "a cat") (lit "is")));
   Called 0 (CreateStory (lit "Cow") (lit "is red")) (OOk (VRem R3));
   Called 4 (AddRemarkToFact R0 (lit "Cow")) OKilled;
   Called 1 (CreateStory (lit "Cat") (lit "a cat")) OPanic].
Example busy_trace_eq : sc_trace busy = busy_trace ++ strict_trace.
Proof. vm_compute. reflexivity. Qed.
Example busy_since i o out : Called i o out ∈ busy_trace → since strict_trace busy i o out.
Proof. intros H. exists busy_trace. split; [apply busy_trace_eq|done]. Qed.

Definition working (s : scene) (i : nat) : bool := match sc_running s i with Some _ => true | None => false end.
Lemma working_some s i : working s i = true → sc_running s i ≠ None.
Proof. unfold working. by destruct (sc_running s i). Qed.
Lemma working_none s i : working s i = false → sc_running s i = None.
Proof. unfold working. by destruct (sc_running s i). Qed.
Example busy_now : (working busy 0, working busy 2, working busy 3, working busy 4, working busy 5) = (true, false, false, false, false).
Proof. vm_compute. reflexivity. Qed.
Lemma five {A} {a b c d e a' b' c' d' e' : A} : (a, b, c, d, e) = (a', b', c', d', e') → a = a' ∧ b = b' ∧ c = c' ∧ d = d' ∧ e = e'.
Proof. by intros [= -> -> -> -> ->]. Qed.
Example busy_running : sc_running busy 0 ≠ None.
Proof. exact (working_some busy 0 (proj1 (five busy_now))). Qed.
Example busy_idle : sc_running busy 2 = None ∧ sc_running busy 3 = None ∧ sc_running busy 4 = None ∧ sc_running busy 5 = None.
Proof. destruct (five busy_now) as (_&H2&H3&H4&H5). exact (conj (working_none _ _ H2) (conj (working_none _ _ H3) (conj (working_none _ _ H4) (working_none _ _ H5)))). Qed.

(** The crowd goes on: it reads what was made in it and makes more. *)
Definition R4 : remark_ent := RemarkEnt 718 720 721 722.
Definition R5 : remark_ent := RemarkEnt 723 725 726 727.
Definition bustle_on : list turn :=
  [Enter 2 (GetObjectAndProperty R3); Enter 3 (GetStory R3); Enter 1 (CreateStory (lit "Hen") (lit "red"));
   Enter 5 (GetFirstFact R3)] ++
  concat (repeat [Go 0 2; Go 1 3; Go 2 1; Go 3 2; Go 5 1] 400) ++
  [Leave 0; Leave 2; Leave 3; Leave 5; Leave 1; Enter 4 (GetRemark (re_class R3))] ++ [Go 4 12; Leave 4].
Definition busier : scene := scene_of (mingle ZStrict (mingle ZStrict (gathered strict_play) bustle) bustle_on).
Definition busier_trace : trace :=
  [Called 4 (GetRemark 479) (OOk (VRem R3));
   Called 1 (CreateStory (lit "Hen") (lit "red")) (OOk (VRem R5));
   Called 5 (GetFirstFact R3) (OOk (VRem R3));
   Called 3 (GetStory R3) (OOk (VStory (lit "Cow is red ")));
   Called 2 (GetObjectAndProperty R3) (OOk (VText (lit "Cow") (lit "is red")));
   Called 0 (AddRemarkToFact R3 (lit "x")) (OOk (VRem R4))].
Example busier_trace_eq : sc_trace busier = busier_trace ++ sc_trace busy.
Proof. vm_compute. reflexivity. Qed.
Example busier_since i o out : Called i o out ∈ busier_trace → since (sc_trace busy) busier i o out.
Proof. intros H. exists busier_trace. split; [apply busier_trace_eq|done]. Qed.
Example bustle_fits : Forall turn_fits (bustle ++ bustle_on).
Proof.
  assert (H : ∀ l, forallb (λ a, match a with Enter _ o => forallb (λ s, Nat.leb (3 * length s + 31) FU) (texts o) | _ => true end) l = true →
    Forall turn_fits l).
  { intros l Hl. apply Forall_forall. intros a Ha%elem_of_list_In. rewrite forallb_forall in Hl. specialize (Hl a Ha).
    destruct a; try done. simpl in *. apply Forall_forall. intros s Hs%elem_of_list_In. rewrite forallb_forall in Hl.
    by apply Nat.leb_le, Hl. }
  apply H. vm_compute. reflexivity.
Qed.
Example busy_tells : tells (sc_trace busy) R3 (lit "Cow") (lit "is red").
Proof. rewrite busy_trace_eq. simpl. do 4 apply tells_later. apply tells_story; plain_text. Qed.
Example busy_opened : opened false (sc_trace busy) R3 R3.
Proof. rewrite busy_trace_eq. simpl. do 4 apply opened_later. apply opened_story. Qed.

(** Runs on the executable storage from any state it can be in. *)
Lemma ref_exec zp {A} (p : prog A) evs s m : rinv s →
  let r := run (ref_storage zp) p evs s m in
  rinv (r_state r) ∧ exec zp (negb (all_normal evs)) p (rs_graph s) m (r_out r) (rs_graph (r_state r)) (r_cache r).
Proof.
  intros Hi. apply (run_exec zp (ref_storage zp)); [apply (ref_storage_stands zp)| |done].
  intros Hn%negb_false_iff. by apply all_normal_spec.
Qed.
Lemma rinv_empty : rinv (RState 1 empty_graph).
Proof. apply (ref_storage_stands ZStrict). Qed.
Lemma rinv_class : rinv (RState 9 class_graph).
Proof. apply (ref_exec ZStrict class_provide [] _ None rinv_empty). Qed.

(** Storage contents that the program cannot leave behind. *)
Definition damage : prog unit :=
  st_create;;; st_create;;; st_create;;; st_create;;; st_create;;; st_create;;; st_create;;; st_create;;;
  st_create;;; st_create;;; st_create;;; st_create;;; st_create;;;
  st_connect 2 1;;; st_connect 3 1;;; st_connect 4 1;;;
  st_connect 5 7;;; st_connect 7 5;;; st_connect 7 8;;; st_connect 5 8;;; st_connect 8 5;;;
  st_connect 10 11;;; st_setref 12 11;;; st_setref 13 12;;; st_connect 13 6.
Definition odd_state : rstate := r_state (run (ref_storage ZStrict) damage [] (RState 1 empty_graph) None).
Definition odd_graph : graph := rs_graph odd_state.
Lemma rinv_odd : rinv odd_state.
Proof. apply (ref_exec ZStrict damage [] _ None rinv_empty). Qed.
(** What a program does on them. *)
Lemma odd_exec {A} (p : prog A) m out :
  r_out (run (ref_storage ZStrict) p [] odd_state m) = out →
  ∃ g' m', exec ZStrict false p odd_graph m out g' m'.
Proof. intros <-. eexists _, _. apply (ref_exec ZStrict p [] odd_state m rinv_odd). Qed.
