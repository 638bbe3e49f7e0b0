(** Histories watched at every storage call: proofs. *)
From stdpp Require Import gmap.
From Coq Require Import NArith ZArith Lia.
From Verif Require Import Base GoText Model1 Model2 Model3 Storage SpecText SpecMachine Spec SpecMoments Codec Inv Wp Steps
  Entity BitProofs Reads CharProofs WordProofs PhraseProofs DetailProofs StoryProofs Utf8Proofs HistoryProofs ApiProofs.
Local Open Scope nat_scope.
Local Transparent W R.

(** * Moments and histories *)
Section same.
  Context {zp : zpolicy} {faults : bool} {fuel : nat}.

  Lemma exec_moves t g mm fk i o p m out g' m' :
    exec zp fk p g m out g' m' →
    rtc (moves zp faults fuel) (Moment t g mm (Some (Running fk i o p m)))
      (Moment (Called i o out :: t) g' (keep i (after out m') mm) None).
  Proof.
    induction 1.
    - apply rtc_once. by constructor.
    - apply rtc_once. by constructor.
    - apply rtc_once. by constructor.
    - apply rtc_once. by constructor.
    - eapply rtc_l; [by eapply mv_call|done].
    - eapply rtc_l; [by eapply mv_fault|done].
    - apply rtc_once. by constructor.
    - eapply rtc_l; [by eapply mv_load|done].
    - eapply rtc_l; [by eapply mv_store|done].
  Qed.

  Lemma leads_moves t w t' w' :
    leads zp faults fuel t w t' w' → rtc (moves zp faults fuel) (between t w) (between t' w').
  Proof.
    induction 1 as [|fk t1 w1 e w2 _ IH Hl Hx Hfk]; [done|]. etrans; [exact IH|].
    destruct Hx as [i o out w1 g' m' Hx|i w1]; unfold between; simpl.
    - eapply rtc_l; [|by apply exec_moves]. apply mv_begin; [|done]. exact Hl.
    - apply rtc_once, mv_restart.
  Qed.

  (** What a moment says about the world in which the running call began. *)
  Definition begun_in (t0 : trace) (w0 : world) (a : moment) : Prop :=
    match mo_running a with
    | None => leads zp faults fuel t0 w0 (mo_trace a) (World (mo_store a) (mo_mem a))
    | Some (Running fk i o p m) =>
      ∃ g0, leads zp faults fuel t0 w0 (mo_trace a) (World g0 (mo_mem a)) ∧
        legal fuel (mo_trace a) (Called i o OKilled) ∧
        (fk = true → faults = true ∧ zp = ZStrict ∧ settled (mo_trace a)) ∧
        ∀ out g' m', exec zp fk p (mo_store a) m out g' m' →
          exec zp fk (call_of fuel o) g0 (mo_mem a i) out g' m'
    end.

  Lemma begun_in_move t0 w0 a b : begun_in t0 w0 a → moves zp faults fuel a b → begun_in t0 w0 b.
  Proof.
    unfold begun_in.
    destruct 2 as [t g mm fk i o Hl Hfk|t g mm fk i o c k m r g' Hs|t g mm fk i o c k m Hf|t g mm fk i o c k m Hf|
      t g mm fk i o k m|t g mm fk i o k m m'|t g mm fk i o p m out Hp|t g mm i]; simpl in *.
    - exists g. refine (conj _ (conj _ (conj _ _))); [done..|]. auto.
    - destruct H as (g0&?&?&?&H). exists g0. refine (conj _ (conj _ (conj _ _))); [done..|]. intros. apply H. by eapply ExCall.
    - destruct H as (g0&?&?&?&H). exists g0. refine (conj _ (conj _ (conj _ _))); [done..|]. intros. apply H. by apply ExFault.
    - destruct H as (g0&Hl&Hg&Hfk&H).
      change (keep i None mm) with (keep i (after (OKilled (A := value)) m) mm).
      eapply (leads_step _ _ _ _ _ fk); [exact Hl|exact Hg| |done].
      apply (HCall zp fk fuel i o OKilled (World g0 mm) g m). apply H. by apply ExKill.
    - destruct H as (g0&?&?&?&H). exists g0. refine (conj _ (conj _ (conj _ _))); [done..|]. intros. apply H. by apply ExLoad.
    - destruct H as (g0&?&?&?&H). exists g0. refine (conj _ (conj _ (conj _ _))); [done..|]. intros. apply H. by apply ExStore.
    - destruct H as (g0&Hl&Hg&Hfk&H).
      assert (Hx : exec zp fk p g m out g m) by (destruct p; simplify_eq/=; constructor).
      apply H in Hx.
      assert (Hm : after out m = m) by (by destruct p; simplify_eq/=).
      eapply (leads_step _ _ _ _ _ fk); [exact Hl|exact Hg| |done].
      rewrite <- Hm at 1. by apply (HCall zp fk fuel i o out (World g0 mm) g m).
    - eapply (leads_step _ _ _ _ _ false); [exact H|done| |done]. apply (HRestart zp false fuel i (World g mm)).
  Qed.

  (** Between calls, moments and histories are the same. *)
  Lemma moments_histories t w t' w' :
    rtc (moves zp faults fuel) (between t w) (between t' w') ↔ leads zp faults fuel t w t' w'.
  Proof.
    split; [|apply leads_moves]. intros Hm.
    assert (H : ∀ a b, rtc (moves zp faults fuel) a b → begun_in t w a → begun_in t w b).
    { induction 1; eauto using begun_in_move. }
    specialize (H _ _ Hm). unfold begun_in in H; simpl in H. destruct w, w'. apply H. apply leads_now.
  Qed.
End same.

(** * The invariant at every moment *)
Lemma out_killed {A} (out : outcome A) : out = OKilled ∨ out ≠ OKilled.
Proof. destruct out; auto; right; discriminate. Qed.

Section invariant.
  Context {zp : zpolicy} {faults : bool} {fuel : nat}.

  Definition inv_at (a : moment) (G : ghost) : Prop :=
    match mo_running a with
    | None => ∃ d, J zp fuel (mo_trace a) (World (mo_store a) (mo_mem a)) d G
    | Some (Running fk i o p m) =>
      ∃ (d : bool) Q E, (fk = true → d = true) ∧
        ok fuel G (mo_store a) ∧ cache_ok G m ∧ wp zp d fuel p Q E G (mo_store a) ∧
        ∀ out G' g' m', ok fuel G' g' → cache_ok G' m' → ext G (mo_store a) G' g' → ended d Q E out G' g' →
          J zp fuel (Called i o out :: mo_trace a) (World g' (keep i (after out m') (mo_mem a))) d G'
    end.

  Lemma inv_at_ok a G : inv_at a G → ok fuel G (mo_store a).
  Proof.
    unfold inv_at. destruct (mo_running a) as [[fk i o p m]|].
    - by intros (d&Q&E&_&?&_).
    - intros (d&HJ). apply (J_ok _ _ _ _ _ _ HJ).
  Qed.

  Lemma inv_begin t g mm d G fk i o :
    J zp fuel t (World g mm) d G → legal fuel t (Called i o OKilled) →
    (fk = true → faults = true ∧ zp = ZStrict ∧ settled t) →
    inv_at (Moment t g mm (Some (Running fk i o (call_of fuel o) (mm i)))) G.
  Proof.
    intros HJ Hl Hfk. unfold inv_at; simpl.
    assert (Hd : d || fk = true → zp = ZStrict ∧ settled t).
    { intros [?|?]%orb_true_iff; [by apply (J_faults _ _ _ _ _ _ HJ)|by apply Hfk]. }
    assert (Hdd : d || fk = false → d = false) by (intros [? _]%orb_false_iff; done).
    assert (Hff : fk = true → d || fk = true) by (intros ->; by destruct d).
    revert Hd Hdd Hff. generalize (d || fk). clear Hfk. intros d' Hd Hdd Hff.
    assert (Hok := J_ok _ _ _ _ _ _ HJ). assert (Hm := J_mem _ _ _ _ _ _ HJ i). assert (Hq := J_quiet _ _ _ _ _ _ HJ).
    destruct (creating o) eqn:Ho.
    - destruct (W_creating zp fuel t (World g mm) d d' G (ms_zero (m_run t)) i o OKilled HJ Ho Hl Hd) as (ob&pr&Hs&HW).
      { intros Hf. split; [auto|]. apply (J_zero _ _ _ _ _ _ HJ). auto. }
      eexists d', _, _. split_and!; [done|done|done|by apply HW|].
      intros out G' g' m' Hok' Hm' X Hend.
      eapply (J_created zp fuel t (World g mm) d G d' i o out g' m' G'); eauto.
      destruct out; simpl in Hend; auto; destruct Hend as (?&?&?); auto.
    - assert (HR := R_reading zp fuel t (World g mm) d G d' i o OKilled HJ Ho Hl (λ Hf, proj1 (Hd Hf))).
      eexists d', _, _. split_and!; [done|done|done| |].
      { eapply (rwp_wp zp d' fuel (call_of fuel o)); [done|by apply HR]. }
      intros out G' g' m' Hok' Hm' X Hend.
      destruct (out_killed out) as [->|Hout].
      + simpl in Hend. destruct (Hd Hend) as [_ Hse]. destruct (J_settled _ _ _ _ _ _ HJ Hse) as (Hup&Hrd&_).
        assert (Hup' : up G') by by apply (up_mono X). assert (Hrd' : ready G') by by eapply ready_mono.
        apply (J_quietly zp fuel t (World g mm) d G); simpl; auto; try (intros ?; congruence).
        * destruct Hrd' as (z&o'&Hb). split; [by rewrite Hb|]. apply (solo_mono X). by destruct Hq.
        * intros j. unfold keep. destruct (Nat.eqb j i); [done|]. eapply cache_ok_mono; [exact X|]. apply (J_mem _ _ _ _ _ _ HJ).
        * by left.
      + assert (G' = G ∧ g' = g) as [-> ->] by (destruct out; simpl in Hend; try done; by destruct Hend as (?&?&?)).
        by apply (J_looked zp fuel t (World g mm) d).
  Qed.

  Lemma inv_move a b G :
    inv_at a G → moves zp faults fuel a b → ∃ G', inv_at b G' ∧ ext G (mo_store a) G' (mo_store b).
  Proof.
    intros Ha Hm.
    destruct Hm as [t g mm fk i o Hl Hfk|t g mm fk i o c k m r g' Hs|t g mm fk i o c k m Hf|t g mm fk i o c k m Hf|
      t g mm fk i o k m|t g mm fk i o k m m'|t g mm fk i o p m out Hp|t g mm i]; unfold inv_at in Ha; cbn -[keep wp] in Ha; cbn.
    - destruct Ha as (d&HJ). exists G. split; [by eapply inv_begin|apply ext_refl].
    - destruct Ha as (d&Q&E&Hd&Hok&Hc&Hwp&Hend). destruct Hwp as [Hwp _]. destruct (Hwp _ _ Hs) as (G'&Hok'&X&Hwp').
      exists G'. split; [|done]. exists d, Q, E. split_and!; [done..|by eapply cache_ok_mono|done|].
      intros out G1 g1 m1 ?? X1 ?. apply Hend; auto. by eapply ext_trans.
    - destruct Ha as (d&Q&E&Hd&Hok&Hc&Hwp&Hend). destruct Hwp as [_ Hwp]. exists G. split; [|apply ext_refl].
      exists d, Q, E. split_and!; auto.
    - destruct Ha as (d&Q&E&Hd&Hok&Hc&Hwp&Hend). exists G. split; [|apply ext_refl].
      exists d. apply (Hend OKilled G g m); [done|done|apply ext_refl|]. by apply Hd.
    - destruct Ha as (d&Q&E&Hd&Hok&Hc&Hwp&Hend). exists G. split; [|apply ext_refl].
      exists d, Q, E. split_and!; auto.
    - destruct Ha as (d&Q&E&Hd&Hok&Hc&[Hm' Hwp]&Hend). exists G. split; [|apply ext_refl].
      exists d, Q, E. split_and!; auto.
    - destruct Ha as (d&Q&E&Hd&Hok&Hc&Hwp&Hend). exists G. split; [|apply ext_refl].
      exists d. cbn.
      assert (Hm : after out m = m) by (by destruct p; simplify_eq/=).
      rewrite <- Hm. apply (Hend out G g m); [done|done|apply ext_refl|]. by destruct p; simplify_eq/=.
    - destruct Ha as (d&HJ). exists G. split; [|apply ext_refl].
      destruct (J_step _ _ _ _ _ _ false (Restarted i) _ HJ I (HRestart zp false fuel i (World g mm))) as (G'&HJ'&_); [done|].
      exists d. apply (J_quietly zp fuel t (World g mm) d G); cbn; try apply HJ; auto using ext_refl.
      + intros j. unfold keep. destruct (Nat.eqb j i); [done|]. apply (J_mem _ _ _ _ _ _ HJ).
      + intros Hf [_ Hv]%Forall_cons. by apply (J_view _ _ _ _ _ _ HJ).
  Qed.

  Lemma inv_moves a b G :
    inv_at a G → rtc (moves zp faults fuel) a b → ∃ G', inv_at b G' ∧ ext G (mo_store a) G' (mo_store b).
  Proof.
    intros Ha Hm. revert G Ha. induction Hm as [a|a b c Hm _ IH]; intros G Ha.
    - exists G. split; [done|apply ext_refl].
    - destruct (inv_move _ _ _ Ha Hm) as (G1&Hb&X1). destruct (IH _ Hb) as (G2&Hc&X2).
      exists G2. split; [done|]. by eapply ext_trans.
  Qed.

  Lemma inv_first : inv_at (between [] first_world) first_ghost.
  Proof. exists false. apply J_first. Qed.

  Lemma inv_seen_solo a : seen_at zp faults fuel a → ∃ G, inv_at a G ∧ solo G = true.
  Proof. intros H. destruct (inv_moves _ _ _ inv_first H) as (G&?&X). exists G. split; [done|]. by apply (solo_mono X). Qed.

  Lemma inv_seen a : seen_at zp faults fuel a → ∃ G, inv_at a G.
  Proof. intros H. destruct (inv_seen_solo a H) as (G&?&_). eauto. Qed.
End invariant.

(** * What holds at every moment *)
Section moments.
  Context {zp : zpolicy} {faults : bool} {fuel : nat}.

  (** C10 *)
  Lemma moments_grow a b :
    seen_at zp faults fuel a → rtc (moves zp faults fuel) a b → grows (mo_store a) (mo_store b).
  Proof.
    intros Ha Hm. destruct (inv_seen _ Ha) as (G&HG). destruct (inv_moves _ _ _ HG Hm) as (G'&_&[]). done.
  Qed.

  (** A graph no invariant admits. *)
  Definition absurd_graph : graph := Graph {[0%N]} ∅ ∅ ∅.
  Lemma absurd_not_ok G : ¬ ok fuel G absurd_graph.
  Proof. intros H. apply (ok_zero_node _ _ _ H). simpl. set_solver. Qed.

  Lemma wp_specified fk {A} c (k : res (answer c) → prog A) Q E G g :
    wp zp fk fuel (Call c k) Q E G g → specified zp g c.
  Proof.
    intros [Hs _]. destruct c as [x| |x|x|x y|x|x y|x y|x]; try done; simpl in *.
    - intros Hx Hy.
      destruct (decide (fwd g !! x = None ∧ bwd g !! y = None)) as [?|Hn]; [done|]. exfalso.
      destruct (Hs (Ok tt) absurd_graph) as (G'&Hok&_).
      { split; [|tauto]. intros _ ? ?. by destruct Hn. }
      by apply absurd_not_ok in Hok.
    - destruct (Hs (Ok tt) absurd_graph I) as (G'&Hok&_). by apply absurd_not_ok in Hok.
    - destruct (Hs (Ok tt) absurd_graph I) as (G'&Hok&_). by apply absurd_not_ok in Hok.
  Qed.

  (** C10: the next storage call of whatever is running. *)
  Lemma moments_specified a fk i o c k m :
    seen_at zp faults fuel a → mo_running a = Some (Running fk i o (Call c k) m) →
    specified zp (mo_store a) c.
  Proof.
    intros Ha Hr. destruct (inv_seen _ Ha) as (G&HG). unfold inv_at in HG. rewrite Hr in HG.
    destruct HG as (d&Q&E&_&_&_&Hwp&_). by eapply wp_specified.
  Qed.

  (** Edges join nodes. *)
  Definition joined (g : graph) : Prop := ∀ x y, (x, y) ∈ edges g → x ∈ nodes g ∧ y ∈ nodes g.

  Lemma joined_step g c r g' : gstep ZStrict g c r g' → specified ZStrict g c → joined g → joined g'.
  Proof.
    assert (Hg : ∀ A (v : Prop) (r : res A) P, Decision v → guarded v g r g' P → joined g → (v → P → joined g') → joined g').
    { intros A v r0 P D [H1 H2] Hj H3. destruct (decide v); [auto|]. by destruct (H2 n) as [_ ->]. }
    assert (Hv : ∀ x, Decision (valid ZStrict g x)).
    { intros x. unfold valid. assert (Decision (ZStrict = ZNode)) by (right; done). apply _. }
    intros Hs Hsp Hj. destruct c as [x| |x|x|x y|x|x y|x y|x]; simpl in Hs, Hsp; try done.
    - destruct Hs as [_ ->]. done.
    - destruct Hs as (x&_&_&_&_&->). intros a b Hab. simpl in *. apply Hj in Hab. set_solver.
    - eapply Hg; [|exact Hs|done|]; [apply _|]. by intros _ (?&?&?&?&->).
    - eapply Hg; [|exact Hs|done|]; [apply _|]. by intros _ (?&?&?&?&->).
    - eapply Hg; [|exact Hs|done|]; [apply _|]. intros [Hx Hy] HP. destruct (Hsp Hx Hy) as [??].
      destruct HP as [_ ->]; done.
    - eapply Hg; [|exact Hs|done|]; [apply _|]. by intros _ (?&->).
    - eapply Hg; [|exact Hs|done|]; [apply _|]. intros [[Hx|[]] [Hy|[]]] [_ ->]; try done.
      intros a b. simpl. rewrite elem_of_union, elem_of_singleton. intros [[= -> ->]|Hab]; [done|by apply Hj].
  Qed.

  Lemma moments_joined a : zp = ZStrict → seen_at zp faults fuel a → joined (mo_store a).
  Proof.
    intros Hz Ha.
    assert (H : ∀ a b, rtc (moves zp faults fuel) a b → seen_at zp faults fuel a → joined (mo_store a) → joined (mo_store b)).
    { clear a Ha. induction 1 as [a|a b c Hm _ IH]; [done|]. intros Ha Hj. apply IH; [by eapply rtc_r|].
      destruct Hm; simpl in *; try done.
      assert (Hsp := moments_specified _ _ _ _ _ _ _ Ha eq_refl). simpl in Hsp. rewrite Hz in *.
      by eapply joined_step. }
    apply (H _ _ Ha); [apply rtc_refl|]. intros x y. simpl. set_solver.
  Qed.
End moments.

(** * Kinds *)
Definition kind_of (l : label) : node_kind :=
  match l with
  | LZero => Zero
  | LRoot k => Root k
  | LCls k =>
    match k with
    | 1%N => BitClass | 2%N => CharacterClass | 3%N => WordClass | 4%N => PhraseClass
    | 5%N => DetailClass | 6%N => RemarkClass | 7%N => FactClass | _ => StoryClass
    end
  | LBitCh _ => BitCharacter
  | LCharBit _ => CharacterBit | LCharChar _ => CharacterCharacter | LCharWord _ => CharacterWord
  | LWordChar _ => WordCharacter | LWordWord _ => WordWord | LWordPhr _ => WordPhrase
  | LPhrWord _ => PhraseWord | LPhrPhr _ => PhrasePhrase | LPhrDet _ => PhraseDetail
  | LDetPhr _ _ => DetailPhrase | LDetRem _ _ => DetailRemark
  | LRemDet _ _ => RemarkDetail | LRemPos => RemarkPosition | LRemFact => RemarkFact
  | LFactRem => FactRemark | LFactPos => FactPosition | LFactStory => FactStory
  | LStFact => StoryFact | LStPos => StoryPosition | LStTree _ => StoryTree
  end.

Lemma kind_class k : (1 <= k <= 8)%N → class_root (kind_of (LCls k)) = Some k.
Proof.
  intros H. assert (k = 1 ∨ k = 2 ∨ k = 3 ∨ k = 4 ∨ k = 5 ∨ k = 6 ∨ k = 7 ∨ k = 8)%N as Hk by lia.
  by destruct Hk as [->|[->|[->|[->|[->|[->|[->| ->]]]]]]].
Qed.

Lemma kind_joins F lx ly : label_ok F ly → edge_ok lx ly → joins (kind_of lx) (kind_of ly) = true.
Proof.
  intros Hl He. destruct lx, ly; try done. simpl in Hl, He. subst. 
  assert (H := kind_class _ Hl). revert H. change (kind_of (LRoot k0)) with (Root k0). generalize (kind_of (LCls k0)). intros x Hx.
  destruct x; simpl in *; simplify_eq; apply N.eqb_refl.
Qed.

Lemma kind_next lx ly : ref_ok lx ly → next_field (kind_of lx) = Some (kind_of ly).
Proof. intros H. destruct lx, ly; try done; simpl in *; by subst. Qed.

Lemma kind_zero l : kind_of l = Zero → l = LZero.
Proof. destruct l; try done. simpl. by repeat (case_match; try done). Qed.

Lemma kind_root l k : kind_of l = Root k → l = LRoot k.
Proof. destruct l; try done; simpl; [by intros [= ->]|]. by repeat (case_match; try done). Qed.

Lemma kind_target l : single_target (kind_of l) = true → one_target l ∨ head_target l.
Proof. destruct l; simpl; auto; try done. repeat (case_match; try done); auto. Qed.
Lemma kind_source l : single_source (kind_of l) = true → one_source l.
Proof. destruct l; try done. simpl. by repeat (case_match; try done). Qed.

Lemma kind_entity l k : class_root (kind_of l) = Some k → ∃ j, l = LCls j.
Proof. destruct l; try done; eauto. Qed.

(** C36 *)
Lemma moments_typed zp faults fuel a :
  seen_at zp faults fuel a → ∃ K, typed zp (mo_store a) K.
Proof.
  intros Ha. destruct (inv_seen_solo _ Ha) as (G&HG&Hlone). apply inv_at_ok in HG as Hok.
  exists (λ x, kind_of <$> lab G !! x).
  assert (HK : ∀ x k, kind_of <$> lab G !! x = Some k ↔ ∃ l, lab G !! x = Some l ∧ kind_of l = k).
  { intros x k. rewrite fmap_Some. naive_solver. }
  split.
  - intros x. rewrite HK. split.
    + intros (l&Hl&Hk%kind_zero). subst. by apply (ok_zero_only _ _ _ Hok).
    + intros ->. exists LZero. split; [apply Hok|done].
  - intros x. split.
    + intros Hx. assert (x ≠ 0%N) by (intros ->; by apply (ok_zero_node _ _ _ Hok)). split; [done|].
      apply (ok_dom _ _ _ Hok) in Hx as [l ->]; done.
    + intros [Hx Hk]. apply (ok_dom _ _ _ Hok); [done|]. destruct (lab G !! x); [eauto|done].
  - intros x k. rewrite HK. intros (l&Hl&Hk%kind_root). subst l. split; [by eapply ok_root|].
    apply (ok_label _ _ _ Hok _ _ Hl).
  - intros x y He. destruct (ok_edge _ _ _ Hok _ _ He) as (lx&ly&Hx&Hy&Hxy&_).
    exists (kind_of lx), (kind_of ly). rewrite Hx, Hy. split_and!; [done..|].
    eapply kind_joins; [|exact Hxy]. by eapply ok_label.
  - intros ->. by apply (moments_joined _ eq_refl Ha).
  - intros x y z k H1 H2. rewrite HK. intros (l&Hl&<-) [Ht|Ht]%kind_target; [by eapply (ok_target _ _ _ Hok)|by eapply (ok_head _ _ _ Hok Hlone)].
  - intros x y z k H1 H2. rewrite HK. intros (l&Hl&<-) Ht%kind_source. by eapply (ok_source _ _ _ Hok).
  - intros x y b k. rewrite HK. intros (l&Hl&<-) Hk Hr. destruct (kind_entity _ _ Hk) as [j ->].
    assert (Hj := ok_class _ _ _ Hok _ _ _ Hl Hr). destruct (ok_edge _ _ _ Hok _ _ Hj) as (lx&ly&Hx&Hy&Hxy&_).
    simplify_eq. destruct ly; try done. simpl in Hxy. subst k0.
    rewrite kind_class in Hk by apply (ok_label _ _ _ Hok _ _ Hy). by injection Hk as ->.
  - intros x y Hr. destruct (ok_ref _ _ _ Hok _ _ Hr) as (lx&ly&Hx&Hy&Hxy).
    exists (kind_of lx), (kind_of ly). rewrite Hx, Hy. split_and!; [done..|]. by apply kind_next.
  - apply Hok.
Qed.

(** * Readers next to others *)
Section overlap.
  Context {zp : zpolicy} {faults fk : bool} {fuel : nat}.

  Lemma overlap_sound {A} (p : prog A) a m out b :
    overlaps zp faults fuel fk a p m out b → ∀ Q E G g Ga,
    inv_at (zp := zp) (fuel := fuel) a Ga → ok fuel G g → ext G g Ga (mo_store a) → cache_ok Ga m → rwp zp fk fuel p Q E G g →
    rtc (moves zp faults fuel) a b ∧ ∃ Gb gb, ended fk Q E out Gb gb.
  Proof.
    induction 1 as [a a' p m out b Hm _ IH|a c k m r g' out b Hs _ IH|a c k m out b Hf _ IH|a c k m Hf|
      a k m out b _ IH|a m m' k out b _ IH|a p m out Hp]; intros Q E G g Ga Ha Hok X Hc Hr.
    - destruct (inv_move _ _ _ Ha Hm) as (Ga'&Ha'&X').
      destruct (IH Q E G g Ga') as [? ?]; eauto using ext_trans, cache_ok_mono. split; [by eapply rtc_l|done].
    - simpl in Hr. destruct Hr as [Hc' Hr].
      assert (g' = mo_store a) as -> by by eapply gstep_read.
      assert (Hput : with_store (mo_store a) a = a) by by destruct a.
      rewrite Hput in IH.
      destruct (Hr Ga (mo_store a) (inv_at_ok _ _ Ha) X) as [H1 _].
      apply (IH Q E Ga (mo_store a) Ga); auto using ext_refl. by eapply inv_at_ok. by eapply H1.
    - simpl in Hr. destruct Hr as [Hc' Hr]. destruct (Hr Ga (mo_store a) (inv_at_ok _ _ Ha) X) as [_ H1].
      apply (IH Q E Ga (mo_store a) Ga); auto using ext_refl. by eapply inv_at_ok.
    - split; [done|]. exists G, g. done.
    - simpl in Hr. apply (IH Q E Ga (mo_store a) Ga); auto using ext_refl. by eapply inv_at_ok.
      apply Hr; [by eapply inv_at_ok|done|done].
    - simpl in Hr. destruct Hr as [Hm Hr]. apply (IH Q E G g Ga); auto. by eapply cache_ok_mono.
    - split; [done|]. exists G, g. by destruct p; simplify_eq/=.
  Qed.

  Lemma overlap_answers t w d G i (p : prog value) v out b :
    J zp fuel t w d G → R zp fk fuel p (λ x _ _, x = v) (E0 fk) G (store w) →
    overlaps zp faults fuel fk (between t w) p (mem w i) out b →
    rtc (moves zp faults fuel) (between t w) b ∧ answers fk out v.
  Proof.
    destruct w as [gw mw]. intros HJ HR Ho. assert (Hok := J_ok _ _ _ _ _ _ HJ).
    destruct (overlap_sound _ _ _ _ _ Ho _ _ G gw G (ex_intro _ d HJ) Hok (ext_refl _ _) (J_mem _ _ _ _ _ _ HJ i)
      (HR Hok)) as (Hm&Gb&gb&Hend).
    split; [done|]. destruct out as [v'|e| | |]; simpl in Hend.
    - rewrite Hend. split; [done|]. by intros ? [= <-].
    - split; [|done]. intros ->. by destruct Hend.
    - split; [|done]. intros ->. by destruct Hend.
    - split; [|done]. intros ->. by destruct Hend.
    - split; [|done]. by intros ->.
  Qed.

  Context {t : trace} {w : world} (Hr : reach zp faults fuel t w).

  Lemma overlap_texts i r o p out b :
    tells t r o p → overlaps zp faults fuel fk (between t w) (call_of fuel (GetObjectAndProperty r)) (mem w i) out b →
    rtc (moves zp faults fuel) (between t w) b ∧ answers fk out (VText o p).
  Proof.
    intros Ht. destruct (reach_J _ _ _ _ _ Hr) as (d&G&HJ&_).
    destruct (J_tells _ _ _ _ _ _ HJ _ _ _ Ht) as (ow&pw&f&Hrf&<-&<-&_).
    destruct (J_settled _ _ _ _ _ _ HJ (ex_intro _ _ (tells_issued _ _ _ _ Ht))) as (Hup&_&H31).
    eapply overlap_answers; [exact HJ|]. cbn [call_of].
    eapply R_bind; [eapply R_get_object_and_property; [done|lia|by destruct Hrf|done]| |done].
    intros ? ? ? _ _ ->. by apply R_ret.
  Qed.

  Lemma overlap_identifier i r out b :
    issued t r → overlaps zp faults fuel fk (between t w) (call_of fuel (GetRemark (re_class r))) (mem w i) out b →
    rtc (moves zp faults fuel) (between t w) b ∧ answers fk out (VRem r).
  Proof.
    intros Hi. destruct (reach_J _ _ _ _ _ Hr) as (d&G&HJ&_).
    destruct (J_told _ _ _ _ _ _ HJ _ Hi) as (o&p&Ht).
    destruct (J_tells _ _ _ _ _ _ HJ _ _ _ Ht) as (ow&pw&f&[[Hrf _] _]&<-&<-&_).
    eapply overlap_answers; [exact HJ|]. cbn [call_of].
    eapply R_bind; [by eapply R_get_remark| |done]. intros ? ? ? _ _ ->. by apply R_ret.
  Qed.

  Lemma overlap_has_next_remark i r out b :
    issued t r → overlaps zp faults fuel fk (between t w) (call_of fuel (HasNextRemark r)) (mem w i) out b →
    rtc (moves zp faults fuel) (between t w) b ∧ answers fk out (VBool false).
  Proof.
    intros Hi. destruct (reach_J _ _ _ _ _ Hr) as (d&G&HJ&_).
    destruct (J_told _ _ _ _ _ _ HJ _ Hi) as (o&p&Ht).
    destruct (J_tells _ _ _ _ _ _ HJ _ _ _ Ht) as (ow&pw&f&[[Hrf _] _]&<-&<-&_).
    eapply overlap_answers; [exact HJ|]. cbn [call_of].
    eapply R_bind; [by eapply R_has_next_remark| |done]. intros ? ? ? _ _ ->. by apply R_ret.
  Qed.

  Context (Hz : fk = true → zp = ZStrict).

  Lemma overlap_first_fact i r r0 out b :
    opened false t r r0 → overlaps zp faults fuel fk (between t w) (call_of fuel (GetFirstFact r)) (mem w i) out b →
    rtc (moves zp faults fuel) (between t w) b ∧ answers fk out (VRem r0).
  Proof.
    intros Ho. destruct (reach_J _ _ _ _ _ Hr) as (d&G&HJ&_).
    destruct (J_begun _ _ _ _ _ _ HJ _ _ Ho) as (ow&pw&f&Hrf&Hst).
    eapply overlap_answers; [exact HJ|]. cbn [call_of].
    eapply R_bind; [by eapply R_get_first_fact| |done]. intros ? ? ? _ _ ->. by apply R_ret.
  Qed.

  Lemma overlap_story i r r0 o p out b :
    opened false t r r0 → tells t r0 o p →
    overlaps zp faults fuel fk (between t w) (call_of fuel (GetStory r)) (mem w i) out b →
    rtc (moves zp faults fuel) (between t w) b ∧ answers fk out (VStory (o ++ [space] ++ p ++ [space])).
  Proof.
    intros Ho Ht. destruct (reach_J _ _ _ _ _ Hr) as (d&G&HJ&_).
    destruct (J_begun _ _ _ _ _ _ HJ _ _ Ho) as (ow&pw&f&Hrf&Hst).
    destruct (J_tells _ _ _ _ _ _ HJ _ _ _ Ht) as (ow0&pw0&f0&[Hrc0 _]&<-&<-&_).
    destruct (J_settled _ _ _ _ _ _ HJ (ex_intro _ _ (tells_issued _ _ _ _ Ht))) as (Hup&_&H31).
    eapply overlap_answers; [exact HJ|]. cbn [call_of].
    eapply R_bind; [by eapply R_get_story| |done]. intros ? ? ? _ _ ->. by apply R_ret.
  Qed.
End overlap.
