(** Lookups of entities and parents of stories. *)
From stdpp Require Import gmap.
From Coq Require Import NArith ZArith Lia.
From Verif Require Import Base GoText Model1 Model2 Model3 Model4 Storage Inv Spec SpecLayers SpecMoments SpecGuards SpecWalk
  StoryProofs HistoryProofs ApiProofs LayerProofs InitProofs MomentProofs GuardProofs.
Local Open Scope nat_scope.

Lemma ok_coherent F G g : ok F G g → coherent g.
Proof.
  intros Hok x y Hr. split; [by apply (ok_inv _ _ _ Hok)|].
  destruct (ok_ref _ _ _ Hok _ _ Hr) as (lx&ly&Hx&Hy&Hxy).
  assert (x ≠ 0%N) by (intros ->; rewrite (ok_zero _ _ _ Hok) in Hx; by simplify_eq/=).
  assert (y ≠ 0%N) by (intros ->; rewrite (ok_zero _ _ _ Hok) in Hy; destruct lx; by simplify_eq/=).
  split; apply (ok_dom _ _ _ Hok); eauto.
Qed.
Lemma typed_coherent zp g K : typed zp g K → coherent g.
Proof.
  intros HK x y Hr. split; [by apply (ty_back _ _ _ HK)|].
  destruct (ty_ref _ _ _ HK _ _ Hr) as (a&b&Hx&Hy&Hab).
  split; apply (ty_nodes _ _ _ HK); (split; [|congruence]).
  - intros ->. rewrite (proj2 (ty_zero _ _ _ HK 0%N) eq_refl) in Hx. by simplify_eq/=.
  - intros ->. rewrite (proj2 (ty_zero _ _ _ HK 0%N) eq_refl) in Hy. destruct a; by simplify_eq/=.
Qed.

Section lookups.
  Context {zp : zpolicy} {fk : bool}.

  (** A reading call: the answer, or a fault. *)
  Definition faulty {A} (out : outcome A) : Prop := fk = true ∧ (out = OErr EStorage ∨ out = OKilled).

  Lemma exec_getref {B} x (f : N * N → prog B) g m out g' m' : valid zp g x →
    exec zp fk (r <- st_getref x;; f r) g m out g' m' →
    exec zp fk (f (default 0%N (bwd g !! x), default 0%N (fwd g !! x))) g m out g' m' ∨
    faulty out ∧ g' = g ∧ m' = m.
  Proof.
    intros Hv Hx. apply exec_call_any in Hx as [(r&g1&[Hc _]&Hx)|[[? Hx]|(?&->&->&->)]].
    - destruct (Hc Hv) as [-> ->]. by left.
    - cbn [bind of_res] in Hx. apply exec_throw_any in Hx as (->&->&->). right. unfold faulty. auto.
    - right. unfold faulty. auto.
  Qed.

  Lemma faulty_answers {A} (out : outcome A) v : faulty out → answers fk out v.
  Proof. intros [Hf Ho]. split; [congruence|]. by destruct Ho as [-> | ->]. Qed.

  Ltac look :=
    match goal with
    | Hx : exec _ _ (bind (st_getref _) _) _ _ _ _ _ |- _ =>
      apply exec_getref in Hx as [Hx|(Hb&->&->)];
        [repeat match goal with H : _ !! _ = Some _ |- _ => rewrite H in Hx end; cbn [default from_option id] in Hx
        |split_and!; [done|done|by apply faulty_answers]
        |by left]
    end.

  Theorem finds_rule A p (e : A) l g m out g' m' : coherent g → finds A p e l → row g l →
    exec zp fk p g m out g' m' → g' = g ∧ m' = m ∧ answers fk out e.
  Proof.
    intros Hg Hf Hl Hx. destruct Hf; simpl in Hl; destruct_and!;
      repeat match goal with H : fwd g !! _ = Some _ |- _ => pose proof (Hg _ _ H) as (?&?&?); revert H end; intros.
    all: unfold char_read_by_class, char_read_by_bit, char_read_by_character, char_read_by_word,
      word_read_by_class, word_read_by_character, word_read_by_word, word_read_by_phrase,
      phrase_read_by_class, phrase_read_by_word, phrase_read_by_phrase, phrase_read_by_detail,
      detail_read_by_class, detail_read_by_phrase, detail_read_by_remark,
      story_read_by_class, story_read_by_fact, story_read_by_position, story_read_by_tree,
      fact_read_by_class, fact_read_by_remark, fact_read_by_position, fact_read_by_story,
      remark_read_by_class, remark_read_by_detail, remark_read_by_position, remark_read_by_fact in Hx.
    all: repeat look.
    all: apply exec_ret_any in Hx as (->&->&->); split_and!; [done|done|]; by split; [|intros ? [= <-]].
  Qed.
End lookups.

(** C43 *)
Lemma lookup_moment zp faults fuel fk a A p (e : A) l m out g' m' :
  seen_at zp faults fuel a → row (mo_store a) l → finds A p e l →
  exec zp fk p (mo_store a) m out g' m' → g' = mo_store a ∧ m' = m ∧ answers fk out e.
Proof.
  intros Ha Hl Hf Hx. destruct (moments_typed _ _ _ _ Ha) as [K HK].
  eapply finds_rule; [by eapply typed_coherent|exact Hf|exact Hl|exact Hx].
Qed.
Lemma lookup_grown zp faults fuel fk t ls w A p (e : A) l m out g' m' :
  grown zp faults fuel t ls w → row (store w) l → finds A p e l →
  exec zp fk p (store w) m out g' m' → g' = store w ∧ m' = m ∧ answers fk out e.
Proof.
  intros Hw Hl Hf Hx. destruct (grown_K _ _ _ _ _ _ Hw) as (d&G&HK&_).
  eapply finds_rule; [eapply ok_coherent, HK|exact Hf|exact Hl|exact Hx].
Qed.
Lemma row_remark zp faults fuel t w r : reach zp faults fuel t w → issued t r → row (store w) (remark_row r).
Proof.
  intros Hr Hi. destruct (reach_J _ _ _ _ _ Hr) as (d&G&HJ&_).
  destruct (J_told _ _ _ _ _ _ HJ _ Hi) as (o&p&Ht).
  destruct (J_tells _ _ _ _ _ _ HJ _ _ _ Ht) as (ow&pw&f&Hrf&_).
  destruct Hrf as [[(_&(?&?&?)) _] _]. simpl. auto.
Qed.
Lemma row_layer zp faults fuel t l w o v : grown zp faults fuel t l w → (o, OOk v) ∈ l → row (store w) (layer_row v).
Proof.
  intros Hw Hin. destruct (grown_K _ _ _ _ _ _ Hw) as (d&G&HK&_).
  pose proof (K_said _ _ _ _ _ _ HK _ _ Hin) as He. pose proof (K_ok _ _ _ _ _ _ HK) as Hok.
  destruct v as [|e|[e|]|e|e]; try done; destruct o; try done; simpl in He.
  - destruct He as (z&o&Hb&->). pose proof (ok_bits _ _ _ Hok) as Hbo. unfold bits_ok in Hbo. rewrite Hb in Hbo.
    destruct Hbo as (_&_&Hz&Ho&Hfz&Hfo&_). destruct b; simpl; eauto.
  - destruct He as [e r' z o Hb _ _ _|e e' r' Hb _ _ _]; destruct Hb as (_&(?&?&?)&_); simpl; auto.
  - destruct He as [e r c Hb _ _|e e' rs r Hb _ _]; destruct Hb as (_&(?&?&?)&_); simpl; auto.
  - destruct He as [e rs w' Hb _ _|e e' ws rs Hb _ _]; destruct Hb as (_&(?&?&?)&_); simpl; auto.
Qed.

(** * Parents of stories *)
Section parents.
  Context {zp : zpolicy} {fk : bool}.
  Notation exec := (exec zp fk).

  (** A part of a program whose answer is known. *)
  Definition surely {A} (p : prog A) (g : graph) (v : A) : Prop :=
    ∀ m o g1 m1, exec p g m o g1 m1 → g1 = g ∧ m1 = m ∧ answers fk o v.

  Lemma surely_ret {A} g (v : A) : surely (Ret v) g v.
  Proof. intros m o g1 m1 Hx. apply exec_ret_any in Hx as (->&->&->). split_and!; [done..|]. by split; [|intros ? [= <-]]. Qed.
  Lemma exec_surely {A B} (p : prog A) (f : A → prog B) v g m out g' m' : surely p g v →
    exec (x <- p;; f x) g m out g' m' →
    exec (f v) g m out g' m' ∨ fk = true ∧ g' = g ∧ m' = m ∧ ∀ b, out ≠ OOk b.
  Proof.
    intros Hp Hx. apply exec_bind_any in Hx as [(a&g1&m1&Hc&Hx)|(Ho&o'&Hc&Ho')]; apply Hp in Hc as (->&->&[Ha Hb]).
    - left. by rewrite <- (Hb a).
    - right. destruct fk; [done|]. by destruct (Ho' v); apply Ha.
  Qed.
  Lemma surely_bind {A B} (p : prog A) (f : A → prog B) v u g : surely p g v → surely (f v) g u → surely (x <- p;; f x) g u.
  Proof.
    intros Hp Hf m o g1 m1 Hx. apply (exec_surely _ _ v) in Hx as [Hx|(->&->&->&Ho)]; [by eapply Hf|  |done].
    split_and!; [done..|]. split; [done|]. intros b Hb. by destruct (Ho b).
  Qed.

  Lemma surely_only x y er g : x ∈ nodes g → only_neighbour Outgoing g x y → surely (l <- st_targets x;; single er l) g y.
  Proof.
    intros Hv Hy m out g' m' Hx. apply exec_call_any in Hx as [(r&g1&[Hc _]&Hx)|[[? Hx]|(?&->&->&->)]].
    - destruct (Hc (or_introl Hv)) as (l&->&Hnd&Hl&->). cbn [bind of_res] in Hx.
      apply (list_one l _ _ Hnd Hl) in Hy as ->. by eapply surely_ret.
    - cbn [bind of_res] in Hx. apply exec_throw_any in Hx as (->&->&->). split_and!; [done..|]. split; [congruence|done].
    - split_and!; [done..|]. split; [congruence|done].
  Qed.
  Lemma surely_none x g : x ∈ nodes g → no_neighbour Incoming g x → surely (l <- st_sources x;; Ret (nonempty l)) g false.
  Proof.
    intros Hv Hy m out g' m' Hx. apply exec_call_any in Hx as [(r&g1&[Hc _]&Hx)|[[? Hx]|(?&->&->&->)]].
    - destruct (Hc (or_introl Hv)) as (l&->&Hnd&Hl&->). cbn [bind of_res] in Hx.
      apply (list_none l _ Hl) in Hy as ->. by eapply surely_ret.
    - cbn [bind of_res] in Hx. apply exec_throw_any in Hx as (->&->&->). split_and!; [done..|]. split; [congruence|done].
    - split_and!; [done..|]. split; [congruence|done].
  Qed.
  Lemma surely_finds A p (e : A) l g : coherent g → finds A p e l → row g l → surely p g e.
  Proof. intros Hg Hf Hl m o g1 m1 Hx. by eapply finds_rule. Qed.

  (** The identifier of the story of a fact is 0 after a fault. *)
  Lemma exec_target_story {B} (f : N → prog B) e y g m out g' m' :
    fe_story e ∈ nodes g → only_neighbour Outgoing g (fe_story e) y →
    exec (x <- fact_target_story_or_zero e;; f x) g m out g' m' →
    exec (f y) g m out g' m' ∨ fk = true ∧ exec (f 0%N) g m out g' m' ∨ fk = true ∧ g' = g ∧ ∀ v, out ≠ OOk v.
  Proof.
    intros Hv Hy Hx. apply exec_call_any in Hx as [(r&g1&[Hc _]&Hx)|[[? Hx]|(?&->&->&->)]].
    - destruct (Hc (or_introl Hv)) as (l&->&Hnd&Hl&->). cbn [bind of_res] in Hx.
      apply (list_one l _ _ Hnd Hl) in Hy as ->. by left.
    - right. left. done.
    - right. right. done.
  Qed.
  Lemma exec_story_zero {B} (f : story_ent → prog B) g m out g' m' : zp = ZStrict → 0%N ∉ nodes g →
    exec (s <- story_read_by_fact 0;; f s) g m out g' m' → g' = g ∧ ∀ v, out ≠ OOk v.
  Proof.
    intros -> H0 Hx. apply exec_call_any in Hx as [(r&g1&[_ Hc]&Hx)|[[? Hx]|(?&->&->&->)]].
    - destruct Hc as [-> ->]; [by intros [?|[? _]]|]. cbn [bind of_res] in Hx. by apply exec_throw_any in Hx as (->&->&->).
    - cbn [bind of_res] in Hx. by apply exec_throw_any in Hx as (->&->&->).
    - done.
  Qed.
End parents.

Lemma reach_coherent zp faults fuel t w : reach zp faults fuel t w → coherent (store w).
Proof. intros Hr. destruct (reach_J _ _ _ _ _ Hr) as (d&G&HJ&_). eapply ok_coherent, J_ok, HJ. Qed.

(** A story that is nobody's child: where the fact of a remark leads, and the
    empty tree node. *)
Lemma own_story zp faults fuel t w r r0 : reach zp faults fuel t w → opened false t r r0 → ¬ is_child t r0 →
  ∃ f s, re_fact r ∈ nodes (store w) ∧ only_neighbour Outgoing (store w) (re_fact r) (fe_remark f) ∧
    row (store w) [fe_class f; fe_remark f; fe_position f; fe_story f] ∧
    fe_story f ∈ nodes (store w) ∧ only_neighbour Outgoing (store w) (fe_story f) (se_fact s) ∧
    row (store w) [se_class s; se_fact s; se_position s; se_tree s] ∧
    se_tree s ∈ nodes (store w) ∧ no_neighbour Outgoing (store w) (se_tree s) ∧ no_neighbour Incoming (store w) (se_tree s) ∧
    coherent (store w) ∧ 0%N ∉ nodes (store w).
Proof.
  intros Hr Ho Hch. destruct (reach_J _ _ _ _ _ Hr) as (d&G&HJ&_). pose proof (J_ok _ _ _ _ _ _ HJ) as Hok.
  destruct (J_begun _ _ _ _ _ _ HJ _ _ Ho) as (ow&pw&f&((((_&_&_&Lf)&Hrr)&_)&((Lc&Lr&Lp&Ls)&Hfr)&He)&
    (s&f0&o&p&b&Hb&((Lsc&Lsf&Lsp&Lst)&Hsr)&_&_&E1&_)).
  destruct b; [by destruct Hch; apply Hb|].
  pose proof (ok_coherent _ _ _ Hok) as Hco.
  assert (Hn : ∀ x l, lab G !! x = Some l → l ≠ LZero → x ∈ nodes (store w)).
  { intros x l Hl Hz. apply (ok_dom _ _ _ Hok); [|by eexists]. intros ->. rewrite (ok_zero _ _ _ Hok) in Hl. congruence. }
  exists f, s. split_and!.
  - by apply (Hn _ _ Lf).
  - intros z. split; [|by intros ->]. intros Hz. by apply (ok_target _ _ _ Hok _ _ _ _ Hz He Lf).
  - destruct Hfr as (?&?&?). simpl. auto.
  - by apply (Hn _ _ Ls).
  - intros z. split; [|by intros ->]. intros Hz. by apply (ok_target _ _ _ Hok _ _ _ _ Hz E1 Ls).
  - destruct Hsr as (?&?&?). simpl. auto.
  - by apply (Hn _ _ Lst).
  - intros y Hy. simpl in Hy. destruct (ok_edge _ _ _ Hok _ _ Hy) as (lx&ly&Hlx&Hly&Hxy&_).
    simplify_eq. by destruct ly.
  - intros y Hy. simpl in Hy. destruct (ok_edge _ _ _ Hok _ _ Hy) as (lx&ly&Hlx&Hly&Hxy&_).
    simplify_eq. by destruct lx.
  - done.
  - apply Hok.
Qed.

Lemma strict_no_child faults fuel t w r : reach ZStrict faults fuel t w → ¬ is_child t r.
Proof.
  induction 1 as [|fk t w e w' Hr IH Hl Hx Hfk]; intros (i&a&ob&pr&Hin); [by apply elem_of_nil in Hin|].
  apply elem_of_cons in Hin as [<-|Hin]; [|by apply IH; exists i, a, ob, pr].
  by eapply (far_refused _ _ _ _ _ _ _ _ _ _ Hr Hl Hx); [intros Hf; destruct (Hfk Hf) as (?&?&?)| |].
Qed.

Section own_parents.
  Context {zp : zpolicy} {faults fk : bool} {fuel : nat} {t : trace} {w : world}.
  Context (Hr : reach zp faults fuel t w) (Hz : fk = true → zp = ZStrict).

  Lemma own_parent {B} (f : fact_agg → story_ent → prog B) r r0 m out g' m' : opened false t r r0 → ¬ is_child t r0 →
    exec zp fk (a <- fact_of_remark r;; x <- fact_target_story_or_zero (fa_fact a);; s <- story_read_by_fact x;; f a s)
      (store w) m out g' m' →
    fk = true ∧ g' = store w ∧ (∀ v, out ≠ OOk v) ∨
    ∃ a s, se_tree s ∈ nodes (store w) ∧ no_neighbour Outgoing (store w) (se_tree s) ∧ no_neighbour Incoming (store w) (se_tree s) ∧
      exec zp fk (f a s) (store w) m out g' m'.
  Proof.
    intros Ho Hch Hx. destruct (own_story _ _ _ _ _ _ _ Hr Ho Hch) as ([fc fr fp fs]&[sc sf sp sr]&Hn1&Ho1&Hr1&Hn2&Ho2&Hr2&Hn3&Ht1&Ht2&Hco&H0).
    cbn [fe_class fe_remark fe_position fe_story se_class se_fact se_position se_tree] in *.
    assert (Hs : surely (zp := zp) (fk := fk) (fact_of_remark r) (store w) (FactAgg (FactEnt fc fr fp fs) true)).
    { eapply surely_bind; [by eapply surely_only|]. eapply surely_bind; [|apply surely_ret].
         by eapply surely_finds; [|constructor|]. }
    destruct (exec_surely _ _ _ _ _ _ _ _ Hs Hx) as [Hx1|(?&?&_&?)]; [|by left].
    clear Hx. rename Hx1 into Hx. cbn [fa_fact] in Hx.
    apply (exec_target_story _ _ sf) in Hx as [Hx|[[Hf Hx]|(?&->&?)]]; [| |by left|done|done].
    2: { left. apply exec_story_zero in Hx as [-> ?]; auto. }
    assert (Hs2 : surely (zp := zp) (fk := fk) (story_read_by_fact sf) (store w) (StoryEnt sc sf sp sr)) by by eapply surely_finds; [|constructor|].
    destruct (exec_surely _ _ _ _ _ _ _ _ Hs2 Hx) as [Hx1|(?&?&_&?)]; [|by left].
    clear Hx. rename Hx1 into Hx. right. eexists _, (StoryEnt sc sf sp sr). split_and!; [exact Hn3|exact Ht1|exact Ht2|exact Hx].
  Qed.

  Lemma own_has_parent r r0 m out g' m' : opened false t r r0 → ¬ is_child t r0 →
    exec zp fk (has_parent_story r) (store w) m out g' m' → g' = store w ∧ answers fk out false.
  Proof.
    intros Ho Hch Hx. apply (own_parent (λ _, story_has_source_tree) _ r0) in Hx as [(?&->&?)|(a&s&Hn&_&Ht&Hx)]; [| |done|done].
    - split; [done|]. split; [congruence|]. intros v Hv. naive_solver.
    - apply (surely_none _ _ Hn Ht) in Hx as (->&_&?). done.
  Qed.

  Lemma own_to_parent r r0 m out g' m' : opened false t r r0 → ¬ is_child t r0 →
    exec zp fk (to_parent_story r) (store w) m out g' m' → g' = store w ∧ refuses fk out EStoryTargetTrees.
  Proof.
    intros Ho Hch Hx. unfold to_parent_story, fact_agg_to_parent_story in Hx.
    apply (own_parent (λ a story, parentStoryIdentifier <- story_get_target_tree story;;
      parentStory <- story_read_by_tree parentStoryIdentifier;;
      parentFactIdentifier <- story_get_target_fact parentStory;;
      fact_storage a;;;
      parentFact <- fact_read_by_story parentFactIdentifier;;
      Ret (FactAgg parentFact false)) _ r0) in Hx as [(?&->&?)|(a&s&Hn&Ht&_&Hx)]; [| |done|done].
    - split; [done|]. split; [congruence|]. done.
    - apply exec_call_any in Hx as [(r'&g1&[Hc _]&Hx)|[[? Hx]|(?&->&->&->)]].
      + destruct (Hc (or_introl Hn)) as (l&->&Hnd&Hl&->). cbn [bind of_res] in Hx.
        apply (list_none l _ Hl) in Ht as ->. by apply exec_throw_any in Hx as (->&->&->).
      + cbn [bind of_res] in Hx. apply exec_throw_any in Hx as (->&->&->). split; [done|]. split; [congruence|done].
      + split; [done|]. split; [congruence|done].
  Qed.
End own_parents.
