(** What is not in the storage yet is made: whole characters. *)
From stdpp Require Import gmap.
From Coq Require Import NArith ZArith Lia Ascii.
From Verif Require Import Base GoText Model1 Model2 Model3 Storage Spec SpecText SpecGuards SpecWalk SpecEntities SpecSpelling SpecFactories SpecKept
  Codec InitProofs GuardProofs StoryWrites FactoryProofs GuardFaults SpellProofs KeptProofs.
Local Open Scope nat_scope.

Section extend.
  Context {zp : zpolicy} {fk : bool}.
  Notation exec := (exec zp fk).
  Context (z o : bit_ent).
  Context (Hz : be_value z = false) (Ho : be_value o = true) (Hzo : be_char z ≠ be_char o).
  Notation start := (Some (z, o)).
  Notation bit_of := (λ v : bool, if v then be_char o else be_char z).
  Notation drawn := (drawn (be_char z) (be_char o)).
  Notation says_bit := (says_bit (be_char z) (be_char o)).

  Lemma seated_enlarged ns es rs g g' : seated zp z o g → (∀ x y, (x, y) ∈ es → x ∈ nodes g ∨ x ∈ ns) → enlarged ns es rs g g' → seated zp z o g'.
  Proof.
    intros [S1 S2 S3 S4 S5 S6] Hes E. assert (∀ x, x ∈ nodes g → x ∈ nodes g') as Hin by (intros x Hx; apply (en_nodes _ _ _ _ _ E); by left).
    split; [by apply E| |by apply Hin..|].
    - intros x y [Hx|Hx]%(en_edges _ _ _ _ _ E); [by eapply Hin, S2|]. apply (en_nodes _ _ _ _ _ E). by eapply Hes.
    - destruct S6 as [?|?]; [left; by apply Hin|by right].
  Qed.
  Lemma enlarged_row e c a b d es g g' : char_row e = [c; a; b; d] → enlarged [c; a; b; d] es (chain_of [c; a; b; d]) g g' → row g' (char_row e).
  Proof.
    intros -> E. cbn [row]. split_and!; [..|done|done]; apply (en_fwd _ _ _ _ _ E); right; cbn; rewrite !elem_of_cons; tauto.
  Qed.
  Lemma new_tail_next k x y g e g' : seated zp z o g → y ∈ nodes g → new_tail char_row k x y g (OOk e) g' →
    seated zp z o g' ∧ row g' (char_row e) ∧ no_neighbour Outgoing g' (ce_char e).
  Proof.
    intros S Hy (e'&c&a&b&d&[= <-]&Er&E). assert (ce_char e = b) as -> by by injection Er. split; [|split].
    - eapply seated_enlarged; [exact S| |exact E]. intros u v [[= -> ->]|[[= -> ->]|[[= -> ->]|[]%elem_of_nil]%elem_of_cons]%elem_of_cons]%elem_of_cons.
      + right. rewrite !elem_of_cons. tauto.
      + right. rewrite !elem_of_cons. tauto.
      + by left.
    - by eapply enlarged_row.
    - assert (b ∉ nodes g) as Hb by (apply (en_new _ _ _ _ _ E); rewrite !elem_of_cons; tauto).
      pose proof (en_distinct _ _ _ _ _ E) as Hnd. apply NoDup_cons in Hnd as [Hc Hnd]. apply NoDup_cons in Hnd as [Ha _].
      intros u [Hu|Hu]%(en_edges _ _ _ _ _ E); [apply Hb; by eapply (st_anchored _ _ _ _ S)|].
      apply elem_of_cons in Hu as [[= -> ->]|Hu]; [apply Hc; rewrite !elem_of_cons; tauto|].
      apply elem_of_cons in Hu as [[= -> ->]|Hu]; [apply Ha; rewrite !elem_of_cons; tauto|].
      apply elem_of_cons in Hu as [[= -> ->]|Hu]; [done|by apply elem_of_nil in Hu].
  Qed.
  Lemma new_head_next k x g e g' : seated zp z o g → x ∈ nodes g → new_head char_row k x g (OOk e) g' →
    seated zp z o g' ∧ row g' (char_row e) ∧ no_neighbour Outgoing g' (ce_char e).
  Proof.
    intros S Hy (e'&c&a&b&d&[= <-]&Er&E). assert (ce_char e = b) as -> by by injection Er. split; [|split].
    - eapply seated_enlarged; [exact S| |exact E]. intros u v [[= -> ->]|[[= -> ->]|[[= -> ->]|[]%elem_of_nil]%elem_of_cons]%elem_of_cons]%elem_of_cons.
      + right. rewrite !elem_of_cons. tauto.
      + right. rewrite !elem_of_cons. tauto.
      + by left.
    - by eapply enlarged_row.
    - assert (b ∉ nodes g) as Hb by (apply (en_new _ _ _ _ _ E); rewrite !elem_of_cons; tauto).
      pose proof (en_distinct _ _ _ _ _ E) as Hnd. apply NoDup_cons in Hnd as [Hc Hnd]. apply NoDup_cons in Hnd as [Ha _].
      intros u [Hu|Hu]%(en_edges _ _ _ _ _ E); [apply Hb; by eapply (st_anchored _ _ _ _ S)|].
      apply elem_of_cons in Hu as [[= -> ->]|Hu]; [apply Hc; rewrite !elem_of_cons; tauto|].
      apply elem_of_cons in Hu as [[= -> ->]|Hu]; [apply Ha; rewrite !elem_of_cons; tauto|].
      apply elem_of_cons in Hu as [[= -> ->]|Hu]; [done|by apply elem_of_nil in Hu].
  Qed.

  (** The rest of the digits, given a fault: nothing more is done. *)
  Lemma loop_nothing vs g m out g' m' : exec (char_provide_loop None vs) g m out g' m' →
    g' = g ∧ m' = m ∧ (out = OOk None ∨ ∀ b, out ≠ OOk b).
  Proof.
    destruct vs as [|v vs]; intros Hx.
    - apply exec_ret_any in Hx as (->&->&->). split_and!; [done|done|]. by left.
    - inversion Hx; subst. split_and!; [done|done|]. by right.
  Qed.

  Lemma loop_cons e v vs : char_provide_loop (Some (Some e)) (v :: vs) =
    (n <- try (char_provide_next_element (Some e) v);; char_provide_loop (nil_on_err n) vs).
  Proof. done. Qed.
  Definition ends (e : char_ent) (vs : list bool) (g : graph) (out : outcome (option char_element)) (g' : graph) : Prop :=
    (∃ r, out = OOk (Some (Some r)) ∧ drawn e vs g r g') ∨ fk = true ∧ out = OOk None.
  Lemma digits_made vs : ∀ e v g out g' m', seated zp z o g → row g (char_row e) → no_child g (says_bit g) (ce_char e) v →
    exec (char_provide_loop (Some (Some e)) (v :: vs)) g start out g' m' → brings fk (ends e (v :: vs) g) g start out g' m'.
  Proof.
    induction vs as [|v' vs IH]; intros e v g out g' m' S Hr Hc Hx; rewrite loop_cons in Hx;
      pose proof (st_mirrored _ _ _ _ S) as Hm; pose proof (mirrored_coherent _ Hm) as Hg.
    all: assert (ce_char e ∈ nodes g) as Hy by (destruct e; by eapply coherent_third).
    all: apply exec_bind_any in Hx as [(r&g2&m2&Hc2&Hx)|(Ho1&o'&Hc2&Ho')]; apply exec_try in Hc2 as (o2&Hc2&Ho2);
      eapply (digit_made z o g Hz Ho Hzo Hg (st_one _ _ _ _ S) (st_zero_bit _ _ _ _ S) (st_one_bit _ _ _ _ S) Hm e v (st_class _ _ _ _ S) Hr Hc) in Hc2 as (->&Hgr&Hm2&Hd).
    all: try (destruct Hd as [(r&->&Hd)|[Hf Hd]]; [by destruct (Ho' (Ok (Some r)))|by split_and!; [done|done|done|right]]).
    all: destruct Hd as [(r1&->&Hd)|[Hf Hd]];
      [|destruct o2 as [a|er| | |]; [by destruct (Hd a)| |by destruct (Ho2 r)..]; injection Ho2 as ->;
        apply loop_nothing in Hx as (->&->&[-> |Hno]); (split_and!; [done|done|done|]); [by left; right|by right]].
    all: injection Ho2 as ->; cbn [nil_on_err] in Hx.
    - apply exec_ret_any in Hx as (->&->&->). split_and!; [done|done|done|]. left. left. exists r1. split; [done|].
      eapply drawn_next; [|constructor]. unfold digit in Hd. by destruct v.
    - destruct (new_tail_next _ _ _ _ _ _ S Hy Hd) as (S2&R2&C2).
      apply IH in Hx as (->&Hgr3&Hm3&Hd3); [|done|done|intros c' Hc'; by destruct (C2 c')].
      split_and!; [done|by eapply grows_on|done|]. destruct Hd3 as [[(r3&->&Hd3)|?]|?]; [|left; by right|by right].
      left. left. exists r3. split; [done|]. eapply drawn_next; [|exact Hd3]. unfold digit in Hd. by destruct v.
  Qed.

  Lemma exec_bind_same {A B} (p : prog A) (f h : A → prog B) g0 m out g' m' :
    (∀ a g0 m out g' m', exec (f a) g0 m out g' m' → exec (h a) g0 m out g' m') →
    exec (bind p f) g0 m out g' m' → exec (bind p h) g0 m out g' m'.
  Proof.
    intros Hfh. revert g0 m. induction p as [a|e| | |c q IH|q IH|m1 q IH]; intros g0 m Hx; cbn [bind] in *; try exact Hx.
    - by apply Hfh.
    - apply exec_call_any in Hx as [(r&g1&Hc&Hx)|[[Hf Hx]|(Hf&->&->&->)]].
      + eapply ExCall; [exact Hc|]. by apply IH.
      + eapply ExFault; [done|]. by apply IH.
      + by apply ExKill.
    - inversion Hx; subst. constructor. by apply IH.
    - inversion Hx; subst. constructor. by apply IH.
  Qed.
  Lemma exec_loop_app {B} (f : option char_element → prog B) l1 l2 el g m out g' m' :
    exec (r <- char_provide_loop el (l1 ++ l2);; f r) g m out g' m' →
    exec (r <- char_provide_loop el l1;; l <- char_provide_loop r l2;; f l) g m out g' m'.
  Proof.
    revert el g m out g' m'. induction l1 as [|v l1 IH]; intros el g m out g' m' Hx; [exact Hx|].
    cbn [app char_provide_loop] in *. destruct el as [el|]; cbn [deref bind] in *; [|exact Hx].
    apply exec_assoc in Hx. apply exec_unassoc. eapply exec_bind_same; [|exact Hx]. intros r g1 m1 out1 g2 m2 Hx1. exact (IH _ _ _ _ _ _ Hx1).
  Qed.

  Notation char_kept := (char_kept (be_char z) (be_char o)).
  Definition found_new (vs : list bool) (e : char_ent) (g : graph) (out : outcome char_aggregate) (g' : graph) : Prop :=
    ∃ r, out = OOk (Some r) ∧ drawn e vs g r g'.
  Lemma char_longer n vs v vs' a b x d g out g' m' : seated zp z o g → digits_of n (vs ++ v :: vs') → char_kept g a b x d vs →
    no_child g (says_bit g) x v → exec (char_provide n) g start out g' m' →
    brings fk (found_new (v :: vs') (CharEnt a b x d) g) g start out g' m'.
  Proof.
    intros S Hd Hk Hc Hx. pose proof (st_mirrored _ _ _ _ S) as Hm. pose proof (mirrored_coherent _ Hm) as Hg.
    destruct Hk as (Hr&u&us&a0&b0&x0&d0&->&Hr0&Hv&Hf). unfold char_provide in Hx. rewrite (digits_collect n _ Hd) in Hx. cbn [of_res bind app] in Hx.
    destruct S as [S1 S2 S3 S4 S5 S6]. set (S := Build_seated zp z o g S1 S2 S3 S4 S5 S6).
    assert (∀ p, fk = true → (∀ b, out ≠ OOk b) → brings fk p g start out g start) as Hstop by (intros p Hfk Hno; apply brings_cut; [done|by apply broken_here]).
    eapply (find_step z o g _ _ (λ el, el = Some (CharEnt a0 b0 x0 d0) ∨ fk = true ∧ el = None)) in Hx; [|by apply first_found].
    destruct Hx as [(el&[-> |[Hfk ->]]&Hx)|(->&->&Hfk&Hno)]; [| |by apply Hstop].
    2: { destruct (us ++ v :: vs') as [|w ws] eqn:E; [by destruct us|]. inversion Hx; subst. by apply Hstop. }
    apply exec_loop_app in Hx.
    eapply (find_step z o g) in Hx; [|eapply bits_follow; done].
    destruct Hx as [(l&[-> |[Hfk ->]]&Hx)|(->&->&Hfk&Hno)]; [| |by apply Hstop].
    2: { inversion Hx; subst. by apply Hstop. }
    apply exec_bind_any in Hx as [(r&g2&m2&Hc2&Hx)|(Ho1&o'&Hc2&Ho')]; apply digits_made in Hc2 as (->&Hgr&Hm2&Hd2); try done.
    - destruct Hd2 as [[(r2&[= ->]&Hd2)|[Hfk [= ->]]]|[_ Hno]]; [| |by destruct (Hno r)].
      + apply exec_ret_any in Hx as (->&->&->). split_and!; [done|done|done|]. left. by exists r2.
      + inversion Hx; subst. split_and!; [done|done|done|]. by right.
    - split_and!; [done|done|done|]. right. split; [|done]. destruct Hd2 as [[(r2&->&_)|[Hfk ->]]|[? _]]; [by destruct (Ho' (Some (Some r2)))|done|done].
  Qed.

  Lemma char_from_bit n v vs g out g' m' : seated zp z o g → digits_of n (v :: vs) → no_neighbour Outgoing g (bit_of v) →
    exec (char_provide n) g start out g' m' →
    brings fk (λ out g', (∃ e g1, new_head char_row characterIdentifier (bit_of v) g (OOk e) g1 ∧ found_new vs e g1 out g') ∨
      fk = true ∧ vs = [] ∧ out = OOk None) g start out g' m'.
  Proof.
    intros S Hd Hc Hx. pose proof (st_mirrored _ _ _ _ S) as Hm. pose proof (mirrored_coherent _ Hm) as Hg.
    unfold char_provide in Hx. rewrite (digits_collect n _ Hd) in Hx. cbn [of_res bind] in Hx.
    assert (bit_of v ∈ nodes g) as Hb by (destruct v; apply S).
    assert (∀ p, fk = true → (∀ b, out ≠ OOk b) → brings fk p g start out g start) as Hstop by (intros p Hfk Hno; apply brings_cut; [done|by apply broken_here]).
    unfold char_provide_first_element in Hx. apply exec_assoc in Hx.
    eapply (find_step z o g) in Hx; [|apply find_sure; apply sure_bit_provide].
    destruct Hx as [(?&->&Hx)|(->&->&Hfk&Hno)]; [|by apply Hstop]. apply exec_assoc in Hx.
    eapply (find_step z o g) in Hx; [|apply find_sure; apply sure_provide; apply S].
    destruct Hx as [(?&_&Hx)|(->&->&Hfk&Hno)]; [|by apply Hstop]. apply exec_assoc in Hx.
    apply exec_bind_any in Hx as [(r&g2&m2&Hc2&Hx)|(Ho1&o'&Hc2&Ho')]; apply exec_try in Hc2 as (o2&Hc2&Ho2);
      (eapply heads_new in Hc2 as (->&Hgr&Hm2&Hd2); [|apply head_char|done|destruct v; exact Hb|destruct v; exact Hb|apply S|destruct v; exact Hc]).
    2: { split_and!; [done|done|done|]. right. split; [|done]. destruct Hd2 as [(e&?&?&?&?&->&_)|[? _]]; [by destruct (Ho' (Ok e))|done]. }
    destruct o2 as [e|er| | |]; [| |by destruct (Ho2 r)..]; injection Ho2 as ->; cbn [nil_on_err bind] in Hx.
    - destruct Hd2 as [Hd2|[_ Hd2]]; [|by destruct (Hd2 e)].
      assert (new_head char_row characterIdentifier (bit_of v) g (OOk e) g2) as Hd3 by by destruct v.
      destruct (new_head_next _ _ _ _ _ S Hb Hd3) as (S2&R2&C2). destruct vs as [|v' vs].
      + apply exec_ret_any in Hx as (->&->&->). split_and!; [done|done|done|]. left. left. exists e, g2. split; [done|]. exists e. split; [done|constructor].
      + apply exec_bind_any in Hx as [(r&g3&m3&Hc3&Hx)|(Ho1&o'&Hc3&Ho')];
          (apply digits_made in Hc3 as (->&Hgr3&Hm3&Hd4); [|done|done|intros c' Hc'; by destruct (C2 c')]).
        * destruct Hd4 as [[(r2&[= ->]&Hd4)|[Hfk [= ->]]]|[_ Hno]]; [| |by destruct (Hno r)].
          -- apply exec_ret_any in Hx as (->&->&->). split_and!; [done|by eapply grows_on|done|]. left. left. exists e, g2. split; [done|]. by exists r2.
          -- inversion Hx; subst. split_and!; [done|by eapply grows_on|done|]. by right.
        * split_and!; [done|by eapply grows_on|done|]. right. split; [|done].
          destruct Hd4 as [[(r2&->&_)|[Hfk ->]]|[? _]]; [by destruct (Ho' (Some (Some r2)))|done|done].
    - destruct Hd2 as [(?&?&?&?&?&?&_)|[Hfk _]]; [done|]. destruct vs as [|v' vs].
      + apply exec_ret_any in Hx as (->&->&->). split_and!; [done|done|done|]. left. by right.
      + inversion Hx; subst. split_and!; [done|done|done|]. by right.
  Qed.
End extend.

Theorem digit_is_made zp fk z o g e v out g' m' : mirrored g → 1%N ∈ nodes g → be_char z ∈ nodes g → be_char o ∈ nodes g →
  be_value z = false → be_value o = true → be_char z ≠ be_char o → valid zp g characterIdentifier →
  row g (char_row e) → no_child g (says_bit (be_char z) (be_char o) g) (ce_char e) v →
  exec zp fk (char_provide_next_element (Some e) v) g (Some (z, o)) out g' m' →
  brings fk (λ out g', ∃ r, out = OOk (Some r) ∧
    new_tail char_row characterIdentifier (if v then be_char o else be_char z) (ce_char e) g (OOk r) g') g (Some (z, o)) out g' m'.
Proof.
  intros Hm H1 Hzn Hon Hz Ho Hzo Hk Hr Hc Hx. pose proof (mirrored_coherent _ Hm) as Hg.
  pose proof (digit_made z o g Hz Ho Hzo Hg H1 Hzn Hon Hm e v Hk Hr Hc out g' m' Hx) as H. destruct v; exact H.
Qed.
Theorem letter_is_made zp fk z o g e c a b x d : mirrored g → 1%N ∈ nodes g → be_char z ∈ nodes g → be_char o ∈ nodes g →
  be_value z = false → be_value o = true → be_char z ≠ be_char o → valid zp g wordIdentifier →
  row g (word_row e) → letter_kept (be_char z) (be_char o) g a b x d c →
  no_child g (says_letter (be_char z) (be_char o) g) (we_word e) c →
  ∃ n, ∀ fuel out g' m', n ≤ fuel → exec zp fk (word_provide_next_element fuel e (code_point c)) g (Some (z, o)) out g' m' →
  brings fk (new_tail word_row wordIdentifier d (we_word e) g) g (Some (z, o)) out g' m'.
Proof.
  intros Hm H1 Hzn Hon Hz Ho Hzo Hk Hr Hl Hc. pose proof (mirrored_coherent _ Hm) as Hg.
  exact (letter_made z o g Hz Ho Hzo Hg H1 Hzn Hon Hm e c a b x d Hk Hr Hl Hc).
Qed.
Theorem word_is_made zp fk z o g e cs a b x d : mirrored g → 1%N ∈ nodes g → be_char z ∈ nodes g → be_char o ∈ nodes g →
  be_value z = false → be_value o = true → be_char z ≠ be_char o → valid zp g phraseIdentifier →
  row g (phrase_row e) → word_kept (be_char z) (be_char o) g a b x d cs →
  no_child g (says_word (be_char z) (be_char o) g) (pe_phrase e) (concat cs) →
  ∃ n, ∀ fuel out g' m', n ≤ fuel → exec zp fk (phrase_provide_next_element fuel e (concat cs)) g (Some (z, o)) out g' m' →
  brings fk (new_tail phrase_row phraseIdentifier d (pe_phrase e) g) g (Some (z, o)) out g' m'.
Proof.
  intros Hm H1 Hzn Hon Hz Ho Hzo Hk Hr Hl Hc. pose proof (mirrored_coherent _ Hm) as Hg.
  exact (word_made z o g Hz Ho Hzo Hg H1 Hzn Hon Hm e cs a b x d Hk Hr Hl Hc).
Qed.
Theorem first_letter_is_made zp fk z o g c a b x d out g' m' : mirrored g → 1%N ∈ nodes g → be_char z ∈ nodes g → be_char o ∈ nodes g →
  be_value z = false → be_value o = true → be_char z ≠ be_char o → valid zp g wordIdentifier →
  letter_kept (be_char z) (be_char o) g a b x d c → no_neighbour Outgoing g x →
  exec zp fk (word_provide_first_element (code_point c)) g (Some (z, o)) out g' m' →
  brings fk (new_head word_row wordIdentifier d g) g (Some (z, o)) out g' m'.
Proof.
  intros Hm H1 Hzn Hon Hz Ho Hzo Hk Hl Hc. pose proof (mirrored_coherent _ Hm) as Hg.
  exact (first_letter_made z o g Hz Ho Hzo Hg H1 Hzn Hon Hm c a b x d Hk Hl Hc out g' m').
Qed.
Theorem first_word_is_made zp fk z o g cs a b x d : mirrored g → 1%N ∈ nodes g → be_char z ∈ nodes g → be_char o ∈ nodes g →
  be_value z = false → be_value o = true → be_char z ≠ be_char o → valid zp g phraseIdentifier →
  word_kept (be_char z) (be_char o) g a b x d cs → no_neighbour Outgoing g d →
  ∃ n, ∀ fuel out g' m', n ≤ fuel → exec zp fk (phrase_provide_first_element fuel (concat cs)) g (Some (z, o)) out g' m' →
  brings fk (new_head phrase_row phraseIdentifier d g) g (Some (z, o)) out g' m'.
Proof.
  intros Hm H1 Hzn Hon Hz Ho Hzo Hk Hl Hc. pose proof (mirrored_coherent _ Hm) as Hg.
  exact (first_word_made z o g Hz Ho Hzo Hg H1 Hzn Hon Hm cs a b x d Hk Hl Hc).
Qed.
Theorem character_is_extended zp fk z o g n vs v vs' a b x d out g' m' : seated zp z o g →
  be_value z = false → be_value o = true → be_char z ≠ be_char o → digits_of n (vs ++ v :: vs') →
  char_kept (be_char z) (be_char o) g a b x d vs → no_child g (says_bit (be_char z) (be_char o) g) x v →
  exec zp fk (char_provide n) g (Some (z, o)) out g' m' →
  brings fk (λ out g', ∃ r, out = OOk (Some r) ∧ drawn (be_char z) (be_char o) (CharEnt a b x d) (v :: vs') g r g') g (Some (z, o)) out g' m'.
Proof. intros S Hz Ho Hzo Hd Hk Hc Hx. by eapply (char_longer z o Hz Ho Hzo n vs v vs'). Qed.
Theorem character_is_made zp fk z o g n (v : bool) vs out g' m' : seated zp z o g →
  be_value z = false → be_value o = true → be_char z ≠ be_char o → digits_of n (v :: vs) →
  no_neighbour Outgoing g (if v then be_char o else be_char z) →
  exec zp fk (char_provide n) g (Some (z, o)) out g' m' →
  brings fk (λ out g', (∃ e g1 r, new_head char_row characterIdentifier (if v then be_char o else be_char z) g (OOk e) g1 ∧
      out = OOk (Some r) ∧ drawn (be_char z) (be_char o) e vs g1 r g') ∨
    fk = true ∧ vs = [] ∧ out = OOk None) g (Some (z, o)) out g' m'.
Proof.
  intros S Hz Ho Hzo Hd Hc Hx. destruct (char_from_bit z o Hz Ho Hzo n v vs g out g' m' S Hd Hc Hx) as (->&Hgr&Hm&H).
  split_and!; [done|done|done|]. destruct H as [[(e&g1&He&r&Ho1&Hd1)|H]|H]; [|left; by right|by right].
  left. left. exists e, g1, r. split_and!; done.
Qed.
