(** What is in the storage already is found. *)
From stdpp Require Import gmap.
From Coq Require Import NArith ZArith Lia Ascii.
From Verif Require Import Base GoText Model1 Model2 Model3 Storage Spec SpecText SpecGuards SpecWalk SpecMoments SpecEntities SpecSpelling SpecFactories SpecKept
  Codec Utf8Proofs InitProofs GuardProofs LookupProofs StoryWrites FactoryProofs GuardFaults SpellProofs.
Local Open Scope nat_scope.

(** ** Digits *)
Lemma msb_inj t t' : msb_val 1 t = msb_val 1 t' → t = t'.
Proof.
  revert t'. induction t as [|b t IH] using rev_ind; intros t'; destruct t' as [|b' t' _] using rev_ind.
  - done.
  - rewrite msb_val_app. cbn. pose proof (msb_val_ge 1 t' ltac:(lia)). destruct b'; cbn [Z.b2z] in *; lia.
  - rewrite msb_val_app. cbn. pose proof (msb_val_ge 1 t ltac:(lia)). destruct b; cbn [Z.b2z] in *; lia.
  - rewrite !msb_val_app. cbn. intros H.
    assert (b = b') as -> by (destruct b, b'; cbn [Z.b2z] in *; [done|lia|lia|done]). f_equal. apply IH. lia.
Qed.
Lemma digits_collect r bs : digits_of r bs → char_collect r = Ok bs.
Proof.
  intros [Hn [-> |[l ->]]].
  - cbn in Hn. subst r. apply char_collect_zero.
  - rewrite number_msb in Hn. change (msb_val 0 (true :: l)) with (msb_val 1 l) in Hn. pose proof (msb_val_ge 1 l ltac:(lia)) as Hge.
    destruct (char_collect_pos r ltac:(lia)) as (t&H1&H2). rewrite H1. do 2 f_equal. apply msb_inj. congruence.
Qed.
Lemma code_point_inj c c' : utf8_char c → utf8_char c' → code_point c = code_point c' → c = c'.
Proof.
  intros H H' E. pose proof (runes_chars [c] (Forall_cons_2 _ _ _ H (Forall_nil_2 _))) as E1.
  pose proof (runes_chars [c'] (Forall_cons_2 _ _ _ H' (Forall_nil_2 _))) as E2. cbn [map concat] in E1, E2.
  rewrite app_nil_r in E1, E2. congruence.
Qed.

Lemma grows_on a b c : grows a b → grows b c → grows a c.
Proof. intros [] []. split; by etrans. Qed.

Section kept.
  Context {zp : zpolicy} {fk : bool}.
  Notation exec := (exec zp fk).
  Context (z o : bit_ent) (g : graph).
  Context (Hz : be_value z = false) (Ho : be_value o = true) (Hzo : be_char z ≠ be_char o) (Hg : coherent g).
  Context (H1 : 1%N ∈ nodes g) (Hzn : be_char z ∈ nodes g) (Hon : be_char o ∈ nodes g).
  Notation says_bit := (says_bit (be_char z) (be_char o) g).
  Notation says_letter := (says_letter (be_char z) (be_char o) g).
  Notation says_word := (says_word (be_char z) (be_char o) g).
  Notation char_kept := (char_kept (be_char z) (be_char o) g).
  Notation letter_kept := (letter_kept (be_char z) (be_char o) g).
  Notation word_kept := (word_kept (be_char z) (be_char o) g).
  Notation phrase_kept := (phrase_kept (be_char z) (be_char o) g).
  Notation sure := (sure (zp:=zp) (fk:=fk) z o g).

  Definition find {A} (p : prog A) (P : A → Prop) : Prop :=
    ∀ out g1 m1, exec p g (Some (z, o)) out g1 m1 → g1 = g ∧ m1 = Some (z, o) ∧ gives fk out P.

  Lemma find_sure {A} (p : prog A) v : sure p v → find p (λ x, x = v).
  Proof. intros H out g1 m1 Hx. apply H in Hx as (->&->&[Ha Hb]). split_and!; [done|done|]. split; [eauto|done]. Qed.
  Lemma sure_find {A} (p : prog A) v : find p (λ x, x = v) → sure p v.
  Proof. intros H out g1 m1 Hx. apply H in Hx as (->&->&[Ha Hb]). split_and!; [done|done|]. split; [|done]. intros Hf. destruct (Ha Hf) as [a E]. rewrite E. f_equal. by apply Hb. Qed.
  Lemma find_ret {A} (v : A) (P : A → Prop) : P v → find (Ret v) P.
  Proof. intros HP out g1 m1 Hx. apply exec_ret_any in Hx as (->&->&->). split_and!; [done|done|]. split; [eauto|]. by intros a [= <-]. Qed.
  Lemma find_weaken {A} (p : prog A) (P Q : A → Prop) : find p P → (∀ a, P a → Q a) → find p Q.
  Proof. intros Hp HPQ out g1 m1 Hx. apply Hp in Hx as (->&->&[Ha Hb]). split_and!; [done|done|]. split; [done|]. intros a Ha'. by apply HPQ, Hb. Qed.
  Lemma find_bind {A B} (p : prog A) (f : A → prog B) P Q : find p P → (∀ a, P a → find (f a) Q) → find (x <- p;; f x) Q.
  Proof.
    intros Hp Hf out g1 m1 Hx. apply exec_bind_any in Hx as [(a&g2&m2&Hc&Hx)|(Ho1&o'&Hc&Ho')]; apply Hp in Hc as (->&->&[Ha Hb]).
    - by eapply Hf; [apply Hb|].
    - split_and!; [done..|]. split; [|intros b Hb1; by destruct (Ho1 b)]. intros Hf0. destruct (Ha Hf0) as [a E]. by destruct (Ho' a).
  Qed.
  Lemma find_sure_bind {A B} (p : prog A) (f : A → prog B) v Q : sure p v → find (f v) Q → find (x <- p;; f x) Q.
  Proof. intros Hp Hf. eapply find_bind; [by apply find_sure|]. by intros a ->. Qed.
  (** A program whose failure is not looked at: the rest gets nothing then. *)
  Lemma find_try {A B} (p : prog A) (f : option A → prog B) P Q : find p P → (∀ a, P a → find (f (Some a)) Q) →
    (fk = true → ∀ out g1 m1, exec (f None) g (Some (z, o)) out g1 m1 → g1 = g ∧ m1 = Some (z, o) ∧ gives fk out Q) →
    find (r <- try p;; f (nil_on_err r)) Q.
  Proof.
    intros Hp Hf Hn out g1 m1 Hx. apply exec_bind_any in Hx as [(r&g2&m2&Hc&Hx)|(Ho1&o'&Hc&Ho')];
      apply exec_try in Hc as (o2&Hc&Ho2); apply Hp in Hc as (->&->&[Ha Hb]).
    - destruct o2 as [a|e| | |]; [| |by destruct (Ho2 r)..]; injection Ho2 as ->.
      + eapply Hf; [by apply Hb|exact Hx].
      + apply Hn; [|exact Hx]. destruct fk; [done|]. by destruct (Ha eq_refl).
    - split_and!; [done..|]. split; [|intros b Hb1; by destruct (Ho1 b)]. intros Hf0. destruct (Ha Hf0) as [a ->]. by destruct (Ho' (Ok a)).
  Qed.
  Lemma find_panic {A} (Q : A → Prop) : fk = true → ∀ out g1 m1, exec Panic g (Some (z, o)) out g1 m1 → g1 = g ∧ m1 = Some (z, o) ∧ gives fk out Q.
  Proof. intros Hf out g1 m1 Hx. inversion Hx; subst. split_and!; [done|done|]. split; [congruence|done]. Qed.

  Lemma find_step {A B} (p : prog A) (f : A → prog B) P out g' m' : find p P → exec (x <- p;; f x) g (Some (z, o)) out g' m' →
    (∃ a, P a ∧ exec (f a) g (Some (z, o)) out g' m') ∨ g' = g ∧ m' = Some (z, o) ∧ fk = true ∧ ∀ b, out ≠ OOk b.
  Proof.
    intros Hp Hx. apply exec_bind_any in Hx as [(a&g2&m2&Hc&Hx)|(Ho1&o'&Hc&Ho')]; apply Hp in Hc as (->&->&[Ha Hb]).
    - left. exists a. split; [by apply Hb|done].
    - right. split_and!; [done|done| |done]. destruct fk; [done|]. destruct (Ha eq_refl) as [a E]. by destruct (Ho' a).
  Qed.

  Lemma find_targets x : x ∈ nodes g → find (st_targets x) (λ l, NoDup l ∧ ∀ y, y ∈ l ↔ near Outgoing g x y).
  Proof.
    intros Hv out g1 m1 Hx. apply exec_call_any in Hx as [(r&g2&[Hc _]&Hx)|[[? Hx]|(?&->&->&->)]].
    - destruct (Hc (or_introl Hv)) as (l&->&Hnd&Hl&->). cbn [of_res] in Hx. apply exec_ret_any in Hx as (->&->&->).
      split_and!; [done|done|]. split; [eauto|]. by intros a [= <-].
    - cbn [of_res] in Hx. apply exec_throw_any in Hx as (->&->&->). split_and!; [done|done|]. split; [congruence|done].
    - split_and!; [done|done|]. split; [congruence|done].
  Qed.
  Lemma sure_provide : sure class_provide tt.
  Proof.
    intros out g1 m1 Hx. unfold class_provide in Hx.
    apply exec_call_any in Hx as [(r&g2&[-> ->]&Hx)|[[Hf Hx]|(Hf&->&->&->)]].
    - rewrite bool_decide_true in Hx by done. by apply (sure_ret (zp:=zp) (fk:=fk) z o g tt) in Hx.
    - cbn [bind of_res] in Hx. apply exec_throw_any in Hx as (->&->&->). split_and!; [done|done|]. split; [congruence|done].
    - split_and!; [done|done|]. split; [congruence|done].
  Qed.
  Lemma sure_bit_provide (v : bool) : sure (bit_provide v) (if v then o else z).
  Proof.
    intros out g1 m1 Hx. unfold bit_provide, bit_initialize in Hx. cbn [bind] in Hx. apply exec_load in Hx. cbn [bind] in Hx. by apply (sure_ret (zp:=zp) (fk:=fk) z o g) in Hx.
  Qed.
  Lemma coherent_third a b c d : row g [a; b; c; d] → c ∈ nodes g.
  Proof. intros (_&H&_). by apply Hg in H as (_&_&?). Qed.
  Lemma coherent_fourth a b c d : row g [a; b; c; d] → d ∈ nodes g.
  Proof. intros (_&_&H&_). by apply Hg in H as (_&_&?). Qed.

  (** ** Children *)
  Lemma bounded (x : N) (P : nat → N → Prop) : (∀ n n' c, n ≤ n' → P n c → P n' c) →
    (∀ c, near Outgoing g x c → ∃ n, P n c) → ∃ n, ∀ c, near Outgoing g x c → P n c.
  Proof.
    intros Hm Hc. assert (∀ l : list (N * N), (∀ p, p ∈ l → p ∈ edges g) → ∃ n, ∀ c, (x, c) ∈ l → P n c) as H.
    { induction l as [|[a c] l IH]; intros Hl.
      - exists 0. intros c Hin. by apply elem_of_nil in Hin.
      - destruct IH as [n Hn]; [intros p Hp; apply Hl; by right|]. destruct (decide (a = x)) as [-> |Hne].
        + destruct (Hc c (Hl (x, c) (elem_of_list_here _ _))) as [n' Hn']. exists (n + n').
          intros c' [E|Hin]%elem_of_cons; [injection E as ->; eapply Hm; [|exact Hn']; lia|]. eapply Hm; [|by apply Hn]. lia.
        + exists n. intros c' [E|Hin]%elem_of_cons; [injection E as -> ->; done|by apply Hn]. }
    destruct (H (elements (edges g))) as [n Hn]; [intros p Hp; by apply elem_of_elements in Hp|].
    exists n. intros c Hin. apply Hn. by apply elem_of_elements.
  Qed.

  (** One layer: entities [E] with values [V], compared as [W]. *)
  Section layer.
    Context {E V W X : Type} (third : E → N) (rowof : E → list N) (says : N → V → Prop) (w : V → W) (inj : E → X).
    Context (read : N → prog E) (read_all : list N → prog (list E)) (value : nat → E → prog W) (test : V → W → bool).
    Context (search : nat → V → list E → prog (option E)) (next : nat → E → V → prog X).
    Context (loop : nat → option X → list V → prog (option X)).
    Context (all_nil : read_all [] = Ret []) (all_cons : ∀ x xs, read_all (x :: xs) = (e <- read x;; es <- read_all xs;; Ret (e :: es))).
    Context (search_nil : ∀ fuel v, search fuel v [] = Ret None)
      (search_cons : ∀ fuel v e es Q, find (u <- value fuel e;; if test v u then Ret (Some e) else search fuel v es) Q → find (search fuel v (e :: es)) Q).
    Context (rest : nat → E → V → option E → prog X) (rest_some : ∀ fuel e v e', rest fuel e v (Some e') = Ret (inj e')).
    Context (next_is : ∀ fuel e v, next fuel e v = (ids <- st_targets (third e);; es <- read_all ids;; r <- search fuel v es;; rest fuel e v r)).
    Context (loop_nil : ∀ fuel el, loop fuel el [] = Ret el) (loop_none : ∀ fuel v vs, loop fuel None (v :: vs) = Panic)
      (loop_some : ∀ fuel e v vs, loop fuel (Some (inj e)) (v :: vs) = (n <- try (next fuel e v);; loop fuel (nil_on_err n) vs)).
    Context (same : ∀ e e', third e = third e' → row g (rowof e) → row g (rowof e') → e = e').
    Context (reads : ∀ e, row g (rowof e) → sure (read (third e)) e).
    Context (in_nodes : ∀ e, row g (rowof e) → third e ∈ nodes g).
    Context (says_value : ∀ c u, says c u → ∃ e, third e = c ∧ row g (rowof e) ∧ ∃ n, ∀ fuel, n ≤ fuel → sure (value fuel e) (w u)).
    Context (good : V → Prop) (test_spec : ∀ v c u, good v → says c u → reflect (u = v) (test v (w u))).

    Definition told (x' : N) (v : V) (n : nat) (c : N) : Prop := ∃ e u, third e = c ∧ row g (rowof e) ∧ says c u ∧
      (∀ fuel, n ≤ fuel → sure (value fuel e) (w u)) ∧ (c = x' ∧ u = v ∨ c ≠ x' ∧ u ≠ v).
    Lemma children_told x x' v : clear_child g says x x' v → ∃ n, ∀ c, near Outgoing g x c → told x' v n c.
    Proof.
      intros (Hn&Hs&Hc). apply bounded.
      - intros n n' c Hnn (e&u&He&Hr&Hu&Hv&Hd). exists e, u. repeat (split; [done|]). split; [|done]. intros fuel Hf. apply Hv. lia.
      - intros c Hin. destruct (decide (c = x')) as [-> |Hne].
        + destruct (says_value _ _ Hs) as (e&He&Hr&n&Hv). exists n, e, v. repeat (split; [done|]). by left.
        + destruct (Hc c Hin) as [-> |(u&Hu&Huv)]; [done|]. destruct (says_value _ _ Hu) as (e&He&Hr&n&Hv).
          exists n, e, u. repeat (split; [done|]). by right.
    Qed.
    Lemma find_all l : (∀ c, c ∈ l → ∃ e, third e = c ∧ row g (rowof e)) →
      find (read_all l) (λ es, Forall2 (λ c e, third e = c ∧ row g (rowof e)) l es).
    Proof.
      induction l as [|x l IH]; intros Hl.
      - rewrite all_nil. by apply find_ret.
      - rewrite all_cons. destruct (Hl x (elem_of_list_here _ _)) as (e&He&Hr). subst x.
        eapply find_sure_bind; [by apply reads|]. eapply find_bind; [apply IH; intros c Hc; apply Hl; by right|].
        intros es Hes. apply find_ret. by constructor.
    Qed.
    Lemma find_first e' v n fuel l es : good v → row g (rowof e') → n ≤ fuel → (∀ c, c ∈ l → told (third e') v n c) →
      Forall2 (λ c e, third e = c ∧ row g (rowof e)) l es → find (search fuel v es) (λ r, third e' ∈ l → r = Some e').
    Proof.
      intros Hgood Hr' Hf Hl H2. induction H2 as [|c e l es [<- Hr] H2 IH].
      - rewrite search_nil. apply find_ret. intros Hin. by apply elem_of_nil in Hin.
      - apply search_cons. destruct (Hl (third e) (elem_of_list_here _ _)) as (e2&u&He2&Hr2&Hu&Hv&Hd).
        assert (e2 = e) as -> by by apply same. eapply find_sure_bind; [by apply Hv|].
        destruct (test_spec v (third e) u Hgood Hu) as [-> |Huv].
        + destruct Hd as [[Hd _]|[_ Hd]]; [|done]. apply find_ret. intros _. f_equal. by apply same.
        + destruct Hd as [[_ Hd]|[Hd _]]; [done|]. eapply find_weaken; [apply IH; intros c Hc; apply Hl; by right|].
          intros r Hin [E'|Hin']%elem_of_cons; [by rewrite E' in Hd|by apply Hin].
    Qed.
    Lemma find_next e e' v : good v → row g (rowof e) → row g (rowof e') → clear_child g says (third e) (third e') v →
      ∃ n, ∀ fuel, n ≤ fuel → find (next fuel e v) (λ r, r = inj e').
    Proof.
      intros Hgood Hr Hr' Hc. destruct (children_told _ _ _ Hc) as [n Hn]. exists n. intros fuel Hf. rewrite next_is.
      eapply find_bind; [by apply find_targets, in_nodes|]. intros l [_ Hl]. cbn beta.
      assert (∀ c, c ∈ l → told (third e') v n c) as Hl' by (intros c Hc'; by apply Hn, Hl).
      eapply find_bind; [eapply find_all; intros c Hc'; destruct (Hl' c Hc') as (e2&?&?&?&_); by exists e2|].
      intros es Hes. cbn beta. eapply find_bind; [by eapply find_first|].
      intros r Hin. rewrite Hin by apply Hl, Hc. rewrite rest_some. by apply find_ret.
    Qed.

    (** No child has the value: the rest is run. *)
    Definition other (v : V) (n : nat) (c : N) : Prop := ∃ e u, third e = c ∧ row g (rowof e) ∧ says c u ∧
      (∀ fuel, n ≤ fuel → sure (value fuel e) (w u)) ∧ u ≠ v.
    Lemma children_other x v : no_child g says x v → ∃ n, ∀ c, near Outgoing g x c → other v n c.
    Proof.
      intros Hc. apply bounded.
      - intros n n' c Hnn (e&u&He&Hr&Hu&Hv&Hd). exists e, u. repeat (split; [done|]). split; [|done]. intros fuel Hf. apply Hv. lia.
      - intros c Hin. destruct (Hc c Hin) as (u&Hu&Huv). destruct (says_value _ _ Hu) as (e&He&Hr&n&Hv).
        exists n, e, u. repeat (split; [done|]). done.
    Qed.
    Lemma find_none v n fuel l es : good v → n ≤ fuel → (∀ c, c ∈ l → other v n c) →
      Forall2 (λ c e, third e = c ∧ row g (rowof e)) l es → find (search fuel v es) (λ r, r = None).
    Proof.
      intros Hgood Hf Hl H2. induction H2 as [|c e l es [<- Hr] H2 IH].
      - rewrite search_nil. by apply find_ret.
      - apply search_cons. destruct (Hl (third e) (elem_of_list_here _ _)) as (e2&u&He2&Hr2&Hu&Hv&Hd).
        assert (e2 = e) as -> by by apply same. eapply find_sure_bind; [by apply Hv|].
        destruct (test_spec v (third e) u Hgood Hu) as [-> |Huv]; [done|]. apply IH. intros c Hc. apply Hl. by right.
    Qed.
    Lemma next_none e v : good v → row g (rowof e) → no_child g says (third e) v → ∃ n, ∀ fuel out g' m', n ≤ fuel →
      exec (next fuel e v) g (Some (z, o)) out g' m' →
      exec (rest fuel e v None) g (Some (z, o)) out g' m' ∨ g' = g ∧ m' = Some (z, o) ∧ fk = true ∧ ∀ b, out ≠ OOk b.
    Proof.
      intros Hgood Hr Hc. destruct (children_other _ _ Hc) as [n Hn]. exists n. intros fuel out g' m' Hf Hx. rewrite next_is in Hx.
      destruct (find_step _ _ _ _ _ _ (find_targets _ (in_nodes _ Hr)) Hx) as [(l&[_ Hl]&Hx1)|Hx1]; [|by right].
      assert (∀ c, c ∈ l → other v n c) as Hl' by (intros c Hc'; by apply Hn, Hl).
      assert (∀ c, c ∈ l → ∃ e, third e = c ∧ row g (rowof e)) as Hl2 by (intros c Hc'; destruct (Hl' c Hc') as (e2&?&?&?&_); by exists e2).
      destruct (find_step _ _ _ _ _ _ (find_all _ Hl2) Hx1) as [(es&Hes&Hx2)|Hx2]; [|by right].
      destruct (find_step _ _ _ _ _ _ (find_none _ _ _ _ _ Hgood Hf Hl' Hes) Hx2) as [(r&->&Hx3)|Hx3]; [by left|by right].
    Qed.
    Lemma find_loop x vs y : follow g says x vs y → Forall good vs → ∀ e e', third e = x → third e' = y → row g (rowof e) → row g (rowof e') →
      ∃ n, ∀ fuel, n ≤ fuel → find (loop fuel (Some (inj e)) vs) (λ r, r = Some (inj e') ∨ fk = true ∧ r = None).
    Proof.
      induction 1 as [x|x x' y v vs Hc Hy IH]; intros Hgood e e' <- He' Hr Hr'.
      - exists 0. intros fuel _. rewrite loop_nil. apply find_ret. left. do 2 f_equal. by apply same.
      - apply Forall_cons in Hgood as [Hgv Hgood]. destruct (says_value x' v) as (e2&E2&Hr2&_); [apply Hc|].
        destruct (IH Hgood e2 e' E2 He' Hr2 Hr') as [n1 H2]. subst x'.
        destruct (find_next e e2 v Hgv Hr Hr2 Hc) as [n2 H3]. exists (n1 + n2). intros fuel Hf. rewrite loop_some.
        eapply (find_try _ (λ r, loop fuel r vs)); [apply H3; lia|intros a ->; apply H2; lia|].
        intros Hfk out g1 m1 Hx. destruct vs as [|v' vs].
        + rewrite loop_nil in Hx. revert out g1 m1 Hx. apply find_ret. by right.
        + rewrite loop_none in Hx. by eapply find_panic.
    Qed.
  End layer.

  Lemma row_same4 a b c d a' b' d' : row g [a; b; c; d] → row g [a'; b'; c; d'] → a = a' ∧ b = b' ∧ d = d'.
  Proof. by apply row_same. Qed.

  (** ** Characters *)
  Definition digit (v : bool) : bit_ent := if v then o else z.
  Lemma bits_follow x vs y a0 b0 d0 a b d : follow g says_bit x vs y → row g [a0; b0; x; d0] → row g [a; b; y; d] →
    find (char_provide_loop (Some (Some (CharEnt a0 b0 x d0))) vs) (λ r, r = Some (Some (CharEnt a b y d)) ∨ fk = true ∧ r = None).
  Proof.
    intros Hf Hr0 Hr.
    destruct (find_loop ce_char (λ e, [ce_class e; ce_bit e; ce_char e; ce_word e]) says_bit digit Some char_read_by_character
      char_read_all (λ _ e, i <- char_get_target_bit e;; bit_fetch i) (λ v t, Bool.eqb v (be_value t)) (λ _, char_find)
      (λ _ e v, char_provide_next_element (Some e) v) (λ _, char_provide_loop)) with (rest := λ (_ : nat) (e : char_ent) v r, match r with
        | Some e' => Ret (Some e')
        | None => class_provide;;; bit <- bit_provide v;; newCharacter <- char_create_tail_entity bit e;; Ret (Some newCharacter) end) (good := λ _ : bool, True)
      (x := x) (vs := vs) (y := y) (e := CharEnt a0 b0 x d0) (e' := CharEnt a b y d) as [n Hn]; try done.
    - intros _ v e es Q HQ out g1 m1 Hx. apply HQ. cbn [char_find] in Hx. by apply exec_unassoc in Hx.
    - intros [] [] E R1 R2. cbn in *. subst. by destruct (row_same4 _ _ _ _ _ _ _ R1 R2) as (->&->&->).
    - intros [a1 b1 c1 d1] R. cbn [ce_char]. eapply sure_read; [done|constructor|exact R].
    - intros [] R. by eapply coherent_third.
    - intros c u (a1&b1&d1&R&Hb). exists (CharEnt a1 b1 c d1). split; [done|]. split; [done|]. exists 0. intros _ _.
      eapply sure_bind; [|by apply sure_bit]. apply sure_surely. unfold char_get_target_bit. cbn [ce_bit].
      eapply surely_only; [by destruct (row_nodes _ Hg _ _ _ _ R) as (_&?&_)|exact Hb].
    - intros v c u _ _. unfold digit. destruct v, u; rewrite ?Hz, ?Ho; constructor; congruence.
    - by apply Forall_true.
    - by apply (Hn n).
  Qed.

  Lemma sure_heads A p asked x k er (rowof : A → list N) e c b d y u : heads A p asked x k er rowof →
    asked ∈ nodes g → x ∈ nodes g → only_neighbour Outgoing g asked u → only_neighbour Outgoing g x y →
    rowof e = [c; y; b; d] → row g [c; y; b; d] → sure p e.
  Proof. intros Hh Ha Hv Hu Hy He Hr out g1 m1 Hx. eapply heads_found; [exact Hh|exact Hg|left; exact Ha|left; exact Hv|exact Hu|exact Hy|exact He|exact Hr|exact Hx]. Qed.

  Lemma first_found (v : bool) a0 b0 x0 d0 : row g [a0; b0; x0; d0] → only_neighbour Outgoing g (if v then be_char o else be_char z) b0 →
    find (char_provide_first_element v) (λ el, el = Some (CharEnt a0 b0 x0 d0) ∨ fk = true ∧ el = None).
  Proof.
    intros Hr0 Hv. unfold char_provide_first_element. eapply find_sure_bind; [apply sure_bit_provide|]. eapply find_sure_bind; [apply sure_provide|].
    eapply (find_try _ (λ r, Ret r)); [apply find_sure|intros e ->; apply find_ret; by left|].
    - eapply (sure_heads _ _ _ _ _ _ _ (CharEnt a0 b0 x0 d0)); [apply head_char|by destruct v|by destruct v| | |reflexivity|exact Hr0].
      + destruct v; exact Hv.
      + destruct v; exact Hv.
    - intros Hk. apply find_ret. by right.
  Qed.
  Lemma char_found a b x d bs r : digits_of r bs → char_kept a b x d bs →
    find (char_provide r) (λ e, e = Some (CharEnt a b x d) ∨ fk = true ∧ e = None).
  Proof.
    intros Hd (Hr&v&vs&a0&b0&x0&d0&->&Hr0&Hv&Hf). unfold char_provide. rewrite (digits_collect r _ Hd). cbn [of_res bind].
    eapply (find_bind _ _ (λ el, el = Some (CharEnt a0 b0 x0 d0) ∨ fk = true ∧ el = None)); [by apply first_found|].
    intros el [-> |[Hk ->]].
    - eapply find_bind; [eapply bits_follow; [exact Hf|exact Hr0|exact Hr]|]. intros l [-> |[Hk ->]].
      + apply find_ret. by left.
      + by exact (find_panic _ ltac:(assumption)).
    - destruct vs as [|v' vs].
      + apply find_ret. by right.
      + by exact (find_panic _ ltac:(assumption)).
  Qed.

  (** ** Words *)
  Lemma letters_follow x vs y a0 b0 d0 a b d : follow g says_letter x vs y → Forall utf8_char vs → row g [a0; b0; x; d0] → row g [a; b; y; d] →
    ∃ n, ∀ fuel, n ≤ fuel →
    find (word_provide_loop fuel (Some (WordEnt a0 b0 x d0)) (map code_point vs)) (λ r, r = Some (WordEnt a b y d) ∨ fk = true ∧ r = None).
  Proof.
    intros Hf Hvs Hr0 Hr.
    eapply (find_loop we_word (λ e, [we_class e; we_char e; we_word e; we_phrase e]) says_letter code_point id word_read_by_word
      word_read_all word_extract_character_value (λ v t, (code_point v =? t)%Z) (λ fuel v, word_find fuel (code_point v))
      (λ fuel e v, word_provide_next_element fuel e (code_point v)) (λ fuel el vs, word_provide_loop fuel el (map code_point vs))) with (rest := λ (fuel : nat) (e : word_ent) v r, match r with
        | Some e' => Ret e'
        | None => class_provide;;; character <- char_provide (code_point v);; newWord <- word_create_tail_entity character e;;
            word_point_to_word e (we_word newWord);;; Ret newWord end) (good := utf8_char)
      (x := x) (vs := vs) (y := y) (e := WordEnt a0 b0 x d0) (e' := WordEnt a b y d); try done.
    - intros [] [] E R1 R2. cbn in *. subst. by destruct (row_same4 _ _ _ _ _ _ _ R1 R2) as (->&->&->).
    - intros [a1 b1 c1 d1] R. cbn [we_word]. eapply sure_read; [done|constructor|exact R].
    - intros [] R. by eapply coherent_third.
    - intros c u (a1&b1&d1&y1&R&Hb&Hl). exists (WordEnt a1 b1 c d1). split; [done|]. split; [done|]. by eapply sure_character.
    - intros v c u Hv Hs. assert (utf8_char u) as Hl by by destruct Hs as (a1&b1&d1&y1&R&Hb&Hl&_). destruct (Z.eqb_spec (code_point v) (code_point u)) as [E|E]; constructor.
      + symmetry. by apply code_point_inj.
      + congruence.
  Qed.
  Lemma word_found a b x d cs : word_kept a b x d cs → ∃ n, ∀ fuel, n ≤ fuel → sure (word_provide fuel (concat cs)) (WordEnt a b x d).
  Proof.
    intros (Hr&Hcs&c&cs'&a1&b1&x1&d1&y&a0&b0&x0&d0&->&(Hc&bs&Hd&Hk)&Hx1&Hd1&Hr0&Hf).
    pose proof (proj2 (proj1 (Forall_cons _ _ _) Hcs)) as Hcs'.
    destruct (letters_follow _ _ _ _ _ _ _ _ _ Hf Hcs' Hr0 Hr) as [n Hn]. exists n. intros fuel Hfu. apply sure_find.
    unfold word_provide, word_collect. rewrite (runes_of_chars _ Hcs). cbn [map of_res bind].
    eapply (find_bind _ _ (λ el, el = WordEnt a0 b0 x0 d0)).
    - unfold word_provide_first_element. eapply find_bind; [by eapply char_found|]. intros e He.
      eapply find_sure_bind; [apply sure_provide|]. destruct He as [-> |[Hfk ->]].
      + apply find_sure. destruct Hk as [Hr1 _]. eapply (sure_heads _ _ _ _ _ _ _ (WordEnt a0 b0 x0 d0)); [apply head_word| | | | |reflexivity|exact Hr0].
        * by eapply coherent_third.
        * by eapply coherent_fourth.
        * exact Hx1.
        * exact Hd1.
      + by exact (find_panic _ ltac:(assumption)).
    - intros el ->. eapply find_bind; [by apply Hn|]. intros l [-> |[Hfk ->]].
      + by apply find_ret.
      + by exact (find_panic _ ltac:(assumption)).
  Qed.

  (** ** Phrases *)
  Lemma words_follow x vs y a0 b0 d0 a b d : follow g says_word x vs y → row g [a0; b0; x; d0] → row g [a; b; y; d] →
    ∃ n, ∀ fuel, n ≤ fuel →
    find (phrase_provide_loop fuel (Some (PhraseEnt a0 b0 x d0)) vs) (λ r, r = Some (PhraseEnt a b y d) ∨ fk = true ∧ r = None).
  Proof.
    intros Hf Hr0 Hr.
    eapply (find_loop pe_phrase (λ e, [pe_class e; pe_word e; pe_phrase e; pe_detail e]) says_word id id phrase_read_by_phrase
      phrase_read_all phrase_extract_word_value gostring_eqb phrase_find
      phrase_provide_next_element phrase_provide_loop) with (rest := λ (fuel : nat) (e : phrase_ent) v r, match r with
        | Some e' => Ret e'
        | None => class_provide;;; word <- word_provide fuel v;; phrase_create_tail_entity word e end) (good := λ _ : text, True)
      (x := x) (vs := vs) (y := y) (e := PhraseEnt a0 b0 x d0) (e' := PhraseEnt a b y d); try done.
    - intros [] [] E R1 R2. cbn in *. subst. by destruct (row_same4 _ _ _ _ _ _ _ R1 R2) as (->&->&->).
    - intros [a1 b1 c1 d1] R. cbn [pe_phrase]. eapply sure_read; [done|constructor|exact R].
    - intros [] R. by eapply coherent_third.
    - intros c u (a1&b1&d1&y1&R&Hb&Hl). exists (PhraseEnt a1 b1 c d1). split; [done|]. split; [done|]. by eapply sure_part.
    - intros v c u _ _. unfold id. destruct (gostring_eqb_spec v u) as [E|E]; constructor; congruence.
    - by apply Forall_true.
  Qed.
  Lemma phrase_found a b x d ws : phrase_kept a b x d ws → ∃ n, ∀ fuel, n ≤ fuel → sure (phrase_provide fuel (spaced ws)) (PhraseEnt a b x d).
  Proof.
    intros (Hr&Hws&cs&ws'&a1&b1&x1&d1&a0&b0&x0&d0&->&Hk&Hd1&Hr0&Hf).
    destruct (words_follow _ _ _ _ _ _ _ _ _ Hf Hr0 Hr) as [n Hn]. destruct (word_found _ _ _ _ _ Hk) as [n' Hn'].
    exists (n + n'). intros fuel Hfu. apply sure_find.
    unfold phrase_provide, phrase_collect. rewrite spaced_join. rewrite split_join; [|done|].
    2: { eapply Forall_impl; [exact Hws|]. intros w Hw Hin. apply Hw, elem_of_list_In, Hin. }
    cbn [of_res bind]. eapply (find_bind _ _ (λ el, el = PhraseEnt a0 b0 x0 d0)).
    - unfold phrase_provide_first_element. eapply find_sure_bind; [apply Hn'; lia|].
      eapply find_sure_bind; [apply sure_provide|]. apply find_sure. destruct Hk as [Hr1 _].
      eapply (sure_heads _ _ _ _ _ _ _ (PhraseEnt a0 b0 x0 d0)); [apply head_phrase| | | | |reflexivity|exact Hr0].
      + by eapply coherent_fourth.
      + by eapply coherent_fourth.
      + exact Hd1.
      + exact Hd1.
    - intros el ->. eapply find_bind; [apply Hn; lia|]. intros l [-> |[Hfk ->]].
      + by apply find_ret.
      + by exact (find_panic _ ltac:(assumption)).
  Qed.

  (** ** Details *)
  Lemma detail_found ws1 ws2 a1 b1 x1 d1 a2 b2 x2 d2 y : mirrored g → detailIdentifier ∈ nodes g → y ∈ nodes g →
    phrase_kept a1 b1 x1 d1 ws1 → phrase_kept a2 b2 x2 d2 ws2 →
    (∀ u, joint_detail g (PhraseEnt a1 b1 x1 d1) (PhraseEnt a2 b2 x2 d2) u ↔ u = y) →
    ∃ n, ∀ fuel out g' m', n ≤ fuel → exec (detail_provide fuel (spaced ws1) (spaced ws2)) g (Some (z, o)) out g' m' →
    g' = g ∧ m' = Some (z, o) ∧ gives fk out (λ e, de_phrase e = y) ∨
    fk = true ∧ brings fk (new_detail (PhraseEnt a1 b1 x1 d1) (PhraseEnt a2 b2 x2 d2) g) g (Some (z, o)) out g' m'.
  Proof.
    intros Hm Hd Hy Hk1 Hk2 Hj. destruct (phrase_found _ _ _ _ _ Hk1) as [n1 P1]. destruct (phrase_found _ _ _ _ _ Hk2) as [n2 P2].
    exists (n1 + n2). intros fuel out g' m' Hf Hx. unfold detail_provide in Hx.
    assert (∀ {A B} (p : prog A) (f : A → prog B) v out g' m', sure p v → exec (x <- p;; f x) g (Some (z, o)) out g' m' →
      exec (f v) g (Some (z, o)) out g' m' ∨ g' = g ∧ m' = Some (z, o) ∧ fk = true ∧ ∀ b, out ≠ OOk b) as Hstep.
    { intros A B p f v out1 g1 m1 Hp Hx1. apply exec_bind_any in Hx1 as [(a&g2&m2&Hc&Hx1)|(Ho1&o'&Hc&Ho')]; apply Hp in Hc as (->&->&[Ha Hb]).
      - left. by rewrite <- (Hb a eq_refl).
      - right. split_and!; [done|done| |done]. destruct fk; [done|]. by destruct (Ho' v (Ha eq_refl)). }
    assert (∀ out' : outcome detail_ent, fk = true → (∀ b, out' ≠ OOk b) → gives fk out' (λ e, de_phrase e = y)) as Hgive.
    { intros out' Hfk Hno. split; [congruence|]. intros e He. by destruct (Hno e). }
    apply (Hstep _ _ _ _ _ _ _ _ (P1 fuel ltac:(lia))) in Hx as [Hx|(->&->&Hfk&Hno)]; [|left; split_and!; [done|done|by apply Hgive]].
    apply (Hstep _ _ _ _ _ _ _ _ (P2 fuel ltac:(lia))) in Hx as [Hx|(->&->&Hfk&Hno)]; [|left; split_and!; [done|done|by apply Hgive]].
    apply (Hstep _ _ _ _ _ _ _ _ sure_provide) in Hx as [Hx|(->&->&Hfk&Hno)]; [|left; split_and!; [done|done|by apply Hgive]].
    destruct Hk1 as [R1 _], Hk2 as [R2 _].
    eapply joint_any in Hx; [|exact Hm|left; exact Hd|left; by eapply coherent_fourth|left; by eapply coherent_fourth|left; exact Hy|exact Hj].
    destruct Hx as [(->&->&Ha&Hb)|Hx]; [|by right]. left. split_and!; [done|done|]. by split.
  Qed.

  (** ** What is not there yet is made *)
  Context (Hm : mirrored g).
  Notation start := (Some (z, o)).
  Lemma still_brings {A} (P : outcome A → graph → Prop) out g' m' : g' = g ∧ m' = start ∧ fk = true ∧ (∀ b, out ≠ OOk b) →
    brings fk P g start out g' m'.
  Proof. intros (->&->&Hf&Hno). by apply brings_cut; [|apply broken_here]. Qed.
  Lemma brings_next {A B} (p : prog A) (f : A → prog B) P (Q : outcome B → graph → Prop) out g' m' :
    (∀ o1 g1 m1, exec p g start o1 g1 m1 → brings fk P g start o1 g1 m1) →
    (∀ a g1, P (OOk a) g1 → mirrored g1 → exec (f a) g1 start out g' m' → brings fk Q g1 start out g' m') →
    (∀ o1 g1, P o1 g1 → ∃ a, o1 = OOk a) →
    exec (x <- p;; f x) g start out g' m' → brings fk Q g start out g' m'.
  Proof.
    intros Hp Hf HP Hx. apply exec_bind_any in Hx as [(a&g2&m2&Hc&Hx)|(Ho1&o'&Hc&Ho')]; apply Hp in Hc as (->&Hgr&Hm2&Hd).
    - destruct Hd as [Hd|[_ Hd]]; [|by destruct (Hd a)].
      destruct (Hf _ _ Hd Hm2 Hx) as (->&Hgr2&Hm3&Hd2). split_and!; [done| |done|done]. by eapply grows_on.
    - split_and!; [done|done|done|]. right. destruct Hd as [Hd|[? _]]; [|done]. destruct (HP _ _ Hd) as [a E]. by destruct (Ho' a).
  Qed.

  Lemma digit_made e v : valid zp g characterIdentifier → row g (char_row e) → no_child g says_bit (ce_char e) v →
    ∀ out g' m', exec (char_provide_next_element (Some e) v) g start out g' m' →
    brings fk (λ out g', ∃ r, out = OOk (Some r) ∧ new_tail char_row characterIdentifier (be_char (digit v)) (ce_char e) g (OOk r) g') g start out g' m'.
  Proof.
    intros Hk Hr Hc.
    destruct (next_none ce_char char_row says_bit digit Some char_read_by_character
      char_read_all (λ _ e, i <- char_get_target_bit e;; bit_fetch i) (λ v t, Bool.eqb v (be_value t)) (λ _, char_find)
      (λ _ e v, char_provide_next_element (Some e) v) (λ _, char_provide_loop)) with (rest := λ (_ : nat) (e : char_ent) v r, match r with
        | Some e' => Ret (Some e')
        | None => class_provide;;; bit <- bit_provide v;; newCharacter <- char_create_tail_entity bit e;; Ret (Some newCharacter) end) (good := λ _ : bool, True)
      (e := e) (v := v) as [n Hn]; try done.
    - intros _ v1 e1 es Q HQ out g1 m1 Hx. apply HQ. cbn [char_find] in Hx. by apply exec_unassoc in Hx.
    - intros [] [] E R1 R2. cbn in *. subst. by destruct (row_same4 _ _ _ _ _ _ _ R1 R2) as (->&->&->).
    - intros [a1 b1 c1 d1] R. cbn [ce_char]. eapply sure_read; [done|constructor|exact R].
    - intros [] R. by eapply coherent_third.
    - intros c u (a1&b1&d1&R&Hb). exists (CharEnt a1 b1 c d1). split; [done|]. split; [done|]. exists 0. intros _ _.
      eapply sure_bind; [|by apply sure_bit]. apply sure_surely. unfold char_get_target_bit. cbn [ce_bit].
      eapply surely_only; [by destruct (row_nodes _ Hg _ _ _ _ R) as (_&?&_)|exact Hb].
    - intros v1 c u _ _. unfold digit. destruct v1, u; rewrite ?Hz, ?Ho; constructor; congruence.
    - intros out g' m' Hx. apply (Hn n) in Hx as [Hx|Hx]; [|by apply still_brings|done]. cbn beta iota in Hx.
      destruct (find_step _ _ _ _ _ _ (find_sure _ _ sure_provide) Hx) as [(?&_&Hx1)|Hx1]; [|by apply still_brings].
      destruct (find_step _ _ _ _ _ _ (find_sure _ _ (sure_bit_provide v)) Hx1) as [(?&->&Hx2)|Hx2]; [|by apply still_brings].
      assert (valid zp g (be_char (digit v))) as Hv by (left; by destruct v). assert (valid zp g (ce_char e)) as Hy by (left; destruct e; by eapply coherent_third).
      revert Hx2. eapply brings_next.
      + intros o1 g1 m1 Hx2. eapply tails_new; [apply (tail_char (digit v))|done|exact Hv|exact Hy|exact Hk|exact Hx2].
      + intros r g1 Hr1 Hm1 Hx3. apply exec_ret_any in Hx3 as (->&->&->). eapply brings_done; [done|by apply enlarged_refl|]. by exists r.
      + intros o1 g1 (r&?&?&?&?&->&_). eauto.
  Qed.

  Lemma letter_made e c a1 b1 x1 d1 : valid zp g wordIdentifier → row g (word_row e) → letter_kept a1 b1 x1 d1 c →
    no_child g says_letter (we_word e) c →
    ∃ n, ∀ fuel out g' m', n ≤ fuel → exec (word_provide_next_element fuel e (code_point c)) g start out g' m' →
    brings fk (new_tail word_row wordIdentifier d1 (we_word e) g) g start out g' m'.
  Proof.
    intros Hk Hr (Hcu&bs&Hd&Hck) Hc.
    destruct (next_none we_word word_row says_letter code_point id word_read_by_word
      word_read_all word_extract_character_value (λ v t, (code_point v =? t)%Z) (λ fuel v, word_find fuel (code_point v))
      (λ fuel e v, word_provide_next_element fuel e (code_point v)) (λ fuel el vs, word_provide_loop fuel el (map code_point vs))) with (rest := λ (fuel : nat) (e : word_ent) v r, match r with
        | Some e' => Ret e'
        | None => class_provide;;; character <- char_provide (code_point v);; newWord <- word_create_tail_entity character e;;
            word_point_to_word e (we_word newWord);;; Ret newWord end) (good := utf8_char)
      (e := e) (v := c) as [n Hn]; try done.
    - intros [] [] E R1 R2. cbn in *. subst. by destruct (row_same4 _ _ _ _ _ _ _ R1 R2) as (->&->&->).
    - intros [a2 b2 c2 d2] R. cbn [we_word]. eapply sure_read; [done|constructor|exact R].
    - intros [] R. by eapply coherent_third.
    - intros c2 u (a2&b2&d2&y2&R&Hb&Hl). exists (WordEnt a2 b2 c2 d2). split; [done|]. split; [done|]. by eapply sure_character.
    - intros v c2 u Hv Hs. assert (utf8_char u) as Hl by by destruct Hs as (?&?&?&?&?&Hb&Hl&_). destruct (Z.eqb_spec (code_point v) (code_point u)) as [E|E]; constructor.
      + symmetry. by apply code_point_inj.
      + congruence.
    - exists n. intros fuel out g' m' Hf Hx. apply Hn in Hx as [Hx|Hx]; [|by apply still_brings|done]. cbn beta iota in Hx.
      destruct (find_step _ _ _ _ _ _ (find_sure _ _ sure_provide) Hx) as [(?&_&Hx1)|Hx1]; [|by apply still_brings].
      destruct (find_step _ _ _ _ _ _ (char_found _ _ _ _ _ _ Hd Hck) Hx1) as [(r&Hr1&Hx2)|Hx2]; [|by apply still_brings].
      assert (valid zp g (we_word e)) as Hy by (left; destruct e; by eapply coherent_third).
      destruct Hr1 as [-> |[Hfk ->]]; revert Hx2.
      + assert (valid zp g d1) as Hv by (left; destruct Hck as [Hck _]; by eapply coherent_fourth).
        eapply brings_next.
        * intros o1 g1 m1 Hx2. eapply tails_new; [apply (tail_word (CharEnt a1 b1 x1 d1))|done|exact Hv|exact Hy|exact Hk|exact Hx2].
        * intros r g1 (r'&c'&a'&b'&d'&[= <-]&Er&E1) Hm1 Hx3. unfold word_point_to_word in Hx3.
          assert (we_word r = b') as Eb by by injection Er. rewrite Eb in Hx3.
          apply step_tie in Hx3 as [(g2&E2&Hx3)|Hb]; [|by apply brings_cut|done|destruct Hy as [Hy|Hy]; [left; apply (en_nodes _ _ _ _ _ E1); by left|by right]|].
          2: { left. apply (en_nodes _ _ _ _ _ E1). right. rewrite !elem_of_cons. tauto. }
          apply exec_ret_any in Hx3 as (->&->&->). eapply brings_done; [done|exact E2|].
          exists r, c', a', b', d'. split_and!; [done|done|]. pose proof (enlarged_trans _ _ _ _ _ _ _ _ _ E1 E2) as [B1 B2 B3 B4 B5 B6].
          rewrite !app_nil_r in *. split; [done..| |done|done]. intros ed. rewrite B4. cbn [app]. rewrite !elem_of_cons. tauto.
        * intros o1 g1 (r&?&?&?&?&->&_). eauto.
      + eapply (brings_next _ _ (λ _ _, False)); [|done|done].
        intros o1 g1 m1 Hx2. unfold word_create_tail_entity in Hx2.
        apply (step_entity WordEnt) in Hx2 as [(c'&a'&b'&d'&g2&E2&Hx2)|Hb]; [|by apply brings_cut|done..].
        inversion Hx2; subst; clear Hx2. apply brings_cut; [done|]. split_and!; [done|done|done|]. by eexists _, _, _.
  Qed.

  Lemma word_made e cs a1 b1 x1 d1 : valid zp g phraseIdentifier → row g (phrase_row e) → word_kept a1 b1 x1 d1 cs →
    no_child g says_word (pe_phrase e) (concat cs) →
    ∃ n, ∀ fuel out g' m', n ≤ fuel → exec (phrase_provide_next_element fuel e (concat cs)) g start out g' m' →
    brings fk (new_tail phrase_row phraseIdentifier d1 (pe_phrase e) g) g start out g' m'.
  Proof.
    intros Hk Hr Hw Hc. destruct (word_found _ _ _ _ _ Hw) as [n' Hn'].
    destruct (next_none pe_phrase phrase_row says_word id id phrase_read_by_phrase
      phrase_read_all phrase_extract_word_value gostring_eqb phrase_find
      phrase_provide_next_element phrase_provide_loop) with (rest := λ (fuel : nat) (e : phrase_ent) v r, match r with
        | Some e' => Ret e'
        | None => class_provide;;; word <- word_provide fuel v;; phrase_create_tail_entity word e end) (good := λ _ : text, True)
      (e := e) (v := concat cs) as [n Hn]; try done.
    - intros [] [] E R1 R2. cbn in *. subst. by destruct (row_same4 _ _ _ _ _ _ _ R1 R2) as (->&->&->).
    - intros [a2 b2 c2 d2] R. cbn [pe_phrase]. eapply sure_read; [done|constructor|exact R].
    - intros [] R. by eapply coherent_third.
    - intros c2 u (a2&b2&d2&y2&R&Hb&Hl). exists (PhraseEnt a2 b2 c2 d2). split; [done|]. split; [done|]. by eapply sure_part.
    - intros v c2 u _ _. unfold id. destruct (gostring_eqb_spec v u) as [E|E]; constructor; congruence.
    - exists (n + n'). intros fuel out g' m' Hf Hx. apply Hn in Hx as [Hx|Hx]; [|by apply still_brings|lia]. cbn beta iota in Hx.
      destruct (find_step _ _ _ _ _ _ (find_sure _ _ sure_provide) Hx) as [(?&_&Hx1)|Hx1]; [|by apply still_brings].
      destruct (find_step _ _ _ _ _ _ (find_sure _ _ (Hn' fuel ltac:(lia))) Hx1) as [(r&->&Hx2)|Hx2]; [|by apply still_brings].
      assert (valid zp g (pe_phrase e)) as Hy by (left; destruct e; by eapply coherent_third).
      assert (valid zp g d1) as Hv by (left; destruct Hw as [Hw _]; by eapply coherent_fourth).
      eapply tails_new; [apply (tail_phrase (WordEnt a1 b1 x1 d1))|done|exact Hv|exact Hy|exact Hk|exact Hx2].
  Qed.

  Lemma first_letter_made c a1 b1 x1 d1 : valid zp g wordIdentifier → letter_kept a1 b1 x1 d1 c → no_neighbour Outgoing g x1 →
    ∀ out g' m', exec (word_provide_first_element (code_point c)) g start out g' m' →
    brings fk (new_head word_row wordIdentifier d1 g) g start out g' m'.
  Proof.
    intros Hk (Hcu&bs&Hd&Hck) Hc out g' m' Hx. unfold word_provide_first_element in Hx.
    destruct (find_step _ _ _ _ _ _ (char_found _ _ _ _ _ _ Hd Hck) Hx) as [(r&Hr1&Hx2)|Hx2]; [|by apply still_brings].
    destruct (find_step _ _ _ _ _ _ (find_sure _ _ sure_provide) Hx2) as [(?&_&Hx3)|Hx3]; [|by apply still_brings].
    destruct Hck as [Hck _]. destruct Hr1 as [-> |[Hfk ->]].
    - eapply heads_new; [apply (head_word (CharEnt a1 b1 x1 d1))|done|by eapply coherent_third|by eapply coherent_fourth|exact Hk|exact Hc|exact Hx3].
    - apply still_brings. inversion Hx3; subst; clear Hx3. done.
  Qed.
  Lemma first_word_made cs a1 b1 x1 d1 : valid zp g phraseIdentifier → word_kept a1 b1 x1 d1 cs → no_neighbour Outgoing g d1 →
    ∃ n, ∀ fuel out g' m', n ≤ fuel → exec (phrase_provide_first_element fuel (concat cs)) g start out g' m' →
    brings fk (new_head phrase_row phraseIdentifier d1 g) g start out g' m'.
  Proof.
    intros Hk Hw Hc. destruct (word_found _ _ _ _ _ Hw) as [n Hn]. exists n. intros fuel out g' m' Hf Hx. unfold phrase_provide_first_element in Hx.
    destruct (find_step _ _ _ _ _ _ (find_sure _ _ (Hn fuel Hf)) Hx) as [(r&->&Hx2)|Hx2]; [|by apply still_brings].
    destruct (find_step _ _ _ _ _ _ (find_sure _ _ sure_provide) Hx2) as [(?&_&Hx3)|Hx3]; [|by apply still_brings].
    destruct Hw as [Hw _].
    eapply heads_new; [apply (head_phrase (WordEnt a1 b1 x1 d1))|done|by eapply coherent_fourth|by eapply coherent_fourth|exact Hk|exact Hc|exact Hx3].
  Qed.
End kept.

Theorem character_is_found zp fk z o g a b x d c out g' m' : coherent g → 1%N ∈ nodes g → be_char z ∈ nodes g → be_char o ∈ nodes g →
  be_value z = false → be_value o = true → be_char z ≠ be_char o → letter_kept (be_char z) (be_char o) g a b x d c →
  exec zp fk (char_provide (code_point c)) g (Some (z, o)) out g' m' →
  g' = g ∧ m' = Some (z, o) ∧ gives fk out (λ e, e = Some (CharEnt a b x d) ∨ fk = true ∧ e = None).
Proof. intros Hg H1 Hzn Hon Hz Ho Hzo (_&bs&Hd&Hk) Hx. by eapply char_found. Qed.
Theorem word_is_found zp fk z o g a b x d cs : coherent g → 1%N ∈ nodes g → be_char z ∈ nodes g → be_char o ∈ nodes g →
  be_value z = false → be_value o = true → be_char z ≠ be_char o → word_kept (be_char z) (be_char o) g a b x d cs →
  ∃ n, ∀ fuel out g' m', n ≤ fuel → exec zp fk (word_provide fuel (concat cs)) g (Some (z, o)) out g' m' →
  g' = g ∧ m' = Some (z, o) ∧ answers fk out (WordEnt a b x d).
Proof.
  intros Hg H1 Hzn Hon Hz Ho Hzo Hk.
  destruct (word_found (zp := zp) (fk := fk) z o g Hz Ho Hzo Hg H1 Hzn Hon _ _ _ _ _ Hk) as [n Hn]. exists n.
  intros fuel out g' m' Hf Hx. by eapply Hn.
Qed.
Theorem phrase_is_found zp fk z o g a b x d ws : coherent g → 1%N ∈ nodes g → be_char z ∈ nodes g → be_char o ∈ nodes g →
  be_value z = false → be_value o = true → be_char z ≠ be_char o → phrase_kept (be_char z) (be_char o) g a b x d ws →
  ∃ n, ∀ fuel out g' m', n ≤ fuel → exec zp fk (phrase_provide fuel (spaced ws)) g (Some (z, o)) out g' m' →
  g' = g ∧ m' = Some (z, o) ∧ answers fk out (PhraseEnt a b x d).
Proof.
  intros Hg H1 Hzn Hon Hz Ho Hzo Hk.
  destruct (phrase_found (zp := zp) (fk := fk) z o g Hz Ho Hzo Hg H1 Hzn Hon _ _ _ _ _ Hk) as [n Hn]. exists n.
  intros fuel out g' m' Hf Hx. by eapply Hn.
Qed.
Theorem detail_is_found zp fk z o g ob pr ws1 ws2 y : mirrored g → 1%N ∈ nodes g → be_char z ∈ nodes g → be_char o ∈ nodes g →
  detailIdentifier ∈ nodes g → y ∈ nodes g →
  be_value z = false → be_value o = true → be_char z ≠ be_char o →
  phrase_kept (be_char z) (be_char o) g (pe_class ob) (pe_word ob) (pe_phrase ob) (pe_detail ob) ws1 →
  phrase_kept (be_char z) (be_char o) g (pe_class pr) (pe_word pr) (pe_phrase pr) (pe_detail pr) ws2 →
  (∀ u, joint_detail g ob pr u ↔ u = y) →
  ∃ n, ∀ fuel out g' m', n ≤ fuel → exec zp fk (detail_provide fuel (spaced ws1) (spaced ws2)) g (Some (z, o)) out g' m' →
    g' = g ∧ m' = Some (z, o) ∧ gives fk out (λ e, de_phrase e = y) ∨
    fk = true ∧ brings fk (new_detail ob pr g) g (Some (z, o)) out g' m'.
Proof.
  intros Hm H1 Hzn Hon Hd Hy Hz Ho Hzo Hk1 Hk2 Hj. destruct ob, pr.
  by apply (detail_found (zp := zp) (fk := fk) z o g Hz Ho Hzo (mirrored_coherent _ Hm) H1 Hzn Hon ws1 ws2).
Qed.
