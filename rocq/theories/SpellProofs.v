(** Reading texts, on any storage contents. *)
From stdpp Require Import gmap.
From Coq Require Import NArith ZArith Lia Ascii.
From Verif Require Import Base GoText Model1 Model2 Model3 Storage Spec SpecText SpecGuards SpecWalk SpecSpelling
  Codec Utf8Proofs Inv InitProofs GuardProofs LookupProofs HistoryProofs.
Local Open Scope nat_scope.

Lemma number_msb bs : number bs = msb_val 0 bs.
Proof.
  unfold number, msb_val. generalize 0%Z at 2 3. induction bs as [|b bs IH]; intros v; [done|]. cbn [fold_left].
  rewrite IH. f_equal.
Qed.
Lemma spaced_join ws : spaced ws = join_space ws.
Proof. induction ws as [|w [|w' ws] IH]; [done..|]. cbn [spaced join_space] in *. by rewrite IH. Qed.
Lemma runes_chars cs : Forall utf8_char cs → string_of_runes (map code_point cs) = concat cs.
Proof.
  intros H. unfold string_of_runes. f_equal. induction H as [|c cs Hc _ IH]; [done|]. cbn [map]. rewrite IH. f_equal.
  pose proof (runes_of_chars [c] (Forall_cons_2 _ _ _ Hc (Forall_nil_2 _))) as H1. pose proof (normalise_char c [] Hc) as H2.
  cbn [concat map] in H1. rewrite app_nil_r in H1, H2. cbn in H2. rewrite app_nil_r in H2.
  unfold normalise in H2. rewrite H1 in H2. unfold string_of_runes in H2. cbn [map concat] in H2. by rewrite app_nil_r in H2.
Qed.

Section spell.
  Context {zp : zpolicy} {fk : bool}.
  Notation exec := (exec zp fk).
  Context (z o : bit_ent) (g : graph).
  Context (Hz : be_value z = false) (Ho : be_value o = true) (Hzo : be_char z ≠ be_char o) (Hg : coherent g).
  Notation bits_at := (bits_at (be_char z) (be_char o) g).
  Notation letter_at := (letter_at (be_char z) (be_char o) g).
  Notation letters_at := (letters_at (be_char z) (be_char o) g).
  Notation word_at := (word_at (be_char z) (be_char o) g).
  Notation words_at := (words_at (be_char z) (be_char o) g).
  Notation phrase_at := (phrase_at (be_char z) (be_char o) g).

  (** A part of a program whose answer is known, once the bits have been read. *)
  Definition sure {A} (p : prog A) (v : A) : Prop :=
    ∀ out g1 m1, exec p g (Some (z, o)) out g1 m1 → g1 = g ∧ m1 = Some (z, o) ∧ answers fk out v.

  Lemma sure_surely {A} (p : prog A) v : surely (zp:=zp) (fk:=fk) p g v → sure p v.
  Proof. intros H out g1 m1. apply H. Qed.
  Lemma sure_ret {A} (v : A) : sure (Ret v) v.
  Proof. apply sure_surely, surely_ret. Qed.
  Lemma sure_bind {A B} (p : prog A) (f : A → prog B) v u : sure p v → sure (f v) u → sure (x <- p;; f x) u.
  Proof.
    intros Hp Hf out g1 m1 Hx. apply exec_bind_any in Hx as [(a&g2&m2&Hc&Hx)|(Ho1&o'&Hc&Ho')]; apply Hp in Hc as (->&->&[Ha Hb]).
    - rewrite (Hb a eq_refl) in Hx. by apply Hf.
    - split_and!; [done..|]. split; [|intros b Hb1; by destruct (Ho1 b)]. intros Hf0. by destruct (Ho' v); apply Ha.
  Qed.
  Lemma exec_try {A} (p : prog A) g0 m out g1 m1 : exec (try p) g0 m out g1 m1 →
    ∃ o', exec p g0 m o' g1 m1 ∧
      match o' with OOk a => out = OOk (Ok a) | OErr e => out = OOk (Err e) | _ => ∀ b, out ≠ OOk b end.
  Proof.
    revert g0 m. induction p as [a|e| | |c k IH|k IH|m' k IH]; intros g0 m Hx; cbn [try] in Hx.
    - apply exec_ret_any in Hx as (->&->&->). exists (OOk a). split; [constructor|done].
    - apply exec_ret_any in Hx as (->&->&->). exists (OErr e). split; [constructor|done].
    - inversion Hx; subst. exists OPanic. split; [constructor|done].
    - inversion Hx; subst. exists ODiverge. split; [constructor|done].
    - apply exec_call_any in Hx as [(r&g2&Hc&Hx)|[[Hf Hx]|(Hf&->&->&->)]].
      + apply IH in Hx as (o'&Hx&Ho'). exists o'. split; [|done]. by eapply ExCall.
      + apply IH in Hx as (o'&Hx&Ho'). exists o'. split; [|done]. by eapply ExFault.
      + exists OKilled. split; [by apply ExKill|done].
    - inversion Hx; subst. edestruct IH as (o'&Hx'&Ho'); [eassumption|]. exists o'. split; [by constructor|done].
    - inversion Hx; subst. edestruct IH as (o'&Hx'&Ho'); [eassumption|]. exists o'. split; [by constructor|done].
  Qed.
  Lemma sure_try {A B} (p : prog A) (f : A → prog B) v u : sure p v → sure (f v) u →
    sure (r <- try p;; x <- deref (nil_on_err r);; f x) u.
  Proof.
    intros Hp Hf out g1 m1 Hx. apply exec_bind_any in Hx as [(r&g2&m2&Hc&Hx)|(Ho1&o'&Hc&Ho')];
      apply exec_try in Hc as (o2&Hc&Ho2); apply Hp in Hc as (->&->&[Ha Hb]).
    - destruct o2 as [a|e| | |]; [| |by destruct (Ho2 r)..].
      + injection Ho2 as ->. rewrite (Hb a eq_refl) in Hx. by apply Hf.
      + injection Ho2 as ->. cbn [nil_on_err deref bind] in Hx. inversion Hx; subst. split_and!; [done..|].
        split; [|done]. intros Hf0. by specialize (Ha Hf0).
    - split_and!; [done..|]. split; [|intros b Hb1; by destruct (Ho1 b)]. intros Hf0. specialize (Ha Hf0). subst o2. by destruct (Ho' (Ok v)).
  Qed.
  Lemma exec_unassoc {A B C} (p : prog A) (f : A → prog B) (k : B → prog C) g0 m out g' m' :
    exec (bind p (λ a, bind (f a) k)) g0 m out g' m' → exec (bind (bind p f) k) g0 m out g' m'.
  Proof.
    revert g0 m. induction p as [a|e| | |c q IH|q IH|m1 q IH]; intros g0 m Hx; cbn [bind] in *; try exact Hx.
    - apply exec_call_any in Hx as [(r&g1&Hc&Hx)|[[Hf Hx]|(Hf&->&->&->)]].
      + eapply ExCall; [exact Hc|]. by apply IH.
      + eapply ExFault; [done|]. by apply IH.
      + by apply ExKill.
    - inversion Hx; subst. constructor. by apply IH.
    - inversion Hx; subst. constructor. by apply IH.
  Qed.
  Lemma sure_sources x : x ∈ nodes g → comes_first g x → sure (l <- st_sources x;; Ret (nonempty l)) false.
  Proof. intros Hv Hx. by apply sure_surely, surely_none. Qed.
  Lemma sure_source x p er : x ∈ nodes g → comes_after g x p →
    sure (l <- st_sources x;; Ret (nonempty l)) true ∧ sure (l <- st_sources x;; single er l) p.
  Proof.
    intros Hv Hp. split; intros out g1 m1 Hx;
      (apply exec_call_any in Hx as [(r&g2&[Hc _]&Hx)|[[? Hx]|(?&->&->&->)]];
       [destruct (Hc (or_introl Hv)) as (l&->&Hnd&Hl&->); cbn [bind of_res] in Hx; apply (list_one l _ _ Hnd Hl) in Hp as ->; by eapply sure_ret
       |cbn [bind of_res] in Hx; apply exec_throw_any in Hx as (->&->&->); split_and!; [done..|]; split; [congruence|done]
       |split_and!; [done..|]; split; [congruence|done]]).
  Qed.
  Lemma row_nodes a b c d : row g [a; b; c; d] → a ∈ nodes g ∧ b ∈ nodes g ∧ c ∈ nodes g ∧ d ∈ nodes g.
  Proof. intros (H1&H2&H3&_). apply Hg in H1 as (_&?&?). apply Hg in H2 as (_&?&?). by apply Hg in H3 as (_&?&?). Qed.

  (** ** Characters *)
  Lemma sure_bit (v : bool) : sure (bit_fetch (if v then be_char o else be_char z)) (if v then o else z).
  Proof.
    intros out g1 m1 Hx. unfold bit_fetch, bit_initialize in Hx. cbn [bind] in Hx. apply exec_load in Hx. cbn [bind] in Hx.
    destruct v.
    - destruct (N.eqb_spec (be_char o) (be_char z)) as [E|_]; [by destruct Hzo|]. rewrite N.eqb_refl in Hx. by apply sure_ret.
    - rewrite N.eqb_refl in Hx. by apply sure_ret.
  Qed.
  Lemma sure_digit a b c d (v : bool) : row g [a; b; c; d] → only_neighbour Outgoing g b (if v then be_char o else be_char z) →
    sure (char_extract_bit_value (Some (CharEnt a b c d))) v.
  Proof.
    intros Hr Hb. unfold char_extract_bit_value. cbn [deref bind]. eapply sure_bind.
    - apply sure_surely. unfold char_get_target_bit. cbn [ce_bit]. eapply surely_only; [by destruct (row_nodes _ _ _ _ Hr) as (_&?&_)|exact Hb].
    - eapply sure_bind; [apply sure_bit|]. destruct v; rewrite ?Hz, ?Ho; apply sure_ret.
  Qed.
  Lemma sure_read A p (e : A) l : finds A p e l → row g l → sure p e.
  Proof. intros Hf Hl. by eapply sure_surely, surely_finds. Qed.

  Lemma bits_loop x bs : bits_at x bs → ∃ a b d v l n, row g [a; b; x; d] ∧ bs = rev l ++ [v] ∧
    sure (char_extract_bit_value (Some (CharEnt a b x d))) v ∧
    ∀ fuel path, n ≤ fuel → sure (char_extract_loop fuel (Some (CharEnt a b x d)) path) (path ++ l).
  Proof.
    induction 1 as [a b x d v Hr Hb Hx|a b x d v p bs Hr Hb Hx Hp IH].
    - exists a, b, d, v, [], 1. split_and!; [done|done|by apply sure_digit|]. intros [|fuel] path Hf; [lia|].
      cbn [char_extract_loop]. eapply sure_bind.
      { unfold char_has_previous_element. cbn [deref bind]. apply sure_sources; [by destruct (row_nodes _ _ _ _ Hr) as (_&_&?&_)|exact Hx]. }
      cbn [negb]. rewrite app_nil_r. apply sure_ret.
    - destruct IH as (a'&b'&d'&v'&l&n&Hr'&->&Hv'&Hl). destruct (row_nodes _ _ _ _ Hr) as (_&_&Hxn&_).
      destruct (sure_source x p ECharSources Hxn Hx) as [H1 H2].
      exists a, b, d, v, (v' :: l), (S n). split_and!; [done|by cbn [rev]|by apply sure_digit|]. intros [|fuel] path Hf; [lia|].
      cbn [char_extract_loop]. eapply sure_bind; [exact H1|]. cbn [negb].
      eapply sure_try.
      { unfold char_get_previous_element. cbn [deref bind]. eapply sure_bind; [exact H2|].
        eapply sure_bind; [eapply sure_read; [constructor|exact Hr']|apply sure_ret]. }
      eapply sure_bind; [exact Hv'|]. replace (path ++ v' :: l) with ((path ++ [v']) ++ l) by by rewrite <- app_assoc.
      apply Hl. lia.
  Qed.
  Lemma row_same a b c d a' b' d' : row g [a; b; c; d] → row g [a'; b'; c; d'] → a = a' ∧ b = b' ∧ d = d'.
  Proof.
    intros (H1&H2&H3&_) (H4&H5&H6&_). assert (b = b') as <-.
    { apply Hg in H2 as [H2 _]. apply Hg in H5 as [H5 _]. congruence. }
    apply Hg in H1 as [H1 _]. apply Hg in H4 as [H4 _]. split_and!; congruence.
  Qed.
  Lemma sure_letter y c : letter_at y c → ∃ a b x n, row g [a; b; x; y] ∧
    ∀ fuel, n ≤ fuel → sure (char_extract fuel (Some (CharEnt a b x y))) (code_point c).
  Proof.
    intros (Hc&a&b&x&bs&Hr&Hb&Hn). destruct (bits_loop x bs Hb) as (a'&b'&d'&v&l&n&Hr'&->&Hv&Hl).
    destruct (row_same _ _ _ _ _ _ _ Hr Hr') as (<-&<-&<-). exists a, b, x, n. split; [done|]. intros fuel Hf.
    unfold char_extract. eapply sure_bind; [exact Hv|]. eapply sure_bind; [by apply Hl|].
    replace (rev ([v] ++ l)) with (rev l ++ [v]) by done. rewrite int_of_bits_val; rewrite <- number_msb, Hn.
    - apply sure_ret.
    - pose proof (code_point_char c Hc) as Hs. unfold scalar_value in Hs. lia.
  Qed.

  (** ** Words *)
  Lemma sure_character a b c d y ch : row g [a; b; c; d] → only_neighbour Outgoing g b y → letter_at y ch →
    ∃ n, ∀ fuel, n ≤ fuel → sure (word_extract_character_value fuel (WordEnt a b c d)) (code_point ch).
  Proof.
    intros Hr Hb Hc. destruct (sure_letter y ch Hc) as (a'&b'&x'&n&Hr'&Hn). exists n. intros fuel Hf.
    unfold word_extract_character_value. eapply sure_bind.
    - apply sure_surely. unfold word_get_target_character. cbn [we_char]. eapply surely_only; [by destruct (row_nodes _ _ _ _ Hr) as (_&?&_)|exact Hb].
    - eapply sure_bind; [|by apply Hn]. unfold char_fetch. eapply sure_bind; [eapply sure_read; [constructor|exact Hr']|apply sure_ret].
  Qed.
  Lemma letters_loop x cs : letters_at x cs → ∃ a b d v l n, row g [a; b; x; d] ∧ cs = rev l ++ [v] ∧ Forall utf8_char cs ∧
    ∀ cfuel, n ≤ cfuel → sure (word_extract_character_value cfuel (WordEnt a b x d)) (code_point v) ∧
    ∀ fuel path, n ≤ fuel → sure (word_extract_loop cfuel fuel (WordEnt a b x d) path) (path ++ map code_point l).
  Proof.
    induction 1 as [a b x d y v Hr Hb Hc Hx|a b x d y v p cs Hr Hb Hc Hx Hp IH]; destruct (sure_character _ _ _ _ _ _ Hr Hb Hc) as [n0 Hn0].
    - exists a, b, d, v, [], (S n0). split_and!; [done|done|by constructor; [apply Hc|constructor]|]. intros cfuel Hcf.
      split; [apply Hn0; lia|]. intros [|fuel] path Hf; [lia|].
      cbn [word_extract_loop]. eapply sure_bind.
      { apply sure_sources; [by destruct (row_nodes _ _ _ _ Hr) as (_&_&?&_)|exact Hx]. }
      cbn [negb map]. rewrite app_nil_r. apply sure_ret.
    - destruct IH as (a'&b'&d'&v'&l&n&Hr'&->&Hcs&Hl). destruct (row_nodes _ _ _ _ Hr) as (_&_&Hxn&_).
      destruct (sure_source x p EWordSources Hxn Hx) as [H1 H2].
      exists a, b, d, v, (v' :: l), (S (n + n0)). split_and!; [done|by cbn [rev]| |].
      { apply Forall_app. split; [done|]. constructor; [apply Hc|constructor]. }
      intros cfuel Hcf. split; [apply Hn0; lia|]. destruct (Hl cfuel ltac:(lia)) as [Hv' Hl']. intros [|fuel] path Hf; [lia|].
      cbn [word_extract_loop]. eapply sure_bind; [exact H1|]. cbn [negb].
      eapply sure_try.
      { unfold word_get_previous_element. eapply sure_bind; [exact H2|]. eapply sure_read; [constructor|exact Hr']. }
      eapply sure_bind; [exact Hv'|]. cbn [map].
      replace (path ++ code_point v' :: map code_point l) with ((path ++ [code_point v']) ++ map code_point l) by by rewrite <- app_assoc.
      apply Hl'. lia.
  Qed.
  Lemma sure_word y w : word_at y w → ∃ a b x n, row g [a; b; x; y] ∧
    ∀ fuel, n ≤ fuel → sure (word_extract fuel (WordEnt a b x y)) w.
  Proof.
    intros (a&b&x&cs&Hr&Hb&->). destruct (letters_loop x cs Hb) as (a'&b'&d'&v&l&n&Hr'&->&Hcs&Hl).
    destruct (row_same _ _ _ _ _ _ _ Hr Hr') as (<-&<-&<-). exists a, b, x, n. split; [done|]. intros fuel Hf.
    destruct (Hl fuel Hf) as [Hv Hl']. unfold word_extract. eapply sure_bind; [exact Hv|]. eapply sure_bind; [by apply Hl'|].
    rewrite <- (runes_chars _ Hcs). rewrite map_app, map_rev. cbn [map app rev]. apply sure_ret.
  Qed.

  (** ** Phrases *)
  Lemma sure_part a b c d y w : row g [a; b; c; d] → only_neighbour Outgoing g b y → word_at y w →
    ∃ n, ∀ fuel, n ≤ fuel → sure (phrase_extract_word_value fuel (PhraseEnt a b c d)) w.
  Proof.
    intros Hr Hb Hc. destruct (sure_word y w Hc) as (a'&b'&x'&n&Hr'&Hn). exists n. intros fuel Hf.
    unfold phrase_extract_word_value. eapply sure_bind.
    - apply sure_surely. unfold phrase_get_target_word. cbn [pe_word]. eapply surely_only; [by destruct (row_nodes _ _ _ _ Hr) as (_&?&_)|exact Hb].
    - eapply sure_bind; [|by apply Hn]. unfold word_fetch. eapply sure_read; [constructor|exact Hr'].
  Qed.
  Lemma words_loop x ws : words_at x ws → ∃ a b d v l n, row g [a; b; x; d] ∧ ws = rev l ++ [v] ∧
    ∀ wfuel, n ≤ wfuel → sure (phrase_extract_word_value wfuel (PhraseEnt a b x d)) v ∧
    ∀ fuel path, n ≤ fuel → sure (phrase_extract_loop wfuel fuel (PhraseEnt a b x d) path) (path ++ l).
  Proof.
    induction 1 as [a b x d y v Hr Hb Hc Hx|a b x d y v p ws Hr Hb Hc Hx Hp IH]; destruct (sure_part _ _ _ _ _ _ Hr Hb Hc) as [n0 Hn0].
    - exists a, b, d, v, [], (S n0). split_and!; [done|done|]. intros wfuel Hcf.
      split; [apply Hn0; lia|]. intros [|fuel] path Hf; [lia|].
      cbn [phrase_extract_loop]. eapply sure_bind.
      { apply sure_sources; [by destruct (row_nodes _ _ _ _ Hr) as (_&_&?&_)|exact Hx]. }
      cbn [negb]. rewrite app_nil_r. apply sure_ret.
    - destruct IH as (a'&b'&d'&v'&l&n&Hr'&->&Hl). destruct (row_nodes _ _ _ _ Hr) as (_&_&Hxn&_).
      destruct (sure_source x p EPhraseSources Hxn Hx) as [H1 H2].
      exists a, b, d, v, (v' :: l), (S (n + n0)). split_and!; [done|by cbn [rev]|].
      intros wfuel Hcf. split; [apply Hn0; lia|]. destruct (Hl wfuel ltac:(lia)) as [Hv' Hl']. intros [|fuel] path Hf; [lia|].
      cbn [phrase_extract_loop]. eapply sure_bind; [exact H1|]. cbn [negb].
      eapply sure_try.
      { unfold phrase_get_previous_element. eapply sure_bind; [exact H2|]. eapply sure_read; [constructor|exact Hr']. }
      eapply sure_bind; [exact Hv'|].
      replace (path ++ v' :: l) with ((path ++ [v']) ++ l) by by rewrite <- app_assoc.
      apply Hl'. lia.
  Qed.
  Lemma sure_phrase y s : phrase_at y s → ∃ a b x n, row g [a; b; x; y] ∧
    ∀ fuel, n ≤ fuel → sure (phrase_extract fuel (PhraseEnt a b x y)) s.
  Proof.
    intros (a&b&x&ws&Hr&Hb&->). destruct (words_loop x ws Hb) as (a'&b'&d'&v&l&n&Hr'&->&Hl).
    destruct (row_same _ _ _ _ _ _ _ Hr Hr') as (<-&<-&<-). exists a, b, x, n. split; [done|]. intros fuel Hf.
    destruct (Hl fuel Hf) as [Hv Hl']. unfold phrase_extract. eapply sure_bind; [exact Hv|]. eapply sure_bind; [by apply Hl'|].
    replace (rev ([v] ++ l)) with (rev l ++ [v]) by done. apply sure_ret.
  Qed.

  (** ** Remarks *)
  Lemma sure_texts r ob pr : remark_at (be_char z) (be_char o) g (re_detail r) ob pr →
    ∃ n, ∀ fuel, n ≤ fuel → sure (get_object_and_property fuel r) (ob, pr).
  Proof.
    intros (Hrd&q&y&op&pp&Hq&[Hr _]&Hob&Hpr&Hop&Hpp).
    destruct (sure_phrase op ob Hop) as (a1&b1&x1&n1&Hr1&H1). destruct (sure_phrase pp pr Hpp) as (a2&b2&x2&n2&Hr2&H2).
    exists (n1 + n2). intros fuel Hf. unfold get_object_and_property. eapply sure_bind.
    { unfold remark_get_source_detail. by apply sure_source. }
    destruct (Hg y q Hr) as (Hb&Hy&Hqn). eapply (sure_bind _ _ (DetailEnt (default 0%N (bwd g !! y)) y q)).
    { intros out g1 m1 Hx. unfold detail_fetch, detail_read_by_remark in Hx.
      apply exec_getref in Hx as [Hx|(Hb1&->&->)]; [|split_and!; [done|done|by apply faulty_answers]|by left]. rewrite Hb in Hx. cbn [default from_option id] in Hx.
      apply exec_getref in Hx as [Hx|(Hb1&->&->)]; [|split_and!; [done|done|by apply faulty_answers]|by left]. by apply sure_ret. }
    unfold detail_get_object_and_property.
    unfold detail_get_object_and_property_phrases. cbn [de_phrase].
    eapply (sure_bind _ _ (op, pp)).
    { intros out g1 m1 Hx. apply exec_unassoc in Hx. revert out g1 m1 Hx.
      eapply (sure_bind (l <- st_sources y;; single EDetailSources l)); [by apply sure_source|].
      intros out g1 m1 Hx. apply exec_unassoc in Hx. revert out g1 m1 Hx.
      eapply (sure_bind (l <- st_targets y;; single EDetailTargets l)); [by apply sure_surely, surely_only|]. apply sure_ret. }
    unfold phrase_fetch. eapply sure_bind; [eapply sure_read; [constructor|exact Hr1]|].
    eapply sure_bind; [apply H1; lia|]. eapply sure_bind; [eapply sure_read; [constructor|exact Hr2]|].
    eapply sure_bind; [apply H2; lia|]. apply sure_ret.
  Qed.
End spell.

(** * What the calls of the interface have written *)
Section written.
  Context {F : nat} {G : ghost} {g : graph} {z o : bit_ent}.
  Context (Hok : ok F G g) (Hb : bits G = BReady z o).
  Notation zn := (be_char z).
  Notation on := (be_char o).

  Lemma target_only x y l : (x, y) ∈ edges g → lab G !! x = Some l → one_target l → only_neighbour Outgoing g x y.
  Proof. intros He Hl H1 y'. split; [|by intros ->]. intros H. by eapply (ok_target _ _ _ Hok). Qed.
  Lemma source_only x y l : (y, x) ∈ edges g → lab G !! x = Some l → one_source l → only_neighbour Incoming g x y.
  Proof. intros He Hl H1 y'. split; [|by intros ->]. intros H. by eapply (ok_source _ _ _ Hok). Qed.
  Lemma source_none x l : lab G !! x = Some l → (∀ l', label_ok F l' → ¬ edge_ok l' l) → no_neighbour Incoming g x.
  Proof. intros Hl H1 y H. destruct (ok_edge _ _ _ Hok _ _ H) as (lx&ly&Hx&Hy&He&_). simplify_eq. apply (H1 lx); [|done]. by eapply (ok_label _ _ _ Hok). Qed.

  Lemma number_app bs b : number (bs ++ [b]) = (2 * number bs + if b then 1 else 0)%Z.
  Proof. unfold number. by rewrite fold_left_app. Qed.

  Lemma bit_target e r : char_base G g e r → only_neighbour Outgoing g (ce_bit e) (if Z.odd r then on else zn).
  Proof.
    intros ((_&L2&_)&_&z'&o'&Hb'&He). rewrite Hb in Hb'. injection Hb' as <- <-.
    eapply target_only; [|exact L2|exact I]. by destruct (Z.odd r).
  Qed.
  Lemma bits_written e r : charC G g e r → ∃ bs, bits_at zn on g (ce_char e) bs ∧ number bs = r.
  Proof.
    induction 1 as [e r z' o' Hbase Hr Hb' He|e e' r Hbase Hr Hc (bs&Hbs&Hn) He];
      pose proof (bit_target e r Hbase) as Ht; destruct Hbase as ((L1&L2&L3&L4)&(R1&R2&R3)&_).
    - exists [Z.odd r]. assert (0 ≤ r)%Z as H0 by apply (ok_label _ _ _ Hok _ _ L3). split.
      + eapply (bits_first _ _ _ (ce_class e) (ce_bit e) _ (ce_word e)); [by split_and!|exact Ht|].
        eapply source_none; [exact L3|]. intros [] _ Hl; simpl in Hl; try done. destruct Hl. lia.
      + assert (r = 0 ∨ r = 1)%Z as [-> | ->] by lia; done.
    - exists (bs ++ [Z.odd r]). split.
      + eapply (bits_next _ _ _ (ce_class e) (ce_bit e) _ (ce_word e)); [by split_and!|exact Ht| |exact Hbs].
        eapply source_only; [exact He|exact L3|exact I].
      + rewrite number_app, Hn. rewrite (Z.div2_odd r) at 3. rewrite <- Z.div2_div. by destruct (Z.odd r).
  Qed.
  Lemma letter_written e r : charC G g e r → scalar r → letter_at zn on g (ce_word e) (encode_rune r).
  Proof.
    intros Hc Hs. destruct (encode_code_point r (proj1 (scalar_iff r) Hs)) as [Hu Hp]. split; [done|].
    destruct (bits_written e r Hc) as (bs&Hbs&Hn). destruct Hc as [? ? ? ? (_&(R1&R2&R3)&_)|? ? ? (_&(R1&R2&R3)&_)];
      eexists _, _, _, bs; (split; [exact (conj R1 (conj R2 (conj R3 (conj I I))))|by rewrite Hp]).
  Qed.
  Lemma letters_written e rs : wordC G g e rs → letters_at zn on g (we_word e) (map encode_rune rs).
  Proof.
    induction 1 as [e r c Hbase Hc He|e e' rs r Hbase Hw IH He]; destruct Hbase as ((L1&L2&L3&L4)&(R1&R2&R3)&c1&r1&Hl&Hc1&Ht).
    - injection Hl as <-. assert (wtext_ok F [r]) as (_&_&Hs) by apply (ok_label _ _ _ Hok _ _ L3).
      eapply (letters_first _ _ _ (we_class e) (we_char e) _ (we_phrase e)); [by split_and!| | |].
      + eapply target_only; [exact Ht|exact L2|exact I].
      + apply letter_written; [done|]. by inversion Hs.
      + eapply source_none; [exact L3|]. intros [] Hne Hl; simpl in Hl; try done. destruct Hne as [Hne _], Hl as [r' Hl]. by destruct rs as [|? []].
    - rewrite last_snoc in Hl. injection Hl as <-. assert (wtext_ok F (rs ++ [r])) as (_&_&Hs) by apply (ok_label _ _ _ Hok _ _ L3).
      rewrite map_app. eapply (letters_next _ _ _ (we_class e) (we_char e) _ (we_phrase e)); [by split_and!| | | |exact IH].
      + eapply target_only; [exact Ht|exact L2|exact I].
      + apply letter_written; [done|]. apply Forall_app in Hs as [_ Hs]. by inversion Hs.
      + eapply source_only; [exact He|exact L3|exact I].
  Qed.
  Lemma word_written e rs : wordC G g e rs → word_at zn on g (we_phrase e) (string_of_runes rs).
  Proof.
    intros Hw. pose proof (letters_written e rs Hw) as Hl. destruct Hw as [? ? ? (_&(R1&R2&R3)&_)|? ? ? ? (_&(R1&R2&R3)&_)];
      eexists _, _, _, _; (split; [exact (conj R1 (conj R2 (conj R3 (conj I I))))|split; [exact Hl|done]]).
  Qed.
  Lemma words_written e ws : phraseC G g e ws → words_at zn on g (pe_phrase e) (map string_of_runes ws).
  Proof.
    induction 1 as [e w c Hbase Hc He|e e' ws w Hbase Hw IH He]; destruct Hbase as ((L1&L2&L3&L4)&(R1&R2&R3)&c1&w1&Hl&Hc1&Ht).
    - injection Hl as <-.
      eapply (words_first _ _ _ (pe_class e) (pe_word e) _ (pe_detail e)); [by split_and!| |exact (word_written c1 _ Hc1)|].
      + eapply target_only; [exact Ht|exact L2|exact I].
      + eapply source_none; [exact L3|]. intros [] Hne Hl; simpl in Hl; try done. destruct Hne as [Hne _], Hl as [r' Hl]. by destruct ws as [|? []].
    - rewrite last_snoc in Hl. injection Hl as <-.
      rewrite map_app. eapply (words_next _ _ _ (pe_class e) (pe_word e) _ (pe_detail e)); [by split_and!| |exact (word_written c1 _ Hc1)| |exact IH].
      + eapply target_only; [exact Ht|exact L2|exact I].
      + eapply source_only; [exact He|exact L3|exact I].
  Qed.
  Lemma phrase_written e ws : phraseC G g e ws → phrase_at zn on g (pe_detail e) (text_of ws).
  Proof.
    intros Hw. pose proof (words_written e ws Hw) as Hl. destruct Hw as [? ? ? (_&(R1&R2&R3)&_)|? ? ? ? (_&(R1&R2&R3)&_)];
      eexists _, _, _, _; (split; [exact (conj R1 (conj R2 (conj R3 (conj I I))))|split; [exact Hl|done]]).
  Qed.
  Lemma remark_written r ob pr : remC G g r ob pr → remark_at zn on g (re_detail r) (text_of ob) (text_of pr).
  Proof.
    intros [[(_&L&_) (R1&_)] (d&(Lp&_&Hf&eo&ep&Ho&Hp&Eo&Ep)&He)]. split; [by apply (ok_coherent _ _ _ Hok) in R1 as (_&_&?)|].
    exists (de_remark d), (de_phrase d), (pe_detail eo), (pe_detail ep).
    split; [eapply source_only; [exact He|exact L|exact I]|]. split; [exact (conj Hf (conj I I))|]. split_and!.
    - eapply source_only; [exact Eo|exact Lp|exact I].
    - eapply target_only; [exact Ep|exact Lp|exact I].
    - by apply phrase_written.
    - by apply phrase_written.
  Qed.
End written.

Theorem texts_rule zp fk z o g r ob pr : coherent g → be_value z = false → be_value o = true → be_char z ≠ be_char o →
  remark_at (be_char z) (be_char o) g (re_detail r) ob pr →
  ∃ n, ∀ fuel out g' m', n ≤ fuel → exec zp fk (get_object_and_property fuel r) g (Some (z, o)) out g' m' →
    g' = g ∧ m' = Some (z, o) ∧ answers fk out (ob, pr).
Proof.
  intros Hg Hz Ho Hzo Hr. destruct (sure_texts (zp:=zp) (fk:=fk) z o g Hz Ho Hzo Hg r ob pr Hr) as [n Hn].
  exists n. intros fuel out g' m' Hf. by apply Hn.
Qed.
Theorem told_spelled zp faults fuel t w r ob pr : reach zp faults fuel t w → tells t r ob pr →
  coherent (store w) ∧ ∃ z o, be_value z = false ∧ be_value o = true ∧ be_char z ≠ be_char o ∧
    row (store w) [be_class z; be_char z] ∧ row (store w) [be_class o; be_char o] ∧
    (∀ x, (x, bitIdentifier) ∈ edges (store w) ↔ x = be_class z ∨ x = be_class o) ∧ (be_class z < be_class o)%N ∧
    remark_at (be_char z) (be_char o) (store w) (re_detail r) ob pr.
Proof.
  intros Hr Ht. destruct (reach_J _ _ _ _ _ Hr) as (d&G&HJ&_). pose proof (J_ok _ _ _ _ _ _ HJ) as Hok.
  split; [by eapply ok_coherent|].
  destruct (J_settled _ _ _ _ _ _ HJ (ex_intro _ _ (tells_issued _ _ _ _ Ht))) as (_&(z&o&Hb)&_).
  destruct (J_tells _ _ _ _ _ _ HJ _ _ _ Ht) as (ow&pw&f&(Hrem&_)&<-&<-&_).
  pose proof (ok_bits _ _ _ Hok) as Hbs. unfold bits_ok in Hbs. rewrite Hb in Hbs. destruct Hbs as (H1&H2&_&_&H5&H6&H7&H8&H9).
  exists z, o. split_and!; try done.
  - intros E. pose proof (proj2 (H9 (be_char z) false) eq_refl) as E1. pose proof (proj2 (H9 (be_char o) true) eq_refl) as E2.
    rewrite E in E1. congruence.
  - by eapply remark_written.
Qed.
