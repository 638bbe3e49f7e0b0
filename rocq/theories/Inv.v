(** The invariant of the stored graph.

    Each node carries a label: the role it plays and the text it stands for.
    Labels are proof devices, they are not stored. *)
From stdpp Require Import gmap.
From Coq Require Import NArith ZArith Lia.
From Verif Require Import Base GoText Codec Model1 Model2 Model3 Storage.
Local Open Scope nat_scope.

(** A code point, a word (its code points) and a phrase (its words). *)
Notation rune := Z (only parsing).
Notation wtext := (list Z) (only parsing).
Notation ptext := (list (list Z)) (only parsing).

Inductive label :=
| LZero                       (* the number 0 *)
| LRoot (k : N)               (* class node k = 1..8 *)
| LCls (k : N)                (* class node of an entity of class k *)
| LBitCh (b : bool)
| LCharBit (r : rune) | LCharChar (r : rune) | LCharWord (r : rune)
| LWordChar (rs : wtext) | LWordWord (rs : wtext) | LWordPhr (rs : wtext)
| LPhrWord (ws : ptext) | LPhrPhr (ws : ptext) | LPhrDet (ws : ptext)
| LDetPhr (o p : ptext) | LDetRem (o p : ptext)
| LRemDet (o p : ptext) | LRemPos | LRemFact
| LFactRem | LFactPos | LFactStory
| LStFact | LStPos | LStTree (child : bool).

Global Instance label_eq_dec : EqDecision label.
Proof. solve_decision. Defined.

(** Which edges may exist. *)
Definition edge_ok (lx ly : label) : Prop :=
  match lx, ly with
  | LCls k, LRoot k' => k = k'
  | LCharBit r, LBitCh b => b = Z.odd r
  | LBitCh b, LCharBit r => r = Z.b2z b
  | LCharChar r, LCharChar r' => (2 <= r')%Z ∧ r = (r' / 2)%Z
  | LCharWord r, LWordChar rs => rs = [r]
  | LWordChar rs, LCharWord r => last rs = Some r
  | LWordWord rs, LWordWord rs' => ∃ r, rs' = rs ++ [r]
  | LWordPhr rs, LPhrWord ws => ws = [rs]
  | LPhrWord ws, LWordPhr rs => last ws = Some rs
  | LPhrPhr ws, LPhrPhr ws' => ∃ w, ws' = ws ++ [w]
  | LPhrDet o, LDetPhr o' _ => o = o'
  | LDetPhr _ p, LPhrDet p' => p = p'
  | LDetRem o p, LRemDet o' p' => o = o' ∧ p = p'
  | LRemFact, LFactRem | LFactRem, LRemFact => True
  | LFactStory, LStFact | LStFact, LFactStory => True
  (* edges at node 0, only possible if the storage accepts it *)
  | LFactStory, LZero | LZero, LFactPos => True
  | LStTree b, LZero | LZero, LStTree b => b = true
  | LFactPos, LStPos | LStPos, LStPos => True
  | _, _ => False
  end.

Definition one_target (l : label) : Prop :=
  match l with
  | LCharBit _ | LWordChar _ | LPhrWord _ | LDetPhr _ _
  | LRemFact | LFactRem | LFactStory | LStFact => True
  | _ => False
  end.

(** The same for these, as long as one call at a time writes. *)
Definition head_target (l : label) : Prop :=
  match l with LBitCh _ | LWordPhr _ => True | _ => False end.

Definition sole (l : label) : Prop :=
  match l with
  | LBitCh _ | LCharBit _ | LWordChar _ | LWordPhr _ | LPhrWord _ | LDetPhr _ _
  | LRemFact | LFactRem | LFactStory | LStFact => True
  | _ => False
  end.

Lemma sole_of_target l : one_target l → sole l.
Proof. by destruct l. Qed.

Lemma sole_of_head l : head_target l → sole l.
Proof. by destruct l. Qed.

Lemma sole_inv l : sole l → one_target l ∨ head_target l.
Proof. destruct l; simpl; auto. Qed.

Definition one_source (l : label) : Prop :=
  match l with
  | LCharChar _ | LWordWord _ | LPhrPhr _ | LDetPhr _ _ | LRemDet _ _ => True
  | _ => False
  end.

(** Children of these nodes have pairwise different texts, as long as one call at
    a time writes. *)
Definition distinct_children (l : label) : Prop :=
  match l with LCharChar _ | LWordWord _ => True | _ => False end.

(** Which references may exist. *)
Definition ref_ok (lx ly : label) : Prop :=
  match lx, ly with
  | LRoot k, LRoot k' => k' = (k + 1)%N
  | LCls k, LBitCh _ => k = bitIdentifier
  | LCls k, LCharBit _ => k = characterIdentifier
  | LCls k, LWordChar _ => k = wordIdentifier
  | LCls k, LPhrWord _ => k = phraseIdentifier
  | LCls k, LDetPhr _ _ => k = detailIdentifier
  | LCls k, LRemDet _ _ => k = remarkIdentifier
  | LCls k, LFactRem => k = factIdentifier
  | LCls k, LStFact => k = storyIdentifier
  | LCharBit r, LCharChar r' => r = r'
  | LCharChar r, LCharWord r' => r = r'
  | LWordChar r, LWordWord r' => r = r'
  | LWordWord r, LWordPhr r' => r = r'
  | LPhrWord r, LPhrPhr r' => r = r'
  | LPhrPhr r, LPhrDet r' => r = r'
  | LDetPhr o p, LDetRem o' p' => o = o' ∧ p = p'
  | LRemDet _ _, LRemPos => True
  | LRemPos, LRemFact => True
  | LFactRem, LFactPos => True
  | LFactPos, LFactStory => True
  | LStFact, LStPos => True
  | LStPos, LStTree _ => True
  | _, _ => False
  end.

(** How deep in the layers a node is; a call of one layer only adds edges that
    start at its own or a lower rank. *)
Definition rank (l : label) : nat :=
  match l with
  | LRoot _ | LCls _ => 0
  | LBitCh _ | LCharBit _ | LCharChar _ => 1
  | LCharWord _ | LWordChar _ | LWordWord _ => 2
  | LWordPhr _ | LPhrWord _ | LPhrPhr _ => 3
  | LPhrDet _ | LDetPhr _ _ => 4
  | LDetRem _ _ => 5
  | _ => 6
  end.

Definition rune_ok (r : Z) : Prop := (0 <= r < 2147483648)%Z.

Section bound.
  (** Bound on stored texts (the fuel of the model's loops). *)
  Context (F : nat).

  Definition wtext_ok (rs : wtext) : Prop := rs ≠ [] ∧ length rs < F ∧ Forall scalar rs.
  Definition ptext_ok (ws : ptext) : Prop := ws ≠ [] ∧ length ws < F ∧ Forall wtext_ok ws.

  Definition label_ok (l : label) : Prop :=
    match l with
    | LCharBit r | LCharChar r | LCharWord r => rune_ok r
    | LWordChar rs | LWordWord rs | LWordPhr rs => wtext_ok rs
    | LPhrWord ws | LPhrPhr ws | LPhrDet ws => ptext_ok ws
    | LDetPhr o p | LDetRem o p => ptext_ok o ∧ ptext_ok p
    | LRoot k => (1 <= k <= 8)%N
    | _ => True
    end.
End bound.

(** State of the bit layer. *)
Inductive bstate := BNone | BPart | BReady (z o : bit_ent).

(** [solo]: one call at a time writes. *)
Record ghost := Gh {
  lab : gmap N label;
  bits : bstate;
  solo : bool
}.

(** The class layer is initialised. *)
Definition up (G : ghost) : Prop := ∀ k, (1 <= k <= 8)%N → lab G !! k = Some (LRoot k).

Definition bit_of (z o : bit_ent) (b : bool) : bit_ent := if b then o else z.

(** * Complete entities

    Predicates that hold for good once they hold. *)
Definition refs3 (g : graph) (x a b c : N) : Prop :=
  fwd g !! x = Some a ∧ fwd g !! a = Some b ∧ fwd g !! b = Some c.

Definition labs4 (G : ghost) (x a b c : N) (lx la lb lc : label) : Prop :=
  lab G !! x = Some lx ∧ lab G !! a = Some la ∧ lab G !! b = Some lb ∧ lab G !! c = Some lc.

(** The four nodes of a character and its edge to its last bit. *)
Definition char_base (G : ghost) (g : graph) (e : char_ent) (r : rune) : Prop :=
  labs4 G (ce_class e) (ce_bit e) (ce_char e) (ce_word e)
    (LCls characterIdentifier) (LCharBit r) (LCharChar r) (LCharWord r) ∧
  refs3 g (ce_class e) (ce_bit e) (ce_char e) (ce_word e) ∧
  ∃ z o, bits G = BReady z o ∧ (ce_bit e, be_char (bit_of z o (Z.odd r))) ∈ edges g.

(** A character linked into the trie of bits. *)
Inductive charC (G : ghost) (g : graph) : char_ent → rune → Prop :=
| charC_head e r z o :
    char_base G g e r → (r < 2)%Z → bits G = BReady z o →
    (be_char (bit_of z o (Z.odd r)), ce_bit e) ∈ edges g →
    charC G g e r
| charC_tail e e' r :
    char_base G g e r → (2 <= r)%Z → charC G g e' (r / 2) →
    (ce_char e', ce_char e) ∈ edges g →
    charC G g e r.

Definition word_base (G : ghost) (g : graph) (e : word_ent) (rs : wtext) : Prop :=
  labs4 G (we_class e) (we_char e) (we_word e) (we_phrase e)
    (LCls wordIdentifier) (LWordChar rs) (LWordWord rs) (LWordPhr rs) ∧
  refs3 g (we_class e) (we_char e) (we_word e) (we_phrase e) ∧
  ∃ c r, last rs = Some r ∧ charC G g c r ∧ (we_char e, ce_word c) ∈ edges g.

(** A word linked into the forest of code points. *)
Inductive wordC (G : ghost) (g : graph) : word_ent → wtext → Prop :=
| wordC_head e r c :
    word_base G g e [r] → charC G g c r → (ce_word c, we_char e) ∈ edges g →
    wordC G g e [r]
| wordC_tail e e' rs r :
    word_base G g e (rs ++ [r]) → wordC G g e' rs →
    (we_word e', we_word e) ∈ edges g →
    wordC G g e (rs ++ [r]).

Definition phrase_base (G : ghost) (g : graph) (e : phrase_ent) (ws : ptext) : Prop :=
  labs4 G (pe_class e) (pe_word e) (pe_phrase e) (pe_detail e)
    (LCls phraseIdentifier) (LPhrWord ws) (LPhrPhr ws) (LPhrDet ws) ∧
  refs3 g (pe_class e) (pe_word e) (pe_phrase e) (pe_detail e) ∧
  ∃ w rs, last ws = Some rs ∧ wordC G g w rs ∧ (pe_word e, we_phrase w) ∈ edges g.

(** A phrase linked into the forest of words. *)
Inductive phraseC (G : ghost) (g : graph) : phrase_ent → ptext → Prop :=
| phraseC_head e rs w :
    phrase_base G g e [rs] → wordC G g w rs → (we_phrase w, pe_word e) ∈ edges g →
    phraseC G g e [rs]
| phraseC_tail e e' ws rs :
    phrase_base G g e (ws ++ [rs]) → phraseC G g e' ws →
    (pe_phrase e', pe_phrase e) ∈ edges g →
    phraseC G g e (ws ++ [rs]).

Definition detailC (G : ghost) (g : graph) (d : detail_ent) (o p : ptext) : Prop :=
  lab G !! de_phrase d = Some (LDetPhr o p) ∧
  lab G !! de_remark d = Some (LDetRem o p) ∧
  fwd g !! de_phrase d = Some (de_remark d) ∧
  ∃ eo ep, phraseC G g eo o ∧ phraseC G g ep p ∧
    (pe_detail eo, de_phrase d) ∈ edges g ∧ (de_phrase d, pe_detail ep) ∈ edges g.

Definition rem_base (G : ghost) (g : graph) (e : remark_ent) (o p : ptext) : Prop :=
  labs4 G (re_class e) (re_detail e) (re_position e) (re_fact e)
    (LCls remarkIdentifier) (LRemDet o p) LRemPos LRemFact ∧
  refs3 g (re_class e) (re_detail e) (re_position e) (re_fact e).

(** A remark whose text can be read. *)
Definition remC (G : ghost) (g : graph) (e : remark_ent) (o p : ptext) : Prop :=
  rem_base G g e o p ∧
  ∃ d, detailC G g d o p ∧ (de_remark d, re_detail e) ∈ edges g.

Definition fact_base (G : ghost) (g : graph) (f : fact_ent) : Prop :=
  labs4 G (fe_class f) (fe_remark f) (fe_position f) (fe_story f)
    (LCls factIdentifier) LFactRem LFactPos LFactStory ∧
  refs3 g (fe_class f) (fe_remark f) (fe_position f) (fe_story f).

Definition story_base (b : bool) (G : ghost) (g : graph) (s : story_ent) : Prop :=
  labs4 G (se_class s) (se_fact s) (se_position s) (se_tree s)
    (LCls storyIdentifier) LStFact LStPos (LStTree b) ∧
  refs3 g (se_class s) (se_fact s) (se_position s) (se_tree s).

(** What an edge lets a reader rely on: its far end is a complete entity. *)
Definition exposed (G : ghost) (g : graph) (lx ly : label) (y : N) : Prop :=
  match lx, ly with
  | LBitCh _, LCharBit r => ∃ e, charC G g e r ∧ ce_bit e = y
  | LCharChar _, LCharChar r => ∃ e, charC G g e r ∧ ce_char e = y
  | LCharWord _, LWordChar rs => ∃ e, wordC G g e rs ∧ we_char e = y
  | LWordWord _, LWordWord rs => ∃ e, wordC G g e rs ∧ we_word e = y
  | LWordPhr _, LPhrWord ws => ∃ e, phraseC G g e ws ∧ pe_word e = y
  | LPhrPhr _, LPhrPhr ws => ∃ e, phraseC G g e ws ∧ pe_phrase e = y
  | _, _ => True
  end.

Definition bits_ok (G : ghost) (g : graph) : Prop :=
  match bits G with
  | BNone => (∀ x, (x, bitIdentifier) ∉ edges g) ∧ (∀ x b, lab G !! x ≠ Some (LBitCh b))
  | BPart => True
  | BReady z o =>
    (∀ x, (x, bitIdentifier) ∈ edges g ↔ x = be_class z ∨ x = be_class o) ∧
    (be_class z < be_class o)%N ∧
    lab G !! be_class z = Some (LCls bitIdentifier) ∧
    lab G !! be_class o = Some (LCls bitIdentifier) ∧
    fwd g !! be_class z = Some (be_char z) ∧ fwd g !! be_class o = Some (be_char o) ∧
    be_value z = false ∧ be_value o = true ∧
    (∀ x b, lab G !! x = Some (LBitCh b) ↔ x = be_char (bit_of z o b))
  end.

Record ok (F : nat) (G : ghost) (g : graph) : Prop := {
  ok_zero : lab G !! 0%N = Some LZero;
  ok_zero_only : ∀ x, lab G !! x = Some LZero → x = 0%N;
  ok_zero_node : 0%N ∉ nodes g;
  ok_dom : ∀ x, x ≠ 0%N → x ∈ nodes g ↔ is_Some (lab G !! x);
  ok_label : ∀ x l, lab G !! x = Some l → label_ok F l;
  ok_edge : ∀ x y, (x, y) ∈ edges g →
    ∃ lx ly, lab G !! x = Some lx ∧ lab G !! y = Some ly ∧ edge_ok lx ly ∧ exposed G g lx ly y;
  ok_target : ∀ x y z l, (x, y) ∈ edges g → (x, z) ∈ edges g →
    lab G !! x = Some l → one_target l → y = z;
  ok_source : ∀ x y z l, (y, x) ∈ edges g → (z, x) ∈ edges g →
    lab G !! x = Some l → one_source l → y = z;
  ok_head : solo G = true → ∀ x y z l, (x, y) ∈ edges g → (x, z) ∈ edges g →
    lab G !! x = Some l → head_target l → y = z;
  ok_children : solo G = true → ∀ x y z l l', (x, y) ∈ edges g → (x, z) ∈ edges g →
    lab G !! x = Some l → distinct_children l →
    lab G !! y = Some l' → lab G !! z = Some l' → y = z;
  ok_ref : ∀ x y, fwd g !! x = Some y →
    ∃ lx ly, lab G !! x = Some lx ∧ lab G !! y = Some ly ∧ ref_ok lx ly;
  ok_inv : ∀ x y, fwd g !! x = Some y ↔ bwd g !! y = Some x;
  ok_root : ∀ x k, lab G !! x = Some (LRoot k) → x = k;
  (* a class node of an entity is connected before it refers to anything *)
  ok_class : ∀ x y k, lab G !! x = Some (LCls k) → fwd g !! x = Some y → (x, k) ∈ edges g;
  ok_bits : bits_ok G g
}.

(** * Extension *)

Definition bits_le (b b' : bstate) : Prop :=
  match b, b' with
  | BNone, _ => True
  | BPart, (BPart | BReady _ _) => True
  | BReady z o, BReady z' o' => z = z' ∧ o = o'
  | _, _ => False
  end.

Record ext (G : ghost) (g : graph) (G' : ghost) (g' : graph) : Prop := {
  ext_lab : lab G ⊆ lab G';
  ext_nodes : nodes g ⊆ nodes g';
  ext_edges : edges g ⊆ edges g';
  ext_fwd : fwd g ⊆ fwd g';
  ext_bwd : bwd g ⊆ bwd g';
  ext_bits : bits_le (bits G) (bits G');
  ext_solo : solo G' = solo G
}.

Lemma bits_le_refl b : bits_le b b.
Proof. destruct b; simpl; auto. Qed.

Lemma bits_le_trans a b c : bits_le a b → bits_le b c → bits_le a c.
Proof. destruct a, b, c; simpl; intuition congruence. Qed.

Lemma ext_refl G g : ext G g G g.
Proof. split; auto using bits_le_refl; done. Qed.

Lemma ext_trans G g G1 g1 G2 g2 :
  ext G g G1 g1 → ext G1 g1 G2 g2 → ext G g G2 g2.
Proof.
  intros [] []; split; try (etrans; eassumption); eauto using bits_le_trans.
Qed.

Section ext_facts.
  Context {G : ghost} {g : graph} {G' : ghost} {g' : graph} (X : ext G g G' g').

  Lemma ext_lab_lookup x l : lab G !! x = Some l → lab G' !! x = Some l.
  Proof. intros; eapply lookup_weaken; [done|apply X]. Qed.
  Lemma ext_fwd_lookup x y : fwd g !! x = Some y → fwd g' !! x = Some y.
  Proof. intros; eapply lookup_weaken; [done|apply X]. Qed.
  Lemma ext_bwd_lookup x y : bwd g !! x = Some y → bwd g' !! x = Some y.
  Proof. intros; eapply lookup_weaken; [done|apply X]. Qed.
  Lemma ext_edge e : e ∈ edges g → e ∈ edges g'.
  Proof. apply X. Qed.
  Lemma ext_ready z o : bits G = BReady z o → bits G' = BReady z o.
  Proof. intros H. pose proof (ext_bits _ _ _ _ X) as H'. rewrite H in H'.
    simpl in H'. destruct (bits G'); naive_solver. Qed.

  Lemma up_mono : up G → up G'.
  Proof. intros H k Hk. by apply ext_lab_lookup, H. Qed.

  Lemma refs3_mono x a b c : refs3 g x a b c → refs3 g' x a b c.
  Proof. intros (?&?&?); split_and!; eauto using ext_fwd_lookup. Qed.
  Lemma labs4_mono x a b c lx la lb lc : labs4 G x a b c lx la lb lc → labs4 G' x a b c lx la lb lc.
  Proof. intros (?&?&?&?); split_and!; eauto using ext_lab_lookup. Qed.

  Lemma char_base_mono e r : char_base G g e r → char_base G' g' e r.
  Proof.
    intros (?&?&z&o&?&?). split; [eauto using labs4_mono|].
    split; [eauto using refs3_mono|]. eauto 10 using ext_ready, ext_edge.
  Qed.
  Lemma charC_mono e r : charC G g e r → charC G' g' e r.
  Proof.
    induction 1.
    - eapply charC_head; eauto using char_base_mono, ext_ready, ext_edge.
    - eapply charC_tail; eauto using char_base_mono, ext_edge.
  Qed.
  Lemma word_base_mono e rs : word_base G g e rs → word_base G' g' e rs.
  Proof.
    intros (?&?&c&r&?&?&?). split; [eauto using labs4_mono|].
    split; [eauto using refs3_mono|]. exists c, r. eauto using charC_mono, ext_edge.
  Qed.
  Lemma wordC_mono e rs : wordC G g e rs → wordC G' g' e rs.
  Proof.
    induction 1.
    - eapply wordC_head; eauto using word_base_mono, charC_mono, ext_edge.
    - eapply wordC_tail; eauto using word_base_mono, ext_edge.
  Qed.
  Lemma phrase_base_mono e ws : phrase_base G g e ws → phrase_base G' g' e ws.
  Proof.
    intros (?&?&c&r&?&?&?). split; [eauto using labs4_mono|].
    split; [eauto using refs3_mono|]. exists c, r. eauto using wordC_mono, ext_edge.
  Qed.
  Lemma phraseC_mono e ws : phraseC G g e ws → phraseC G' g' e ws.
  Proof.
    induction 1.
    - eapply phraseC_head; eauto using phrase_base_mono, wordC_mono, ext_edge.
    - eapply phraseC_tail; eauto using phrase_base_mono, ext_edge.
  Qed.
  Lemma detailC_mono d o p : detailC G g d o p → detailC G' g' d o p.
  Proof.
    intros (?&?&?&eo&ep&?&?&?&?). split; [by apply ext_lab_lookup|].
    split; [by apply ext_lab_lookup|]. split; [by apply ext_fwd_lookup|].
    exists eo, ep. split_and!; eauto using phraseC_mono, ext_edge.
  Qed.
  Lemma rem_base_mono e o p : rem_base G g e o p → rem_base G' g' e o p.
  Proof. intros (?&?). split; eauto using labs4_mono, refs3_mono. Qed.
  Lemma remC_mono e o p : remC G g e o p → remC G' g' e o p.
  Proof.
    intros (?&d&?&?). split; [eauto using rem_base_mono|].
    exists d. eauto using detailC_mono, ext_edge.
  Qed.
  Lemma fact_base_mono f : fact_base G g f → fact_base G' g' f.
  Proof. intros (?&?). split; eauto using labs4_mono, refs3_mono. Qed.
  Lemma story_base_mono {b} f : story_base b G g f → story_base b G' g' f.
  Proof. intros (?&?). split; eauto using labs4_mono, refs3_mono. Qed.
  Lemma exposed_mono lx ly y : exposed G g lx ly y → exposed G' g' lx ly y.
  Proof.
    destruct lx, ly; simpl; auto; intros (e&?&?); exists e;
      eauto using charC_mono, wordC_mono, phraseC_mono.
  Qed.
End ext_facts.

Global Hint Resolve ext_refl : core.

(** Extension that only adds edges starting at rank at most [n]. *)
Definition extn (n : nat) (G : ghost) (g : graph) (G' : ghost) (g' : graph) : Prop :=
  ext G g G' g' ∧
  ∀ x y, (x, y) ∈ edges g' → (x, y) ∉ edges g →
    ∃ l, lab G' !! x = Some l ∧ rank l ≤ n.

Lemma extn_ext n G g G' g' : extn n G g G' g' → ext G g G' g'.
Proof. by intros []. Qed.

Lemma extn_refl n G g : extn n G g G g.
Proof. split; [done|]. done. Qed.

Lemma extn_trans n G g G1 g1 G2 g2 :
  extn n G g G1 g1 → extn n G1 g1 G2 g2 → extn n G g G2 g2.
Proof.
  intros [X1 H1] [X2 H2]. split; [by eapply ext_trans|].
  intros x y ? ?. destruct (decide ((x, y) ∈ edges g1)) as [?|?]; [|eauto].
  destruct (H1 x y) as (l&?&?); [done..|]. exists l. eauto using @ext_lab_lookup.
Qed.

Lemma extn_le n n' G g G' g' : n ≤ n' → extn n G g G' g' → extn n' G g G' g'.
Proof.
  intros ? [X H]. split; [done|]. intros x y ? ?.
  destruct (H x y) as (l&?&?); [done..|]. exists l. split; [done|lia].
Qed.

Global Hint Resolve extn_refl extn_ext : core.

Lemma solo_mono {G g G' g'} : ext G g G' g' → solo G = true → solo G' = true.
Proof. intros X <-. apply X. Qed.


(** The bit layer is not in the middle of its initialisation, and nobody else
    writes. *)
Definition quiet (G : ghost) : Prop := bits G ≠ BPart ∧ solo G = true.

Lemma quiet_solo G : quiet G → solo G = true.
Proof. by intros [_ ?]. Qed.
Global Hint Resolve quiet_solo : core.

Definition cache_ok (G : ghost) (m : cache) : Prop :=
  match m with None => True | Some (z, o) => bits G = BReady z o end.

Lemma cache_ok_mono G g G' g' m : ext G g G' g' → cache_ok G m → cache_ok G' m.
Proof. destruct m as [[z o]|]; simpl; eauto using @ext_ready. Qed.
