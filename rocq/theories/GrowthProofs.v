(** How much a call adds to the storage: proofs. *)
From stdpp Require Import gmap.
From Coq Require Import NArith ZArith Lia.
From Verif Require Import Base GoText Codec Model1 Model2 Model3 Storage SpecText SpecMachine Spec SpecMoments SpecGrowth Inv Wp Steps
  Entity BitProofs Reads CharProofs WordProofs PhraseProofs DetailProofs StoryProofs HistoryProofs ApiProofs InitProofs LaterProofs
  MomentProofs CallProofs.
Local Open Scope nat_scope.

(** ** Counting

    [cap n k p]: in a storage that has been set up, whatever it answers, [p]
    creates at most [n] nodes and makes at most [k] edges and references. *)
Definition creates (c : call) : nat := match c with CCreate => 1 | _ => 0 end.
Definition links (c : call) : nat := match c with CSetRef _ _ | CConnect _ _ => 1 | _ => 0 end.
(** Answers of a storage that has been set up. *)
Definition sane (c : call) : res (answer c) → Prop :=
  match c return res (answer c) → Prop with
  | CHas x => λ r, x = 1%N → r ≠ Ok false
  | CSources x => λ r, x = 1%N → r ≠ Ok []
  | _ => λ _, True
  end.
Fixpoint cap {A} (n k : nat) (p : prog A) : Prop :=
  match p with
  | Ret _ | Throw _ | Panic | Diverge => True
  | Call c kk =>
    creates c ≤ n ∧ links c ≤ k ∧ ∀ r, sane c r → cap (n - creates c) (k - links c) (kk r)
  | LoadBits kk => ∀ m, cap n k (kk m)
  | StoreBits m kk => cap n k kk
  end.
Lemma cap_mono {A} (p : prog A) n k n' k' : cap n k p → n ≤ n' → k ≤ k' → cap n' k' p.
Proof.
  revert n k n' k'. induction p as [b|e| | |c kk IH|kk IH|m1 kk IH]; intros n k n' k' H Hn Hk; cbn [cap] in *; try done.
  - destruct H as (H1&H2&H). split_and!; [lia|lia|]. intros r Hr. eapply IH; [by apply H|lia|lia].
  - intros m. by eapply IH.
  - by eapply IH.
Qed.
Lemma cap_bind {A B} (p : prog A) (f : A → prog B) n1 k1 n2 k2 n k :
  cap n1 k1 p → (∀ a, cap n2 k2 (f a)) → n1 + n2 ≤ n → k1 + k2 ≤ k → cap n k (bind p f).
Proof.
  revert n1 k1 n k. induction p as [b|e| | |c kk IH|kk IH|m1 kk IH]; intros n1 k1 n k H Hf Hn Hk; cbn [cap bind] in *; try done.
  - eapply cap_mono; [apply Hf|lia|lia].
  - destruct H as (H1&H2&H). split_and!; [lia|lia|]. intros r Hr. eapply IH; [by apply H|done|lia|lia].
  - intros m. by eapply IH.
  - by eapply IH.
Qed.
Lemma cap_try {A} (p : prog A) n k : cap n k p → cap n k (try p).
Proof.
  revert n k. induction p as [b|e| | |c kk IH|kk IH|m1 kk IH]; intros n k H; cbn [cap try] in *; try done.
  - destruct H as (H1&H2&H). split_and!; [lia|lia|]. intros r Hr. by apply IH, H.
  - intros m. by apply IH.
  - by apply IH.
Qed.
Lemma cap_invoke c (n k : nat) : creates c ≤ n → links c ≤ k → cap n k (invoke c).
Proof. intros. cbn [invoke cap]. split_and!; [done..|]. by intros [] _. Qed.
Lemma cap_call {B} c (f : answer c → prog B) (n k : nat) :
  creates c ≤ n → links c ≤ k → (∀ a, sane c (Ok a) → cap (n - creates c) (k - links c) (f a)) → cap n k (bind (invoke c) f).
Proof. intros H1 H2 H. cbn [invoke cap bind]. split_and!; [done..|]. intros [a|e] Hr; cbn [of_res bind]; [by apply H|done]. Qed.
Lemma cap_of_res {A} (r : res A) n k : cap n k (of_res r).
Proof. by destruct r. Qed.
Lemma cap_single {A} e (l : list A) n k : cap n k (single e l).
Proof. by destruct l as [|? []]. Qed.
Lemma cap_zero_or_one {A} e (l : list A) n k : cap n k (zero_or_one e l).
Proof. by destruct l as [|? []]. Qed.
Lemma cap_deref {A} (o : option A) n k : cap n k (deref o).
Proof. by destruct o. Qed.

Lemma cap_free {A B} (p : prog A) (f : A → prog B) n k :
  (∀ n k, cap n k p) → (∀ a, cap n k (f a)) → cap n k (bind p f).
Proof. intros Hp Hf. eapply (cap_bind p f 0 0 n k); [apply Hp|done|done|done]. Qed.
Lemma cap_spend {A B} (p : prog A) (f : A → prog B) n1 k1 n k :
  cap n1 k1 p → n1 ≤ n → k1 ≤ k → (∀ a, cap (n - n1) (k - k1) (f a)) → cap n k (bind p f).
Proof. intros Hp Hn Hk Hf. eapply cap_bind; [done..|lia|lia]. Qed.

Create HintDb caps.
Ltac cap0 :=
  match goal with
  | |- cap _ _ (Ret _) => exact I
  | |- cap _ _ (Throw _) => exact I
  | |- cap _ _ Panic => exact I
  | |- cap _ _ Diverge => exact I
  | |- cap _ _ (single _ _) => apply cap_single
  | |- cap _ _ (zero_or_one _ _) => apply cap_zero_or_one
  | |- cap _ _ (deref _) => apply cap_deref
  | |- cap _ _ (of_res _) => apply cap_of_res
  | |- cap _ _ (bind (single _ _) _) => apply cap_free; [intros; apply cap_single|intros ?]
  | |- cap _ _ (bind (zero_or_one _ _) _) => apply cap_free; [intros; apply cap_zero_or_one|intros ?]
  | |- cap _ _ (bind (deref _) _) => apply cap_free; [intros; apply cap_deref|intros ?]
  | |- cap _ _ (bind (of_res _) _) => apply cap_free; [intros; apply cap_of_res|intros ?]
  | |- cap _ _ (bind (Ret _) _) => cbn [bind]
  | |- cap _ _ (bind (try _) _) => eapply cap_spend; [apply cap_try; solve [eauto 2 with caps nocore]|lia|lia|intros ?]
  | |- cap _ _ (bind _ _) => eapply cap_spend; [solve [eauto 2 with caps nocore]|lia|lia|intros ?]
  | |- cap _ _ (if ?x then _ else _) => destruct x
  | |- cap _ _ (match ?x with _ => _ end) => destruct x
  | |- cap _ _ _ => eapply cap_mono; [solve [eauto 2 with caps nocore]|lia|lia]
  end.
Ltac capped := repeat (cbv beta zeta; cap0).

Lemma cap_has x : cap 0 0 (st_has x).
Proof. by apply cap_invoke. Qed.
Lemma cap_create : cap 1 0 st_create.
Proof. by apply cap_invoke. Qed.
Lemma cap_sources x : cap 0 0 (st_sources x).
Proof. by apply cap_invoke. Qed.
Lemma cap_targets x : cap 0 0 (st_targets x).
Proof. by apply cap_invoke. Qed.
Lemma cap_setref x y : cap 0 1 (st_setref x y).
Proof. by apply cap_invoke. Qed.
Lemma cap_getref x : cap 0 0 (st_getref x).
Proof. by apply cap_invoke. Qed.
Lemma cap_connect x y : cap 0 1 (st_connect x y).
Proof. by apply cap_invoke. Qed.
#[local] Hint Resolve cap_has cap_create cap_sources cap_targets cap_setref cap_getref cap_connect : caps.

(** ** class and bit *)
Lemma cap_class_provide : cap 0 0 class_provide.
Proof.
  unfold class_provide. apply cap_call; [done..|]. intros a Ha. simpl in Ha.
  destruct a; [done|]. by destruct (Ha eq_refl).
Qed.
Lemma cap_class_new c : cap 1 1 (class_new c).
Proof. unfold class_new. capped. Qed.
#[local] Hint Resolve cap_class_provide cap_class_new : caps.
Lemma cap_class_is c x : cap 0 0 (class_is c x).
Proof. unfold class_is. capped. Qed.
Lemma cap_bit_initialize : cap 0 0 bit_initialize.
Proof.
  unfold bit_initialize. cbn [cap]. intros [zo|]; [exact I|].
  eapply cap_spend; [apply cap_class_provide|done..|]. intros _. unfold class_all_bits.
  apply cap_call; [done..|]. intros l Hl. simpl in Hl.
  destruct l as [|c0 [|c1 [|]]]; [by destruct (Hl eq_refl)|done| |done].
  cbn [creates links Nat.sub]. apply (cap_bind _ _ 0 0 0 0); [|by intros ?|done|done]. capped.
Qed.
#[local] Hint Resolve cap_class_is cap_bit_initialize : caps.
Lemma cap_bit_provide b : cap 0 0 (bit_provide b).
Proof. unfold bit_provide. capped. Qed.
Lemma cap_bit_fetch x : cap 0 0 (bit_fetch x).
Proof. unfold bit_fetch. capped. Qed.
Lemma cap_bit_has_target e : cap 0 0 (bit_has_target_character e).
Proof. unfold bit_has_target_character. capped. Qed.
Lemma cap_bit_point e x : cap 0 1 (bit_point_to_character e x).
Proof. unfold bit_point_to_character. capped. Qed.
Lemma cap_bit_get_target e : cap 0 0 (bit_get_target_character e).
Proof. unfold bit_get_target_character. capped. Qed.
#[local] Hint Resolve cap_bit_provide cap_bit_fetch cap_bit_has_target cap_bit_point cap_bit_get_target : caps.

(** ** character *)
Lemma cap_char_create_entity x : cap 3 3 (char_create_entity x).
Proof. unfold char_create_entity. capped. Qed.
Lemma cap_char_read_by_bit x : cap 0 0 (char_read_by_bit x).
Proof. unfold char_read_by_bit. capped. Qed.
Lemma cap_char_read_by_character x : cap 0 0 (char_read_by_character x).
Proof. unfold char_read_by_character. capped. Qed.
Lemma cap_char_read_by_word x : cap 0 0 (char_read_by_word x).
Proof. unfold char_read_by_word. capped. Qed.
Lemma cap_char_point_to_bit e x : cap 0 1 (char_point_to_bit e x).
Proof. unfold char_point_to_bit. capped. Qed.
Lemma cap_char_point_to_character e x : cap 0 1 (char_point_to_character e x).
Proof. unfold char_point_to_character. capped. Qed.
Lemma cap_char_point_to_word e x : cap 0 1 (char_point_to_word e x).
Proof. unfold char_point_to_word. capped. Qed.
Lemma cap_char_get_target_bit e : cap 0 0 (char_get_target_bit e).
Proof. unfold char_get_target_bit. capped. Qed.
Lemma cap_char_get_target_characters e : cap 0 0 (char_get_target_characters e).
Proof. unfold char_get_target_characters. capped. Qed.
Lemma cap_char_has_source e : cap 0 0 (char_has_source_character e).
Proof. unfold char_has_source_character. capped. Qed.
Lemma cap_char_get_source e : cap 0 0 (char_get_source_character e).
Proof. unfold char_get_source_character. capped. Qed.
Lemma cap_char_has_target_word e : cap 0 0 (char_has_target_word e).
Proof. unfold char_has_target_word. capped. Qed.
Lemma cap_char_get_target_word e : cap 0 0 (char_get_target_word e).
Proof. unfold char_get_target_word. capped. Qed.
#[local] Hint Resolve cap_char_create_entity cap_char_read_by_bit cap_char_read_by_character cap_char_read_by_word
  cap_char_point_to_bit cap_char_point_to_character cap_char_point_to_word cap_char_get_target_bit cap_char_get_target_characters
  cap_char_has_source cap_char_get_source cap_char_has_target_word cap_char_get_target_word : caps.
Lemma cap_char_head b : cap 4 6 (char_provide_head_entity b).
Proof. unfold char_provide_head_entity. capped. Qed.
Lemma cap_char_tail b e : cap 4 6 (char_create_tail_entity b e).
Proof. unfold char_create_tail_entity. capped. Qed.
Lemma cap_char_read_all ids : cap 0 0 (char_read_all ids).
Proof. induction ids as [|x ids IH]; [exact I|]. cbn [char_read_all]. capped. Qed.
Lemma cap_char_find b es : cap 0 0 (char_find b es).
Proof. induction es as [|x es IH]; [exact I|]. cbn [char_find]. capped. Qed.
#[local] Hint Resolve cap_char_head cap_char_tail cap_char_read_all cap_char_find : caps.
Lemma cap_char_next el b : cap 4 6 (char_provide_next_element el b).
Proof. unfold char_provide_next_element. capped. Qed.
Lemma cap_char_bit_value el : cap 0 0 (char_extract_bit_value el).
Proof. unfold char_extract_bit_value. capped. Qed.
Lemma cap_char_has_previous el : cap 0 0 (char_has_previous_element el).
Proof. unfold char_has_previous_element. capped. Qed.
Lemma cap_char_get_previous el : cap 0 0 (char_get_previous_element el).
Proof. unfold char_get_previous_element. capped. Qed.
Lemma cap_char_first b : cap 4 6 (char_provide_first_element b).
Proof. unfold char_provide_first_element. capped. Qed.
#[local] Hint Resolve cap_char_next cap_char_bit_value cap_char_has_previous cap_char_get_previous cap_char_first : caps.
Lemma cap_char_loop el path : cap (4 * length path) (6 * length path) (char_provide_loop el path).
Proof.
  revert el. induction path as [|b path IH]; intros el; [exact I|]. cbn [char_provide_loop length].
  apply cap_free; [intros; apply cap_deref|]. intros e.
  eapply (cap_spend _ _ 4 6); [apply cap_try, cap_char_next|lia|lia|]. intros x.
  eapply cap_mono; [apply IH|lia|lia].
Qed.

(** A code point has at most 21 digits. *)
Lemma msb_val_pow v t : (1 <= v)%Z → (v * 2 ^ Z.of_nat (length t) <= msb_val v t)%Z.
Proof.
  revert v. induction t as [|b t IH]; intros v Hv; [cbn [length]; change (msb_val v []) with v; lia|].
  change (msb_val v (b :: t)) with (msb_val (2 * v + Z.b2z b) t). cbn [length].
  rewrite Nat2Z.inj_succ, Z.pow_succ_r by lia.
  assert (0 <= Z.b2z b)%Z by (destruct b; simpl; lia).
  specialize (IH (2 * v + Z.b2z b)%Z ltac:(lia)).
  pose proof (Z.pow_pos_nonneg 2 (Z.of_nat (length t)) ltac:(lia) ltac:(lia)). nia.
Qed.
Lemma char_digits z path : scalar z → char_collect z = Ok path → length path ≤ 21.
Proof.
  intros Hz Hc. assert (Hr : (0 <= z < 2 ^ 21)%Z) by (unfold scalar in Hz; simpl; lia).
  destruct (decide (z = 0%Z)) as [->|Hne].
  - vm_compute in Hc. injection Hc as <-. simpl. lia.
  - destruct (char_collect_pos z) as (t&Ht&Hv); [lia|]. rewrite Ht in Hc. injection Hc as <-. cbn [length].
    pose proof (msb_val_pow 1 t ltac:(lia)) as Hp.
    assert (Hlt : (2 ^ Z.of_nat (length t) < 2 ^ 21)%Z) by lia.
    apply Z.pow_lt_mono_r_iff in Hlt; lia.
Qed.
Lemma cap_char_provide z : scalar z → cap 84 126 (char_provide z).
Proof.
  intros Hz. unfold char_provide. destruct (char_collect z) as [path|e] eqn:Hc; [|exact I]. cbn [of_res bind].
  pose proof (char_digits z path Hz Hc) as Hl. destruct path as [|b path]; [exact I|]. cbn [length] in Hl.
  eapply cap_spend; [apply cap_char_first|lia|lia|]. intros el.
  eapply cap_spend; [apply cap_char_loop|lia|lia|]. intros x. apply cap_deref.
Qed.
Lemma cap_char_fetch x : cap 0 0 (char_fetch x).
Proof. unfold char_fetch. capped. Qed.
Lemma cap_char_extract_loop f el path : cap 0 0 (char_extract_loop f el path).
Proof. revert el path. induction f as [|f IH]; intros el path; [exact I|]. cbn [char_extract_loop]. capped. Qed.
#[local] Hint Resolve cap_char_fetch cap_char_extract_loop : caps.
Lemma cap_char_extract f a : cap 0 0 (char_extract f a).
Proof. unfold char_extract. capped. Qed.
#[local] Hint Resolve cap_char_extract : caps.

(** ** word *)
Lemma cap_word_create_entity x : cap 3 3 (word_create_entity x).
Proof. unfold word_create_entity. capped. Qed.
Lemma cap_word_read_by_character x : cap 0 0 (word_read_by_character x).
Proof. unfold word_read_by_character. capped. Qed.
Lemma cap_word_read_by_word x : cap 0 0 (word_read_by_word x).
Proof. unfold word_read_by_word. capped. Qed.
Lemma cap_word_read_by_phrase x : cap 0 0 (word_read_by_phrase x).
Proof. unfold word_read_by_phrase. capped. Qed.
Lemma cap_word_point_to_character e x : cap 0 1 (word_point_to_character e x).
Proof. unfold word_point_to_character. capped. Qed.
Lemma cap_word_point_to_phrase e x : cap 0 1 (word_point_to_phrase e x).
Proof. unfold word_point_to_phrase. capped. Qed.
Lemma cap_word_point_to_word e x : cap 0 1 (word_point_to_word e x).
Proof. unfold word_point_to_word. capped. Qed.
Lemma cap_word_get_target_phrase e : cap 0 0 (word_get_target_phrase e).
Proof. unfold word_get_target_phrase. capped. Qed.
Lemma cap_word_has_target_phrase e : cap 0 0 (word_has_target_phrase e).
Proof. unfold word_has_target_phrase. capped. Qed.
Lemma cap_word_get_target_words e : cap 0 0 (word_get_target_words e).
Proof. unfold word_get_target_words. capped. Qed.
Lemma cap_word_get_target_character e : cap 0 0 (word_get_target_character e).
Proof. unfold word_get_target_character. capped. Qed.
Lemma cap_word_has_source e : cap 0 0 (word_has_source_word e).
Proof. unfold word_has_source_word. capped. Qed.
Lemma cap_word_get_source e : cap 0 0 (word_get_source_word e).
Proof. unfold word_get_source_word. capped. Qed.
#[local] Hint Resolve cap_word_create_entity cap_word_read_by_character cap_word_read_by_word cap_word_read_by_phrase
  cap_word_point_to_character cap_word_point_to_phrase cap_word_point_to_word cap_word_get_target_phrase cap_word_has_target_phrase
  cap_word_get_target_words cap_word_get_target_character cap_word_has_source cap_word_get_source : caps.
Lemma cap_word_head a : cap 4 6 (word_provide_head_entity a).
Proof. unfold word_provide_head_entity. capped. Qed.
Lemma cap_word_tail a e : cap 4 6 (word_create_tail_entity a e).
Proof. unfold word_create_tail_entity. capped. Qed.
Lemma cap_word_read_all ids : cap 0 0 (word_read_all ids).
Proof. induction ids as [|x ids IH]; [exact I|]. cbn [word_read_all]. capped. Qed.
Lemma cap_word_value f e : cap 0 0 (word_extract_character_value f e).
Proof. unfold word_extract_character_value. capped. Qed.
#[local] Hint Resolve cap_word_head cap_word_tail cap_word_read_all cap_word_value : caps.
Lemma cap_word_find f z es : cap 0 0 (word_find f z es).
Proof. induction es as [|x es IH]; [exact I|]. cbn [word_find]. capped. Qed.
Lemma cap_word_get_previous e : cap 0 0 (word_get_previous_element e).
Proof. unfold word_get_previous_element. capped. Qed.
#[local] Hint Resolve cap_word_find cap_word_get_previous : caps.
Lemma cap_word_next f e z : scalar z → cap 88 133 (word_provide_next_element f e z).
Proof. intros Hz. pose proof (cap_char_provide z Hz). unfold word_provide_next_element. capped. Qed.
Lemma cap_word_first z : scalar z → cap 88 133 (word_provide_first_element z).
Proof. intros Hz. pose proof (cap_char_provide z Hz). unfold word_provide_first_element. capped. Qed.
Lemma cap_word_loop f el path : Forall scalar path → cap (88 * length path) (133 * length path) (word_provide_loop f el path).
Proof.
  intros H. revert el. induction H as [|z path Hz _ IH]; intros el; [exact I|]. cbn [word_provide_loop length].
  apply cap_free; [intros; apply cap_deref|]. intros e.
  eapply (cap_spend _ _ 88 133); [by apply cap_try, cap_word_next|lia|lia|]. intros x.
  eapply cap_mono; [apply IH|lia|lia].
Qed.
Lemma cap_word_provide f s : cap (88 * length s) (133 * length s) (word_provide f s).
Proof.
  unfold word_provide, word_collect. pose proof (runes_of_scalar s) as Hs. pose proof (runes_of_length s) as Hl.
  destruct (runes_of s) as [|z path]; [exact I|]. cbn [of_res bind length] in *. apply Forall_cons in Hs as [Hz Hp].
  eapply cap_spend; [by apply cap_word_first|lia|lia|]. intros el.
  eapply cap_spend; [by apply cap_word_loop|lia|lia|]. intros x. apply cap_deref.
Qed.
Lemma cap_word_fetch x : cap 0 0 (word_fetch x).
Proof. unfold word_fetch. capped. Qed.
Lemma cap_word_extract_loop cf f e path : cap 0 0 (word_extract_loop cf f e path).
Proof. revert e path. induction f as [|f IH]; intros e path; [exact I|]. cbn [word_extract_loop]. capped. Qed.
#[local] Hint Resolve cap_word_fetch cap_word_extract_loop : caps.
Lemma cap_word_extract f e : cap 0 0 (word_extract f e).
Proof. unfold word_extract. capped. Qed.
#[local] Hint Resolve cap_word_extract : caps.

(** ** phrase *)
Lemma cap_phrase_create_entity x : cap 3 3 (phrase_create_entity x).
Proof. unfold phrase_create_entity. capped. Qed.
Lemma cap_phrase_read_by_word x : cap 0 0 (phrase_read_by_word x).
Proof. unfold phrase_read_by_word. capped. Qed.
Lemma cap_phrase_read_by_phrase x : cap 0 0 (phrase_read_by_phrase x).
Proof. unfold phrase_read_by_phrase. capped. Qed.
Lemma cap_phrase_read_by_detail x : cap 0 0 (phrase_read_by_detail x).
Proof. unfold phrase_read_by_detail. capped. Qed.
Lemma cap_phrase_point_to_phrase e x : cap 0 1 (phrase_point_to_phrase e x).
Proof. unfold phrase_point_to_phrase. capped. Qed.
Lemma cap_phrase_point_to_word e x : cap 0 1 (phrase_point_to_word e x).
Proof. unfold phrase_point_to_word. capped. Qed.
Lemma cap_phrase_get_target_phrases e : cap 0 0 (phrase_get_target_phrases e).
Proof. unfold phrase_get_target_phrases. capped. Qed.
Lemma cap_phrase_get_target_word e : cap 0 0 (phrase_get_target_word e).
Proof. unfold phrase_get_target_word. capped. Qed.
Lemma cap_phrase_has_source e : cap 0 0 (phrase_has_source_phrase e).
Proof. unfold phrase_has_source_phrase. capped. Qed.
Lemma cap_phrase_get_source e : cap 0 0 (phrase_get_source_phrase e).
Proof. unfold phrase_get_source_phrase. capped. Qed.
Lemma cap_phrase_source_details e : cap 0 0 (phrase_get_source_details e).
Proof. unfold phrase_get_source_details. capped. Qed.
Lemma cap_phrase_target_details e : cap 0 0 (phrase_get_target_details e).
Proof. unfold phrase_get_target_details. capped. Qed.
Lemma cap_phrase_add_source e x : cap 0 1 (phrase_add_source_detail e x).
Proof. unfold phrase_add_source_detail. capped. Qed.
Lemma cap_phrase_add_target e x : cap 0 1 (phrase_add_target_detail e x).
Proof. unfold phrase_add_target_detail. capped. Qed.
#[local] Hint Resolve cap_phrase_create_entity cap_phrase_read_by_word cap_phrase_read_by_phrase cap_phrase_read_by_detail
  cap_phrase_point_to_phrase cap_phrase_point_to_word cap_phrase_get_target_phrases cap_phrase_get_target_word cap_phrase_has_source
  cap_phrase_get_source cap_phrase_source_details cap_phrase_target_details cap_phrase_add_source cap_phrase_add_target : caps.
Lemma cap_phrase_head w : cap 4 6 (phrase_provide_head_entity w).
Proof. unfold phrase_provide_head_entity. capped. Qed.
Lemma cap_phrase_tail w e : cap 4 6 (phrase_create_tail_entity w e).
Proof. unfold phrase_create_tail_entity. capped. Qed.
Lemma cap_phrase_read_all ids : cap 0 0 (phrase_read_all ids).
Proof. induction ids as [|x ids IH]; [exact I|]. cbn [phrase_read_all]. capped. Qed.
Lemma cap_phrase_value f e : cap 0 0 (phrase_extract_word_value f e).
Proof. unfold phrase_extract_word_value. capped. Qed.
#[local] Hint Resolve cap_phrase_head cap_phrase_tail cap_phrase_read_all cap_phrase_value : caps.
Lemma cap_phrase_find f s es : cap 0 0 (phrase_find f s es).
Proof. induction es as [|x es IH]; [exact I|]. cbn [phrase_find]. capped. Qed.
Lemma cap_phrase_get_previous e : cap 0 0 (phrase_get_previous_element e).
Proof. unfold phrase_get_previous_element. capped. Qed.
#[local] Hint Resolve cap_phrase_find cap_phrase_get_previous cap_word_provide : caps.
Lemma cap_phrase_next f e s : cap (88 * length s + 4) (133 * length s + 6) (phrase_provide_next_element f e s).
Proof. unfold phrase_provide_next_element. capped. Qed.
Lemma cap_phrase_first f s : cap (88 * length s + 4) (133 * length s + 6) (phrase_provide_first_element f s).
Proof. unfold phrase_provide_first_element. capped. Qed.
Definition total (ws : list gostring) : nat := foldr (λ w n, length w + n) 0 ws.
Lemma cap_phrase_loop f el path :
  cap (88 * total path + 4 * length path) (133 * total path + 6 * length path) (phrase_provide_loop f el path).
Proof.
  revert el. induction path as [|s path IH]; intros el; [exact I|]. cbn [phrase_provide_loop length total foldr].
  fold (total path). apply cap_free; [intros; apply cap_deref|]. intros e.
  eapply cap_spend; [apply cap_try, cap_phrase_next|lia|lia|]. intros x.
  eapply cap_mono; [apply IH|lia|lia].
Qed.
Lemma total_join w ws : length (join_space (w :: ws)) = total (w :: ws) + length ws.
Proof.
  revert w. induction ws as [|w' ws IH]; intros w; [simpl; lia|].
  change (join_space (w :: w' :: ws)) with (w ++ space :: join_space (w' :: ws)).
  rewrite app_length. cbn [length]. rewrite IH. cbn [total foldr length]. lia.
Qed.
Lemma cap_phrase_provide f s : cap (88 * length s + 4) (133 * length s + 6) (phrase_provide f s).
Proof.
  unfold phrase_provide, phrase_collect. pose proof (join_split s) as Hj. destruct (split_space s) as [|w ws]; [exact I|].
  assert (Hl := total_join w ws). rewrite Hj in Hl. cbn [total foldr] in Hl. fold (total ws) in Hl. cbn [of_res bind].
  eapply cap_spend; [by apply cap_phrase_first|lia|lia|]. intros el.
  eapply cap_spend; [by apply cap_phrase_loop|lia|lia|]. intros x. apply cap_deref.
Qed.
Lemma cap_phrase_fetch x : cap 0 0 (phrase_fetch x).
Proof. unfold phrase_fetch. capped. Qed.
Lemma cap_phrase_extract_loop wf f e path : cap 0 0 (phrase_extract_loop wf f e path).
Proof. revert e path. induction f as [|f IH]; intros e path; [exact I|]. cbn [phrase_extract_loop]. capped. Qed.
#[local] Hint Resolve cap_phrase_provide cap_phrase_fetch cap_phrase_extract_loop : caps.
Lemma cap_phrase_extract f e : cap 0 0 (phrase_extract f e).
Proof. unfold phrase_extract. capped. Qed.
#[local] Hint Resolve cap_phrase_extract : caps.

(** ** detail *)
Lemma cap_detail_create o p : cap 3 5 (detail_create_entity o p).
Proof. unfold detail_create_entity. capped. Qed.
Lemma cap_detail_read_by_phrase x : cap 0 0 (detail_read_by_phrase x).
Proof. unfold detail_read_by_phrase. capped. Qed.
Lemma cap_detail_read_by_remark x : cap 0 0 (detail_read_by_remark x).
Proof. unfold detail_read_by_remark. capped. Qed.
Lemma cap_detail_point_to_remark e x : cap 0 1 (detail_point_to_remark e x).
Proof. unfold detail_point_to_remark. capped. Qed.
Lemma cap_detail_phrases e : cap 0 0 (detail_get_object_and_property_phrases e).
Proof. unfold detail_get_object_and_property_phrases. capped. Qed.
#[local] Hint Resolve cap_detail_create cap_detail_read_by_phrase cap_detail_read_by_remark cap_detail_point_to_remark cap_detail_phrases : caps.
Lemma cap_detail_provide_entity o p : cap 3 5 (detail_provide_entity o p).
Proof. unfold detail_provide_entity. capped. Qed.
#[local] Hint Resolve cap_detail_provide_entity : caps.
Lemma cap_detail_provide f o p :
  cap (88 * (length o + length p) + 11) (133 * (length o + length p) + 17) (detail_provide f o p).
Proof. unfold detail_provide. capped. Qed.
Lemma cap_detail_fetch x : cap 0 0 (detail_fetch x).
Proof. unfold detail_fetch. capped. Qed.
Lemma cap_detail_texts f d : cap 0 0 (detail_get_object_and_property f d).
Proof. unfold detail_get_object_and_property. capped. Qed.
#[local] Hint Resolve cap_detail_provide cap_detail_fetch cap_detail_texts : caps.

(** ** story and fact *)
Lemma cap_story_create_entity x : cap 3 3 (story_create_entity x).
Proof. unfold story_create_entity. capped. Qed.
Lemma cap_story_read_by_fact x : cap 0 0 (story_read_by_fact x).
Proof. unfold story_read_by_fact. capped. Qed.
Lemma cap_story_read_by_position x : cap 0 0 (story_read_by_position x).
Proof. unfold story_read_by_position. capped. Qed.
Lemma cap_story_read_by_tree x : cap 0 0 (story_read_by_tree x).
Proof. unfold story_read_by_tree. capped. Qed.
Lemma cap_story_point_to_fact e x : cap 0 1 (story_point_to_fact e x).
Proof. unfold story_point_to_fact. capped. Qed.
Lemma cap_story_point_to_position e x : cap 0 1 (story_point_to_position e x).
Proof. unfold story_point_to_position. capped. Qed.
Lemma cap_story_point_to_tree e x : cap 0 1 (story_point_to_tree e x).
Proof. unfold story_point_to_tree. capped. Qed.
Lemma cap_story_has_position e : cap 0 0 (story_has_target_position e).
Proof. unfold story_has_target_position. capped. Qed.
Lemma cap_story_get_position e : cap 0 0 (story_get_target_position e).
Proof. unfold story_get_target_position. capped. Qed.
Lemma cap_story_has_tree e : cap 0 0 (story_has_target_tree e).
Proof. unfold story_has_target_tree. capped. Qed.
#[local] Hint Resolve cap_story_create_entity cap_story_read_by_fact cap_story_read_by_position cap_story_read_by_tree
  cap_story_point_to_fact cap_story_point_to_position cap_story_point_to_tree cap_story_has_position cap_story_get_position
  cap_story_has_tree : caps.
Lemma cap_story_create : cap 4 4 story_create.
Proof. unfold story_create. capped. Qed.
Lemma cap_fact_create_entity x : cap 3 3 (fact_create_entity x).
Proof. unfold fact_create_entity. capped. Qed.
Lemma cap_fact_read_by_remark x : cap 0 0 (fact_read_by_remark x).
Proof. unfold fact_read_by_remark. capped. Qed.
Lemma cap_fact_point_to_story e x : cap 0 1 (fact_point_to_story e x).
Proof. unfold fact_point_to_story. capped. Qed.
Lemma cap_fact_point_to_remark e x : cap 0 1 (fact_point_to_remark e x).
Proof. unfold fact_point_to_remark. capped. Qed.
Lemma cap_fact_point_to_position e x : cap 0 1 (fact_point_to_position e x).
Proof. unfold fact_point_to_position. capped. Qed.
Lemma cap_last_sibling f e : cap 0 0 (fact_last_sibling f e).
Proof. revert e. induction f as [|f IH]; intros e; [exact I|]. cbn [fact_last_sibling]. capped. Qed.
#[local] Hint Resolve cap_story_create cap_fact_create_entity cap_fact_read_by_remark cap_fact_point_to_story cap_fact_point_to_remark
  cap_fact_point_to_position cap_last_sibling : caps.
Lemma cap_fact_first : cap 8 10 fact_create_first_story_fact.
Proof. unfold fact_create_first_story_fact. capped. Qed.
Lemma cap_fact_fetch x : cap 0 0 (fact_fetch_by_remark x).
Proof. unfold fact_fetch_by_remark. capped. Qed.
Lemma cap_fact_next x : cap 4 6 (fact_create_next_fact x).
Proof. unfold fact_create_next_fact. capped. Qed.
Lemma cap_fact_child f x : cap 8 13 (fact_create_child_story_fact f x).
Proof.
  unfold fact_create_child_story_fact. do 5 cap0. cbv beta.
  eapply (cap_spend _ _ 0 2); [capped|lia|lia|]. intros _. capped.
Qed.
#[local] Hint Resolve cap_fact_first cap_fact_fetch cap_fact_next cap_fact_child : caps.

(** ** remark *)
Lemma cap_remark_create_entity x : cap 3 3 (remark_create_entity x).
Proof. unfold remark_create_entity. capped. Qed.
Lemma cap_remark_point_to_fact e x : cap 0 1 (remark_point_to_fact e x).
Proof. unfold remark_point_to_fact. capped. Qed.
Lemma cap_remark_get_target_fact e : cap 0 0 (remark_get_target_fact e).
Proof. unfold remark_get_target_fact. capped. Qed.
Lemma cap_remark_get_source_detail e : cap 0 0 (remark_get_source_detail e).
Proof. unfold remark_get_source_detail. capped. Qed.
#[local] Hint Resolve cap_remark_create_entity cap_remark_point_to_fact cap_remark_get_target_fact cap_remark_get_source_detail : caps.
Lemma cap_create_story f ob pr :
  cap (88 * (length ob + length pr) + 23) (133 * (length ob + length pr) + 34) (create_story f ob pr).
Proof. unfold create_story. capped. Qed.
Lemma cap_add_fact f a ob pr :
  cap (88 * (length ob + length pr) + 19) (133 * (length ob + length pr) + 29) (add_fact_to_story f a ob pr).
Proof. unfold add_fact_to_story. capped. Qed.
Lemma cap_child_story f a ob pr :
  cap (88 * (length ob + length pr) + 23) (133 * (length ob + length pr) + 37) (create_child_story f a ob pr).
Proof. unfold create_child_story. capped. Qed.
Lemma cap_own f o ob pr :
  own_texts o = Some (ob, pr) →
  cap (88 * (length ob + length pr) + 23) (133 * (length ob + length pr) + 37) (call_of f o).
Proof.
  destruct o; intros [= -> ->]; cbn [call_of].
  - eapply cap_spend; [apply cap_create_story|lia|lia|done].
  - eapply cap_spend; [apply cap_add_fact|lia|lia|done].
  - eapply cap_spend; [apply cap_child_story|lia|lia|done].
Qed.

(** ** Soundness *)
(** The storage has been set up: there are class nodes and bits. *)
Definition lively (g : graph) : Prop := 1%N ∈ nodes g ∧ ∃ x, (x, 1%N) ∈ edges g.
Lemma lively_grows g g' : lively g → grows g g' → lively g'.
Proof. intros [H1 [x H2]] [Hn He _ _]. split; [by apply Hn|]. exists x. by apply He. Qed.
Lemma lively_sane zp g c r g' : lively g → gstep zp g c r g' → sane c r.
Proof.
  intros [H1 [x H2]] Hs. destruct c; simpl in *; try done.
  - destruct Hs as [-> _]. intros ->. by rewrite bool_decide_eq_true_2.
  - intros ->. destruct Hs as [Hs _]. destruct Hs as (l&->&_&Hl&_); [by left|]. intros [= ->]. apply Hl in H2. by apply elem_of_nil in H2.
Qed.
Lemma sane_fault c : sane c (Err EStorage).
Proof. by destruct c. Qed.

Definition within (n k : nat) (g g' : graph) : Prop :=
  node_count g' ≤ node_count g + n ∧ link_count g' ≤ link_count g + k.
Lemma within_refl n k g : within n k g g.
Proof. split; lia. Qed.
Lemma within_trans n1 k1 n2 k2 n k g1 g2 g3 :
  within n1 k1 g1 g2 → within n2 k2 g2 g3 → n1 + n2 ≤ n → k1 + k2 ≤ k → within n k g1 g3.
Proof. intros [] [] ??. split; lia. Qed.
Lemma within_step zp g c r g' : specified zp g c → gstep zp g c r g' → within (creates c) (links c) g g'.
Proof.
  intros Hsp Hs.
  assert (HV : ∀ x, Decision (valid zp g x)).
  { intros x. unfold valid. assert (Decision (zp = ZNode)) by (destruct zp; [right|left]; done). apply _. }
  unfold within, node_count, link_count. destruct c; simpl in *; try done.
  - destruct Hs as [_ ->]. lia.
  - destruct Hs as (x&_&_&Hx&_&->). simpl. rewrite size_union by set_solver. rewrite size_singleton. lia.
  - destruct (decide (valid zp g target)) as [Hv|Hv]; destruct Hs as [Hs1 Hs2].
    + destruct (Hs1 Hv) as (l&_&_&_&->). lia.
    + destruct (Hs2 Hv) as [_ ->]. lia.
  - destruct (decide (valid zp g source)) as [Hv|Hv]; destruct Hs as [Hs1 Hs2].
    + destruct (Hs1 Hv) as (l&_&_&_&->). lia.
    + destruct (Hs2 Hv) as [_ ->]. lia.
  - destruct (decide (valid zp g source ∧ valid zp g reference))
      as [Hv|Hv]; destruct Hs as [Hs1 Hs2].
    + destruct (Hsp (proj1 Hv) (proj2 Hv)) as [Hf Hb]. destruct (Hs1 Hv Hf Hb) as [_ ->]. simpl.
      rewrite map_size_insert_None by done. lia.
    + destruct (Hs2 Hv) as [_ ->]. lia.
  - destruct (decide (valid zp g source)) as [Hv|Hv]; destruct Hs as [Hs1 Hs2].
    + destruct (Hs1 Hv) as [_ ->]. lia.
    + destruct (Hs2 Hv) as [_ ->]. lia.
  - destruct (decide (valid zp g source ∧ valid zp g target))
      as [Hv|Hv]; destruct Hs as [Hs1 Hs2].
    + destruct (Hs1 Hv) as [_ ->]. simpl.
      destruct (decide ((source, target) ∈ edges g)) as [Hi|Hi].
      * replace ({[(source, target)]} ∪ edges g) with (edges g) by set_solver. lia.
      * rewrite size_union by set_solver. rewrite size_singleton. lia.
    + destruct (Hs2 Hv) as [_ ->]. lia.
Qed.

(** Where a part of a program stands in it. *)
Record context {A} (K : prog A → prog value) : Prop := {
  ctx_call : ∀ c k, K (Call c k) = Call c (λ r, K (k r));
  ctx_load : ∀ k, K (LoadBits k) = LoadBits (λ m, K (k m));
  ctx_store : ∀ m p, K (StoreBits m p) = StoreBits m (K p)
}.
Lemma context_bind {A B} (K : prog B → prog value) (f : A → prog B) : context K → context (λ q, K (bind q f)).
Proof. intros [H1 H2 H3]. split; intros; cbn [bind]; [by rewrite H1|by rewrite H2|by rewrite H3]. Qed.
Lemma context_call {A} (f : A → value) : context (λ q, bind q (λ a, Ret (f a))).
Proof. by split. Qed.

Section within.
  Context {zp : zpolicy} {faults : bool} {fuel : nat}.
  Context (t : trace) (mm : nat → cache) (fk : bool) (i : nat) (o : opn).
  Notation busy g p m := (Moment t g mm (Some (Running fk i o p m))).

  (** The first part [q] of a running call. *)
  Lemma cap_exec {A} (K : prog A → prog value) (q : prog A) g m out g' m' n k :
    context K → exec zp fk q g m out g' m' → cap n k q → lively g →
    seen_at zp faults fuel (busy g (K q) m) →
    within n k g g' ∧ lively g' ∧
    ∀ a, out = OOk a → rtc (moves zp faults fuel) (busy g (K q) m) (busy g' (K (Ret a)) m').
  Proof.
    intros HK Hx. revert n k. induction Hx as [a g m|e g m|g m|g m|c kk g m r g1 out g2 m2 Hs _ IH|c kk g m out g2 m2 Hf _ IH|
      c kk g m Hf|kk g m out g2 m2 _ IH|m1 kk g m out g2 m2 _ IH]; intros n k Hc Hl Hseen.
    - split; [apply within_refl|]. split; [done|]. intros a' [= <-]. apply rtc_refl.
    - split; [apply within_refl|]. split; [done|]. done.
    - split; [apply within_refl|]. split; [done|]. done.
    - split; [apply within_refl|]. split; [done|]. done.
    - destruct Hc as (Hn&Hk&Hc). rewrite (ctx_call _ HK) in Hseen |- *.
      assert (Hm : moves zp faults fuel (busy g (Call c (λ r, K (kk r))) m) (busy g1 (K (kk r)) m))
        by by apply (mv_call _ _ _ _ _ _ _ _ _ c (λ r, K (kk r))).
      assert (Hsp := moments_specified _ _ _ _ _ _ _ Hseen eq_refl). simpl in Hsp.
      assert (Hg := moments_grow _ _ Hseen (rtc_once _ _ Hm)). simpl in Hg.
      destruct (IH _ _ (Hc _ (lively_sane _ _ _ _ _ Hl Hs)) (lively_grows _ _ Hl Hg)) as (Hw&Hl2&Hend).
      { eapply rtc_r; [exact Hseen|exact Hm]. }
      split; [|split; [done|]].
      + eapply within_trans; [by eapply within_step|exact Hw|lia|lia].
      + intros a Ha. eapply rtc_l; [exact Hm|by apply Hend].
    - destruct Hc as (Hn&Hk&Hc). rewrite (ctx_call _ HK) in Hseen |- *.
      assert (Hm : moves zp faults fuel (busy g (Call c (λ r, K (kk r))) m) (busy g (K (kk (Err EStorage))) m))
        by by apply (mv_fault _ _ _ _ _ _ _ _ _ c (λ r, K (kk r))).
      destruct (IH _ _ (Hc _ (sane_fault c)) Hl) as (Hw&Hl2&Hend).
      { eapply rtc_r; [exact Hseen|exact Hm]. }
      split; [|split; [done|]].
      + eapply within_trans; [apply (within_refl 0 0)|exact Hw|lia|lia].
      + intros a Ha. eapply rtc_l; [exact Hm|by apply Hend].
    - split; [apply within_refl|]. split; [done|]. done.
    - rewrite (ctx_load _ HK) in Hseen |- *.
      assert (Hm : moves zp faults fuel (busy g (LoadBits (λ r, K (kk r))) m) (busy g (K (kk m)) m))
        by apply (mv_load _ _ _ _ _ _ _ _ _ (λ r, K (kk r))).
      destruct (IH _ _ (Hc m) Hl) as (Hw&Hl2&Hend).
      { eapply rtc_r; [exact Hseen|exact Hm]. }
      split; [done|split; [done|]]. intros a Ha. eapply rtc_l; [exact Hm|by apply Hend].
    - rewrite (ctx_store _ HK) in Hseen |- *.
      assert (Hm : moves zp faults fuel (busy g (StoreBits m1 (K kk)) m) (busy g (K kk) m1)) by apply mv_store.
      destruct (IH _ _ Hc Hl) as (Hw&Hl2&Hend).
      { eapply rtc_r; [exact Hseen|exact Hm]. }
      split; [done|split; [done|]]. intros a Ha. eapply rtc_l; [exact Hm|by apply Hend].
  Qed.

  (** The first part and the rest. *)
  Lemma cap_part {A B} (K : prog B → prog value) (q : prog A) (f : A → prog B) g m out g' m' n1 k1 n2 k2 n k :
    context K → exec zp fk (bind q f) g m out g' m' → cap n1 k1 q → lively g →
    seen_at zp faults fuel (busy g (K (bind q f)) m) → n1 + n2 ≤ n → k1 + k2 ≤ k →
    (∀ a g1 m1, exec zp fk q g m (OOk a) g1 m1 → exec zp fk (f a) g1 m1 out g' m' → lively g1 →
      rtc (moves zp faults fuel) (busy g (K (bind q f)) m) (busy g1 (K (f a)) m1) →
      within n2 k2 g1 g') →
    within n k g g'.
  Proof.
    intros HK Hx Hc Hl Hs Hn Hk Hrest. apply exec_bind_any in Hx as [(a&g1&m1&Hx1&Hx2)|(_&o'&Hx&_)].
    - destruct (cap_exec (λ q, K (bind q f)) _ _ _ _ _ _ _ _ (context_bind _ _ HK) Hx1 Hc Hl Hs) as (Hw&Hl1&Hend).
      eapply within_trans; [exact Hw|eapply Hrest; eauto; by apply Hend|done|done].
    - destruct (cap_exec (λ q, K (bind q f)) _ _ _ _ _ _ _ _ (context_bind _ _ HK) Hx Hc Hl Hs) as (Hw&_). destruct Hw. split; lia.
  Qed.
End within.

(** ** Histories *)
Lemma settled_lively zp faults fuel t w : reach zp faults fuel t w → settled t → lively (store w).
Proof.
  intros Hr Hs. destruct (reach_J _ _ _ _ _ Hr) as (d&G&HJ&_). destruct (J_settled _ _ _ _ _ _ HJ Hs) as (Hup&(z&o&Hb)&_).
  assert (Hok := J_ok _ _ _ _ _ _ HJ). split.
  - eapply ok_lab_node; [exact Hok|apply (Hup 1%N); lia|done].
  - assert (Hbo := ok_bits _ _ _ Hok). unfold bits_ok in Hbo. rewrite Hb in Hbo. destruct Hbo as (He&_). exists (be_class z).
    apply He. by left.
Qed.
Lemma seen_reach zp faults fuel t w : reach zp faults fuel t w → seen_at zp faults fuel (between t w).
Proof. intros Hr. apply leads_moves. by apply leads_from_first. Qed.
Lemma exec_bind_intro zp fk {A B} (p : prog A) (f : A → prog B) g m a g1 m1 out g2 m2 :
  exec zp fk p g m (OOk a) g1 m1 → exec zp fk (f a) g1 m1 out g2 m2 → exec zp fk (bind p f) g m out g2 m2.
Proof.
  intros Hp Hf. remember (OOk a) as oa eqn:Ho. revert Ho. induction Hp; intros Ho; cbn [bind]; simplify_eq; try done.
  - eapply ExCall; eauto.
  - eapply ExFault; eauto.
  - apply ExLoad; eauto.
  - apply ExStore; eauto.
Qed.

(** The object AddRemarkToFact reads back. *)
Lemma reads_object zp faults fuel t w fk i o p g m r ob q v g' m' :
  reach zp faults fuel t w → tells t r ob q →
  rtc (moves zp faults fuel) (between t w) (Moment t g (mem w) (Some (Running fk i o p m))) →
  exec zp fk (get_object_and_property fuel r) g m (OOk v) g' m' → v = (ob, q).
Proof.
  intros Hr Ht Hm Hx. destruct (reach_J _ _ _ _ _ Hr) as (d&G&HJ&_).
  destruct (J_tells _ _ _ _ _ _ HJ _ _ _ Ht) as (ow&pw&f&Hrf&<-&<-&_).
  destruct (J_settled _ _ _ _ _ _ HJ (ex_intro _ _ (tells_issued _ _ _ _ Ht))) as (Hup&_&H31).
  destruct w as [gw mw].
  assert (Hi0 : inv_at (zp := zp) (fuel := fuel) (between t (World gw mw)) G) by (exists d; exact HJ).
  destruct (inv_moves (faults := faults) _ _ _ Hi0 Hm) as (G'&Hi&X). simpl in X.
  destruct Hi as (d'&Q&E&_&Hok&Hc&_). simpl in Hok.
  destruct Hrf as [Hrem _].
  assert (HR := R_get_object_and_property (zp := zp) (fk := fk) fuel H31 (le_n fuel) _ _ _ _ _
    (remC_mono X _ _ _ Hrem) (up_mono X Hup)).
  assert (Hw := rwp_wp zp fk fuel _ _ _ _ _ Hok (HR Hok)).
  destruct (wp_sound zp fk fuel _ _ _ _ _ _ Hx _ _ _ Hok Hc Hw) as (G2&_&_&_&Hend). simpl in Hend. by destruct Hend as (_&_&->).
Qed.

Lemma growth_one zp faults fuel t w fk i o out w' v :
  happens zp faults fuel t w fk i o out w' → settled t → volume t o v →
  within (88 * v + 23) (133 * v + 37) (store w) (store w').
Proof.
  intros (Hr&Hl&Hx&Hf) Hs Hv.
  assert (Hlive := settled_lively _ _ _ _ _ Hr Hs). assert (Hseen := seen_reach _ _ _ _ _ Hr).
  assert (Hm0 : moves zp faults fuel (between t w)
    (Moment t (store w) (mem w) (Some (Running fk i o (call_of fuel o) (mem w i))))) by (by apply mv_begin).
  assert (Hb := rtc_r _ _ _ Hseen Hm0 : seen_at zp faults fuel _).
  inversion Hx as [i' o' out' w0 g' m' He|]; subst; cbn [store].
  destruct Hv as [o ob pr Ho|r pr ob q Ht].
  - assert (HK : context (λ p : prog value, p)) by by split.
    by destruct (cap_exec t (mem w) fk i o (λ p, p) _ _ _ _ _ _ _ _ HK He (cap_own _ _ _ _ Ho) Hlive Hb) as (?&_).
  - cbn [call_of] in He, Hb. set (o := AddRemarkToFact r pr) in *.
    set (K := λ p, bind p (λ r, Ret (VRem r))).
    assert (HK : context K) by apply context_call.
    assert (Hgo : ∃ o', exec zp fk (add_remark_to_fact fuel r pr) (store w) (mem w i) o' g' m').
    { apply exec_bind_any in He as [(a&g1&m1&He&Hret)|(_&o'&He&_)]; [|by eauto].
      apply exec_ret_any in Hret as (_&->&->). eauto. }
    clear He. destruct Hgo as [o' He].
    change (call_of fuel o) with (K (add_remark_to_fact fuel r pr)) in *.
    unfold add_remark_to_fact in He, Hb, Hm0. apply rtc_once in Hm0.
    refine (cap_part t (mem w) fk i o K _ _ _ _ _ _ _ 0 0 (88 * (length ob + length pr) + 23) (133 * (length ob + length pr) + 37)
      _ _ HK He cap_class_provide Hlive Hb (le_n _) (le_n _) _).
    intros [] g1 m1 _ He1 Hl1 Hm1%(rtc_transitive _ _ _ Hm0). clear He Hlive Hb Hm0.
    assert (Hb := rtc_transitive _ _ _ Hseen Hm1).
    refine (cap_part t (mem w) fk i o K _ _ _ _ _ _ _ 1 1 (88 * (length ob + length pr) + 22) (133 * (length ob + length pr) + 36)
      _ _ HK He1 (cap_class_new _) Hl1 Hb _ _ _); [lia|lia|].
    intros c g2 m2 _ He2 Hl2 Hm2%(rtc_transitive _ _ _ Hm1). clear He1 Hl1 Hb Hm1.
    assert (Hb := rtc_transitive _ _ _ Hseen Hm2).
    refine (cap_part t (mem w) fk i o K _ _ _ _ _ _ _ 3 3 (88 * (length ob + length pr) + 19) (133 * (length ob + length pr) + 33)
      _ _ HK He2 (cap_remark_create_entity _) Hl2 Hb _ _ _); [lia|lia|].
    intros e g3 m3 _ He3 Hl3 Hm3%(rtc_transitive _ _ _ Hm2). clear He2 Hl2 Hb Hm2.
    assert (Hb := rtc_transitive _ _ _ Hseen Hm3).
    refine (cap_part t (mem w) fk i o K _ _ _ _ _ _ _ 0 0 _ _
      _ _ HK He3 (cap_remark_get_source_detail _) Hl3 Hb (le_n _) (le_n _) _).
    intros d g4 m4 Hx4 He4 Hl4 Hm4%(rtc_transitive _ _ _ Hm3). clear He3 Hl3 Hb.
    assert (Hb := rtc_transitive _ _ _ Hseen Hm4).
    refine (cap_part t (mem w) fk i o K _ _ _ _ _ _ _ 0 0 _ _
      _ _ HK He4 (cap_detail_fetch _) Hl4 Hb (le_n _) (le_n _) _).
    intros de g5 m5 Hx5 He5 Hl5 Hm5%(rtc_transitive _ _ _ Hm4). clear He4 Hl4 Hb Hm4.
    assert (Hb := rtc_transitive _ _ _ Hseen Hm5).
    refine (cap_part t (mem w) fk i o K _ _ _ _ _ _ _ 0 0 _ _
      _ _ HK He5 (cap_detail_texts _ _) Hl5 Hb (le_n _) (le_n _) _).
    intros v g6 m6 Hx6 He6 Hl6 Hm6%(rtc_transitive _ _ _ Hm5). clear He5 Hl5 Hb Hm5.
    assert (Hb := rtc_transitive _ _ _ Hseen Hm6).
    assert (v = (ob, q)) as ->.
    { eapply (reads_object _ _ _ _ _ _ _ _ _ _ _ _ _ _ _ _ _ Hr Ht Hm3). unfold get_object_and_property.
      eapply exec_bind_intro; [exact Hx4|]. eapply exec_bind_intro; [exact Hx5|exact Hx6]. }
    refine (proj1 (cap_exec t (mem w) fk i o K _ _ _ _ _ _ _ _ HK He6 _ Hl6 Hb)). capped.
Qed.

Lemma leads_settled zp faults fuel t w t' w' : leads zp faults fuel t w t' w' → settled t → settled t'.
Proof.
  intros Hl Hs. induction Hl as [|fk t1 w1 e w2 _ IH _ _ _]; [done|]. destruct IH as (r&i&o&Ho&Hi).
  exists r, i, o. split; [done|by right].
Qed.
Lemma amount_longer t t' n b : amount t t' n b → length t ≤ length t'.
Proof. induction 1; simpl; lia. Qed.
Lemma leads_suffix zp faults fuel t w t' w' : leads zp faults fuel t w t' w' → length t ≤ length t'.
Proof. induction 1; simpl; lia. Qed.
Lemma volume_creating t o v : volume t o v → creating o = true.
Proof. intros [o' ob pr Ho|]; [by destruct o'|done]. Qed.
Lemma growth_history zp faults fuel t w t' w' n b :
  reach zp faults fuel t w → settled t → leads zp faults fuel t w t' w' → amount t t' n b →
  within (88 * b + 23 * n) (133 * b + 37 * n) (store w) (store w').
Proof.
  intros Hr Hs Hl. revert n b. induction Hl as [|fk t1 w1 e w2 Hl IH Hleg Hx Hf]; intros n b Ha.
  - destruct w; inversion Ha; subst; try apply within_refl; simplify_eq/=;
      match goal with H : amount _ _ _ _ |- _ => apply amount_longer in H; simpl in H; lia end.
  - assert (Hr1 := leads_reach _ _ _ _ _ _ _ Hr Hl). assert (Hlen := leads_suffix _ _ _ _ _ _ _ Hl).
    inversion Ha as [Heq|t1' n1 b1 i o out v Ha1 Hv|t1' n1 b1 i o out Ha1 Ho|t1' n1 b1 i Ha1]; subst.
    + simpl in Hlen. lia.
    + assert (Hs1 : settled t1) by (eapply leads_settled; eauto).
      assert (Hh : happens zp faults fuel t1 w1 fk i o out w2) by done.
      eapply within_trans; [by apply IH|exact (growth_one _ _ _ _ _ _ _ _ _ _ _ Hh Hs1 Hv)|lia|lia].
    + rewrite (reading_keeps _ _ _ _ _ _ _ _ _ _ Hr1 Hleg Hx Hf Ho). by apply IH.
    + inversion Hx; subst. by apply IH.
Qed.
Lemma amount_exists zp faults fuel t w t' w' :
  reach zp faults fuel t w → leads zp faults fuel t w t' w' → ∃ n b, amount t t' n b.
Proof.
  intros Hr Hl. induction Hl as [|fk t1 w1 e w2 Hl IH Hleg Hx Hf]; [exists 0, 0; constructor|].
  destruct IH as (n&b&Ha). assert (Hr1 := leads_reach _ _ _ _ _ _ _ Hr Hl). destruct e as [i o out|i]; [|eexists _, _; by constructor].
  destruct (creating o) eqn:Ho; [|eexists _, _; by constructor].
  enough (Hv : ∃ v, volume t1 o v) by (destruct Hv as [v Hv]; eexists _, _; by constructor).
  destruct Hleg as (Hi&_). destruct o; try done; try (eexists; by constructor).
  destruct (issued_tells _ _ _ _ _ _ Hr1 (Hi _ eq_refl)) as (ob&q&Ht&_). eexists. by eapply vol_remark.
Qed.
