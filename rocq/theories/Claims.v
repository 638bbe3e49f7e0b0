(** What one would expect of the API, stated as propositions.  [Refute] shows
    for each of them that it does not hold of the code. *)
From stdpp Require Import gmap.
From Coq Require Import NArith ZArith.
From Verif Require Import Base GoText Model1 Model2 Model3 Model4 Storage SpecText SpecMachine Spec SpecPlay SpecCost SpecWalk.
Local Open Scope nat_scope.

(** ** Interrupted initialisation

    C12: a first use of the class layer is interrupted by faults or a kill; then
    a retry with all well makes all class nodes exist. *)
Definition claim_class_restart (zp : zpolicy) : Prop :=
  ∀ S evs, meets zp S →
    let x := run S class_provide evs (st_init S) None in
    let y := run S class_provide [] (r_state x) None in
    r_out y = OOk tt ∧ fst (st_step S (r_state y) (CHas storyIdentifier)) = Ok true.

(** C14: the same for the bit layer, on an initialised class layer. *)
Definition claim_bit_restart (zp : zpolicy) : Prop :=
  ∀ S evs, meets zp S →
    let x := run S class_provide [] (st_init S) None in
    let y := run S bit_initialize evs (r_state x) None in
    let z := run S bit_initialize [] (r_state y) None in
    ∃ v, r_out z = OOk v.

(** ** Texts *)

(** C16: no call panics. *)
Definition claim_no_panic (zp : zpolicy) : Prop :=
  ∀ S fuel x i o, meets zp S → plays zp false fuel S x → legal fuel (k_trace x) (Called i o OKilled) →
    r_out (now fuel x i o []) ≠ OPanic.

(** C17: a word that an empty store accepts is always accepted. *)
Definition claim_word_accepted (zp : zpolicy) : Prop :=
  ∀ S fuel x i s, meets zp S → plays zp false fuel S x → fits fuel s →
    (∃ e, r_out (run S (word_provide fuel s) [] (st_init S) None) = OOk e) →
    ∃ e, r_out (run S (word_provide fuel s) [] (k_state x) (k_mem x i)) = OOk e.

(** C19: storing the same text twice gives one entity. *)
Definition twice {A} (S : storage) (p : prog A) (s : st_state S) (m : cache) : Prop :=
  let r := run S p [] s m in
  ∀ a b, r_out r = OOk a → r_out (run S p [] (r_state r) (r_cache r)) = OOk b → a = b.
Definition claim_words_shared (zp : zpolicy) : Prop :=
  ∀ S fuel x i s, meets zp S → plays zp false fuel S x → fits fuel s →
    twice S (word_provide fuel s) (k_state x) (k_mem x i).
Definition claim_phrases_shared (zp : zpolicy) : Prop :=
  ∀ S fuel x i s, meets zp S → plays zp false fuel S x → fits fuel s →
    twice S (phrase_provide fuel s) (k_state x) (k_mem x i).
(** An object-property pair. *)
Definition claim_details_shared (zp : zpolicy) : Prop :=
  ∀ S fuel x i ob pr, meets zp S → plays zp false fuel S x → fits fuel ob → fits fuel pr →
    twice S (detail_provide fuel ob pr) (k_state x) (k_mem x i).

(** ** Navigation *)

(** C21: a remark with another one added to its fact has a next remark. *)
Definition claim_next_remark (zp : zpolicy) : Prop :=
  ∀ S fuel x i j a pr r, meets zp S → plays zp false fuel S x →
    Called i (AddRemarkToFact a pr) (OOk (VRem r)) ∈ k_trace x →
    r_out (now fuel x j (HasNextRemark a) []) = OOk (VBool true).

(** C23: AddFactToStory accepts what CreateStory accepts. *)
Definition claim_add_fact (zp : zpolicy) : Prop :=
  ∀ S fuel x i a ob pr, meets zp S → plays zp false fuel S x → issued (k_trace x) a →
    fits fuel ob → fits fuel pr →
    (∃ r, r_out (now fuel x i (CreateStory ob pr) []) = OOk (VRem r)) →
    ∃ r, r_out (now fuel x i (AddFactToStory a ob pr) []) = OOk (VRem r).
(** C23: the new fact belongs to the same story. *)
Definition claim_same_story (zp : zpolicy) : Prop :=
  ∀ S fuel x i a ob pr r r0 j, meets zp S → plays zp false fuel S x →
    Called i (AddFactToStory a ob pr) (OOk (VRem r)) ∈ k_trace x → opened true (k_trace x) r r0 →
    r_out (now fuel x j (GetFirstFact r) []) = OOk (VRem r0).

(** C24: HasNextFact says whether a fact was added to the story right after
    this one, and GetNextFact finds it. *)
Definition claim_has_next_fact (zp : zpolicy) : Prop :=
  ∀ S fuel x j a, meets zp S → plays zp false fuel S x → issued (k_trace x) a →
    ∃ b, r_out (now fuel x j (HasNextFact a) []) = OOk (VBool b) ∧
      (b = true ↔ ∃ i ob pr r, Called i (AddFactToStory a ob pr) (OOk (VRem r)) ∈ k_trace x).
Definition claim_get_next_fact (zp : zpolicy) : Prop :=
  ∀ S fuel x i j a ob pr, meets zp S → plays zp false fuel S x →
    (∃ r, Called i (AddFactToStory a ob pr) (OOk (VRem r)) ∈ k_trace x) →
    ∃ r', r_out (now fuel x j (GetNextFact a) []) = OOk (VRem r').

(** C25: CreateChildStory accepts what CreateStory accepts. *)
Definition claim_child_story (zp : zpolicy) : Prop :=
  ∀ S fuel x i a ob pr, meets zp S → plays zp false fuel S x → issued (k_trace x) a →
    fits fuel ob → fits fuel pr →
    (∃ r, r_out (now fuel x i (CreateStory ob pr) []) = OOk (VRem r)) →
    ∃ r, r_out (now fuel x i (CreateChildStory a ob pr) []) = OOk (VRem r).

(** C26: of two child stories of one parent one has the other as next story. *)
Definition claim_next_story (zp : zpolicy) : Prop :=
  ∀ S fuel x i i' j a ob pr ob' pr' r r', meets zp S → plays zp false fuel S x → r ≠ r' →
    Called i (CreateChildStory a ob pr) (OOk (VRem r)) ∈ k_trace x →
    Called i' (CreateChildStory a ob' pr') (OOk (VRem r')) ∈ k_trace x →
    r_out (now fuel x j (GetNextStory r) []) = OOk (VRem r') ∨
    r_out (now fuel x j (GetNextStory r') []) = OOk (VRem r).
Definition claim_has_next_story (zp : zpolicy) : Prop :=
  ∀ S fuel x j a, meets zp S → plays zp false fuel S x → issued (k_trace x) a →
    r_out (now fuel x j (HasNextStory a) []) = OOk (VBool false) ∨
    ∃ i b ob pr r, Called i (CreateChildStory b ob pr) (OOk (VRem r)) ∈ k_trace x.

(** C33: GetRemark only accepts identifiers of remarks. *)
Definition claim_foreign_identifiers (zp : zpolicy) : Prop :=
  ∀ S fuel x i identifier r, meets zp S → plays zp false fuel S x →
    r_out (now fuel x i (GetRemark identifier) []) = OOk (VRem r) → issued (k_trace x) r.

(** C43: the methods of a character found by its class node do not panic. *)
Definition claim_found_character (zp : zpolicy) : Prop :=
  ∀ S fuel x i class e, meets zp S → plays zp false fuel S x →
    r_out (run S (char_read_by_class class) [] (k_state x) (k_mem x i)) = OOk e →
    r_out (run S (char_method e char_has_target_word) [] (k_state x) (k_mem x i)) ≠ OPanic.

(** C44: a child story has a parent story, and it is found. *)
Definition claim_has_parent (zp : zpolicy) : Prop :=
  ∀ S fuel x i j a ob pr r, meets zp S → plays zp false fuel S x →
    Called i (CreateChildStory a ob pr) (OOk (VRem r)) ∈ k_trace x →
    r_out (run S (has_parent_story r) [] (k_state x) (k_mem x j)) = OOk true.
Definition claim_to_parent (zp : zpolicy) : Prop :=
  ∀ S fuel x i j a ob pr r, meets zp S → plays zp false fuel S x →
    Called i (CreateChildStory a ob pr) (OOk (VRem r)) ∈ k_trace x →
    ∃ f, r_out (run S (to_parent_story r) [] (k_state x) (k_mem x j)) = OOk f.

(** ** Faults *)

(** The [n]-th storage call fails. *)
Definition nth_fails (n : nat) : list event := repeat Normal n ++ [Fault].

(** C30: if a storage call fails, the call returns an error. *)
Definition claim_errors_surface (zp : zpolicy) : Prop :=
  ∀ S fuel x i o n, meets zp S → plays zp false fuel S x → legal fuel (k_trace x) (Called i o OKilled) →
    n < calls S (call_of fuel o) (nth_fails n) (k_state x) (k_mem x i) →
    ∃ e, r_out (now fuel x i o (nth_fails n)) = OErr e.

(** C31: a call that returns an error changes nothing one can see with a
    storage call. *)
Definition claim_no_trace (zp : zpolicy) : Prop :=
  ∀ S fuel x i o e c, meets zp S → plays zp false fuel S x → legal fuel (k_trace x) (Called i o OKilled) →
    r_out (now fuel x i o []) = OErr e →
    fst (st_step S (r_state (now fuel x i o [])) c) = fst (st_step S (k_state x) c).

(** C32: a CreateStory that would succeed, but meets a storage error, can be
    repeated, and what it then returns reads back. *)
Definition claim_retry (zp : zpolicy) : Prop :=
  ∀ S fuel x i ob pr n r, meets zp S → plays zp false fuel S x → settled (k_trace x) →
    fits fuel ob → fits fuel pr → valid_utf8 ob → valid_utf8 pr →
    r_out (now fuel x i (CreateStory ob pr) []) = OOk (VRem r) →
    let y := perform fuel x (Do i (CreateStory ob pr) (nth_fails n)) in
    ∃ r', r_out (now fuel y i (CreateStory ob pr) []) = OOk (VRem r') ∧
      r_out (now fuel (perform fuel y (Do i (CreateStory ob pr) [])) i (GetObjectAndProperty r') []) = OOk (VText ob pr).

(** C40: the process is killed in the very first CreateStory and restarted; if
    CreateStory then succeeds, the remark reads back. *)
Definition claim_first_crash (zp : zpolicy) : Prop :=
  ∀ S fuel i ob pr n r, meets zp S → fits fuel ob → fits fuel pr → valid_utf8 ob → valid_utf8 pr →
    let y := play S fuel [Do i (CreateStory ob pr) (repeat Normal n ++ [Kill]); Boot i] in
    r_out (now fuel y i (CreateStory ob pr) []) = OOk (VRem r) →
    r_out (now fuel (perform fuel y (Do i (CreateStory ob pr) [])) i (GetObjectAndProperty r) []) = OOk (VText ob pr).

(** ** Two Graph values at once

    One step of a program: up to and including its next storage call. *)
Fixpoint advance (S : storage) {A} (p : prog A) (s : st_state S) (m : cache) : prog A * st_state S * cache :=
  match p with
  | Ret a => (Ret a, s, m)
  | Throw e => (Throw e, s, m)
  | Panic => (Panic, s, m)
  | Diverge => (Diverge, s, m)
  | Call c k => let rs := st_step S s c in (k (fst rs), snd rs, m)
  | LoadBits k => advance S (k m) s m
  | StoreBits m' k => advance S k s m'
  end.
(** [true]: the first program makes a step. *)
Fixpoint race (S : storage) {A B} (sched : list bool) (p : prog A) (q : prog B) (s : st_state S) (mp mq : cache) :
    prog A * prog B * st_state S * cache * cache :=
  match sched with
  | [] => (p, q, s, mp, mq)
  | true :: sched' => match advance S p s mp with (p', s', mp') => race S sched' p' q s' mp' mq end
  | false :: sched' => match advance S q s mq with (q', s', mq') => race S sched' p q' s' mp mq' end
  end.
(** C29: two first uses at once do not fail. *)
Definition claim_concurrent_first_use (zp : zpolicy) : Prop :=
  ∀ S fuel ob pr ob' pr' sched e, meets zp S → fits fuel ob → fits fuel pr → fits fuel ob' → fits fuel pr' →
    (∃ r, r_out (run S (create_story fuel ob pr) [] (st_init S) None) = OOk r) →
    match race S sched (create_story fuel ob pr) (create_story fuel ob' pr') (st_init S) None None with
    | (p, _, _, _, _) => p ≠ Throw e
    end.

(** C46: two CreateStory that succeed one after the other, in either order, also
    succeed at once on a storage in use, and what they make reads back. *)
Definition claim_overlapping_writers (zp : zpolicy) : Prop :=
  ∀ S fuel x i j ob pr ob' pr' sched p q s mp mq, meets zp S → plays zp false fuel S x → settled (k_trace x) → i ≠ j →
    fits fuel ob → fits fuel pr → fits fuel ob' → fits fuel pr' →
    valid_utf8 ob → valid_utf8 pr → valid_utf8 ob' → valid_utf8 pr' →
    (∃ r r' t, k_trace (fold_left (perform fuel) [Do i (CreateStory ob pr) []; Do j (CreateStory ob' pr') []] x) =
      Called j (CreateStory ob' pr') (OOk (VRem r')) :: Called i (CreateStory ob pr) (OOk (VRem r)) :: t) →
    (∃ r r' t, k_trace (fold_left (perform fuel) [Do j (CreateStory ob' pr') []; Do i (CreateStory ob pr) []] x) =
      Called i (CreateStory ob pr) (OOk (VRem r)) :: Called j (CreateStory ob' pr') (OOk (VRem r')) :: t) →
    race S sched (create_story fuel ob pr) (create_story fuel ob' pr') (k_state x) (k_mem x i) (k_mem x j) = (p, q, s, mp, mq) →
    (∀ e, q ≠ Throw e) ∧ (∀ r, q = Ret r → r_out (run S (get_object_and_property fuel r) [] s mq) = OOk (ob', pr')).
(** If both succeed, a call that would succeed after them, had they run one
    after the other, still does. *)
Definition claim_after_writers (zp : zpolicy) : Prop :=
  ∀ S fuel x i j ob pr ob' pr' ob'' pr'' sched p q s mp mq, meets zp S → plays zp false fuel S x → settled (k_trace x) → i ≠ j →
    fits fuel ob → fits fuel pr → fits fuel ob' → fits fuel pr' → fits fuel ob'' → fits fuel pr'' →
    valid_utf8 ob → valid_utf8 pr → valid_utf8 ob' → valid_utf8 pr' → valid_utf8 ob'' → valid_utf8 pr'' →
    (∃ r r' r'' t, k_trace (fold_left (perform fuel)
        [Do i (CreateStory ob pr) []; Do j (CreateStory ob' pr') []; Do i (CreateStory ob'' pr'') []] x) =
      Called i (CreateStory ob'' pr'') (OOk (VRem r'')) :: Called j (CreateStory ob' pr') (OOk (VRem r')) ::
      Called i (CreateStory ob pr) (OOk (VRem r)) :: t) →
    race S sched (create_story fuel ob pr) (create_story fuel ob' pr') (k_state x) (k_mem x i) (k_mem x j) = (p, q, s, mp, mq) →
    ∀ r r', p = Ret r → q = Ret r' → ∃ r'', r_out (run S (create_story fuel ob'' pr'') [] s mp) = OOk r''.

(** ** Storages that keep parallel edges

    Such a storage may list a neighbour once for each Connect. *)
Definition gstep_parallel (zp : zpolicy) (g : graph) (c : call) : res (answer c) → graph → Prop :=
  match c return res (answer c) → graph → Prop with
  | CSources x => λ r g', guarded (valid zp g x) g r g'
      (∃ l : list N, r = Ok l ∧ (∀ y, y ∈ l ↔ (y, x) ∈ edges g) ∧ g' = g)
  | CTargets x => λ r g', guarded (valid zp g x) g r g'
      (∃ l : list N, r = Ok l ∧ (∀ y, y ∈ l ↔ (x, y) ∈ edges g) ∧ g' = g)
  | c => gstep zp g c
  end.
Definition meets_parallel (zp : zpolicy) (S : storage) : Prop := ∃ inv (abs : st_state S → graph),
  inv (st_init S) ∧ abs (st_init S) = empty_graph ∧
  ∀ s c, inv s →
    inv (snd (st_step S s c)) ∧
    gstep_parallel zp (abs s) c (fst (st_step S s c)) (abs (snd (st_step S s c))).

(** C34: words read back on such a storage too. *)
Definition claim_parallel_edges (zp : zpolicy) : Prop :=
  ∀ S fuel s e, meets_parallel zp S → fits fuel s → valid_utf8 s →
    let r := run S (word_provide fuel s) [] (st_init S) None in
    r_out r = OOk e → r_out (run S (word_extract fuel e) [] (r_state r) (r_cache r)) = OOk s.

(** ** Walks of more than one step

    C50: one can walk on from a fact that was walked to. *)
Definition claim_walk_on (zp : zpolicy) : Prop :=
  ∀ g f p f' p' f'' m out g' m', coherent g → walk g f p f' → walk g f' p' f'' →
    exec zp false (a <- p (FactAgg f true);; p' a) g m out g' m' → out = OOk (FactAgg f'' false).
