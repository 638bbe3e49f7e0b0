(** Histories of API calls and what the API promises about them.

    Traces list their latest entry first. *)
From stdpp Require Import gmap.
From Coq Require Import NArith ZArith.
From Verif Require Import Base GoText Model1 Model2 Model3 Storage SpecText SpecMachine.
Local Open Scope nat_scope.

(** ** The API: graph.go, internal/abstract/remark.go and output.go *)
Inductive opn :=
| CreateStory (object property : text)
| AddRemarkToFact (r : remark_ent) (property : text)
| AddFactToStory (r : remark_ent) (object property : text)
| CreateChildStory (r : remark_ent) (object property : text)
| GetRemark (identifier : N)
| GetObjectAndProperty (r : remark_ent)
| HasNextRemark (r : remark_ent)
| GetNextRemark (r : remark_ent)
| HasNextFact (r : remark_ent)
| GetNextFact (r : remark_ent)
| GetFirstFact (r : remark_ent)
| HasNextStory (r : remark_ent)
| GetNextStory (r : remark_ent)
| GetStory (r : remark_ent).

Inductive value :=
| VRem (r : remark_ent)
| VText (object property : text)
| VBool (b : bool)
| VStory (s : text).

(** The program of each call. *)
Definition call_of (fuel : nat) (o : opn) : prog value :=
  match o with
  | CreateStory ob pr => r <- create_story fuel ob pr;; Ret (VRem r)
  | AddRemarkToFact a pr => r <- add_remark_to_fact fuel a pr;; Ret (VRem r)
  | AddFactToStory a ob pr => r <- add_fact_to_story fuel a ob pr;; Ret (VRem r)
  | CreateChildStory a ob pr => r <- create_child_story fuel a ob pr;; Ret (VRem r)
  | GetRemark x => r <- get_remark x;; Ret (VRem r)
  | GetObjectAndProperty a => op <- get_object_and_property fuel a;; Ret (VText (fst op) (snd op))
  | HasNextRemark a => b <- has_next_remark a;; Ret (VBool b)
  | GetNextRemark a => r <- get_next_remark a;; Ret (VRem r)
  | HasNextFact a => b <- has_next_fact a;; Ret (VBool b)
  | GetNextFact a => r <- get_next_fact a;; Ret (VRem r)
  | GetFirstFact a => r <- get_first_fact a;; Ret (VRem r)
  | HasNextStory a => b <- has_next_story a;; Ret (VBool b)
  | GetNextStory a => r <- get_next_story a;; Ret (VRem r)
  | GetStory a => s <- get_story fuel a;; Ret (VStory s)
  end.

Definition creating (o : opn) : bool :=
  match o with
  | CreateStory _ _ | AddRemarkToFact _ _ | AddFactToStory _ _ _ | CreateChildStory _ _ _ => true
  | _ => false
  end.

(** The remark a method is called on. *)
Definition receiver (o : opn) : option remark_ent :=
  match o with
  | CreateStory _ _ | GetRemark _ => None
  | AddRemarkToFact a _ | AddFactToStory a _ _ | CreateChildStory a _ _ | GetObjectAndProperty a
  | HasNextRemark a | GetNextRemark a | HasNextFact a | GetNextFact a | GetFirstFact a
  | HasNextStory a | GetNextStory a | GetStory a => Some a
  end.

Definition texts (o : opn) : list text :=
  match o with
  | CreateStory ob pr | AddFactToStory _ ob pr | CreateChildStory _ ob pr => [ob; pr]
  | AddRemarkToFact _ pr => [pr]
  | _ => []
  end.

(** The two texts given to a call that makes a remark with texts of its own. *)
Definition own_texts (o : opn) : option (text * text) :=
  match o with
  | CreateStory ob pr | AddFactToStory _ ob pr | CreateChildStory _ ob pr => Some (ob, pr)
  | _ => None
  end.

(** ** Histories

    Any number of Graph values work on one storage, one call at a time; [mem]
    is the bit cache each Graph value keeps. *)
Record world := World { store : graph; mem : nat → cache }.
Definition first_world : world := World empty_graph (λ _, None).

Inductive entry :=
| Called (i : nat) (o : opn) (out : outcome value)
| Restarted (i : nat).
Notation trace := (list entry).

Definition keep (i : nat) (m : cache) (mm : nat → cache) : nat → cache :=
  λ j, if Nat.eqb j i then m else mm j.

(** What is left of the memory of a Graph value: nothing if it was killed. *)
Definition after {A} (out : outcome A) (m : cache) : cache :=
  match out with OKilled => None | _ => m end.

Inductive hstep (zp : zpolicy) (fk : bool) (fuel : nat) : world → entry → world → Prop :=
| HCall i o out w g' m' :
    exec zp fk (call_of fuel o) (store w) (mem w i) out g' m' →
    hstep zp fk fuel w (Called i o out) (World g' (keep i (after out m') (mem w)))
| HRestart i w :
    hstep zp fk fuel w (Restarted i) (World (store w) (keep i None (mem w))).

(** A remark some creating call returned. *)
Definition issued (t : trace) (r : remark_ent) : Prop :=
  ∃ i o, creating o = true ∧ Called i o (OOk (VRem r)) ∈ t.
Definition settled (t : trace) : Prop := ∃ r, issued t r.

(** The loops of the model run on fuel; a text fits if they do not run out of
    it.  (Theorem [C35_terminates]: they never do then.) *)
Definition fits (fuel : nat) (s : text) : Prop := 3 * length s + 31 ≤ fuel.

(** ** What a history says about a remark *)

(** Remark [r] says: object [o], property [p].  Bytes that are not UTF-8 are
    replaced. *)
Inductive tells : trace → remark_ent → text → text → Prop :=
| tells_later e t r o p : tells t r o p → tells (e :: t) r o p
| tells_story i ob pr t r o p :
    repaired ob o → repaired pr p →
    tells (Called i (CreateStory ob pr) (OOk (VRem r)) :: t) r o p
| tells_fact i a ob pr t r o p :
    repaired ob o → repaired pr p →
    tells (Called i (AddFactToStory a ob pr) (OOk (VRem r)) :: t) r o p
| tells_child i a ob pr t r o p :
    repaired ob o → repaired pr p →
    tells (Called i (CreateChildStory a ob pr) (OOk (VRem r)) :: t) r o p
| tells_remark i a pr t r o q p :
    tells t a o q → repaired pr p →
    tells (Called i (AddRemarkToFact a pr) (OOk (VRem r)) :: t) r o p.

(** The story of [r] was opened by [r0]; [facts] tells if facts added to a
    story are followed. *)
Inductive opened (facts : bool) : trace → remark_ent → remark_ent → Prop :=
| opened_later e t r r0 : opened facts t r r0 → opened facts (e :: t) r r0
| opened_story i ob pr t r :
    opened facts (Called i (CreateStory ob pr) (OOk (VRem r)) :: t) r r
| opened_child i a ob pr t r :
    opened facts (Called i (CreateChildStory a ob pr) (OOk (VRem r)) :: t) r r
| opened_remark i a pr t r r0 :
    opened facts t a r0 →
    opened facts (Called i (AddRemarkToFact a pr) (OOk (VRem r)) :: t) r r0
| opened_fact i a ob pr t r r0 :
    facts = true → opened facts t a r0 →
    opened facts (Called i (AddFactToStory a ob pr) (OOk (VRem r)) :: t) r r0.

(** The story that [r0] opened is a child story. *)
Definition is_child (t : trace) (r0 : remark_ent) : Prop :=
  ∃ i a ob pr, Called i (CreateChildStory a ob pr) (OOk (VRem r0)) ∈ t.

(** ** The histories considered *)

(** Methods are called on remarks the API returned.  GetStory is only called on
    remarks whose story was opened by CreateStory or CreateChildStory. *)
Definition legal (fuel : nat) (t : trace) (e : entry) : Prop :=
  match e with
  | Called _ o _ =>
    (∀ r, receiver o = Some r → issued t r) ∧ Forall (fits fuel) (texts o) ∧
    (∀ r, o = GetStory r → ∃ r0, opened false t r r0)
  | Restarted _ => True
  end.

(** [reach zp faults fuel t w]: the history [t] may lead to [w].  With
    [faults] any storage call may fail and any call may be killed half-way, once
    some creating call has succeeded; this is only considered for storages that
    do not know node 0.  (Without these two restrictions: [C12_refuted],
    [C14_refuted], [C32_refuted].) *)
Inductive reach (zp : zpolicy) (faults : bool) (fuel : nat) : trace → world → Prop :=
| reach_first : reach zp faults fuel [] first_world
| reach_step fk t w e w' :
    reach zp faults fuel t w → legal fuel t e → hstep zp fk fuel w e w' →
    (fk = true → faults = true ∧ zp = ZStrict ∧ settled t) →
    reach zp faults fuel (e :: t) w'.

(** The history [t] at [w] may go on to [t'] at [w']. *)
Inductive leads (zp : zpolicy) (faults : bool) (fuel : nat) (t : trace) (w : world) : trace → world → Prop :=
| leads_now : leads zp faults fuel t w t w
| leads_step fk t1 w1 e w2 :
    leads zp faults fuel t w t1 w1 → legal fuel t1 e → hstep zp fk fuel w1 e w2 →
    (fk = true → faults = true ∧ zp = ZStrict ∧ settled t1) →
    leads zp faults fuel t w (e :: t1) w2.

(** After the history [t] at [w] the Graph value [i] makes the call [o], which
    ends with [out] and leaves [w'].  [fk]: storage calls may fail and the call
    may be killed. *)
Definition happens (zp : zpolicy) (faults : bool) (fuel : nat) (t : trace) (w : world) (fk : bool)
    (i : nat) (o : opn) (out : outcome value) (w' : world) : Prop :=
  reach zp faults fuel t w ∧ legal fuel t (Called i o out) ∧ hstep zp fk fuel w (Called i o out) w' ∧
  (fk = true → faults = true ∧ zp = ZStrict ∧ settled t).

(** A call that always answers [v] when no storage call fails, and never
    answers anything else. *)
Definition answers {A} (fk : bool) (out : outcome A) (v : A) : Prop :=
  (fk = false → out = OOk v) ∧ ∀ v', out = OOk v' → v' = v.
(** A call that always ends with error [x] when no storage call fails, and
    never succeeds. *)
Definition refuses {A} (fk : bool) (out : outcome A) (x : err) : Prop :=
  (fk = false → out = OErr x) ∧ ∀ v, out ≠ OOk v.

(** "", or a text that begins with a space. *)
Definition blank_start (s : text) : Prop := s = [] ∨ ∃ s', s = space :: s'.

(** The two texts given by a creating call to a detail; [None] for the object of
    a remark added to a fact. *)
Definition given (o : opn) : option (option text * text) :=
  match o with
  | CreateStory ob pr | AddFactToStory _ ob pr | CreateChildStory _ ob pr => Some (Some ob, pr)
  | AddRemarkToFact _ pr => Some (None, pr)
  | _ => None
  end.

(** Some fact was added to some story. *)
Definition fact_added (t : trace) : Prop :=
  ∃ i a ob pr v, Called i (AddFactToStory a ob pr) (OOk v) ∈ t.


(** ** The abstract machine of C18

    [ms_object] is the object of each remark, by identifier; [ms_zero] counts
    the edges that leave node 0, up to 2. *)
Record mstate := MState { ms_view : pview; ms_object : gmap N text; ms_zero : nat }.
Definition ms_first : mstate := MState (PV (WV ∅ ∅) ∅) ∅ 0.

(** The words of a text as code points. *)
Definition code_points (s : text) : list (list Z) := map runes_of (split_space s).

(** The two texts a creating call stores. *)
Definition stores (s : mstate) (o : opn) : option (text * text) :=
  match o with
  | CreateStory ob pr | AddFactToStory _ ob pr | CreateChildStory _ ob pr => Some (ob, pr)
  | AddRemarkToFact a pr => match ms_object s !! re_class a with Some ob => Some (ob, pr) | None => None end
  | _ => None
  end.

Definition predict (zp : zpolicy) (s : mstate) (o : opn) : option moutcome :=
  match stores s o with
  | Some (ob, pr) =>
    Some (match fst (m_detail (ms_view s) (code_points ob) (code_points pr)) with
          | MOk =>
            match o, zp with
            | AddFactToStory _ _ _, ZStrict | CreateChildStory _ _ _, ZStrict => MErr
            | CreateChildStory _ _ _, ZNode => if ms_zero s <=? 1 then MOk else MErr
            | _, _ => MOk
            end
          | x => x
          end)
  | None => None
  end.

Definition m_step (s : mstate) (e : entry) : mstate :=
  match e with
  | Called _ o out =>
    match stores s o with
    | Some (ob, pr) =>
      MState (snd (m_detail (ms_view s) (code_points ob) (code_points pr)))
        (match out with OOk (VRem r) => <[re_class r := ob]> (ms_object s) | _ => ms_object s end)
        (match o, out with
         | AddFactToStory _ _ _, OOk _ => if ms_zero s =? 0 then 1 else 2
         | CreateChildStory _ _ _, OOk _ => if ms_zero s =? 0 then 0 else 2
         | _, _ => ms_zero s
         end)
    | None => s
    end
  | Restarted _ => s
  end.
Definition m_run (t : trace) : mstate := foldr (λ e s, m_step s e) ms_first t.

Definition kind {A} (out : outcome A) : option moutcome :=
  match out with
  | OOk _ => Some MOk | OErr _ => Some MErr | OPanic => Some MPanic
  | ODiverge | OKilled => None
  end.

Definition valid_entry (e : entry) : Prop :=
  match e with Called _ o _ => Forall valid_utf8 (texts o) | Restarted _ => True end.
Definition valid_trace (t : trace) : Prop := Forall valid_entry t.
