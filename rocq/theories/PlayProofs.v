(** Histories on a concrete storage are histories in the sense of [Spec]. *)
From stdpp Require Import gmap.
From Coq Require Import NArith ZArith Lia.
From Verif Require Import Base GoText Model1 Model2 Model3 Storage RefStorage RefProofs SpecText SpecMachine Spec SpecPlay
  HistoryProofs.
Local Open Scope nat_scope.

Lemma all_normal_spec evs : all_normal evs = true ↔ Forall (λ e, e = Normal) evs.
Proof.
  unfold all_normal. rewrite forallb_forall, Forall_forall. split; intros H e He.
  - apply elem_of_list_In in He. specialize (H e He). by destruct e.
  - apply elem_of_list_In in He. by rewrite (H e He).
Qed.

Section play.
  Context {zp : zpolicy} {S : storage} {inv : st_state S → Prop} {abs : st_state S → graph}.
  Context (HS : stands zp S inv abs).

  (** The world a machine stands for. *)
  Definition view (x : machine S) : world := World (abs (k_state x)) (k_mem x).

  Lemma now_exec fuel x i o evs : inv (k_state x) →
    inv (r_state (now fuel x i o evs)) ∧
    exec zp (negb (all_normal evs)) (call_of fuel o) (abs (k_state x)) (k_mem x i)
      (r_out (now fuel x i o evs)) (abs (r_state (now fuel x i o evs))) (r_cache (now fuel x i o evs)).
  Proof.
    intros Hi. apply run_exec; [apply HS| |done]. intros Hn%negb_false_iff. by apply all_normal_spec.
  Qed.

  Lemma now_hstep fuel x i o evs : inv (k_state x) →
    hstep zp (negb (all_normal evs)) fuel (view x) (Called i o (r_out (now fuel x i o evs)))
      (view (perform fuel x (Do i o evs))).
  Proof. intros Hi. apply (HCall zp _ fuel i o _ (view x)). by apply now_exec. Qed.

  Lemma plays_reach faults fuel x :
    plays zp faults fuel S x → inv (k_state x) ∧ reach zp faults fuel (k_trace x) (view x).
  Proof.
    induction 1 as [|x a _ [Hi Hr] Ha].
    - split; [apply HS|]. unfold view. simpl. destruct HS as (_&->&_). apply reach_first.
    - destruct a as [i o evs|i]; simpl.
      + split; [by apply now_exec|]. destruct Ha as [Hl Hf].
        eapply reach_step; [exact Hr| |by apply now_hstep|].
        * destruct Hl as (?&?&?). done.
        * intros Hn%negb_true_iff. by apply Hf.
      + split; [done|]. eapply (reach_step _ _ _ false); [exact Hr|done| |done]. apply (HRestart _ _ _ i (view x)).
  Qed.
End play.

(** ** Checking scripts by computation *)
Definition creatingb_issued (r : remark_ent) (e : entry) : bool :=
  match e with
  | Called _ o (OOk (VRem r')) => creating o && bool_decide (r' = r)
  | _ => false
  end.

Definition issuedb (t : trace) (r : remark_ent) : bool := existsb (creatingb_issued r) t.
Definition settledb (t : trace) : bool :=
  existsb (λ e, match e with Called _ o (OOk (VRem r')) => creating o | _ => false end) t.
Definition openedb (t : trace) (r : remark_ent) : bool :=
  existsb (λ e, match e with
    | Called _ (CreateStory _ _) (OOk (VRem r')) | Called _ (CreateChildStory _ _ _) (OOk (VRem r')) => bool_decide (r' = r)
    | _ => false end) t.

Definition allowedb (zp : zpolicy) (faults : bool) (fuel : nat) (t : trace) (a : act) : bool :=
  match a with
  | Do i o evs =>
    match receiver o with Some r => issuedb t r | None => true end &&
    forallb (λ s, 3 * length s + 31 <=? fuel) (texts o) &&
    match o with GetStory r => openedb t r | _ => true end &&
    (all_normal evs || faults && match zp with ZStrict => settledb t | ZNode => false end)
  | Boot _ => true
  end.

Fixpoint allowed_all {S} (zp : zpolicy) (faults : bool) (fuel : nat) (x : machine S) (acts : list act) : bool :=
  match acts with
  | [] => true
  | a :: acts' => allowedb zp faults fuel (k_trace x) a && allowed_all zp faults fuel (perform fuel x a) acts'
  end.

Lemma issuedb_sound t r : issuedb t r = true → issued t r.
Proof.
  unfold issuedb. intros (e&Hin&He)%existsb_exists. apply elem_of_list_In in Hin.
  destruct e as [i o [[r'| | |]| | | |]|]; simpl in He; try done.
  apply andb_true_iff in He as [Hc ->%bool_decide_eq_true]. by exists i, o.
Qed.
Lemma settledb_sound t : settledb t = true → settled t.
Proof.
  unfold settledb. intros (e&Hin&He)%existsb_exists. apply elem_of_list_In in Hin.
  destruct e as [i o [[r'| | |]| | | |]|]; simpl in He; try done. exists r', i, o. done.
Qed.
Lemma openedb_sound t r : openedb t r = true → ∃ r0, opened false t r r0.
Proof.
  unfold openedb. intros (e&Hin&He)%existsb_exists. exists r. induction t as [|e' t IH]; [done|].
  destruct Hin as [->|Hin]; [|by apply opened_later, IH].
  destruct e as [i o [[r'| | |]| | | |]|]; simpl in He; try done; destruct o; try done;
    apply bool_decide_eq_true in He as ->; (apply opened_story || apply opened_child).
Qed.

Lemma allowedb_sound zp faults fuel t a : allowedb zp faults fuel t a = true → allowed zp faults fuel t a.
Proof.
  destruct a as [i o evs|i]; [|done]. simpl. intros [[[H1 H2]%andb_true_iff H3]%andb_true_iff H4]%andb_true_iff.
  split; [split_and!|].
  - intros r Hr. rewrite Hr in H1. by apply issuedb_sound.
  - apply Forall_forall. intros s Hs%elem_of_list_In. rewrite forallb_forall in H2. specialize (H2 s Hs).
    apply Nat.leb_le in H2. exact H2.
  - intros r ->. by apply openedb_sound.
  - intros Hn. rewrite Hn in H4. simpl in H4. apply andb_true_iff in H4 as [-> H4].
    destruct zp; [|done]. split_and!; [done|done|by apply settledb_sound].
Qed.

Lemma allowed_all_plays {S} zp faults fuel (x : machine S) acts :
  plays zp faults fuel S x → allowed_all zp faults fuel x acts = true →
  plays zp faults fuel S (fold_left (perform fuel) acts x).
Proof.
  revert x. induction acts as [|a acts IH]; intros x Hx; [done|]. simpl.
  intros [Ha Hs]%andb_true_iff. apply IH; [|done]. apply plays_act; [done|by apply allowedb_sound].
Qed.

Lemma play_plays zp faults fuel S acts :
  allowed_all zp faults fuel (on S) acts = true → plays zp faults fuel S (play S fuel acts).
Proof. apply allowed_all_plays. apply plays_on. Qed.
