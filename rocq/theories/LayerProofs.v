(** Theorems about direct uses of the lower layers. *)
From stdpp Require Import gmap.
From Coq Require Import NArith ZArith Lia.
From Verif Require Import Base GoText Model1 Model2 Model3 Storage SpecText SpecMachine Spec SpecLayers Codec Inv Wp Steps
  Entity BitProofs Reads CharProofs WordProofs PhraseProofs DetailProofs StoryProofs Utf8Proofs HistoryProofs ApiProofs.
Local Open Scope nat_scope.

(** What the result of a call means. *)
Definition said (G : ghost) (g : graph) (o : lopn) (v : lvalue) : Prop :=
  match o, v with
  | PutClass, LUnit => True
  | PutBit b, LBit e => ∃ z o, bits G = BReady z o ∧ e = bit_of z o b
  | PutChar r, LChar (Some e) => charC G g e r
  | PutChar r, LChar None => True
  | PutWord s, LWord e => wordC G g e (runes_of s)
  | PutPhrase s, LPhrase e => phraseC G g e (words_of s)
  | _, _ => False
  end.

Lemma said_mono G g G' g' o v : ext G g G' g' → said G g o v → said G' g' o v.
Proof.
  intros X. destruct o, v; try done; simpl.
  - intros (z&o&Hb&->). exists z, o. split; [|done]. by apply (ext_ready X).
  - destruct a; [|done]. by apply charC_mono.
  - by apply wordC_mono.
  - by apply phraseC_mono.
Qed.

Definition akind (ab : abn) : moutcome := match ab with APanic => MPanic | _ => MErr end.

Lemma char_collect_negative r : (r < 0)%Z → char_collect r = Err EInvalidBitName.
Proof. destruct r; [lia..|]. done. Qed.

Section put.
  Context {zp : zpolicy} {fk : bool} {fuel : nat}.
  Notation W := (W zp fk fuel).
  Notation E0 := (E0 fk).
  Notation prepared := (prepared (fk := fk)).

  Definition putQ (o : lopn) (G : ghost) (g : graph) : post lvalue := λ v G' g',
    up G' ∧ (o ≠ PutClass → ready G') ∧ said G' g' o v ∧ (fk = false → v ≠ LChar None) ∧
    (fk = false → lvalid o → ∀ M, pview_of G g M → pview_of G' g' (l_step M o) ∧ l_predict M o = MOk) ∧
    (fk = false → ∀ s e M, o = PutWord s → v = LWord e → pview_of G g M →
      ∃ b, fst (m_word (pV M) (runes_of s)) = Some b ∧ (b = true → fresh_word e g')).

  Definition putE (o : lopn) (G : ghost) (g : graph) : post abn := λ ab G' g',
    E0 ab G' g' ∨
    (ab ≠ ADiverge ∧ started G' g' ∧
     (fk = false → lvalid o → ∀ M, pview_of G g M → pview_of G' g' (l_step M o) ∧ l_predict M o = akind ab) ∧
     match o with
     | PutClass | PutBit _ => False
     | PutChar r => (r < 0)%Z ∧ ab = AErr EInvalidBitName ∧ g' = g
     | PutWord s => ab = AErr (match s with [] => ENoCharacters | _ => ECharTargetWords end)
     | PutPhrase s => ab = AErr (first_err s) ∨ ab = APanic ∧ 2 ≤ length (split_space s)
     end).

  Lemma W_map {A} n (mk : A → lvalue) (p : prog A) (Q : post A) (E : post abn) (Q' : post lvalue) (E' : post abn) G g :
    W n p Q E G g →
    (∀ x G' g', ok fuel G' g' → quiet G' → extn n G g G' g' → Q x G' g' → Q' (mk x) G' g') →
    (∀ ab G' g', ok fuel G' g' → quiet G' → extn n G g G' g' → E ab G' g' → E' ab G' g') →
    n ≤ 3 → W 3 (x <- p;; Ret (mk x)) Q' E' G g.
  Proof.
    intros H HQ HE Hn. eapply W_bind; [exact H|exact Hn| |exact HE].
    intros x G' g' ? ? ? ?. apply W_ret. intros _ _. by apply HQ.
  Qed.

  Lemma view_low G g G' g' V :
    ok fuel G g → ok fuel G' g' → extn 0 G g G' g' → fk = false →
    link_frame (fk := fk) (λ _, False) G g G' g' → wview_of G g V → wview_of G' g' V.
  Proof.
    intros Hok Hok' [X Hn] Hfk Hl [HP HH]. split.
    - intros v. rewrite HP. split; [|intros Hv; by destruct (Hl Hfk v Hv)].
      intros [c Hc]. exists c. by apply (charC_mono X).
    - intros r'. eapply (nheads_same X); [|apply HH]. intros c. apply (head_same Hok Hok' X).
      intros x y l Hxy Hxy' Hlx. destruct (Hn x y Hxy Hxy') as (l'&Hl'&Hrk). simplify_eq.
      destruct l; simpl in *; lia || done.
  Qed.

  Lemma W_put o G g :
    started G g → prepared G → lfits fuel o → W 3 (put fuel o) (putQ o G g) (putE o G g) G g.
  Proof.
    intros Hst Hp [H31 Hf]. apply W_intro. intros Hok Hq. destruct o as [|b|r|s|s]; cbn [put].
    - eapply (W_map 0 (λ _, LUnit)); [by apply (W_class_provide 0)| | |lia].
      + intros [] G' g' Hok' Hq' X (Hup&Hb&He). split_and!; try done.
        intros _ _ M HM. split; [|done]. eapply (pview_word fuel H31 (le_n fuel) M (pV M)); [exact Hok|exact Hok'|by eapply extn_le; [|exact X]; lia|exact HM|].
        destruct HM as [HV _]. apply (view_same Hok Hok' (extn_ext _ _ _ _ _ X)); [|exact HV].
        intros x y l Hxy Hxy'. by rewrite He in Hxy.
      + intros ab G' g' ? ? ? ?. by left.
    - eapply (W_map 0 LBit); [by apply (W_bit_provide 0)| | |lia].
      + intros e G' g' Hok' Hq' X (Hup&(z&o&Hb&->)&Hlf). split_and!; try done.
        * intros _. by exists z, o.
        * by exists z, o.
        * intros Hfk _ M HM. split; [|done]. eapply (pview_word fuel H31 (le_n fuel) M (pV M));
            [exact Hok|exact Hok'|by eapply extn_le; [|exact X]; lia|exact HM|]. destruct HM as [HV _].
          eapply (view_low G g); [exact Hok|exact Hok'|exact X|exact Hfk|exact Hlf|exact HV].
      + intros ab G' g' ? ? ? ?. by left.
    - destruct (Z.ltb_spec r 0) as [Hneg|Hpos].
      + assert (Hc := char_collect_negative r Hneg). unfold char_provide. rewrite Hc. cbn [of_res bind].
        apply W_throw. intros _ _. right. split_and!; try done.
        intros _ _ M HM. simpl. by destruct (Z.ltb_spec r 0); [|lia].
      + assert (rune_ok r) by (unfold rune_ok; unfold is_rune in Hf; simpl in Hf; lia).
        eapply (W_map 1 LChar); [by apply W_char_provide| | |lia].
        * intros x G' g' Hok' Hq' X (Hup&Hrd&Hlf&Hx). split_and!; try done.
          -- simpl. destruct Hx as [(e&->&He)|[_ ->]]; done.
          -- intros Hfk. by destruct Hx as [(e&->&He)|[? ->]]; [|congruence].
          -- intros Hfk _ M HM. simpl. destruct (Z.ltb_spec r 0); [lia|]. split; [|done].
             destruct Hx as [(e&->&He)|[? ->]]; [|congruence].
             eapply (pview_word fuel H31 (le_n fuel) M); [exact Hok|exact Hok'|by eapply extn_le; [|exact X]; lia|exact HM|].
             eapply (view_char fuel H31 (le_n fuel) e); [exact Hok|exact Hok'|exact X|exact Hfk|done|exact Hlf|exact He|apply HM].
        * intros ab G' g' ? ? ? ?. by left.
    - destruct s as [|a s'].
      + unfold word_provide. simpl. apply W_throw. intros _ _. right. split_and!; try done.
      + assert (length (a :: s') < fuel) by (unfold fits in Hf; simpl in *; lia).
        set (s := a :: s') in *.
        eapply (W_map 2 LWord); [by apply (W_word_provide fuel H31 (le_n fuel))| | |lia].
        * intros e G' g' Hok' Hq' X (Hup&Hrd&He&HV). split_and!; try done.
          -- intros Hfk _ M HM. destruct (HV Hfk (pV M)) as (b&V'&HmV&HV'&_); [apply HM|].
             cbn [l_step l_predict]. rewrite HmV. simpl. split; [|done].
             eapply (pview_word fuel H31 (le_n fuel) M); [exact Hok|exact Hok'|exact X|exact HM|exact HV'].
          -- intros Hfk s0 e0 M [= <-] [= <-] HM. destruct (HV Hfk (pV M)) as (b&V'&HmV&HV'&Hb); [apply HM|].
             exists b. by rewrite HmV.
        * intros ab G' g' Hok' Hq' X [?|(->&Hup&Hrd&HV)]; [by left|right]. split_and!; try done.
          -- by left.
          -- intros Hfk _ M HM. destruct (HV Hfk (pV M)) as (V'&HmV&HV'); [apply HM|].
             cbn [l_step l_predict]. rewrite HmV. simpl. split; [|done].
             eapply (pview_word fuel H31 (le_n fuel) M); [exact Hok|exact Hok'|exact X|exact HM|exact HV'].
    - assert (S (length s) < fuel) by (unfold fits in Hf; simpl in *; lia).
      eapply (W_map 3 LPhrase); [by apply (W_phrase_provide fuel H31 (le_n fuel))| | |lia].
      + intros e G' g' Hok' Hq' X (Hup&Hrd&He&HM). split_and!; try done.
        intros Hfk Hv M HM0. destruct (HM Hfk) with (M := M) as (M'&Hm&HM'); [by apply clean_tidy, valid_clean|done|].
        simpl. unfold code_points. change (map runes_of (split_space s)) with (words_of s). rewrite Hm. done.
      + intros ab G' g' Hok' Hq' X [?|(Hab&Hs&Hp'&HM)]; [by left|right]. split_and!; try done.
        * by destruct Hab as [->|[-> _]].
        * intros Hfk Hv M HM0. destruct (HM Hfk) with (M := M) as (M'&Hm&HM'); [by apply clean_tidy, valid_clean|done|].
          simpl. unfold code_points. change (map runes_of (split_space s)) with (words_of s). rewrite Hm. simpl.
          split; [done|]. by destruct Hab as [->|[-> _]].
  Qed.
End put.

(** * The invariant *)
Record K (fuel : nat) (t : trace) (l : list (lopn * outcome lvalue)) (w : world) (d : bool) (G : ghost) : Prop := {
  K_ok : ok fuel G (store w);
  K_quiet : quiet G;
  K_mem : ∀ i, cache_ok G (mem w i);
  K_started : started G (store w);
  K_settled : settled_by t l → up G ∧ ready G;
  K_class : (∃ v, (PutClass, OOk v) ∈ l) → up G;
  K_said : ∀ o v, (o, OOk v) ∈ l → said G (store w) o v;
  K_view : d = false → valid_trace t → Forall (λ x, lvalid (fst x)) l →
    pview_of G (store w) (l_run (ms_view (m_run t)) l)
}.

Lemma K_api zp fuel t w d G : J zp fuel t w d G → K fuel t [] w d G.
Proof.
  intros HJ. split; try by apply HJ.
  - intros [Hs|(?&?&H&_)]; [|by inversion H]. split; by apply (J_settled _ _ _ _ _ _ HJ).
  - intros (?&H). inversion H.
  - intros ? ? H. inversion H.
  - intros Hd Hv _. by apply (J_view _ _ _ _ _ _ HJ).
Qed.

Lemma K_step zp fk fuel t l w d G i o out g' m' :
  K fuel t l w d G → lfits fuel o → exec zp fk (put fuel o) (store w) (mem w i) out g' m' →
  (fk = true → settled_by t l) →
  ∃ G', K fuel t ((o, out) :: l) (World g' (keep i (after out m') (mem w))) (d || fk) G' ∧
    ext G (store w) G' g' ∧
    (out = OKilled ∧ fk = true ∨ ended fk (putQ (fk := fk) o G (store w)) (putE (fk := fk) o G (store w)) out G' g').
Proof.
  intros HK Hf Hx Hfk.
  assert (HW := W_put (zp := zp) (fk := fk) o G (store w) (K_started _ _ _ _ _ _ HK)
    (λ H, proj2 (K_settled _ _ _ _ _ _ HK (Hfk H))) Hf).
  destruct (W_sound _ _ _ _ _ _ _ _ _ _ _ _ _ HW Hx (K_ok _ _ _ _ _ _ HK) (K_quiet _ _ _ _ _ _ HK)
    (K_mem _ _ _ _ _ _ HK i)) as (G'&Hok'&X&Hm&Hend).
  exists G'. split; [|split; [done|]].
  2: { destruct Hend as [?|(_&_&?)]; [by left|by right]. }
  assert (Hfd : fk = true → up G' ∧ ready G').
  { intros H. destruct (K_settled _ _ _ _ _ _ HK (Hfk H)) as [Hu Hr].
    split; [by apply (up_mono X)|by apply (ready_mono _ _ _ _ X)]. }
  assert (Hq' : quiet G').
  { destruct Hend as [[_ H]|(?&_)]; [|done]. destruct (Hfd H) as (_&z&o'&Hb). split; [by rewrite Hb|].
    apply (solo_mono X). by destruct (K_quiet _ _ _ _ _ _ HK). }
  split; cbn [store mem]; auto.
  - intros j. unfold keep. destruct (Nat.eqb j i); [by destruct out|].
    pose proof (K_mem _ _ _ _ _ _ HK j) as Hj.
    destruct (mem w j) as [[z o']|]; [|done]. simpl in *. by apply (ext_ready X).
  - destruct Hend as [[_ H]|(_&_&Hend)]; [left; by apply Hfd|].
    destruct out as [v|e| | |]; simpl in Hend.
    + left. apply Hend.
    + destruct Hend as [[H _]|(_&H&_)]; [left; by apply Hfd|done].
    + destruct Hend as [[H _]|(_&H&_)]; [left; by apply Hfd|done].
    + destruct Hend as [[H _]|(_&H&_)]; [left; by apply Hfd|done].
    + left. by apply Hfd.
  - intros [Hs|(o'&v&Hin&Hne)].
    + destruct (K_settled _ _ _ _ _ _ HK (or_introl Hs)) as [Hu Hr].
      split; [by apply (up_mono X)|by apply (ready_mono _ _ _ _ X)].
    + apply elem_of_cons in Hin as [[= <- <-]|Hin].
      * destruct Hend as [[? _]|(_&_&Hend)]; [done|]. simpl in Hend. destruct Hend as (?&?&_). auto.
      * destruct (K_settled _ _ _ _ _ _ HK) as [Hu Hr]; [right; eauto|].
        split; [by apply (up_mono X)|by apply (ready_mono _ _ _ _ X)].
  - intros [v Hin]. apply elem_of_cons in Hin as [[= <- <-]|Hin].
    + destruct Hend as [[? _]|(_&_&Hend)]; [done|]. apply Hend.
    + apply (up_mono X). apply (K_class _ _ _ _ _ _ HK). eauto.
  - intros o' v Hin. apply elem_of_cons in Hin as [[= <- <-]|Hin].
    + destruct Hend as [[? _]|(_&_&Hend)]; [done|]. apply Hend.
    + eapply said_mono; [exact X|]. by apply (K_said _ _ _ _ _ _ HK).
  - intros [Hd ->]%orb_false_iff Hv [Hv1 Hv2]%Forall_cons. simpl in Hv1.
    pose proof (K_view _ _ _ _ _ _ HK Hd Hv Hv2) as HM. cbn [l_run foldr fst].
    destruct Hend as [[_ ?]|(_&_&Hend)]; [done|].
    destruct out as [v|e| | |]; simpl in Hend.
    + destruct Hend as (_&_&_&_&HV&_). by apply HV.
    + destruct Hend as [[? _]|(_&_&HV&_)]; [done|by apply HV].
    + destruct Hend as [[? _]|(_&_&HV&_)]; [done|by apply HV].
    + destruct Hend as [[? _]|(_&_&HV&_)]; [done|by apply HV].
    + done.
Qed.

Lemma grown_K zp faults fuel t l w :
  grown zp faults fuel t l w → ∃ d G, K fuel t l w d G ∧ (d = true → faults = true).
Proof.
  induction 1 as [w Hr|fk l w i o out g' m' _ (d&G&HK&Hd) Hf Hx Hfk|l w i _ (d&G&HK&Hd)].
  - destruct (reach_J _ _ _ _ _ Hr) as (d&G&HJ&Hd). exists d, G. split; [by eapply K_api|done].
  - destruct (K_step _ _ _ _ _ _ _ _ _ _ _ _ _ HK Hf Hx) as (G'&HK'&_); [by intros H; apply Hfk|].
    exists (d || fk), G'. split; [done|]. intros [?|H]%orb_true_iff; [auto|by apply Hfk].
  - exists d, G. split; [|done]. destruct HK. split; auto. cbn [mem]. intros j.
    unfold keep. by destruct (Nat.eqb j i).
Qed.

Lemma cache_in_ok fuel t l w d G m : K fuel t l w d G → cache_in w m → cache_ok G m.
Proof. intros HK [->|[j ->]]; [done|]. by apply (K_mem _ _ _ _ _ _ HK). Qed.

(** * Theorems *)
Section layers.
  Context {zp : zpolicy} {faults : bool} {fuel : nat} {t : trace} {l : list (lopn * outcome lvalue)} {w : world}.
  Context (Hw : grown zp faults fuel t l w).

  Lemma R_gives {A} fk (p : prog A) a G m out g' m' :
    R zp fk fuel p (λ x _ _, x = a) (E0 fk) G (store w) →
    exec zp fk p (store w) m out g' m' → ok fuel G (store w) → cache_ok G m →
    g' = store w ∧ answers fk out a.
  Proof using.
    intros HR Hx Hok Hc.
    destruct (R_sound _ _ _ _ _ _ _ _ _ Hx HR Hok Hc) as (->&_&Hend). split; [done|].
    destruct out as [v|e| | |]; simpl in Hend.
    - rewrite Hend. split; [done|]. by intros ? [= <-].
    - split; [|done]. intros ->. by destruct Hend.
    - split; [|done]. intros ->. by destruct Hend.
    - split; [|done]. intros ->. by destruct Hend.
    - split; [|done]. by intros ->.
  Qed.

  Lemma char_reads_back fk r e m out g' m' :
    (PutChar r, OOk (LChar (Some e))) ∈ l → 31 ≤ fuel → cache_in w m →
    exec zp fk (char_extract fuel (Some e)) (store w) m out g' m' →
    g' = store w ∧ answers fk out r.
  Proof.
    intros Hin H31 Hm Hx. destruct (grown_K _ _ _ _ _ _ Hw) as (d&G&HK&_).
    pose proof (K_said _ _ _ _ _ _ HK _ _ Hin) as He. simpl in He.
    destruct (K_settled _ _ _ _ _ _ HK) as [Hup _]; [right; eexists _, _; split; [done|done]|].
    eapply R_gives; [by apply R_char_extract|exact Hx|apply HK|by eapply cache_in_ok].
  Qed.

  Lemma word_reads_back fk s s' e m out g' m' :
    (PutWord s, OOk (LWord e)) ∈ l → repaired s s' → 31 ≤ fuel → cache_in w m →
    exec zp fk (word_extract fuel e) (store w) m out g' m' →
    g' = store w ∧ answers fk out s'.
  Proof.
    intros Hin Hrep H31 Hm Hx. destruct (grown_K _ _ _ _ _ _ Hw) as (d&G&HK&_).
    pose proof (K_said _ _ _ _ _ _ HK _ _ Hin) as He. simpl in He.
    destruct (K_settled _ _ _ _ _ _ HK) as [Hup _]; [right; eexists _, _; split; [done|done]|].
    apply repaired_iff in Hrep as ->.
    eapply R_gives; [by apply (R_word_extract fuel H31 (le_n fuel) e (runes_of s))|exact Hx|apply HK|by eapply cache_in_ok].
  Qed.

  Lemma phrase_reads_back fk s s' e m out g' m' :
    (PutPhrase s, OOk (LPhrase e)) ∈ l → repaired s s' → 31 ≤ fuel → cache_in w m →
    exec zp fk (phrase_extract fuel e) (store w) m out g' m' →
    g' = store w ∧ answers fk out s'.
  Proof.
    intros Hin Hrep H31 Hm Hx. destruct (grown_K _ _ _ _ _ _ Hw) as (d&G&HK&_).
    pose proof (K_said _ _ _ _ _ _ HK _ _ Hin) as He. simpl in He.
    destruct (K_settled _ _ _ _ _ _ HK) as [Hup _]; [right; eexists _, _; split; [done|done]|].
    apply repaired_iff in Hrep as ->. rewrite <- text_of_words_of.
    eapply R_gives; [by apply (R_phrase_extract fuel H31 (le_n fuel) e (words_of s))|exact Hx|apply HK|by eapply cache_in_ok].
  Qed.

  Lemma char_shared fk r e m out g' m' :
    (PutChar r, OOk (LChar (Some e))) ∈ l → cache_in w m →
    exec zp fk (char_provide r) (store w) m out g' m' →
    g' = store w ∧ (fk = false → out = OOk (Some e)) ∧ ∀ e', out = OOk (Some e') → e' = e.
  Proof.
    intros Hin Hm Hx. destruct (grown_K _ _ _ _ _ _ Hw) as (d&G&HK&_).
    pose proof (K_said _ _ _ _ _ _ HK _ _ Hin) as He. simpl in He.
    destruct (K_settled _ _ _ _ _ _ HK) as [Hup _]; [right; eexists _, _; split; [done|done]|].
    destruct (R_sound _ _ _ _ _ _ _ _ _ Hx (R_char_provide r e G (store w) (proj2 (K_quiet _ _ _ _ _ _ HK)) Hup He) (K_ok _ _ _ _ _ _ HK)
      (cache_in_ok _ _ _ _ _ _ _ HK Hm)) as (->&_&Hend).
    split; [done|]. destruct out as [v|x| | |]; simpl in Hend.
    - destruct Hend as [->|[-> ->]]; (split; [done|]); [by intros ? [= <-]|done].
    - split; [|done]. intros ->. by destruct Hend.
    - split; [|done]. intros ->. by destruct Hend.
    - split; [|done]. intros ->. by destruct Hend.
    - split; [|done]. by intros ->.
  Qed.

  Lemma bit_shared fk b e m out g' m' :
    (PutBit b, OOk (LBit e)) ∈ l → cache_in w m →
    exec zp fk (bit_provide b) (store w) m out g' m' → g' = store w ∧ answers fk out e.
  Proof.
    intros Hin Hm Hx. destruct (grown_K _ _ _ _ _ _ Hw) as (d&G&HK&_).
    pose proof (K_said _ _ _ _ _ _ HK _ _ Hin) as He. simpl in He. destruct He as (z&o&Hb&->).
    destruct (K_settled _ _ _ _ _ _ HK) as [Hup _]; [right; eexists _, _; split; [done|done]|].
    eapply R_gives; [by apply (R_bit_provide z o)|exact Hx|apply HK|by eapply cache_in_ok].
  Qed.

  (** The two bits, from whatever Graph value: one pair, in every settled state. *)
  Lemma bit_unique fk1 fk2 b m1 m2 e1 e2 g1 g2 m1' m2' :
    settled_by t l → cache_in w m1 → cache_in w m2 →
    exec zp fk1 (bit_provide b) (store w) m1 (OOk e1) g1 m1' →
    exec zp fk2 (bit_provide b) (store w) m2 (OOk e2) g2 m2' → e1 = e2 ∧ g1 = store w ∧ g2 = store w.
  Proof.
    intros Hs Hm1 Hm2 Hx1 Hx2. destruct (grown_K _ _ _ _ _ _ Hw) as (d&G&HK&_).
    destruct (K_settled _ _ _ _ _ _ HK Hs) as [Hup (z&o&Hb)].
    destruct (R_gives fk1 _ _ _ _ _ _ _ (R_bit_provide z o b G (store w) Hb Hup) Hx1 (K_ok _ _ _ _ _ _ HK)
      (cache_in_ok _ _ _ _ _ _ _ HK Hm1)) as [-> [_ H1]].
    destruct (R_gives fk2 _ _ _ _ _ _ _ (R_bit_provide z o b G (store w) Hb Hup) Hx2 (K_ok _ _ _ _ _ _ HK)
      (cache_in_ok _ _ _ _ _ _ _ HK Hm2)) as [-> [_ H2]].
    rewrite (H1 _ eq_refl), (H2 _ eq_refl). done.
  Qed.

  Lemma bits_differ b e e' :
    (PutBit b, OOk (LBit e)) ∈ l → (PutBit (negb b), OOk (LBit e')) ∈ l →
    be_class e ≠ be_class e' ∧ be_char e ≠ be_char e' ∧ be_value e = b ∧ be_value e' = negb b.
  Proof.
    intros H1 H2. destruct (grown_K _ _ _ _ _ _ Hw) as (d&G&HK&_).
    destruct (K_said _ _ _ _ _ _ HK _ _ H1) as (z&o&Hb&->).
    destruct (K_said _ _ _ _ _ _ HK _ _ H2) as (z'&o'&Hb'&->). rewrite Hb in Hb'. injection Hb' as <- <-.
    pose proof (ok_bits _ _ _ (K_ok _ _ _ _ _ _ HK)) as Hbo. unfold bits_ok in Hbo. rewrite Hb in Hbo.
    destruct Hbo as (_&Hlt&_&_&_&_&Hz&Ho&Hx).
    assert (Hne : be_char z ≠ be_char o).
    { intros Heq. assert (lab G !! be_char z = Some (LBitCh false)) as L1 by by apply Hx.
      assert (lab G !! be_char o = Some (LBitCh true)) as L2 by by apply Hx. congruence. }
    destruct b; simpl; split_and!; auto; lia || congruence.
  Qed.

  Lemma class_shared fk m out g' m' :
    (∃ v, (PutClass, OOk v) ∈ l) ∨ settled_by t l → cache_in w m →
    exec zp fk class_provide (store w) m out g' m' → g' = store w ∧ answers fk out ().
  Proof.
    intros Hs Hm Hx. destruct (grown_K _ _ _ _ _ _ Hw) as (d&G&HK&_).
    assert (Hup : up G).
    { destruct Hs as [?|?]; [by apply (K_class _ _ _ _ _ _ HK)|by apply (K_settled _ _ _ _ _ _ HK)]. }
    eapply R_gives; [|exact Hx|apply HK|by eapply cache_in_ok].
    eapply R_conseq; [by apply R_class_provide| |done]. by intros [] ? ? ? ? ?.
  Qed.
End layers.

(** * Class checks *)
Lemma N_eqb_bool (a b : N) : (a =? b)%N = bool_decide (a = b).
Proof. by destruct (N.eqb_spec a b); case_bool_decide. Qed.
Section checks.
  Context {zp : zpolicy} {fk : bool} {fuel : nat}.

  Lemma class_answers G g x y k k' m out g' m' :
    lab G !! x = Some (LCls k) → fwd g !! x = Some y → ok fuel G g → cache_ok G m →
    exec zp fk (class_is k' x) g m out g' m' → g' = g ∧ answers fk out (bool_decide (k = k')).
  Proof.
    intros Hx Hf Hok Hc He.
    assert (HR : R zp fk fuel (class_is k' x) (λ b _ _, b = bool_decide (k = k')) (E0 fk) G g).
    { unfold class_is. eapply R_bind; [by eapply (R_targets x (LCls k))| |done].
      intros ts G' g1 Hok' X [Hnd Hts]. assert (ts = [k]) as ->.
      { apply NoDup_single; [done| |].
        - apply Hts. apply X. by eapply (ok_class _ _ _ Hok).
        - intros z Hz%Hts. destruct (ok_edge _ _ _ Hok' _ _ Hz) as (lx&ly&Hlx&Hly&Hxy&_).
          rewrite (ext_lab_lookup X _ _ Hx) in Hlx. injection Hlx as <-. destruct ly; try done. simpl in Hxy. subst.
          by apply (ok_root _ _ _ Hok'). }
      simpl. apply R_ret. intros _. by rewrite N_eqb_bool. }
    destruct (R_sound _ _ _ _ _ _ _ _ _ He HR Hok Hc) as (->&_&Hend). split; [done|].
    destruct out as [v|e| | |]; simpl in Hend.
    - rewrite Hend. split; [done|]. by intros ? [= <-].
    - split; [|done]. intros ->. by destruct Hend.
    - split; [|done]. intros ->. by destruct Hend.
    - split; [|done]. intros ->. by destruct Hend.
    - split; [|done]. by intros ->.
  Qed.
End checks.

(** Entities of the lower layers. *)
Lemma layer_class zp faults fuel t l w fk o v x k k' m out g' m' :
  grown zp faults fuel t l w → (o, OOk v) ∈ l → class_of v = Some (x, k) → cache_in w m →
  exec zp fk (class_is k' x) (store w) m out g' m' → g' = store w ∧ answers fk out (bool_decide (k = k')).
Proof.
  intros Hw Hin Hv Hm Hx. destruct (grown_K _ _ _ _ _ _ Hw) as (d&G&HK&_).
  pose proof (K_said _ _ _ _ _ _ HK _ _ Hin) as He. pose proof (K_ok _ _ _ _ _ _ HK) as Hok.
  assert (Hl : ∃ y, lab G !! x = Some (LCls k) ∧ fwd (store w) !! x = Some y).
  { destruct v as [|e|[e|]|e|e]; simplify_eq/=; destruct o; try done; simpl in He.
    - destruct He as (z&o&Hb&->). pose proof (ok_bits _ _ _ Hok) as Hbo. unfold bits_ok in Hbo. rewrite Hb in Hbo.
      destruct Hbo as (_&_&Hz&Ho&Hfz&Hfo&_). destruct b; simpl; eauto.
    - destruct He as [e r z o Hb _ _ _|e e' r Hb _ _ _]; destruct Hb as ((?&_)&(?&_)&_); eauto.
    - destruct He as [e r c Hb _ _|e e' rs r Hb _ _]; destruct Hb as ((?&_)&(?&_)&_); eauto.
    - destruct He as [e rs w' Hb _ _|e e' ws rs Hb _ _]; destruct Hb as ((?&_)&(?&_)&_); eauto. }
  destruct Hl as (y&Hl&Hf). eapply class_answers; [exact Hl|exact Hf|done|by eapply cache_in_ok|exact Hx].
Qed.

(** Remarks. *)
Lemma remark_class zp faults fuel t w fk r k m out g' m' :
  reach zp faults fuel t w → issued t r → cache_in w m →
  exec zp fk (class_is k (re_class r)) (store w) m out g' m' →
  g' = store w ∧ answers fk out (bool_decide (k = remarkIdentifier)).
Proof.
  intros Hr Hi Hm Hx. destruct (reach_J _ _ _ _ _ Hr) as (d&G&HJ&_).
  destruct (J_told _ _ _ _ _ _ HJ _ Hi) as (o&p&Ht).
  destruct (J_tells _ _ _ _ _ _ HJ _ _ _ Ht) as (ow&pw&f&Hrf&_).
  destruct Hrf as [[((?&_)&(?&_)) _] _].
  rewrite (bool_decide_ext (k = remarkIdentifier) (remarkIdentifier = k)) by done.
  eapply class_answers; [done|done|apply HJ| |exact Hx].
  eapply cache_in_ok; [by eapply K_api|done].
Qed.

(** * Outcomes *)
Lemma char_accepted zp faults fuel t l w i r out g' m' :
  grown zp faults fuel t l w → lfits fuel (PutChar r) → (0 ≤ r)%Z →
  exec zp false (put fuel (PutChar r)) (store w) (mem w i) out g' m' →
  ∃ e, out = OOk (LChar (Some e)).
Proof.
  intros Hw Hf Hr Hx. destruct (grown_K _ _ _ _ _ _ Hw) as (d&G&HK&_).
  destruct (K_step _ _ _ _ _ _ _ _ _ _ _ _ _ HK Hf Hx) as (G'&_&_&[[_ ?]|Hend]); [done|done|].
  destruct out as [v|x| | |]; simpl in Hend.
  - destruct Hend as (_&_&Hs&Hn&_). destruct v as [| |[e|]| |]; try done; [by exists e|]. by destruct Hn.
  - destruct Hend as [[? _]|(_&_&_&?&_)]; [done|lia].
  - destruct Hend as [[? _]|(_&_&_&?&_)]; [done|lia].
  - destruct Hend as [[? _]|(_&_&_&?&_)]; [done|lia].
  - done.
Qed.

Lemma char_refused zp fk fuel g m r out g' m' :
  (r < 0)%Z → exec zp fk (put fuel (PutChar r)) g m out g' m' →
  g' = g ∧ (out = OErr EInvalidBitName ∨ fk = true ∧ out = OKilled).
Proof.
  intros Hr. cbn [put]. unfold char_provide. rewrite (char_collect_negative r Hr). cbn [of_res bind].
  intros Hx. inversion Hx; subst; auto.
Qed.

Lemma put_predicted zp fuel t l w i o out g' m' :
  grown zp false fuel t l w → lfits fuel o →
  valid_trace t → Forall (λ x, lvalid (fst x)) l → lvalid o →
  exec zp false (put fuel o) (store w) (mem w i) out g' m' →
  kind out = Some (l_predict (l_run (ms_view (m_run t)) l) o).
Proof.
  intros Hw Hf Hv Hl Ho Hx. destruct (grown_K _ _ _ _ _ _ Hw) as (d&G&HK&Hd).
  destruct d; [by specialize (Hd eq_refl)|].
  destruct (K_step _ _ _ _ _ _ _ _ _ _ _ _ _ HK Hf Hx) as (G'&_&_&[[_ ?]|Hend]); [done|done|].
  pose proof (K_view _ _ _ _ _ _ HK eq_refl Hv Hl) as HM.
  destruct out as [v|x| | |]; simpl in Hend; simpl.
  - destruct Hend as (_&_&_&_&HV&_). by destruct (HV eq_refl Ho _ HM) as [_ ->].
  - destruct Hend as [[? _]|(_&_&HV&_)]; [done|]. by destruct (HV eq_refl Ho _ HM) as [_ ->].
  - destruct Hend as [[? _]|(_&_&HV&_)]; [done|]. by destruct (HV eq_refl Ho _ HM) as [_ ->].
  - destruct Hend as [[? _]|(?&_)]; done.
  - done.
Qed.

(** * Sharing of words and phrases *)
Lemma view_sole G g V r rs V' :
  wview_of G g V' → m_word V (r :: rs) = (Some false, V') → ∃ h, sole_head G g r h.
Proof. intros [_ HH] Hm. apply nheads_one. rewrite <- (m_word_false _ _ _ _ Hm). apply HH. Qed.

Lemma sole_phrase F G g r h rs ws e e' : ok F G g → solo G = true → sole_head G g r h → phrase_distinct G g →
  phraseC G g e ((r :: rs) :: ws) → phraseC G g e' ((r :: rs) :: ws) → e = e'.
Proof.
  intros Hok Hlone Hs HD. revert e e'. induction ws as [|w ws IH] using rev_ind; intros e e' He He'.
  - destruct (phraseC_head_inv _ _ He) as (c&Hc&Hl). destruct (phraseC_head_inv _ _ He') as (c'&Hc'&Hl').
    rewrite <- (sole_word _ _ _ _ _ _ _ _ Hok Hlone Hs Hc Hc') in Hl'.
    apply (phraseC_eq Hok _ _ _ _ He He'). left.
    pose proof (wordC_base _ _ _ _ Hc) as ((_&_&_&Lx)&_).
    by eapply (ok_head _ _ _ Hok Hlone _ _ _ _ Hl Hl' Lx).
  - rewrite app_comm_cons in He, He'.
    destruct (phraseC_tail_inv e ((r :: rs) :: ws) w ltac:(done) He) as (p&Hp&Hl).
    destruct (phraseC_tail_inv e' ((r :: rs) :: ws) w ltac:(done) He') as (p'&Hp'&Hl').
    rewrite <- (IH _ _ Hp Hp') in Hl'.
    apply (phraseC_eq Hok _ _ _ _ He He'). right; left.
    pose proof (phraseC_base _ _ _ _ Hp) as ((_&_&Lp&_)&_).
    pose proof (phraseC_base _ _ _ _ He) as ((_&_&Le&_)&_).
    pose proof (phraseC_base _ _ _ _ He') as ((_&_&Le'&_)&_).
    by eapply (HD _ _ _ _ _ Hl Hl' Lp Le Le').
Qed.

(** A letter whose trie node has children keeps its heads. *)
Definition kept (V V' : wview) (r : Z) : Prop := kid_count V' r ≠ 0 ∧ hd_count V' r = hd_count V r.

Lemma kid_mono V V' r : vP V ⊆ vP V' → kid_count V r ≤ kid_count V' r.
Proof.
  intros H. unfold kid_count. destruct (r =? 0)%Z; [done|].
  repeat case_bool_decide; try lia; exfalso; set_solver.
Qed.
Lemma kept_refl V r : kid_count V r ≠ 0 → kept V V r.
Proof. done. Qed.
Lemma kept_trans V V1 V2 r : kept V V1 r → kept V1 V2 r → kept V V2 r.
Proof. intros [_ H1] [? H2]. split; congruence. Qed.
Lemma kept_char V r a : kid_count V r ≠ 0 → kept V (m_char V a) r.
Proof.
  intros H. split; [|done]. pose proof (kid_mono V (m_char V a) r). simpl in *.
  specialize (H0 ltac:(set_solver)). lia.
Qed.
Lemma kept_chars rs V r : kid_count V r ≠ 0 → kept V (fold_left m_char rs V) r.
Proof.
  revert V. induction rs as [|a rs IH]; intros V H; simpl; [by apply kept_refl|].
  pose proof (kept_char V r a H) as Hk. eapply kept_trans; [exact Hk|]. apply IH, Hk.
Qed.
Lemma kept_word V r w : kid_count V r ≠ 0 → kept V (snd (m_word V w)) r.
Proof.
  intros H. destruct w as [|a rs]; [by apply kept_refl|]. cbn [m_word].
  pose proof (kept_char V r a H) as Hk.
  destruct (kid_count (m_char V a) a) as [|[|]] eqn:Ek; cbn [snd].
  - destruct (decide (a = r)) as [->|Hne]; [by destruct Hk|].
    eapply kept_trans; [|apply kept_chars].
    + destruct Hk as [Hk1 Hk2]. split; [done|]. unfold hd_count in *. simpl in *. by rewrite lookup_insert_ne.
    + apply Hk.
  - destruct (_ =? 1); cbn [snd]; [|done]. eapply kept_trans; [exact Hk|]. apply kept_chars, Hk.
  - done.
Qed.
Lemma kept_next fr M ws w r : kid_count (pV M) r ≠ 0 → kept (pV M) (pV (snd (m_next fr M ws w))) r.
Proof.
  intros H. unfold m_next. destruct (_ && _); [by apply kept_refl|].
  pose proof (kept_word (pV M) r w H) as Hk. by destruct (m_word (pV M) w) as [[]].
Qed.
Lemma kept_tail fr M ws path r : kid_count (pV M) r ≠ 0 → kept (pV M) (pV (snd (m_tail fr M ws path))) r.
Proof.
  revert fr M ws. induction path as [|w path IH]; intros fr M ws H; [by apply kept_refl|]. cbn [m_tail].
  pose proof (kept_next fr M ws w r H) as Hk. destruct (m_next fr M ws w) as [[b|] M']; simpl in *; [|done].
  eapply kept_trans; [exact Hk|]. apply IH, Hk.
Qed.

Lemma m_word_kids V r rs V' : m_word V (r :: rs) = (Some false, V') → kid_count V' r ≠ 0.
Proof.
  cbn [m_word]. destruct (kid_count (m_char V r) r) as [|[|]] eqn:Ek; try done.
  destruct (_ =? 1); [|done]. intros [= <-]. apply kept_chars. congruence.
Qed.

Lemma word_shared zp fuel t l w i s e out g' m' :
  grown zp false fuel t l w → valid_trace t → Forall (λ x, lvalid (fst x)) l → fits fuel s →
  (PutWord s, OOk (LWord e)) ∈ l →
  fst (m_word (pV (l_run (ms_view (m_run t)) l)) (runes_of s)) = Some false →
  exec zp false (put fuel (PutWord s)) (store w) (mem w i) out g' m' →
  out = OOk (LWord e).
Proof.
  intros Hw Hv Hl Hfs Hin Hm Hx. destruct (grown_K _ _ _ _ _ _ Hw) as (d&G&HK&Hd).
  destruct d; [by specialize (Hd eq_refl)|].
  assert (Hf : lfits fuel (PutWord s)). { split; [|done]. unfold fits in Hfs. lia. }
  destruct (K_step _ _ _ _ _ _ _ _ _ _ _ _ _ HK Hf Hx) as (G'&HK'&X&[[_ ?]|Hend]); [done|done|].
  pose proof (K_view _ _ _ _ _ _ HK eq_refl Hv Hl) as HM.
  pose proof (K_view _ _ _ _ _ _ HK' eq_refl Hv) as [HM' _]; [by constructor|].
  pose proof (K_said _ _ _ _ _ _ HK' _ _ (elem_of_list_further _ _ _ Hin)) as He. simpl in He.
  destruct (runes_of s) as [|r rs] eqn:Hrs; [done|].
  destruct out as [v|x| | |]; simpl in Hend.
  - destruct Hend as (_&_&Hs&_). destruct v; try done. simpl in Hs. rewrite Hrs in Hs.
    destruct (m_word (pV (l_run (ms_view (m_run t)) l)) (r :: rs)) as [b V'] eqn:Hmw. simpl in Hm. subst b.
    cbn [l_run foldr fst l_step pV] in HM'. rewrite Hrs in HM'. unfold l_run in Hmw. rewrite Hmw in HM'. simpl in HM'.
    destruct (view_sole _ _ _ _ _ _ HM' Hmw) as (h&Hh).
    by rewrite (sole_word _ _ _ _ _ _ _ _ (K_ok _ _ _ _ _ _ HK') (proj2 (K_quiet _ _ _ _ _ _ HK')) Hh Hs He).
  - exfalso. destruct Hend as [[? _]|(_&_&HV&_)]; [done|]. destruct (HV eq_refl I _ HM) as [_ Hp].
    simpl in Hp. by rewrite Hrs, Hm in Hp.
  - exfalso. destruct Hend as [[? _]|(_&_&HV&_)]; [done|]. destruct (HV eq_refl I _ HM) as [_ Hp].
    simpl in Hp. by rewrite Hrs, Hm in Hp.
  - destruct Hend as [[? _]|(?&_)]; done.
  - done.
Qed.

Lemma phrase_shared zp fuel t l w i s ws e out g' m' :
  grown zp false fuel t l w → valid_trace t → Forall (λ x, lvalid (fst x)) l → fits fuel s → valid_utf8 s →
  (PutPhrase s, OOk (LPhrase e)) ∈ l →
  code_points s = ws →
  fst (m_word (pV (l_run (ms_view (m_run t)) l)) (hd [] ws)) = Some false →
  exec zp false (put fuel (PutPhrase s)) (store w) (mem w i) out g' m' →
  ∀ v, out = OOk v → v = LPhrase e.
Proof.
  intros Hw Hv Hl Hfs Hvs Hin Hws Hm Hx v Hout. destruct (grown_K _ _ _ _ _ _ Hw) as (d&G&HK&Hd).
  destruct d; [by specialize (Hd eq_refl)|]. subst out.
  assert (Hf : lfits fuel (PutPhrase s)). { split; [|done]. unfold fits in Hfs. lia. }
  destruct (K_step _ _ _ _ _ _ _ _ _ _ _ _ _ HK Hf Hx) as (G'&HK'&X&[[_ ?]|Hend]); [done|done|].
  pose proof (K_view _ _ _ _ _ _ HK eq_refl Hv Hl) as HM.
  assert (Hl' : Forall (λ x, lvalid (fst x)) ((PutPhrase s, OOk v) :: l)) by by constructor.
  pose proof (K_view _ _ _ _ _ _ HK' eq_refl Hv Hl') as HM'.
  pose proof (K_said _ _ _ _ _ _ HK' _ _ (elem_of_list_further _ _ _ Hin)) as He. simpl in He.
  change (words_of s) with (code_points s) in He. cbn [l_run foldr fst l_step] in HM'. rewrite Hws in He, HM'.
  fold (l_run (ms_view (m_run t)) l) in HM'. set (M := l_run (ms_view (m_run t)) l) in *.
  simpl in Hend. destruct Hend as (_&_&Hs&_). destruct v; try done. simpl in Hs.
  change (words_of s) with (code_points s) in Hs. rewrite Hws in Hs.
  destruct ws as [|[|r rs] ws]; [done|done|]. cbn [hd] in Hm. f_equal.
  destruct HM' as ([_ HH]&_&HD). cbn [store] in *.
  destruct (m_word (pV M) (r :: rs)) as [b V'] eqn:Hmw. simpl in Hm. subst b.
  assert (Hk : kept V' (pV (snd (m_phrase M ((r :: rs) :: ws)))) r).
  { cbn [m_phrase]. rewrite Hmw. eapply (kept_tail _ (PV V' _)). by eapply m_word_kids. }
  destruct (nheads_one G' g' r) as (h&Hh).
  { destruct Hk as [_ Hk]. rewrite <- (m_word_false _ _ _ _ Hmw), <- Hk. apply HH. }
  by eapply sole_phrase; [apply (K_ok _ _ _ _ _ _ HK')|apply (K_quiet _ _ _ _ _ _ HK')|..].
Qed.

(** * The first use of the class layer *)
Lemma exec_call zp {A} c (k : res (answer c) → prog A) g m o g2 m2 :
  exec zp false (Call c k) g m o g2 m2 →
  ∃ r g1, gstep zp g c r g1 ∧ exec zp false (k r) g1 m o g2 m2.
Proof.
  intros H. remember (Call c k) as p eqn:Hp. destruct H; try done.
  pose (f := λ p : prog A, match p return {c : call & res (answer c) → prog A} with
    Call c k => existT c k | _ => existT c0 k0 end).
  assert (Hs : existT c0 k0 = existT c k :> {c : call & res (answer c) → prog A}) by exact (f_equal f Hp).
  set (P := λ s : {c : call & res (answer c) → prog A},
    ∃ r g1, gstep zp g (projT1 s) r g1 ∧ exec zp false (projT2 s r) g1 m o g2 m2).
  change (P (existT c k)). rewrite <- Hs. exists r, g1. done.
Qed.

(** Class nodes up to [k], linked up to [c]. *)
Definition chain (k c : N) (g : graph) : Prop :=
  (∀ x, x ∈ nodes g ↔ (1 <= x <= k)%N) ∧ N.of_nat (size (nodes g)) = k ∧ edges g = ∅ ∧
  (∀ x, fwd g !! x = if ((1 <=? x) && (x <? c))%N then Some (x + 1)%N else None) ∧
  (∀ x, bwd g !! x = if ((2 <=? x) && (x <=? c))%N then Some (x - 1)%N else None).

Lemma exec_bind zp {A B} (p : prog A) (f : A → prog B) (P : A → graph → cache → Prop) g m o g2 m2 :
  (∀ o' g1 m1, exec zp false p g m o' g1 m1 → ∃ a, o' = OOk a ∧ P a g1 m1) →
  exec zp false (bind p f) g m o g2 m2 → ∃ a g1 m1, P a g1 m1 ∧ exec zp false (f a) g1 m1 o g2 m2.
Proof.
  revert g m. induction p as [a|e| | |c k IH|k IH|m1 k IH]; intros g m Hp Hx; cbn [bind] in Hx.
  - destruct (Hp _ _ _ (ExRet _ _ a g m)) as (a'&[= <-]&HP). eauto.
  - by destruct (Hp _ _ _ (ExThrow _ _ e g m)) as (a'&?&_).
  - by destruct (Hp _ _ _ (ExPanic _ _ g m)) as (a'&?&_).
  - by destruct (Hp _ _ _ (ExDiverge _ _ g m)) as (a'&?&_).
  - apply exec_call in Hx as (r&g1&Hg&Hx). apply IH in Hx; [done|]. intros o' g3 m3 H. eapply Hp. by econstructor.
  - inversion Hx; subst. eapply IH; [|eassumption]. intros o' g3 m3 H. eapply Hp. by econstructor.
  - inversion Hx; subst. eapply IH; [|eassumption]. intros o' g3 m3 H. eapply Hp. by econstructor.
Qed.

Lemma exec_ret zp {A} (a : A) g m o g2 m2 : exec zp false (Ret a) g m o g2 m2 → o = OOk a ∧ g2 = g ∧ m2 = m.
Proof. intros H. by inversion H. Qed.

Lemma exec_class_create zp k g m o g2 m2 :
  chain (k - 1) (k - 1) g → (1 <= k)%N → exec zp false (class_create k) g m o g2 m2 →
  o = OOk tt ∧ m2 = m ∧ chain k (k - 1) g2.
Proof.
  intros (Hn&Hs&He&Hf&Hb) Hk Hx. unfold class_create, st_create, invoke in Hx. cbn [bind] in Hx.
  apply exec_call in Hx as (r&g1&(x&->&Hx0&Hxn&Hxs&->)&Hx). cbn [of_res bind] in Hx.
  specialize (Hxs He). assert (x = k) as -> by lia. rewrite N.eqb_refl in Hx.
  apply exec_ret in Hx as (->&->&->). split; [done|]. split; [done|]. split_and!; simpl; auto.
  - intros x. rewrite elem_of_union, elem_of_singleton, Hn. lia.
  - rewrite size_union by set_solver. rewrite size_singleton. lia.
Qed.

Lemma exec_class_next zp k g m o g2 m2 :
  chain (k - 1) (k - 1) g → (2 <= k)%N → exec zp false (class_create_next k) g m o g2 m2 →
  o = OOk tt ∧ m2 = m ∧ chain k k g2.
Proof.
  intros Hc Hk Hx. unfold class_create_next in Hx.
  apply (exec_bind zp _ _ (λ _ g1 m1, m1 = m ∧ chain k (k - 1) g1)) in Hx as ([]&g1&?&(->&Hn&Hs&He&Hf&Hb)&Hx).
  2: { intros o' g1 m1 H. apply exec_class_create in H as (->&->&?); [eauto|done|lia]. }
  unfold st_setref, invoke in Hx. apply exec_call in Hx as (r&g3&[Hy _]&Hx).
  destruct Hy as [-> ->].
  - split; left; apply Hn; lia.
  - rewrite Hf. replace (k - 1 <? k - 1)%N with false by lia. by rewrite andb_false_r.
  - rewrite Hb. replace (k <=? k - 1)%N with false by lia. by rewrite andb_false_r.
  - cbn [of_res] in Hx. apply exec_ret in Hx as (->&->&->). split; [done|]. split; [done|]. split_and!; simpl; auto.
    + intros x. destruct (decide (x = k - 1)%N) as [->|Hne].
      * rewrite lookup_insert. replace (1 <=? k - 1)%N with true by lia.
        replace (k - 1 <? k)%N with true by lia. simpl. f_equal. lia.
      * rewrite lookup_insert_ne by done. rewrite Hf.
        destruct (N.leb_spec 1 x), (N.ltb_spec x (k - 1)), (N.ltb_spec x k); simpl; done || lia.
    + intros x. destruct (decide (x = k)%N) as [->|Hne].
      * rewrite lookup_insert. replace (2 <=? k)%N with true by lia.
        replace (k <=? k)%N with true by lia. done.
      * rewrite lookup_insert_ne by done. rewrite Hb.
        destruct (N.leb_spec 2 x), (N.leb_spec x (k - 1)), (N.leb_spec x k); simpl; done || lia.
Qed.

Lemma graph_eq g g' : nodes g = nodes g' → edges g = edges g' → fwd g = fwd g' → bwd g = bwd g' → g = g'.
Proof. destruct g, g'; simpl; congruence. Qed.

Lemma chain_class_graph g : chain 8 8 g → g = class_graph.
Proof.
  intros (Hn&_&He&Hf&Hb). apply graph_eq.
  - apply set_eq. intros x. rewrite Hn. unfold class_graph. simpl.
    rewrite !elem_of_union, !elem_of_singleton. rewrite elem_of_empty. lia.
  - by rewrite He.
  - apply map_eq. intros x. rewrite Hf. unfold class_graph. simpl.
    repeat (match goal with |- _ = <[?k:=_]> _ !! _ =>
      destruct (decide (x = k)) as [->|?]; [by rewrite lookup_insert|rewrite lookup_insert_ne by done] end).
    rewrite lookup_empty. destruct (N.leb_spec 1 x), (N.ltb_spec x 8); simpl; done || lia.
  - apply map_eq. intros x. rewrite Hb. unfold class_graph. simpl.
    repeat (match goal with |- _ = <[?k:=_]> _ !! _ =>
      destruct (decide (x = k)) as [->|?]; [by rewrite lookup_insert|rewrite lookup_insert_ne by done] end).
    rewrite lookup_empty. destruct (N.leb_spec 2 x), (N.leb_spec x 8); simpl; done || lia.
Qed.

Lemma class_first_use zp m out g' m' :
  exec zp false class_provide empty_graph m out g' m' → out = OOk tt ∧ g' = class_graph ∧ m' = m.
Proof.
  intros Hx. unfold class_provide, st_has, invoke in Hx. cbn [bind] in Hx.
  apply exec_call in Hx as (r&g1&[-> ->]&Hx). cbn [of_res bind] in Hx.
  rewrite bool_decide_false in Hx by set_solver.
  assert (H0 : chain 0 0 empty_graph).
  { split_and!; try done; intros x.
    - simpl. split; [set_solver|lia].
    - simpl. rewrite lookup_empty. by destruct (N.ltb_spec x 0); [lia|rewrite andb_false_r].
    - simpl. rewrite lookup_empty. by destruct (N.leb_spec 2 x), (N.leb_spec x 0); [lia|..]. }
  unfold class_create_all in Hx.
  apply (exec_bind zp _ _ (λ _ g1 m1, m1 = m ∧ chain 1 0 g1)) in Hx as ([]&g1&?&[-> H1]&Hx).
  2: { intros o' g1 m1 H. apply exec_class_create in H as (->&->&?); [eauto|done|done]. }
  assert (H1' : chain 1 1 g1).
  { destruct H1 as (?&?&?&Hf&Hb). split_and!; auto; intros x.
    - rewrite Hf. destruct (N.leb_spec 1 x), (N.ltb_spec x 0), (N.ltb_spec x 1);
        unfold bitIdentifier in *; simpl; done || lia.
    - rewrite Hb. destruct (N.leb_spec 2 x), (N.leb_spec x 0), (N.leb_spec x 1);
        unfold bitIdentifier in *; simpl; done || lia. }
  clear H0 H1.
  do 6 (match goal with H : chain ?k _ ?g |- _ =>
    apply (exec_bind zp _ _ (λ _ g1 m1, m1 = m ∧ chain (k + 1) (k + 1) g1)) in Hx as ([]&?&?&[-> ?]&Hx); [clear H|
      intros ? ? ? Hx'; apply exec_class_next in Hx' as (->&->&?); [eauto|exact H|done]] end).
  apply exec_class_next in Hx as (->&->&?); [|done|done]. split_and!; auto. by apply chain_class_graph.
Qed.
