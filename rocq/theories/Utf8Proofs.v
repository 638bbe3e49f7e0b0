(** Go's conversions against the specification of UTF-8. *)
From Coq Require Import NArith ZArith List Ascii Bool Lia.
From Verif Require Import Base GoText Codec SpecText.
Import ListNotations.
Local Open Scope Z_scope.

Lemma between_byte lo hi a : between lo hi a <-> Z.of_N lo <= byte_of a <= Z.of_N hi.
Proof. unfold between, byte_of. lia. Qed.

Lemma replacement_encode : encode_rune rune_error = replacement.
Proof. reflexivity. Qed.

Ltac byteb := unfold tailb in *; rewrite ?between_byte in *; cbn [Z.of_N] in *.

Lemma byte_eq a z : byte_of a = z -> byte z = a.
Proof. intros <-. apply byte_byte_of. Qed.

Ltac three a b c :=
  exists a, [b; c], ((byte_of a mod 16) * 4096 + (byte_of b mod 64) * 64 + byte_of c mod 64);
  split; [reflexivity|];
  set (r := _ + _ + _);
  assert (Hr : 2047 < r <= 65535 /\ is_surrogate r = false) by (unfold is_surrogate, r; lia);
  destruct Hr as [Hr Hs]; split;
  [unfold decode_rune; cbn [app];
   replace (byte_of a <? 128) with false by lia;
   replace ((192 <=? byte_of a) && (byte_of a <? 224)) with false by lia;
   replace ((224 <=? byte_of a) && (byte_of a <? 240)) with true by lia; cbv zeta; fold r; rewrite Hs;
   unfold is_cont; match goal with |- (if ?x then _ else _) = _ => now replace x with true by lia end
  |unfold encode_rune; replace ((0 <=? r) && (r <=? 127)) with false by lia;
   replace ((0 <=? r) && (r <=? 2047)) with false by lia; rewrite Hs;
   replace ((r <? 0) || (1114111 <? r) || false) with false by lia;
   replace (r <=? 65535) with true by lia;
   rewrite (byte_eq a), (byte_eq b), (byte_eq c); [reflexivity|unfold r; lia..]].

Ltac four a b c d :=
  exists a, [b; c; d], ((byte_of a mod 8) * 262144 + (byte_of b mod 64) * 4096 + (byte_of c mod 64) * 64 + byte_of d mod 64);
  split; [reflexivity|]; set (r := _ + _ + _ + _);
  assert (Hr : 65535 < r <= 1114111) by (unfold r; lia); split;
  [unfold decode_rune; cbn [app];
   replace (byte_of a <? 128) with false by lia;
   replace ((192 <=? byte_of a) && (byte_of a <? 224)) with false by lia;
   replace ((224 <=? byte_of a) && (byte_of a <? 240)) with false by lia;
   replace ((240 <=? byte_of a) && (byte_of a <? 248)) with true by lia; cbv zeta; fold r;
   unfold is_cont; match goal with |- (if ?x then _ else _) = _ => now replace x with true by lia end
  |unfold encode_rune, is_surrogate; replace ((0 <=? r) && (r <=? 127)) with false by lia;
   replace ((0 <=? r) && (r <=? 2047)) with false by lia;
   match goal with |- (if ?x then _ else _) = _ => replace x with false by lia end;
   replace (r <=? 65535) with false by lia;
   rewrite (byte_eq a), (byte_eq b), (byte_eq c), (byte_eq d); [reflexivity|unfold r; lia..]].

(** A well-formed sequence is decoded as a whole and encoded back to itself. *)
Lemma decode_char cs rest : utf8_char cs ->
  exists c cs' r, cs = c :: cs' /\ decode_rune (byte_of c) (cs' ++ rest) = (r, rest) /\ encode_rune r = cs.
Proof.
  intros H. destruct H as [a Ha|a b Ha Hb|a b c Ha Hb Hc|a b c Ha Hb Hc|a b c Ha Hb Hc|a b c Ha Hb Hc
    |a b c d Ha Hb Hc Hd|a b c d Ha Hb Hc Hd|a b c d Ha Hb Hc Hd]; byteb;
    [| |three a b c|three a b c|three a b c|three a b c|four a b c d|four a b c d|four a b c d].
  - exists a, [], (byte_of a). split; [reflexivity|]. unfold decode_rune. split.
    + now replace (byte_of a <? 128) with true by lia.
    + unfold encode_rune. replace ((0 <=? byte_of a) && (byte_of a <=? 127)) with true by lia.
      now rewrite byte_byte_of.
  - exists a, [b], ((byte_of a mod 32) * 64 + byte_of b mod 64). split; [reflexivity|].
    set (r := (byte_of a mod 32) * 64 + byte_of b mod 64). assert (Hr : 127 < r <= 2047) by (unfold r; lia). split.
    + unfold decode_rune. cbn [app].
      replace (byte_of a <? 128) with false by lia.
      replace ((192 <=? byte_of a) && (byte_of a <? 224)) with true by lia. cbv zeta. fold r.
      unfold is_cont. match goal with |- (if ?x then _ else _) = _ => now replace x with true by lia end.
    + unfold encode_rune. replace ((0 <=? r) && (r <=? 127)) with false by lia.
      replace ((0 <=? r) && (r <=? 2047)) with true by lia.
      rewrite (byte_eq a), (byte_eq b); [reflexivity|unfold r; lia|unfold r; lia].
Qed.

(** What is decoded was a well-formed sequence, or a byte that starts none. *)
Lemma decode_split c rest r rest' : decode_rune (byte_of c) rest = (r, rest') ->
  (exists cs, c :: rest = cs ++ rest' /\ utf8_char cs) \/
  (r = rune_error /\ rest' = rest /\ forall cs s', utf8_char cs -> c :: rest <> cs ++ s').
Proof.
  intros E.
  assert (Hbad : (r, rest') = (rune_error, rest) ->
    r = rune_error /\ rest' = rest /\ forall cs s', utf8_char cs -> c :: rest <> cs ++ s').
  { intros [= -> ->]. split; [reflexivity|]. split; [reflexivity|]. intros cs s' Hc Heq.
    destruct (decode_char cs s' Hc) as (c' & cs' & r & -> & E' & Hr). cbn [app] in Heq. injection Heq as <- Hrest.
    rewrite <- Hrest in E'. rewrite E in E'. injection E' as <- <-. rewrite replacement_encode in Hr.
    apply (f_equal (@length _)) in Hrest. rewrite app_length in Hrest. assert (Hl : length cs' = 0%nat) by lia.
    apply (f_equal (@length _)) in Hr. simpl in Hr. lia. }
  pose proof (byte_of_range c) as Hb. revert E. unfold decode_rune.
  destruct (byte_of c <? 128) eqn:E1.
  { intros [= <- <-]. left. exists [c]. split; [reflexivity|]. apply U1. byteb. lia. }
  destruct ((192 <=? byte_of c) && (byte_of c <? 224)) eqn:E2.
  { destruct rest as [|c1 rest1]; [intros E; right; now apply Hbad|]. pose proof (byte_of_range c1).
    match goal with |- (if ?b then _ else _) = _ -> _ => destruct b eqn:E3 end; [|intros E; right; now apply Hbad].
    intros [= <- <-]. left. exists [c; c1]. split; [reflexivity|]. unfold is_cont in E3. apply U2; byteb; lia. }
  destruct ((224 <=? byte_of c) && (byte_of c <? 240)) eqn:E3.
  { destruct rest as [|c1 [|c2 rest2]]; try (intros E; right; now apply Hbad).
    pose proof (byte_of_range c1). pose proof (byte_of_range c2).
    match goal with |- (if ?b then _ else _) = _ -> _ => destruct b eqn:E4 end; [|intros E; right; now apply Hbad].
    intros [= <- <-]. left. exists [c; c1; c2]. split; [reflexivity|]. unfold is_cont, is_surrogate in E4.
    assert (D : byte_of c = 224 \/ 225 <= byte_of c <= 236 \/ byte_of c = 237 \/ 238 <= byte_of c <= 239) by lia.
    destruct D as [D|[D|[D|D]]].
    - apply U3a; byteb; lia.
    - apply U3b; byteb; lia.
    - apply U3c; byteb; lia.
    - apply U3d; byteb; lia. }
  destruct ((240 <=? byte_of c) && (byte_of c <? 248)) eqn:E4; [|intros E; right; now apply Hbad].
  destruct rest as [|c1 [|c2 [|c3 rest3]]]; try (intros E; right; now apply Hbad).
  pose proof (byte_of_range c1). pose proof (byte_of_range c2). pose proof (byte_of_range c3).
  match goal with |- (if ?b then _ else _) = _ -> _ => destruct b eqn:E5 end; [|intros E; right; now apply Hbad].
  intros [= <- <-]. left. exists [c; c1; c2; c3]. split; [reflexivity|]. unfold is_cont in E5.
  assert (D : byte_of c = 240 \/ 241 <= byte_of c <= 243 \/ byte_of c = 244) by lia.
  destruct D as [D|[D|D]].
  - apply U4a; byteb; lia.
  - apply U4b; byteb; lia.
  - apply U4c; byteb; lia.
Qed.

Lemma normalise_char cs s : utf8_char cs -> normalise (cs ++ s) = cs ++ normalise s.
Proof.
  intros H. destruct (decode_char cs s H) as (c & cs' & r & Heq & E & Hr). unfold normalise.
  rewrite Heq at 1. cbn [app]. rewrite runes_of_cons, E. unfold string_of_runes. cbn [map concat].
  now rewrite Hr.
Qed.

(** The text read back is the repaired text. *)
Theorem repaired_normalise (s : gostring) : repaired s (normalise s).
Proof.
  induction s as [|c rest r rest' E IH] using runes_ind; [apply rep_nil|].
  destruct (decode_split c rest r rest' E) as [(cs & Heq & Hc)|(-> & -> & Hno)].
  - rewrite Heq, normalise_char by exact Hc. now apply rep_char.
  - unfold normalise. rewrite runes_of_cons, E. unfold string_of_runes. cbn [map concat].
    rewrite replacement_encode. now apply rep_byte.
Qed.

Theorem repaired_fun s t t' : repaired s t -> repaired s t' -> t = t'.
Proof.
  enough (H : forall s t, repaired s t -> t = normalise s).
  { intros H1 H2. now rewrite (H _ _ H1), (H _ _ H2). }
  induction 1 as [|c s' t0 Hc _ IH|a s' t0 Hno _ IH]; [reflexivity| |].
  - now rewrite normalise_char, IH.
  - destruct (decode_rune (byte_of a) s') as [r rest'] eqn:E.
    destruct (decode_split _ _ _ _ E) as [(cs & Heq & Hc)|(-> & -> & _)].
    + now destruct (Hno cs rest' Hc).
    + unfold normalise. rewrite runes_of_cons, E. unfold string_of_runes. cbn [map concat].
      rewrite replacement_encode. now rewrite IH.
Qed.

Lemma repaired_iff s t : repaired s t <-> t = normalise s.
Proof.
  split; [|intros ->; apply repaired_normalise].
  intros H. eapply repaired_fun; [exact H|apply repaired_normalise].
Qed.

Lemma encode_rune_char r : scalar r -> utf8_char (encode_rune r).
Proof.
  intros H. destruct (encode_rune_decode r [] H) as (c & cs & Heq & E). rewrite app_nil_r in E.
  destruct (decode_split _ _ _ _ E) as [(cs' & Heq' & Hc)|(-> & Hnil & Hno)].
  - rewrite app_nil_r in Heq'. now rewrite Heq, Heq'.
  - rewrite replacement_encode. apply U3d; unfold tailb, between; cbn; lia.
Qed.

Lemma normalise_valid s : valid_utf8 (normalise s).
Proof.
  exists (map encode_rune (runes_of s)). split; [|reflexivity].
  pose proof (runes_of_scalar s) as H. induction H; constructor; [now apply encode_rune_char|assumption].
Qed.

(** Reading back gives the very text exactly for valid UTF-8. *)
Theorem normalise_id_iff s : normalise s = s <-> valid_utf8 s.
Proof.
  split; [intros <-; apply normalise_valid|].
  intros (cs & H & ->). induction H as [|c cs Hc _ IH]; [reflexivity|].
  cbn [concat]. rewrite normalise_char by exact Hc. now rewrite IH.
Qed.

Theorem repaired_valid s : valid_utf8 s -> repaired s s.
Proof. intros H. apply repaired_iff. symmetry. now apply normalise_id_iff. Qed.

(** ** Words *)
Lemma is_space_eq a : is_space a <-> a = space.
Proof.
  unfold is_space, space, byte. split; [|intros ->; reflexivity].
  intros H. rewrite <- (ascii_N_embedding a), H. reflexivity.
Qed.

Lemma no_space w : Forall (fun a => ~ is_space a) w <-> ~ In space w.
Proof.
  rewrite Forall_forall. split.
  - intros H Hin. apply (H _ Hin). now apply is_space_eq.
  - intros H x Hx Hs. apply is_space_eq in Hs. now subst.
Qed.

Theorem words_split s : words s (split_space s).
Proof.
  induction s as [|c s IH].
  - apply words_last. constructor.
  - cbn [split_space]. destruct (Ascii.eqb_spec c space) as [->|Hc].
    + apply (words_more []); [constructor|now apply is_space_eq|exact IH].
    + assert (Hc' : ~ is_space c) by now rewrite is_space_eq.
      remember (split_space s) as l eqn:El. destruct IH as [w Hw|w a s' ws Hw Ha Hs].
      * apply words_last. now constructor.
      * apply (words_more (c :: w)); [now constructor|exact Ha|exact Hs].
Qed.

Theorem words_iff s ws : words s ws <-> ws = split_space s.
Proof.
  split; [|intros ->; apply words_split].
  induction 1 as [w Hw|w a s ws Hw Ha _ IH].
  - symmetry. apply split_space_single. now apply no_space.
  - apply is_space_eq in Ha. subst a. rewrite split_space_app by now apply no_space. now rewrite IH.
Qed.

(** The length of what is read back. *)
Lemma encode_rune_length r : (length (encode_rune r) <= 4)%nat.
Proof.
  unfold encode_rune. destruct (_ && _); [simpl; lia|]. destruct (_ && _); [simpl; lia|].
  destruct (_ || _); [simpl; lia|]. destruct (_ <=? _); simpl; lia.
Qed.

Lemma normalise_length s : (length (normalise s) <= 3 * length s)%nat.
Proof.
  pose proof (repaired_normalise s) as H. revert H. generalize (normalise s) as t. intros t H.
  induction H as [|c s t Hc _ IH|a s t _ _ IH]; [simpl; lia| |].
  - rewrite !app_length. lia.
  - rewrite app_length. cbn [length] in *. unfold replacement. cbn [map length]. lia.
Qed.

(** * Code points *)
Lemma scalar_iff r : scalar r <-> scalar_value r.
Proof. unfold scalar, scalar_value, is_surrogate. lia. Qed.

Lemma code_point_char c : utf8_char c -> scalar_value (code_point c).
Proof.
  intros H. destruct H; byteb; unfold scalar_value, code_point;
    repeat match goal with |- context [Z.of_N (N_of_ascii ?a)] => change (Z.of_N (N_of_ascii a)) with (byte_of a) end; lia.
Qed.

Lemma decode_code_point c cs rest : utf8_char (c :: cs) -> decode_rune (byte_of c) (cs ++ rest) = (code_point (c :: cs), rest).
Proof.
  intros H. destruct (decode_char (c :: cs) rest H) as (c'&cs'&r&[= <- <-]&Hd&He). rewrite Hd. f_equal.
  pose proof (decode_rune_scalar _ _ _ _ Hd) as Hs.
  revert Hd. unfold decode_rune. remember (c :: cs) as l eqn:El. clear He.
  destruct H; injection El as <- <-; byteb; unfold code_point;
    repeat match goal with |- context [Z.of_N (N_of_ascii ?a)] => change (Z.of_N (N_of_ascii a)) with (byte_of a) end;
    cbn [app]; cbv zeta; unfold is_cont, is_surrogate;
    repeat match goal with |- context [if ?x then _ else _] =>
      first [replace x with true by lia | replace x with false by lia] end; intros [= <-]; lia.
Qed.

Lemma runes_of_chars cs : Forall utf8_char cs -> runes_of (concat cs) = map code_point cs.
Proof.
  induction 1 as [|c cs Hc _ IH]; [reflexivity|]. cbn [concat map].
  destruct c as [|a c]; [inversion Hc|]. cbn [app].
  rewrite (runes_of_cons a), decode_code_point by exact Hc. now rewrite IH.
Qed.

Lemma encode_code_point r : scalar_value r -> utf8_char (encode_rune r) /\ code_point (encode_rune r) = r.
Proof.
  intros H%scalar_iff. pose proof (encode_rune_char r H) as Hc. split; [exact Hc|].
  pose proof (runes_of_app_encode r [] H) as Hr. rewrite app_nil_r in Hr.
  pose proof (runes_of_chars [encode_rune r] (Forall_cons _ Hc (Forall_nil _))) as Hr'. cbn [concat map] in Hr'.
  rewrite app_nil_r in Hr'. rewrite Hr in Hr'. cbn in Hr'. congruence.
Qed.

Lemma repaired_unique (s : text) : exists t, repaired s t /\ valid_utf8 t /\ forall t', repaired s t' -> t' = t.
Proof.
  exists (normalise s). split; [apply repaired_normalise|]. split; [apply normalise_valid|].
  intros t'. apply repaired_iff.
Qed.
Lemma repaired_self (s : text) : repaired s s <-> valid_utf8 s.
Proof. rewrite repaired_iff, <- normalise_id_iff. split; congruence. Qed.

Lemma split_once (s : text) : join_space (split_space s) = s /\ split_space s <> [] /\ words s (split_space s).
Proof. split; [apply join_split|]. split; [apply split_space_nonempty|apply words_split]. Qed.
