(** Texts, code points and bits. *)
From Coq Require Import NArith ZArith List Ascii Bool Lia ZifyBool ZifyN.
From Verif Require Import Base GoText Model1.
Import ListNotations.
Local Open Scope Z_scope.
Ltac Zify.zify_post_hook ::= Z.div_mod_to_equations.

(** * Bits *)

(** Value of a list of bits read from the most significant one, after [v]. *)
Definition msb_val (v : Z) (bs : list bool) : Z :=
  fold_left (fun v b => 2 * v + Z.b2z b) bs v.

Lemma msb_val_app v a b : msb_val v (a ++ b) = msb_val (msb_val v a) b.
Proof. apply fold_left_app. Qed.

Lemma msb_val_ge v bs : 0 <= v -> v <= msb_val v bs.
Proof.
  revert v. induction bs as [|b bs IH]; intros v Hv; [apply Z.le_refl|].
  change (msb_val v (b :: bs)) with (msb_val (2 * v + Z.b2z b) bs).
  assert (0 <= Z.b2z b <= 1) by (destruct b; simpl; lia).
  specialize (IH (2 * v + Z.b2z b)). lia.
Qed.

Lemma collect_pos_bits p acc bs :
  collect_bits acc = Ok bs ->
  exists t, collect_bits (pos_bits p acc) = Ok (true :: t ++ bs) /\ msb_val 1 t = Zpos p.
Proof.
  revert acc bs. induction p as [p IH|p IH|]; intros acc bs H; simpl.
  - destruct (IH ("1"%char :: acc) (true :: bs)) as (t & H1 & H2).
    { simpl. now rewrite H. }
    exists (t ++ [true]). rewrite H1, <- app_assoc. split; [reflexivity|].
    rewrite msb_val_app, H2. simpl. lia.
  - destruct (IH ("0"%char :: acc) (false :: bs)) as (t & H1 & H2).
    { simpl. now rewrite H. }
    exists (t ++ [false]). rewrite H1, <- app_assoc. split; [reflexivity|].
    rewrite msb_val_app, H2. simpl. lia.
  - exists []. simpl. now rewrite H.
Qed.

Lemma pos_bits_cons p acc : exists c cs, pos_bits p acc = c :: cs.
Proof. revert acc. induction p; simpl; intros; eauto. Qed.

Lemma char_collect_zero : char_collect 0 = Ok [false].
Proof. reflexivity. Qed.

Lemma char_collect_pos r : 1 <= r -> exists t, char_collect r = Ok (true :: t) /\ msb_val 1 t = r.
Proof.
  intros Hr. destruct r as [|p|p]; try lia.
  destruct (collect_pos_bits p [] []) as (t & H1 & H2); [reflexivity|].
  exists t. unfold char_collect. simpl format_b.
  destruct (pos_bits_cons p []) as (c & cs & E). rewrite app_nil_r in H1. rewrite E in *. auto.
Qed.

Lemma wrap32_id z : -2147483648 <= z < 2147483648 -> wrap32 z = z.
Proof. intros H. unfold wrap32. rewrite Z.mod_small; lia. Qed.

Lemma int_of_bits_val path :
  msb_val 0 path < 2147483648 -> int_of_bits path = msb_val 0 path.
Proof.
  unfold int_of_bits.
  assert (H : forall path v, 0 <= v -> msb_val v path < 2147483648 ->
    fold_left (fun (integer : Z) (bitValue : bool) =>
      let shifted := wrap32 (integer * 2) in
      if bitValue then wrap32 (shifted + 1) else shifted) path v = msb_val v path).
  { clear path. induction path as [|b path IH]; intros v Hv Hm; [reflexivity|]; cbn [fold_left].
    change (msb_val v (b :: path)) with (msb_val (2 * v + Z.b2z b) path) in *.
    assert (0 <= Z.b2z b <= 1) by (destruct b; simpl; lia).
    pose proof (msb_val_ge (2 * v + Z.b2z b) path).
    assert (wrap32 (v * 2) = 2 * v) as -> by (rewrite wrap32_id; lia).
    rewrite <- IH by lia. f_equal. destruct b; cbn [Z.b2z]; [rewrite wrap32_id by (cbn [Z.b2z] in *; lia)|]; lia. }
  intros. apply H; lia.
Qed.

(** * UTF-8 *)

Definition scalar (r : Z) : Prop := 0 <= r <= 1114111 /\ is_surrogate r = false.

Lemma byte_of_byte z : 0 <= z < 256 -> byte_of (byte z) = z.
Proof.
  intros H. unfold byte_of, byte. rewrite N_ascii_embedding by lia. lia.
Qed.

Lemma byte_byte_of a : byte (byte_of a) = a.
Proof. unfold byte_of, byte. rewrite N2Z.id. apply ascii_N_embedding. Qed.

Lemma byte_of_range a : 0 <= byte_of a < 256.
Proof. unfold byte_of. pose proof (N_ascii_bounded a). lia. Qed.

Lemma decode_rune_suffix b rest r rest' :
  decode_rune b rest = (r, rest') -> exists pre, rest = pre ++ rest'.
Proof.
  assert (D : forall x, (rune_error, rest) = (x, rest') -> exists pre, rest = pre ++ rest').
  { intros x [= _ ->]. exists []. reflexivity. }
  unfold decode_rune.
  destruct (b <? 128). { intros [= _ ->]. exists []. reflexivity. }
  destruct ((192 <=? b) && (b <? 224)).
  { destruct rest as [|c1 rest1]; [apply D|].
    destruct (_ && _); [|apply D]. intros [= _ ->]. exists [c1]. reflexivity. }
  destruct ((224 <=? b) && (b <? 240)).
  { destruct rest as [|c1 [|c2 rest2]]; try apply D.
    destruct (_ && _); [|apply D]. intros [= _ ->]. exists [c1; c2]. reflexivity. }
  destruct ((240 <=? b) && (b <? 248)); [|apply D].
  destruct rest as [|c1 [|c2 [|c3 rest3]]]; try apply D.
  destruct (_ && _); [|apply D]. intros [= _ ->]. exists [c1; c2; c3]. reflexivity.
Qed.

Lemma decode_fuel_enough n m s :
  (length s <= n)%nat -> (length s <= m)%nat -> decode_fuel n s = decode_fuel m s.
Proof.
  revert m s. induction n as [|n IH]; intros m s Hn Hm.
  - destruct s; simpl in *; [|lia]. now destruct m.
  - destruct s as [|c rest]; [now destruct m|].
    destruct m as [|m]; simpl in *; [lia|].
    destruct (decode_rune (byte_of c) rest) as [r rest'] eqn:E.
    apply decode_rune_suffix in E as [pre ->]. rewrite app_length in *.
    f_equal. apply IH; lia.
Qed.

Lemma runes_of_nil : runes_of [] = [].
Proof. reflexivity. Qed.

Lemma runes_of_cons c rest :
  runes_of (c :: rest) =
  let (r, rest') := decode_rune (byte_of c) rest in r :: runes_of rest'.
Proof.
  unfold runes_of. simpl.
  destruct (decode_rune (byte_of c) rest) as [r rest'] eqn:E. f_equal.
  apply decode_rune_suffix in E as [pre ->].
  apply decode_fuel_enough; rewrite ?app_length; lia.
Qed.

(** Induction over the decoding of a string. *)
Lemma runes_ind (P : gostring -> Prop) :
  P [] ->
  (forall c rest r rest', decode_rune (byte_of c) rest = (r, rest') -> P rest' -> P (c :: rest)) ->
  forall s, P s.
Proof.
  intros H0 H1 s. remember (length s) as n eqn:Hn.
  revert s Hn. induction n as [n IH] using lt_wf_ind. intros s ->.
  destruct s as [|c rest]; [exact H0|].
  destruct (decode_rune (byte_of c) rest) as [r rest'] eqn:E.
  eapply H1; [exact E|]. apply decode_rune_suffix in E as [pre ->].
  eapply IH; [|reflexivity]. simpl. rewrite app_length. lia.
Qed.

Lemma decode_rune_scalar c rest r rest' :
  decode_rune (byte_of c) rest = (r, rest') -> scalar r.
Proof.
  pose proof (byte_of_range c) as Hb. unfold decode_rune.
  assert (D : forall x, (rune_error, rest) = (r, x) -> scalar r).
  { intros x [= <- _]. unfold scalar, rune_error, is_surrogate. lia. }
  destruct (byte_of c <? 128) eqn:E1.
  { intros [= <- _]. unfold scalar, is_surrogate. lia. }
  destruct ((192 <=? byte_of c) && (byte_of c <? 224)) eqn:E2.
  { destruct rest as [|c1 rest1]; [apply D|].
    match goal with |- (if ?b then _ else _) = _ -> _ => destruct b eqn:E3 end; [|apply D]. intros [= <- _].
    unfold scalar, is_surrogate, is_cont in *. lia. }
  destruct ((224 <=? byte_of c) && (byte_of c <? 240)) eqn:E3.
  { destruct rest as [|c1 [|c2 rest2]]; try apply D.
    match goal with |- (if ?b then _ else _) = _ -> _ => destruct b eqn:E4 end; [|apply D]. intros [= <- _].
    apply andb_true_iff in E4 as [E4 E5]. apply negb_true_iff in E5.
    unfold scalar. split; [|exact E5]. unfold is_cont in *. lia. }
  destruct ((240 <=? byte_of c) && (byte_of c <? 248)) eqn:E4; [|apply D].
  destruct rest as [|c1 [|c2 [|c3 rest3]]]; try apply D.
  match goal with |- (if ?b then _ else _) = _ -> _ => destruct b eqn:E5 end; [|apply D]. intros [= <- _].
  unfold scalar, is_surrogate, is_cont in *. lia.
Qed.

Lemma runes_of_scalar s : Forall scalar (runes_of s).
Proof.
  induction s as [|c rest r rest' E IH] using runes_ind; [constructor|].
  rewrite runes_of_cons, E. constructor; [|exact IH]. eapply decode_rune_scalar, E.
Qed.

Lemma runes_of_length s : (length (runes_of s) <= length s)%nat.
Proof.
  induction s as [|c rest r rest' E IH] using runes_ind; [simpl; lia|].
  rewrite runes_of_cons, E. simpl. apply decode_rune_suffix in E as [pre ->].
  rewrite app_length. lia.
Qed.

Lemma runes_of_empty s : runes_of s = [] <-> s = [].
Proof.
  split; [|intros ->; reflexivity]. destruct s as [|c rest]; [reflexivity|].
  rewrite runes_of_cons. destruct (decode_rune _ _). discriminate.
Qed.

Lemma encode_rune_decode r rest :
  scalar r -> exists c cs, encode_rune r = c :: cs /\ decode_rune (byte_of c) (cs ++ rest) = (r, rest).
Proof.
  intros [Hr Hs]. unfold encode_rune.
  destruct ((0 <=? r) && (r <=? 127)) eqn:E1.
  { exists (byte r), []. split; [reflexivity|]. simpl. rewrite byte_of_byte by lia.
    unfold decode_rune. now replace (r <? 128) with true by lia. }
  destruct ((0 <=? r) && (r <=? 2047)) eqn:E2.
  { eexists _, _. split; [reflexivity|]. cbn [app].
    unfold decode_rune. rewrite !byte_of_byte by lia.
    replace (192 + r / 64 <? 128) with false by lia.
    replace ((192 <=? 192 + r / 64) && (192 + r / 64 <? 224)) with true by lia.
    cbv zeta. unfold is_cont.
    replace ((192 + r / 64) mod 32 * 64 + (128 + r mod 64) mod 64) with r by lia.
    match goal with |- (if ?b then _ else _) = _ => now replace b with true by lia end. }
  rewrite Hs. replace ((r <? 0) || (1114111 <? r) || false) with false by lia.
  destruct (r <=? 65535) eqn:E3.
  { eexists _, _. split; [reflexivity|]. cbn [app].
    unfold decode_rune. rewrite !byte_of_byte by lia.
    replace (224 + r / 4096 <? 128) with false by lia.
    replace ((192 <=? 224 + r / 4096) && (224 + r / 4096 <? 224)) with false by lia.
    replace ((224 <=? 224 + r / 4096) && (224 + r / 4096 <? 240)) with true by lia.
    cbv zeta.
    replace ((224 + r / 4096) mod 16 * 4096 + (128 + (r / 64) mod 64) mod 64 * 64 + (128 + r mod 64) mod 64)
      with r by lia.
    rewrite Hs. unfold is_cont.
    match goal with |- (if ?b then _ else _) = _ => now replace b with true by lia end. }
  eexists _, _. split; [reflexivity|]. cbn [app].
  unfold decode_rune. rewrite !byte_of_byte by lia.
  replace (240 + r / 262144 <? 128) with false by lia.
  replace ((192 <=? 240 + r / 262144) && (240 + r / 262144 <? 224)) with false by lia.
  replace ((224 <=? 240 + r / 262144) && (240 + r / 262144 <? 240)) with false by lia.
  replace ((240 <=? 240 + r / 262144) && (240 + r / 262144 <? 248)) with true by lia.
  cbv zeta.
  replace ((240 + r / 262144) mod 8 * 262144 + (128 + (r / 4096) mod 64) mod 64 * 4096 +
    (128 + (r / 64) mod 64) mod 64 * 64 + (128 + r mod 64) mod 64) with r by lia.
  unfold is_cont. match goal with |- (if ?b then _ else _) = _ => now replace b with true by lia end.
Qed.

Lemma runes_of_app_encode r rest : scalar r -> runes_of (encode_rune r ++ rest) = r :: runes_of rest.
Proof.
  intros H. destruct (encode_rune_decode r rest H) as (c & cs & -> & E).
  cbn [app]. rewrite runes_of_cons, E. reflexivity.
Qed.

(** Decoding what was encoded. *)
Lemma runes_of_string_of_runes rs : Forall scalar rs -> runes_of (string_of_runes rs) = rs.
Proof.
  induction 1 as [|r rs Hr _ IH]; [reflexivity|].
  unfold string_of_runes in *. simpl. rewrite runes_of_app_encode by exact Hr. now rewrite IH.
Qed.

Lemma string_of_runes_inj rs rs' :
  Forall scalar rs -> Forall scalar rs' -> string_of_runes rs = string_of_runes rs' -> rs = rs'.
Proof.
  intros H H' E. rewrite <- (runes_of_string_of_runes rs H), E. now apply runes_of_string_of_runes.
Qed.

(** What the store makes of a text: bytes that are not well-formed UTF-8 are
    replaced by U+FFFD one by one. *)
Definition normalise (s : gostring) : gostring := string_of_runes (runes_of s).

Lemma runes_of_normalise s : runes_of (normalise s) = runes_of s.
Proof. apply runes_of_string_of_runes, runes_of_scalar. Qed.

Lemma normalise_idem s : normalise (normalise s) = normalise s.
Proof. unfold normalise at 1. now rewrite runes_of_normalise. Qed.

(** * Spaces *)

Lemma byte_of_space : byte_of space = 32.
Proof. reflexivity. Qed.

(** A space never is part of a longer sequence. *)
Lemma decode_rune_space b a s :
  0 <= b < 256 ->
  decode_rune b (a ++ space :: s) =
  let (r, rest') := decode_rune b a in (r, rest' ++ space :: s).
Proof.
  intros Hb. unfold decode_rune.
  destruct (b <? 128); [reflexivity|].
  assert (C : is_cont (byte_of space) = false) by reflexivity.
  destruct ((192 <=? b) && (b <? 224)).
  { destruct a as [|c1 a]; cbn [app].
    - cbv zeta. rewrite C. reflexivity.
    - cbv zeta. destruct (_ && _); reflexivity. }
  destruct ((224 <=? b) && (b <? 240)).
  { destruct a as [|c1 [|c2 a]]; cbn [app]; cbv zeta.
    - destruct s as [|c2 s]; [reflexivity|]. rewrite C. reflexivity.
    - rewrite C. rewrite andb_false_r. reflexivity.
    - destruct (_ && _); reflexivity. }
  destruct ((240 <=? b) && (b <? 248)); [|reflexivity].
  destruct a as [|c1 [|c2 [|c3 a]]]; cbn [app]; cbv zeta.
  - destruct s as [|c2 [|c3 s]]; try reflexivity.
  - destruct s as [|c3 s]; try reflexivity. rewrite C, andb_false_r. reflexivity.
  - rewrite C, andb_false_r. reflexivity.
  - destruct (_ && _); reflexivity.
Qed.

Lemma runes_of_space s : runes_of (space :: s) = 32 :: runes_of s.
Proof. rewrite runes_of_cons. reflexivity. Qed.

Lemma runes_of_app_space (a s : gostring) : runes_of (a ++ space :: s) = runes_of a ++ 32 :: runes_of s.
Proof.
  induction a as [|c rest r rest' E IH] using runes_ind; [apply runes_of_space|].
  cbn [app]. rewrite !runes_of_cons. rewrite decode_rune_space by apply byte_of_range.
  rewrite E. simpl. now rewrite IH.
Qed.

Lemma string_of_runes_app a b : string_of_runes (a ++ b) = string_of_runes a ++ string_of_runes b.
Proof. unfold string_of_runes. now rewrite map_app, concat_app. Qed.

Lemma normalise_app_space a s : normalise (a ++ space :: s) = normalise a ++ space :: normalise s.
Proof.
  unfold normalise. rewrite runes_of_app_space, string_of_runes_app. reflexivity.
Qed.

Lemma split_space_nonempty s : split_space s <> [].
Proof.
  destruct s as [|c s]; simpl; [discriminate|].
  destruct (Ascii.eqb c space); [discriminate|]. destruct (split_space s); discriminate.
Qed.

(** Joining the parts gives the text back. *)
Lemma join_split s : join_space (split_space s) = s.
Proof.
  induction s as [|c s IH]; [reflexivity|]. simpl.
  destruct (Ascii.eqb_spec c space) as [->|Hc].
  - pose proof (split_space_nonempty s) as H. destruct (split_space s) as [|w ws]; [congruence|].
    simpl in *. now rewrite IH.
  - pose proof (split_space_nonempty s) as H. destruct (split_space s) as [|w ws]; [congruence|].
    rewrite <- IH. destruct ws; reflexivity.
Qed.

Lemma split_space_nospace s : Forall (fun w => ~ In space w) (split_space s).
Proof.
  induction s as [|c s IH]; simpl; [repeat constructor; auto|].
  destruct (Ascii.eqb_spec c space) as [->|Hc]; [constructor; auto|].
  destruct (split_space s) as [|w ws].
  - constructor; [|constructor]. intros [?|[]]. auto.
  - inversion IH; subst. constructor; [|assumption]. intros [?|?]; auto.
Qed.

Lemma split_space_app w s : ~ In space w -> split_space (w ++ space :: s) = w :: split_space s.
Proof.
  induction w as [|c w IH]; intros H; simpl.
  - reflexivity.
  - destruct (Ascii.eqb_spec c space) as [->|Hc]; [destruct H; now left|].
    rewrite IH; [reflexivity|]. intros ?. apply H. now right.
Qed.

Lemma split_space_single w : ~ In space w -> split_space w = [w].
Proof.
  induction w as [|c w IH]; intros H; simpl; [reflexivity|].
  destruct (Ascii.eqb_spec c space) as [->|Hc]; [destruct H; now left|].
  rewrite IH; [reflexivity|]. intros ?. apply H. now right.
Qed.

(** Splitting a join of space-free parts. *)
Lemma split_join ws : ws <> [] -> Forall (fun w => ~ In space w) ws -> split_space (join_space ws) = ws.
Proof.
  intros Hne H. induction H as [|w ws Hw Hws IH]; [congruence|].
  destruct ws as [|w' ws].
  - simpl. now apply split_space_single.
  - change (join_space (w :: w' :: ws)) with (w ++ space :: join_space (w' :: ws)).
    rewrite split_space_app by exact Hw. rewrite IH by discriminate. reflexivity.
Qed.

(** Normalising word by word is normalising the text. *)
Lemma normalise_words ws :
  ws <> [] -> join_space (map normalise ws) = normalise (join_space ws).
Proof.
  induction ws as [|w ws IH]; intros H; [congruence|].
  destruct ws as [|w' ws]; [reflexivity|].
  change (join_space (map normalise (w :: w' :: ws)))
    with (normalise w ++ space :: join_space (map normalise (w' :: ws))).
  change (join_space (w :: w' :: ws)) with (w ++ space :: join_space (w' :: ws)).
  rewrite normalise_app_space, IH by discriminate. reflexivity.
Qed.

(** The words of a text, as code points, and back. *)
Definition words_of (s : gostring) : list (list Z) := map runes_of (split_space s).
Definition text_of (ws : list (list Z)) : gostring := join_space (map string_of_runes ws).

Lemma text_of_words_of s : text_of (words_of s) = normalise s.
Proof.
  unfold text_of, words_of. rewrite map_map.
  change (fun x => string_of_runes (runes_of x)) with normalise.
  rewrite normalise_words by apply split_space_nonempty. now rewrite join_split.
Qed.

Lemma words_of_nonempty s : words_of s <> [].
Proof.
  unfold words_of. pose proof (split_space_nonempty s). destruct (split_space s); simpl; congruence.
Qed.

Lemma gostring_eqb_spec a b : reflect (a = b) (gostring_eqb a b).
Proof.
  revert b. induction a as [|x a IH]; intros [|y b]; simpl; try (constructor; congruence).
  change (reflect (x :: a = y :: b) (Ascii.eqb x y && gostring_eqb a b)).
  destruct (Ascii.eqb_spec x y) as [->|]; simpl; [|constructor; congruence].
  destruct (IH b) as [->|]; constructor; congruence.
Qed.
