(** Specification of text, independent of the model of Go's conversions. *)
From Coq Require Import NArith ZArith List Ascii.
Import ListNotations.

Notation text := (list ascii).

Definition between (lo hi : N) (a : ascii) : Prop := (lo <= N_of_ascii a <= hi)%N.
Definition tailb (a : ascii) : Prop := between 128 191 a.

(** Well-formed UTF-8 byte sequences of one code point: The Unicode Standard,
    table 3-7, row by row (the same set as the grammar of RFC 3629). *)
Inductive utf8_char : text -> Prop :=
| U1 a : between 0 127 a -> utf8_char [a]
| U2 a b : between 194 223 a -> tailb b -> utf8_char [a; b]
| U3a a b c : between 224 224 a -> between 160 191 b -> tailb c -> utf8_char [a; b; c]
| U3b a b c : between 225 236 a -> tailb b -> tailb c -> utf8_char [a; b; c]
| U3c a b c : between 237 237 a -> between 128 159 b -> tailb c -> utf8_char [a; b; c]
| U3d a b c : between 238 239 a -> tailb b -> tailb c -> utf8_char [a; b; c]
| U4a a b c d : between 240 240 a -> between 144 191 b -> tailb c -> tailb d -> utf8_char [a; b; c; d]
| U4b a b c d : between 241 243 a -> tailb b -> tailb c -> tailb d -> utf8_char [a; b; c; d]
| U4c a b c d : between 244 244 a -> between 128 143 b -> tailb c -> tailb d -> utf8_char [a; b; c; d].

(** The code point of such a sequence: The Unicode Standard, table 3-6. *)
Definition code_point (c : text) : Z :=
  let n a := Z.of_N (N_of_ascii a) in
  (match c with
   | [a] => n a
   | [a; b] => (n a - 192) * 64 + (n b - 128)
   | [a; b; c] => (n a - 224) * 4096 + (n b - 128) * 64 + (n c - 128)
   | [a; b; c; d] => (n a - 240) * 262144 + (n b - 128) * 4096 + (n c - 128) * 64 + (n d - 128)
   | _ => 0
   end)%Z.
(** Unicode scalar values. *)
Definition scalar_value (r : Z) : Prop := (0 <= r <= 55295 \/ 57344 <= r <= 1114111)%Z.

(** Valid UTF-8. *)
Definition valid_utf8 (s : text) : Prop := exists cs, Forall utf8_char cs /\ s = concat cs.

(** U+FFFD, the replacement character. *)
Definition replacement : text := map ascii_of_N [239%N; 191%N; 189%N].

(** [repaired s t]: [t] is [s] with every byte that is not part of a well-formed
    sequence replaced by U+FFFD, reading from left to right. *)
Inductive repaired : text -> text -> Prop :=
| rep_nil : repaired [] []
| rep_char c s t : utf8_char c -> repaired s t -> repaired (c ++ s) (c ++ t)
| rep_byte a s t :
    (forall c s', utf8_char c -> a :: s <> c ++ s') ->
    repaired s t -> repaired (a :: s) (replacement ++ t).

(** The words of a text: the stretches between single spaces. *)
Definition is_space (a : ascii) : Prop := N_of_ascii a = 32%N.
Inductive words : text -> list text -> Prop :=
| words_last w : Forall (fun a => ~ is_space a) w -> words w [w]
| words_more w a s ws :
    Forall (fun a => ~ is_space a) w -> is_space a -> words s ws ->
    words (w ++ a :: s) (w :: ws).
