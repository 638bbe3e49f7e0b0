(** Go text: byte strings, UTF-8, strings.Split/Join, %b.

    A Go [string] is a list of bytes ([ascii] = 8 bits); a [rune] is a [Z]
    (int32). *)
From Coq Require Import NArith ZArith List Ascii String Bool.
From Verif Require Import Base.
Import ListNotations.
Open Scope Z_scope.

Definition gostring := list ascii.

(** String literals for examples. *)
Definition lit (s : string) : gostring := list_ascii_of_string s.

Definition gostring_eqb (a b : gostring) : bool :=
  (fix go (a b : gostring) : bool :=
     match a, b with
     | [], [] => true
     | x :: a', y :: b' => Ascii.eqb x y && go a' b'
     | _, _ => false
     end) a b.

Definition byte_of (a : ascii) : Z := Z.of_N (N_of_ascii a).
Definition byte (z : Z) : ascii := ascii_of_N (Z.to_N z).

(** U+FFFD, Go's [runeError]. *)
Definition rune_error : Z := 65533.

(** Continuation byte: 0x80..0xBF (Go runtime [locb], [hicb]). *)
Definition is_cont (b : Z) : bool := (128 <=? b) && (b <=? 191).

Definition is_surrogate (r : Z) : bool := (55296 <=? r) && (r <=? 57343).

(** Go runtime/utf8.go [decoderune], together with the one-byte fast path of
    [stringtoslicerune]: one rune and the rest of the string.  A byte that does
    not start a well-formed sequence yields [rune_error] and is skipped. *)
Definition decode_rune (b0 : Z) (rest : gostring) : Z * gostring :=
  if b0 <? 128 then (b0, rest)
  else if (192 <=? b0) && (b0 <? 224) then
    match rest with
    | c1 :: rest1 =>
      let b1 := byte_of c1 in
      let r := (b0 mod 32) * 64 + b1 mod 64 in
      if is_cont b1 && (127 <? r) then (r, rest1) else (rune_error, rest)
    | _ => (rune_error, rest)
    end
  else if (224 <=? b0) && (b0 <? 240) then
    match rest with
    | c1 :: c2 :: rest2 =>
      let b1 := byte_of c1 in
      let b2 := byte_of c2 in
      let r := (b0 mod 16) * 4096 + (b1 mod 64) * 64 + b2 mod 64 in
      if is_cont b1 && is_cont b2 && (2047 <? r) && negb (is_surrogate r)
      then (r, rest2) else (rune_error, rest)
    | _ => (rune_error, rest)
    end
  else if (240 <=? b0) && (b0 <? 248) then
    match rest with
    | c1 :: c2 :: c3 :: rest3 =>
      let b1 := byte_of c1 in
      let b2 := byte_of c2 in
      let b3 := byte_of c3 in
      let r := (b0 mod 8) * 262144 + (b1 mod 64) * 4096 + (b2 mod 64) * 64 + b3 mod 64 in
      if is_cont b1 && is_cont b2 && is_cont b3 && (65535 <? r) && (r <=? 1114111)
      then (r, rest3) else (rune_error, rest)
    | _ => (rune_error, rest)
    end
  else (rune_error, rest).

(** [[]rune(s)]; the fuel is the length of the string, every step consumes at
    least one byte. *)
Fixpoint decode_fuel (n : nat) (s : gostring) : list Z :=
  match n, s with
  | S n', c :: rest =>
    let (r, rest') := decode_rune (byte_of c) rest in
    r :: decode_fuel n' rest'
  | _, _ => []
  end.

Definition runes_of (s : gostring) : list Z := decode_fuel (List.length s) s.

(** Go runtime/utf8.go [encoderune]. *)
Definition encode_rune (r : Z) : gostring :=
  if (0 <=? r) && (r <=? 127) then [byte r]
  else if (0 <=? r) && (r <=? 2047) then [byte (192 + r / 64); byte (128 + r mod 64)]
  else if (r <? 0) || (1114111 <? r) || is_surrogate r then [byte 239; byte 191; byte 189]
  else if r <=? 65535 then
    [byte (224 + r / 4096); byte (128 + (r / 64) mod 64); byte (128 + r mod 64)]
  else
    [byte (240 + r / 262144); byte (128 + (r / 4096) mod 64);
     byte (128 + (r / 64) mod 64); byte (128 + r mod 64)].

(** [string(runes)] *)
Definition string_of_runes (rs : list Z) : gostring := List.concat (map encode_rune rs).

Definition space : ascii := byte 32.

(** [strings.Split(s, " ")] *)
Fixpoint split_space (s : gostring) : list gostring :=
  match s with
  | [] => [[]]
  | c :: s' =>
    if Ascii.eqb c space then [] :: split_space s'
    else match split_space s' with
         | w :: ws => (c :: w) :: ws
         | [] => [[c]]
         end
  end.

(** [strings.Join(ws, " ")] *)
Fixpoint join_space (ws : list gostring) : gostring :=
  match ws with
  | [] => []
  | [w] => w
  | w :: ws' => w ++ space :: join_space ws'
  end.

(** Binary digits, most significant first. *)
Fixpoint pos_bits (p : positive) (acc : gostring) : gostring :=
  match p with
  | xH => "1"%char :: acc
  | xO p' => pos_bits p' ("0"%char :: acc)
  | xI p' => pos_bits p' ("1"%char :: acc)
  end.

(** [fmt.Sprintf("%b", integer)] *)
Definition format_b (z : Z) : gostring :=
  match z with
  | Z0 => ["0"%char]
  | Zpos p => pos_bits p []
  | Zneg p => "-"%char :: pos_bits p []
  end.

(** int32 wrap-around. *)
Definition wrap32 (z : Z) : Z := (z + 2147483648) mod 4294967296 - 2147483648.
