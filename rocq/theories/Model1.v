(** Model of internal/concrete/class, bit and character. *)
From Coq Require Import NArith ZArith List Ascii Bool.
From Verif Require Import Base GoText.
Import ListNotations.
Open Scope N_scope.

(** * class *)

(** internal/concrete/class/repository.go 9-18 *)
Definition bitIdentifier : N := 1.
Definition characterIdentifier : N := 2.
Definition wordIdentifier : N := 3.
Definition phraseIdentifier : N := 4.
Definition detailIdentifier : N := 5.
Definition remarkIdentifier : N := 6.
Definition factIdentifier : N := 7.
Definition storyIdentifier : N := 8.

(** internal/concrete/class/repository.go 46-53 (and 55-64, … 139-147): create
    the node of class [k] and check its number. *)
Definition class_create (k : N) : prog unit :=
  result <- st_create;;
  if result =? k then Ret tt else Throw (EWrongClassNode k).

(** internal/concrete/class/repository.go 55-67, 69-81, … 139-151: create class
    node [k] and set the reference from [k - 1]. *)
Definition class_create_next (k : N) : prog unit :=
  class_create k;;;
  st_setref (k - 1) k.

(** internal/concrete/class/repository.go 45-152 *)
Definition class_create_all : prog unit :=
  class_create bitIdentifier;;;
  class_create_next characterIdentifier;;;
  class_create_next wordIdentifier;;;
  class_create_next phraseIdentifier;;;
  class_create_next detailIdentifier;;;
  class_create_next remarkIdentifier;;;
  class_create_next factIdentifier;;;
  class_create_next storyIdentifier.

(** internal/concrete/class/repository.go 36-167.  [isInitialized] is never set,
    so the check runs on every call.  The class entity holds only the constant
    identifiers above, so it is [unit] here. *)
Definition class_provide : prog unit :=
  hasFirstNode <- st_has 1;;
  if hasFirstNode then Ret tt else class_create_all.

(** internal/concrete/class/node/{bit,character,word,phrase}.go 17-30 etc. and
    internal/concrete/class/entity.go 43-105: all Create methods are the same up
    to the class identifier. *)
Definition class_new (k : N) : prog N :=
  identifier <- st_create;;
  st_connect identifier k;;;
  Ret identifier.

(** internal/concrete/class/node/remark.go 36-48 (all Is methods alike) *)
Definition class_is (k : N) (identifier : N) : prog bool :=
  targets <- st_targets identifier;;
  target <- single (EWrongClassTargets k) targets;;
  Ret (target =? k).

(** internal/concrete/class/node/bit.go 46-49 *)
Definition class_all_bits : prog (list N) := st_sources bitIdentifier.

(** * bit *)

(** internal/concrete/bit/layer.go 25-147 *)
Definition bit_initialize : prog (bit_ent * bit_ent) :=
  LoadBits (fun m =>
    match m with
    | Some zo => Ret zo
    | None =>
      class_provide;;;
      classIdentifiers <- class_all_bits;;
      zo <-
        match classIdentifiers with
        | [] =>
          c0 <- class_new bitIdentifier;;
          c1 <- class_new bitIdentifier;;
          let (zeroClass, oneClass) := if c0 <? c1 then (c0, c1) else (c1, c0) in
          zeroCharacter <- st_create;;
          st_setref zeroClass zeroCharacter;;;
          oneCharacter <- st_create;;
          st_setref oneClass oneCharacter;;;
          Ret (BitEnt false zeroClass zeroCharacter, BitEnt true oneClass oneCharacter)
        | [c0; c1] =>
          let (zeroClass, oneClass) := if c0 <? c1 then (c0, c1) else (c1, c0) in
          '(_, zeroCharacter) <- st_getref zeroClass;;
          '(_, oneCharacter) <- st_getref oneClass;;
          Ret (BitEnt false zeroClass zeroCharacter, BitEnt true oneClass oneCharacter)
        | _ => Throw EWrongBitCount
        end;;
      StoreBits (Some zo) (Ret zo)
    end).

(** internal/concrete/bit/repository.go 25-37 *)
Definition bit_provide (value : bool) : prog bit_ent :=
  '(zero, one) <- bit_initialize;;
  Ret (if value then one else zero).

(** internal/concrete/bit/repository.go 39-55 *)
Definition bit_fetch (identifier : N) : prog bit_ent :=
  '(zero, one) <- bit_initialize;;
  if identifier =? be_char zero then Ret zero
  else if identifier =? be_char one then Ret one
  else Throw EWrongBitId.

(** internal/concrete/bit/entity.go 32-47 *)
Definition bit_has_target_character (e : bit_ent) : prog bool :=
  targets <- st_targets (be_char e);;
  zero_or_one EBitTargets targets.

(** internal/concrete/bit/entity.go 49-61 *)
Definition bit_point_to_character (e : bit_ent) (character : N) : prog unit :=
  targets <- st_targets (be_char e);;
  match targets with
  | [] => st_connect (be_char e) character
  | _ => Throw EBitOccupied
  end.

(** internal/concrete/bit/entity.go 63-75 *)
Definition bit_get_target_character (e : bit_ent) : prog N :=
  targets <- st_targets (be_char e);;
  single EBitTargets targets.

(** * character *)

(** internal/concrete/character/entity.go 9-15.  The storage pointer is
    implicit; the only function that leaves it nil, ReadEntityByClass in
    internal/concrete/character/storage.go 61-84, is called nowhere (see
    [Model4.char_read_by_class]). *)
Record char_ent := CharEnt { ce_class : N; ce_bit : N; ce_char : N; ce_word : N }.

(** internal/concrete/character/storage.go 20-59 *)
Definition char_create_entity (class : N) : prog char_ent :=
  bit <- st_create;;
  character <- st_create;;
  word <- st_create;;
  st_setref class bit;;;
  st_setref bit character;;;
  st_setref character word;;;
  Ret (CharEnt class bit character word).

(** internal/concrete/character/storage.go 86-105 *)
Definition char_read_by_bit (bit : N) : prog char_ent :=
  '(class, character) <- st_getref bit;;
  '(_, word) <- st_getref character;;
  Ret (CharEnt class bit character word).

(** internal/concrete/character/storage.go 107-126 *)
Definition char_read_by_character (character : N) : prog char_ent :=
  '(bit, word) <- st_getref character;;
  '(class, _) <- st_getref bit;;
  Ret (CharEnt class bit character word).

(** internal/concrete/character/storage.go 128-152 *)
Definition char_read_by_word (word : N) : prog char_ent :=
  '(character, _) <- st_getref word;;
  '(bit, _) <- st_getref character;;
  '(class, _) <- st_getref bit;;
  Ret (CharEnt class bit character word).

(** internal/concrete/character/entity.go 39-42 *)
Definition char_point_to_bit (e : char_ent) (bit : N) : prog unit :=
  st_connect (ce_bit e) bit.

(** internal/concrete/character/entity.go 44-56 *)
Definition char_get_target_bit (e : char_ent) : prog N :=
  targetBits <- st_targets (ce_bit e);;
  single ECharTargetBits targetBits.

(** internal/concrete/character/entity.go 58-61 *)
Definition char_get_target_characters (e : char_ent) : prog (list N) :=
  st_targets (ce_char e).

(** internal/concrete/character/entity.go 63-72 *)
Definition char_has_source_character (e : char_ent) : prog bool :=
  sourceCharacters <- st_sources (ce_char e);;
  Ret (nonempty sourceCharacters).

(** internal/concrete/character/entity.go 74-86 *)
Definition char_get_source_character (e : char_ent) : prog N :=
  sourceCharacters <- st_sources (ce_char e);;
  single ECharSources sourceCharacters.

(** internal/concrete/character/entity.go 88-91 *)
Definition char_point_to_character (e : char_ent) (character : N) : prog unit :=
  st_connect (ce_char e) character.

(** internal/concrete/character/entity.go 93-96 *)
Definition char_point_to_word (e : char_ent) (word : N) : prog unit :=
  st_connect (ce_word e) word.

(** internal/concrete/character/entity.go 103-118.  As written, the targets of
    the *character* node are counted, not those of the word node. *)
Definition char_has_target_word (e : char_ent) : prog bool :=
  targets <- st_targets (ce_char e);;
  zero_or_one ECharTargetWords targets.

(** internal/concrete/character/entity.go 120-132 *)
Definition char_get_target_word (e : char_ent) : prog N :=
  targets <- st_targets (ce_word e);;
  single ECharTargetWords targets.

(** internal/concrete/character/paths.go 31-36: the loop over the digits *)
Fixpoint collect_bits (bitNames : gostring) : res (list bool) :=
  match bitNames with
  | [] => Ok []
  | c :: cs =>
    if Ascii.eqb c "0"%char || Ascii.eqb c "1"%char then
      match collect_bits cs with
      | Ok bs => Ok (Ascii.eqb c "1"%char :: bs)
      | Err e => Err e
      end
    else Err EInvalidBitName
  end.

(** internal/concrete/character/paths.go 21-39 *)
Definition char_collect (integer : Z) : res (list bool) :=
  match format_b integer with
  | [] => Err ENoBits
  | bitNames => collect_bits bitNames
  end.

(** internal/concrete/character/factory.go 24-64 *)
Definition char_provide_head_entity (bit : bit_ent) : prog char_ent :=
  hasTargetCharacter <- bit_has_target_character bit;;
  if negb hasTargetCharacter then
    class <- class_new characterIdentifier;;
    characterEntity <- char_create_entity class;;
    char_point_to_bit characterEntity (be_char bit);;;
    bit_point_to_character bit (ce_bit characterEntity);;;
    Ret characterEntity
  else
    target <- bit_get_target_character bit;;
    char_read_by_bit target.

(** internal/concrete/character/factory.go 66-93 *)
Definition char_create_tail_entity (bit : bit_ent) (previous : char_ent) : prog char_ent :=
  class <- class_new characterIdentifier;;
  newCharacterEntity <- char_create_entity class;;
  char_point_to_bit newCharacterEntity (be_char bit);;;
  char_point_to_character previous (ce_char newCharacterEntity);;;
  Ret newCharacterEntity.

(** internal/concrete/character/element.go 9-15: an element is its entity (the
    other fields are constant); the entity may be nil, see
    [char_provide_first_element]. *)
Definition char_element := option char_ent.

(** internal/concrete/character/element.go 31-40: read the entities of the
    children. *)
Fixpoint char_read_all (ids : list N) : prog (list char_ent) :=
  match ids with
  | [] => Ret []
  | x :: xs =>
    e <- char_read_by_character x;;
    es <- char_read_all xs;;
    Ret (e :: es)
  end.

(** internal/concrete/character/element.go 42-65: find the child with the
    value. *)
Fixpoint char_find (bitValue : bool) (es : list char_ent) : prog (option char_ent) :=
  match es with
  | [] => Ret None
  | e :: es' =>
    targetBitIdentifier <- char_get_target_bit e;;
    targetBit <- bit_fetch targetBitIdentifier;;
    if Bool.eqb bitValue (be_value targetBit) then Ret (Some e)
    else char_find bitValue es'
  end.

(** internal/concrete/character/element.go 24-90 *)
Definition char_provide_next_element (el : char_element) (bitValue : bool) : prog char_element :=
  character <- deref el;;
  ids <- char_get_target_characters character;;
  targetCharacters <- char_read_all ids;;
  found <- char_find bitValue targetCharacters;;
  match found with
  | Some e => Ret (Some e)
  | None =>
    class_provide;;;
    bit <- bit_provide bitValue;;
    newCharacter <- char_create_tail_entity bit character;;
    Ret (Some newCharacter)
  end.

(** internal/concrete/character/element.go 92-105 *)
Definition char_extract_bit_value (el : char_element) : prog bool :=
  character <- deref el;;
  targetBitIdentifier <- char_get_target_bit character;;
  bit <- bit_fetch targetBitIdentifier;;
  Ret (be_value bit).

(** internal/concrete/character/element.go 107-110 *)
Definition char_has_previous_element (el : char_element) : prog bool :=
  character <- deref el;;
  char_has_source_character character.

(** internal/concrete/character/element.go 112-131 *)
Definition char_get_previous_element (el : char_element) : prog char_element :=
  character <- deref el;;
  identifier <- char_get_source_character character;;
  previous <- char_read_by_character identifier;;
  Ret (Some previous).

(** internal/concrete/character/elements.go 33-54.  The error of
    ProvideHeadEntity (line 45) is not looked at: the entity is nil then. *)
Definition char_provide_first_element (bitValue : bool) : prog char_element :=
  firstBit <- bit_provide bitValue;;
  class_provide;;;
  character <- try (char_provide_head_entity firstBit);;
  Ret (nil_on_err character).

(** internal/concrete/character/repository.go 42-45: the error of
    ProvideNextElement is not looked at; the element is nil then. *)
Fixpoint char_provide_loop (el : option char_element) (path : list bool) : prog (option char_element) :=
  match path with
  | [] => Ret el
  | bitValue :: path' =>
    element <- deref el;;
    next <- try (char_provide_next_element element bitValue);;
    char_provide_loop (nil_on_err next) path'
  end.

(** internal/concrete/character/aggragate.go 7-11: an aggregate is its (possibly
    nil) entity. *)
Definition char_aggregate := option char_ent.

(** internal/concrete/character/repository.go 30-52.  [path[0]] of an empty path
    would panic; char_collect never returns one. *)
Definition char_provide (integer : Z) : prog char_aggregate :=
  path <- of_res (char_collect integer);;
  match path with
  | [] => Panic
  | first :: rest =>
    el <- char_provide_first_element first;;
    last <- char_provide_loop (Some el) rest;;
    deref last
  end.

(** internal/concrete/character/repository.go 54-66 *)
Definition char_fetch (word : N) : prog char_aggregate :=
  character <- char_read_by_word word;;
  Ret (Some character).

(** internal/concrete/character/aggragate.go 46-64: walk to the root collecting
    bits.  [fuel] bounds the [for] loop; the error of GetPreviousElement (line
    56) is not looked at. *)
Fixpoint char_extract_loop (fuel : nat) (el : char_element) (path : list bool) : prog (list bool) :=
  match fuel with
  | O => Diverge
  | S fuel' =>
    hasPreviousElement <- char_has_previous_element el;;
    if negb hasPreviousElement then Ret path
    else
      previous <- try (char_get_previous_element el);;
      el' <- deref (nil_on_err previous);;
      bitValue <- char_extract_bit_value el';;
      char_extract_loop fuel' el' (path ++ [bitValue])
  end.

(** internal/concrete/character/aggragate.go 66-73: int32 shifts. *)
Definition int_of_bits (path : list bool) : Z :=
  fold_left (fun (integer : Z) (bitValue : bool) =>
    let shifted := wrap32 (integer * 2) in
    if bitValue then wrap32 (shifted + 1) else shifted) path 0%Z.

(** internal/concrete/character/aggragate.go 35-76 *)
Definition char_extract (fuel : nat) (a : char_aggregate) : prog Z :=
  bitValue <- char_extract_bit_value a;;
  path <- char_extract_loop fuel a [bitValue];;
  Ret (int_of_bits (rev path)).
