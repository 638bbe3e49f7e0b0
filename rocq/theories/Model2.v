(** Model of internal/concrete/word, phrase and detail. *)
From Coq Require Import NArith ZArith List Ascii Bool.
From Verif Require Import Base GoText Model1.
Import ListNotations.
Open Scope N_scope.

(** * word *)

(** internal/concrete/word/entity.go 9-15 (storage pointer implicit) *)
Record word_ent := WordEnt { we_class : N; we_char : N; we_word : N; we_phrase : N }.

(** internal/concrete/word/storage.go 20-59 *)
Definition word_create_entity (class : N) : prog word_ent :=
  character <- st_create;;
  word <- st_create;;
  phrase <- st_create;;
  st_setref class character;;;
  st_setref character word;;;
  st_setref word phrase;;;
  Ret (WordEnt class character word phrase).

(** internal/concrete/word/storage.go 87-106 *)
Definition word_read_by_character (character : N) : prog word_ent :=
  '(class, word) <- st_getref character;;
  '(_, phrase) <- st_getref word;;
  Ret (WordEnt class character word phrase).

(** internal/concrete/word/storage.go 108-127 *)
Definition word_read_by_word (word : N) : prog word_ent :=
  '(character, phrase) <- st_getref word;;
  '(class, _) <- st_getref character;;
  Ret (WordEnt class character word phrase).

(** internal/concrete/word/storage.go 129-153 *)
Definition word_read_by_phrase (phrase : N) : prog word_ent :=
  '(word, _) <- st_getref phrase;;
  '(character, _) <- st_getref word;;
  '(class, _) <- st_getref character;;
  Ret (WordEnt class character word phrase).

(** internal/concrete/word/entity.go 53-56 *)
Definition word_point_to_character (e : word_ent) (character : N) : prog unit :=
  st_connect (we_char e) character.

(** internal/concrete/word/entity.go 58-61 *)
Definition word_point_to_phrase (e : word_ent) (phrase : N) : prog unit :=
  st_connect (we_phrase e) phrase.

(** internal/concrete/word/entity.go 63-75 *)
Definition word_get_target_phrase (e : word_ent) : prog N :=
  targets <- st_targets (we_phrase e);;
  single EWordTargetPhrases targets.

(** internal/concrete/word/entity.go 77-92 *)
Definition word_has_target_phrase (e : word_ent) : prog bool :=
  targets <- st_targets (we_phrase e);;
  zero_or_one EWordTargetPhrases targets.

(** internal/concrete/word/entity.go 94-97 *)
Definition word_get_target_words (e : word_ent) : prog (list N) :=
  st_targets (we_word e).

(** internal/concrete/word/entity.go 99-111 *)
Definition word_get_target_character (e : word_ent) : prog N :=
  targetCharacters <- st_targets (we_char e);;
  single EWordTargetCharacters targetCharacters.

(** internal/concrete/word/entity.go 113-122 *)
Definition word_has_source_word (e : word_ent) : prog bool :=
  sourceWords <- st_sources (we_word e);;
  Ret (nonempty sourceWords).

(** internal/concrete/word/entity.go 124-136 *)
Definition word_get_source_word (e : word_ent) : prog N :=
  sourceWords <- st_sources (we_word e);;
  single EWordSources sourceWords.

(** internal/concrete/word/entity.go 138-141 *)
Definition word_point_to_word (e : word_ent) (word : N) : prog unit :=
  st_connect (we_word e) word.

(** internal/concrete/word/paths.go 21-30 *)
Definition word_collect (word : gostring) : res (list Z) :=
  match runes_of word with
  | [] => Err ENoCharacters
  | path => Ok path
  end.

(** internal/concrete/word/factory.go 22-63 with
    internal/concrete/character/aggragate.go 15-33; a nil character panics. *)
Definition word_provide_head_entity (a : char_aggregate) : prog word_ent :=
  character <- deref a;;
  hasTargetWord <- char_has_target_word character;;
  if negb hasTargetWord then
    class <- class_new wordIdentifier;;
    wordEntity <- word_create_entity class;;
    word_point_to_character wordEntity (ce_word character);;;
    char_point_to_word character (we_char wordEntity);;;
    Ret wordEntity
  else
    target <- char_get_target_word character;;
    word_read_by_character target.

(** internal/concrete/word/factory.go 65-92 *)
Definition word_create_tail_entity (a : char_aggregate) (previous : word_ent) : prog word_ent :=
  class <- class_new wordIdentifier;;
  newWordEntity <- word_create_entity class;;
  character <- deref a;;
  word_point_to_character newWordEntity (ce_word character);;;
  word_point_to_word previous (we_word newWordEntity);;;
  Ret newWordEntity.

(** internal/concrete/word/element.go 31-40 *)
Fixpoint word_read_all (ids : list N) : prog (list word_ent) :=
  match ids with
  | [] => Ret []
  | x :: xs =>
    e <- word_read_by_word x;;
    es <- word_read_all xs;;
    Ret (e :: es)
  end.

(** internal/concrete/word/element.go 100-113 (also lines 44-57): the code point
    of one word element. *)
Definition word_extract_character_value (fuel : nat) (e : word_ent) : prog Z :=
  targetCharacterIdentifier <- word_get_target_character e;;
  targetCharacter <- char_fetch targetCharacterIdentifier;;
  char_extract fuel targetCharacter.

(** internal/concrete/word/element.go 42-68 *)
Fixpoint word_find (fuel : nat) (characterValue : Z) (es : list word_ent) : prog (option word_ent) :=
  match es with
  | [] => Ret None
  | e :: es' =>
    targetValue <- word_extract_character_value fuel e;;
    if (characterValue =? targetValue)%Z then Ret (Some e)
    else word_find fuel characterValue es'
  end.

(** internal/concrete/word/element.go 24-98.  The edge to the new word is
    connected twice: in CreateTailEntity and again in line 86. *)
Definition word_provide_next_element (fuel : nat) (word : word_ent) (characterValue : Z) : prog word_ent :=
  ids <- word_get_target_words word;;
  targetWords <- word_read_all ids;;
  found <- word_find fuel characterValue targetWords;;
  match found with
  | Some e => Ret e
  | None =>
    class_provide;;;
    character <- char_provide characterValue;;
    newWord <- word_create_tail_entity character word;;
    word_point_to_word word (we_word newWord);;;
    Ret newWord
  end.

(** internal/concrete/word/element.go 120-139 *)
Definition word_get_previous_element (word : word_ent) : prog word_ent :=
  identifier <- word_get_source_word word;;
  word_read_by_word identifier.

(** internal/concrete/word/elements.go 33-57 *)
Definition word_provide_first_element (characterValue : Z) : prog word_ent :=
  firstCharacter <- char_provide characterValue;;
  class_provide;;;
  word_provide_head_entity firstCharacter.

(** internal/concrete/word/repository.go 46-49: the error is not looked at, the
    element is nil then. *)
Fixpoint word_provide_loop (fuel : nat) (el : option word_ent) (path : list Z) : prog (option word_ent) :=
  match path with
  | [] => Ret el
  | characterValue :: path' =>
    element <- deref el;;
    next <- try (word_provide_next_element fuel element characterValue);;
    word_provide_loop fuel (nil_on_err next) path'
  end.

(** internal/concrete/word/repository.go 34-56 *)
Definition word_provide (fuel : nat) (word : gostring) : prog word_ent :=
  path <- of_res (word_collect word);;
  match path with
  | [] => Panic
  | first :: rest =>
    el <- word_provide_first_element first;;
    last <- word_provide_loop fuel (Some el) rest;;
    deref last
  end.

(** internal/concrete/word/repository.go 58-70 *)
Definition word_fetch (phrase : N) : prog word_ent := word_read_by_phrase phrase.

(** internal/concrete/word/aggregate.go 26-44 *)
Fixpoint word_extract_loop (cfuel fuel : nat) (word : word_ent) (path : list Z) : prog (list Z) :=
  match fuel with
  | O => Diverge
  | S fuel' =>
    hasPreviousElement <- word_has_source_word word;;
    if negb hasPreviousElement then Ret path
    else
      previous <- try (word_get_previous_element word);;
      word' <- deref (nil_on_err previous);;
      characterValue <- word_extract_character_value cfuel word';;
      word_extract_loop cfuel fuel' word' (path ++ [characterValue])
  end.

(** internal/concrete/word/aggregate.go 15-47 *)
Definition word_extract (fuel : nat) (word : word_ent) : prog gostring :=
  characterValue <- word_extract_character_value fuel word;;
  path <- word_extract_loop fuel fuel word [characterValue];;
  Ret (string_of_runes (rev path)).

(** * phrase *)

(** internal/concrete/phrase/entity.go 9-15 *)
Record phrase_ent := PhraseEnt { pe_class : N; pe_word : N; pe_phrase : N; pe_detail : N }.

(** internal/concrete/phrase/storage.go 20-59 *)
Definition phrase_create_entity (class : N) : prog phrase_ent :=
  word <- st_create;;
  phrase <- st_create;;
  detail <- st_create;;
  st_setref class word;;;
  st_setref word phrase;;;
  st_setref phrase detail;;;
  Ret (PhraseEnt class word phrase detail).

(** internal/concrete/phrase/storage.go 87-106 *)
Definition phrase_read_by_word (word : N) : prog phrase_ent :=
  '(class, phrase) <- st_getref word;;
  '(_, detail) <- st_getref phrase;;
  Ret (PhraseEnt class word phrase detail).

(** internal/concrete/phrase/storage.go 108-127 *)
Definition phrase_read_by_phrase (phrase : N) : prog phrase_ent :=
  '(word, detail) <- st_getref phrase;;
  '(class, _) <- st_getref word;;
  Ret (PhraseEnt class word phrase detail).

(** internal/concrete/phrase/storage.go 129-153 *)
Definition phrase_read_by_detail (detail : N) : prog phrase_ent :=
  '(phrase, _) <- st_getref detail;;
  '(word, _) <- st_getref phrase;;
  '(class, _) <- st_getref word;;
  Ret (PhraseEnt class word phrase detail).

(** internal/concrete/phrase/entity.go 39-42 *)
Definition phrase_point_to_phrase (e : phrase_ent) (phrase : N) : prog unit :=
  st_connect (pe_phrase e) phrase.

(** internal/concrete/phrase/entity.go 44-47 *)
Definition phrase_get_target_phrases (e : phrase_ent) : prog (list N) :=
  st_targets (pe_phrase e).

(** internal/concrete/phrase/entity.go 63-66 *)
Definition phrase_point_to_word (e : phrase_ent) (word : N) : prog unit :=
  st_connect (pe_word e) word.

(** internal/concrete/phrase/entity.go 68-80 *)
Definition phrase_get_target_word (e : phrase_ent) : prog N :=
  targetWords <- st_targets (pe_word e);;
  single EPhraseTargetWords targetWords.

(** internal/concrete/phrase/entity.go 82-91 *)
Definition phrase_has_source_phrase (e : phrase_ent) : prog bool :=
  sourcePhrases <- st_sources (pe_phrase e);;
  Ret (nonempty sourcePhrases).

(** internal/concrete/phrase/entity.go 93-105 *)
Definition phrase_get_source_phrase (e : phrase_ent) : prog N :=
  sourcePhrases <- st_sources (pe_phrase e);;
  single EPhraseSources sourcePhrases.

(** internal/concrete/phrase/entity.go 107-110 *)
Definition phrase_get_source_details (e : phrase_ent) : prog (list N) :=
  st_sources (pe_detail e).

(** internal/concrete/phrase/entity.go 112-115 *)
Definition phrase_get_target_details (e : phrase_ent) : prog (list N) :=
  st_targets (pe_detail e).

(** internal/concrete/phrase/entity.go 117-120 *)
Definition phrase_add_source_detail (e : phrase_ent) (detail : N) : prog unit :=
  st_connect detail (pe_detail e).

(** internal/concrete/phrase/entity.go 122-125 *)
Definition phrase_add_target_detail (e : phrase_ent) (detail : N) : prog unit :=
  st_connect (pe_detail e) detail.

(** internal/concrete/phrase/paths.go 22-31 *)
Definition phrase_collect (words : gostring) : res (list gostring) :=
  match split_space words with
  | [] => Err ENoWords
  | path => Ok path
  end.

(** internal/concrete/phrase/factory.go 22-60 *)
Definition phrase_provide_head_entity (word : word_ent) : prog phrase_ent :=
  hasTargetPhrase <- word_has_target_phrase word;;
  if negb hasTargetPhrase then
    class <- class_new phraseIdentifier;;
    phraseEntity <- phrase_create_entity class;;
    phrase_point_to_word phraseEntity (we_phrase word);;;
    word_point_to_phrase word (pe_word phraseEntity);;;
    Ret phraseEntity
  else
    target <- word_get_target_phrase word;;
    phrase_read_by_word target.

(** internal/concrete/phrase/factory.go 62-89 *)
Definition phrase_create_tail_entity (word : word_ent) (previous : phrase_ent) : prog phrase_ent :=
  class <- class_new phraseIdentifier;;
  newPhraseEntity <- phrase_create_entity class;;
  phrase_point_to_word newPhraseEntity (we_phrase word);;;
  phrase_point_to_phrase previous (pe_phrase newPhraseEntity);;;
  Ret newPhraseEntity.

(** internal/concrete/phrase/element.go 31-40 *)
Fixpoint phrase_read_all (ids : list N) : prog (list phrase_ent) :=
  match ids with
  | [] => Ret []
  | x :: xs =>
    e <- phrase_read_by_phrase x;;
    es <- phrase_read_all xs;;
    Ret (e :: es)
  end.

(** internal/concrete/phrase/element.go 95-108 (also lines 44-57) *)
Definition phrase_extract_word_value (fuel : nat) (e : phrase_ent) : prog gostring :=
  targetWordIdentifier <- phrase_get_target_word e;;
  targetWord <- word_fetch targetWordIdentifier;;
  word_extract fuel targetWord.

(** internal/concrete/phrase/element.go 42-68 *)
Fixpoint phrase_find (fuel : nat) (wordValue : gostring) (es : list phrase_ent) : prog (option phrase_ent) :=
  match es with
  | [] => Ret None
  | e :: es' =>
    targetValue <- phrase_extract_word_value fuel e;;
    if gostring_eqb wordValue targetValue then Ret (Some e)
    else phrase_find fuel wordValue es'
  end.

(** internal/concrete/phrase/element.go 24-93 *)
Definition phrase_provide_next_element (fuel : nat) (phrase : phrase_ent) (wordValue : gostring) : prog phrase_ent :=
  ids <- phrase_get_target_phrases phrase;;
  targetPhrases <- phrase_read_all ids;;
  found <- phrase_find fuel wordValue targetPhrases;;
  match found with
  | Some e => Ret e
  | None =>
    class_provide;;;
    word <- word_provide fuel wordValue;;
    phrase_create_tail_entity word phrase
  end.

(** internal/concrete/phrase/element.go 115-134 *)
Definition phrase_get_previous_element (phrase : phrase_ent) : prog phrase_ent :=
  identifier <- phrase_get_source_phrase phrase;;
  phrase_read_by_phrase identifier.

(** internal/concrete/phrase/elements.go 33-57 *)
Definition phrase_provide_first_element (fuel : nat) (wordValue : gostring) : prog phrase_ent :=
  firstWord <- word_provide fuel wordValue;;
  class_provide;;;
  phrase_provide_head_entity firstWord.

(** internal/concrete/phrase/repository.go 42-45: the error is not looked at. *)
Fixpoint phrase_provide_loop (fuel : nat) (el : option phrase_ent) (path : list gostring) : prog (option phrase_ent) :=
  match path with
  | [] => Ret el
  | wordValue :: path' =>
    element <- deref el;;
    next <- try (phrase_provide_next_element fuel element wordValue);;
    phrase_provide_loop fuel (nil_on_err next) path'
  end.

(** internal/concrete/phrase/repository.go 30-52 *)
Definition phrase_provide (fuel : nat) (words : gostring) : prog phrase_ent :=
  path <- of_res (phrase_collect words);;
  match path with
  | [] => Panic
  | first :: rest =>
    el <- phrase_provide_first_element fuel first;;
    last <- phrase_provide_loop fuel (Some el) rest;;
    deref last
  end.

(** internal/concrete/phrase/repository.go 54-66 *)
Definition phrase_fetch (detail : N) : prog phrase_ent := phrase_read_by_detail detail.

(** internal/concrete/phrase/aggregate.go 44-62 *)
Fixpoint phrase_extract_loop (wfuel fuel : nat) (phrase : phrase_ent) (path : list gostring) : prog (list gostring) :=
  match fuel with
  | O => Diverge
  | S fuel' =>
    hasPreviousElement <- phrase_has_source_phrase phrase;;
    if negb hasPreviousElement then Ret path
    else
      previous <- try (phrase_get_previous_element phrase);;
      phrase' <- deref (nil_on_err previous);;
      wordValue <- phrase_extract_word_value wfuel phrase';;
      phrase_extract_loop wfuel fuel' phrase' (path ++ [wordValue])
  end.

(** internal/concrete/phrase/aggregate.go 33-65 *)
Definition phrase_extract (fuel : nat) (phrase : phrase_ent) : prog gostring :=
  wordValue <- phrase_extract_word_value fuel phrase;;
  path <- phrase_extract_loop fuel fuel phrase [wordValue];;
  Ret (join_space (rev path)).

(** * detail *)

(** internal/concrete/detail/entity.go 9-14 *)
Record detail_ent := DetailEnt { de_class : N; de_phrase : N; de_remark : N }.

(** internal/concrete/detail/storage.go 22-69 *)
Definition detail_create_entity (object property : phrase_ent) : prog detail_ent :=
  class <- class_new detailIdentifier;;
  phrase <- st_create;;
  phrase_add_target_detail object phrase;;;
  phrase_add_source_detail property phrase;;;
  remark <- st_create;;
  st_setref class phrase;;;
  st_setref phrase remark;;;
  Ret (DetailEnt class phrase remark).

(** internal/concrete/detail/storage.go 91-104 *)
Definition detail_read_by_phrase (phrase : N) : prog detail_ent :=
  '(class, remark) <- st_getref phrase;;
  Ret (DetailEnt class phrase remark).

(** internal/concrete/detail/storage.go 106-124 *)
Definition detail_read_by_remark (remark : N) : prog detail_ent :=
  '(phrase, _) <- st_getref remark;;
  '(class, _) <- st_getref phrase;;
  Ret (DetailEnt class phrase remark).

(** internal/concrete/detail/entity.go 33-36 *)
Definition detail_point_to_remark (e : detail_ent) (remark : N) : prog unit :=
  st_connect (de_remark e) remark.

(** internal/concrete/detail/entity.go 38-59 *)
Definition detail_get_object_and_property_phrases (e : detail_ent) : prog (N * N) :=
  sources <- st_sources (de_phrase e);;
  source <- single EDetailSources sources;;
  targets <- st_targets (de_phrase e);;
  target <- single EDetailTargets targets;;
  Ret (source, target).

(** internal/concrete/detail/factory.go 38-44: the nested loops *)
Definition common_details (objectTargets propertySources : list N) : list N :=
  flat_map (fun o => filter (fun p => p =? o) propertySources) objectTargets.

(** internal/concrete/detail/factory.go 22-54.  The error of GetSourceDetails
    (line 33) is not looked at: the slice is nil then. *)
Definition detail_provide_entity (object property : phrase_ent) : prog detail_ent :=
  objectTargetDetails <- phrase_get_target_details object;;
  sourcesOrErr <- try (phrase_get_source_details property);;
  let propertySourceDetails := match sourcesOrErr with Ok l => l | Err _ => [] end in
  match common_details objectTargetDetails propertySourceDetails with
  | [] => detail_create_entity object property
  | [common] => detail_read_by_phrase common
  | _ => Throw ETooManyDetails
  end.

(** internal/concrete/detail/repository.go 35-64 *)
Definition detail_provide (fuel : nat) (object property : gostring) : prog detail_ent :=
  objectPhrase <- phrase_provide fuel object;;
  propertyPhrase <- phrase_provide fuel property;;
  class_provide;;;
  detail_provide_entity objectPhrase propertyPhrase.

(** internal/concrete/detail/repository.go 66-80 *)
Definition detail_fetch (remark : N) : prog detail_ent := detail_read_by_remark remark.

(** internal/concrete/detail/aggregate.go 32-60 *)
Definition detail_get_object_and_property (fuel : nat) (d : detail_ent) : prog (gostring * gostring) :=
  '(objectIdentifier, propertyIdentifier) <- detail_get_object_and_property_phrases d;;
  objectPhrase <- phrase_fetch objectIdentifier;;
  objectPhraseValue <- phrase_extract fuel objectPhrase;;
  propertyPhrase <- phrase_fetch propertyIdentifier;;
  propertyPhraseValue <- phrase_extract fuel propertyPhrase;;
  Ret (objectPhraseValue, propertyPhraseValue).
