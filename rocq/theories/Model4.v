(** The functions of /repo that no API call reaches: the remaining lookups,
    the parent of a story, and a few methods of entities. *)
From Coq Require Import NArith List.
From Verif Require Import Base GoText Model1 Model2 Model3.
Import ListNotations.
Local Open Scope N_scope.
Local Open Scope prog_scope.

(** * Lookups by the class node *)

(** internal/concrete/character/storage.go 61-84.  The entity is made without
    its storage: the second component says whether the field is set. *)
Definition char_read_by_class (class : N) : prog (char_ent * bool) :=
  '(_, bit) <- st_getref class;;
  '(_, character) <- st_getref bit;;
  '(_, word) <- st_getref character;;
  Ret (CharEnt class bit character word, false).

(** A method of such an entity (internal/concrete/character/entity.go 39-132)
    begins with a call of its storage: a nil pointer if it is not set. *)
Definition char_method {A} (e : char_ent * bool) (method : char_ent -> prog A) : prog A :=
  if snd e then method (fst e) else Panic.

(** internal/concrete/word/storage.go 61-85 *)
Definition word_read_by_class (class : N) : prog word_ent :=
  '(_, character) <- st_getref class;;
  '(_, word) <- st_getref character;;
  '(_, phrase) <- st_getref word;;
  Ret (WordEnt class character word phrase).

(** internal/concrete/phrase/storage.go 61-85 *)
Definition phrase_read_by_class (class : N) : prog phrase_ent :=
  '(_, word) <- st_getref class;;
  '(_, phrase) <- st_getref word;;
  '(_, detail) <- st_getref phrase;;
  Ret (PhraseEnt class word phrase detail).

(** internal/concrete/detail/storage.go 71-89 *)
Definition detail_read_by_class (class : N) : prog detail_ent :=
  '(_, phrase) <- st_getref class;;
  '(_, remark) <- st_getref phrase;;
  Ret (DetailEnt class phrase remark).

(** internal/concrete/story/storage.go 62-86 *)
Definition story_read_by_class (class : N) : prog story_ent :=
  '(_, fact) <- st_getref class;;
  '(_, position) <- st_getref fact;;
  '(_, tree) <- st_getref position;;
  Ret (StoryEnt class fact position tree).

(** internal/concrete/fact/storage.go 62-86 *)
Definition fact_read_by_class (class : N) : prog fact_ent :=
  '(_, remark) <- st_getref class;;
  '(_, position) <- st_getref remark;;
  '(_, story) <- st_getref position;;
  Ret (FactEnt class remark position story).

(** internal/concrete/remark/storage.go 88-107 *)
Definition remark_read_by_detail (detail : N) : prog remark_ent :=
  '(class, position) <- st_getref detail;;
  '(_, fact) <- st_getref position;;
  Ret (RemarkEnt class detail position fact).

(** * Methods of entities *)

(** internal/concrete/word/entity.go 39-51 *)
Definition word_get_source_character (e : word_ent) : prog N :=
  sourceCharacters <- st_sources (we_char e);;
  single EWordSourceCharacters sourceCharacters.

(** internal/concrete/phrase/entity.go 49-61 *)
Definition phrase_get_source_word (e : phrase_ent) : prog N :=
  sourceWords <- st_sources (pe_word e);;
  single EPhraseSourceWords sourceWords.

(** internal/concrete/phrase/entity.go 127-130 *)
Definition phrase_mark (e : phrase_ent) (sourceIdentifier : N) : prog unit :=
  st_connect sourceIdentifier (pe_detail e).

(** internal/concrete/remark/entity.go 40-43 *)
Definition remark_point_to_position (e : remark_ent) (position : N) : prog unit :=
  st_connect (re_position e) position.

(** internal/concrete/remark/entity.go 78-91: a stub, it returns nil *)
Definition remark_create_next_story_fact (e : remark_ent) : prog (option fact_agg) :=
  targetFacts <- st_targets (re_fact e);;
  _ <- single ERemarkFacts targetFacts;;
  Ret None.

(** internal/concrete/detail/aggregate.go 19-25: stubs, they return nil *)
Definition detail_extend_object (d : detail_ent) : prog (option detail_ent) := Ret None.
Definition detail_extend_property (d : detail_ent) : prog (option detail_ent) := Ret None.

(** internal/concrete/story/entity.go 102-114 *)
Definition story_get_target_tree (e : story_ent) : prog N :=
  targets <- st_targets (se_tree e);;
  single EStoryTargetTrees targets.

(** internal/concrete/story/entity.go 116-124 *)
Definition story_has_source_tree (e : story_ent) : prog bool :=
  sources <- st_sources (se_tree e);;
  Ret (nonempty sources).

(** internal/concrete/story/entity.go 126-138 *)
Definition story_get_source_tree (e : story_ent) : prog N :=
  sources <- st_sources (se_tree e);;
  single EStorySourceTrees sources.

(** * The parent of a story *)

(** internal/concrete/fact/aggregate.go 106-116 *)
Definition fact_agg_has_parent_story (a : fact_agg) : prog bool :=
  storyIdentifier <- fact_target_story_or_zero (fa_fact a);;
  story <- story_read_by_fact storyIdentifier;;
  story_has_source_tree story.

(** internal/concrete/fact/aggregate.go 118-151 *)
Definition fact_agg_to_parent_story (a : fact_agg) : prog fact_agg :=
  storyIdentifier <- fact_target_story_or_zero (fa_fact a);;
  story <- story_read_by_fact storyIdentifier;;
  parentStoryIdentifier <- story_get_target_tree story;;
  parentStory <- story_read_by_tree parentStoryIdentifier;;
  parentFactIdentifier <- story_get_target_fact parentStory;;
  fact_storage a;;;
  parentFact <- fact_read_by_story parentFactIdentifier;;
  Ret (FactAgg parentFact false).

(** The fact of a remark, found as GetFirstFact does
    (internal/concrete/remark/aggregate.go 105-113), and its methods. *)
Definition fact_of_remark (a : remark_ent) : prog fact_agg :=
  factIdentifier <- remark_get_target_fact a;;
  fact_fetch_by_remark factIdentifier.
Definition has_parent_story (a : remark_ent) : prog bool :=
  fact <- fact_of_remark a;;
  fact_agg_has_parent_story fact.
Definition to_parent_story (a : remark_ent) : prog fact_agg :=
  fact <- fact_of_remark a;;
  fact_agg_to_parent_story fact.

(** * Paths *)

(** Go: [xs[n] = x] *)
Fixpoint set_nth {A} (n : nat) (x : A) (xs : list A) : list A :=
  match xs, n with
  | [], _ => []
  | _ :: xs', O => x :: xs'
  | y :: xs', S n' => y :: set_nth n' x xs'
  end.

(** internal/concrete/character/path.go 9-11, word/path.go 9-11,
    phrase/path.go 11-13: the loop; [p] is what is left of the slice, [j] the
    place of its first element.  After the last round j is -1 in Go, here 0; it
    is not used any more. *)
Fixpoint reverse_loop {A} (p : list A) (j : nat) (reversed : list A) : list A :=
  match p with
  | [] => reversed
  | x :: p' => reverse_loop p' (Nat.pred j) (set_nth j x reversed)
  end.

(** internal/concrete/character/path.go 5-14, word/path.go 5-14, phrase/path.go
    7-16; [zero] is what [make] fills the slice with.  [char_extract],
    [word_extract] and [phrase_extract] use [rev] for it. *)
Definition path_reverse {A} (zero : A) (p : list A) : list A :=
  reverse_loop p (Nat.pred (length p)) (repeat zero (length p)).
