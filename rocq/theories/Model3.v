(** Model of internal/concrete/story, fact and remark, of graph.go and
    output.go. *)
From Coq Require Import NArith ZArith List Ascii Bool.
From Verif Require Import Base GoText Model1 Model2.
Import ListNotations.
Open Scope N_scope.

(** * story *)

(** internal/concrete/story/entity.go 9-15 *)
Record story_ent := StoryEnt { se_class : N; se_fact : N; se_position : N; se_tree : N }.

(** internal/concrete/story/storage.go 21-60 *)
Definition story_create_entity (class : N) : prog story_ent :=
  fact <- st_create;;
  position <- st_create;;
  tree <- st_create;;
  st_setref class fact;;;
  st_setref fact position;;;
  st_setref position tree;;;
  Ret (StoryEnt class fact position tree).

(** internal/concrete/story/storage.go 88-107 *)
Definition story_read_by_fact (fact : N) : prog story_ent :=
  '(class, position) <- st_getref fact;;
  '(_, tree) <- st_getref position;;
  Ret (StoryEnt class fact position tree).

(** internal/concrete/story/storage.go 109-128 *)
Definition story_read_by_position (position : N) : prog story_ent :=
  '(fact, tree) <- st_getref position;;
  '(class, _) <- st_getref fact;;
  Ret (StoryEnt class fact position tree).

(** internal/concrete/story/storage.go 130-154 *)
Definition story_read_by_tree (tree : N) : prog story_ent :=
  '(position, _) <- st_getref tree;;
  '(fact, _) <- st_getref position;;
  '(class, _) <- st_getref fact;;
  Ret (StoryEnt class fact position tree).

(** internal/concrete/story/entity.go 39-42 *)
Definition story_point_to_fact (e : story_ent) (fact : N) : prog unit :=
  st_connect (se_fact e) fact.

(** internal/concrete/story/entity.go 44-47 *)
Definition story_point_to_position (e : story_ent) (position : N) : prog unit :=
  st_connect (se_position e) position.

(** internal/concrete/story/entity.go 49-52 *)
Definition story_point_to_tree (e : story_ent) (tree : N) : prog unit :=
  st_connect (se_tree e) tree.

(** internal/concrete/story/entity.go 54-62 *)
Definition story_has_target_position (e : story_ent) : prog bool :=
  targets <- st_targets (se_position e);;
  Ret (nonempty targets).

(** internal/concrete/story/entity.go 64-76 *)
Definition story_get_target_position (e : story_ent) : prog N :=
  targets <- st_targets (se_position e);;
  single EStoryNext targets.

(** internal/concrete/story/entity.go 78-90 *)
Definition story_get_target_fact (e : story_ent) : prog N :=
  targets <- st_targets (se_fact e);;
  single EStoryFacts targets.

(** internal/concrete/story/entity.go 92-100 *)
Definition story_has_target_tree (e : story_ent) : prog bool :=
  targets <- st_targets (se_tree e);;
  Ret (nonempty targets).

(** internal/concrete/story/repository.go 24-42 *)
Definition story_create : prog story_ent :=
  class_provide;;;
  classIdentifier <- class_new storyIdentifier;;
  story_create_entity classIdentifier.

(** * fact *)

(** internal/concrete/fact/entity.go 9-15 *)
Record fact_ent := FactEnt { fe_class : N; fe_remark : N; fe_position : N; fe_story : N }.

(** internal/concrete/fact/aggregate.go 8-12.  [fa_storage] says whether the
    field factStorage was set: the aggregates built in lines 48-51, 100-103,
    147-150 and 172-175 leave it nil. *)
Record fact_agg := FactAgg { fa_fact : fact_ent; fa_storage : bool }.

(** internal/concrete/fact/storage.go 21-60 *)
Definition fact_create_entity (class : N) : prog fact_ent :=
  remark <- st_create;;
  position <- st_create;;
  story <- st_create;;
  st_setref class remark;;;
  st_setref remark position;;;
  st_setref position story;;;
  Ret (FactEnt class remark position story).

(** internal/concrete/fact/storage.go 88-107 *)
Definition fact_read_by_remark (remark : N) : prog fact_ent :=
  '(class, position) <- st_getref remark;;
  '(_, story) <- st_getref position;;
  Ret (FactEnt class remark position story).

(** internal/concrete/fact/storage.go 109-128 *)
Definition fact_read_by_position (position : N) : prog fact_ent :=
  '(remark, story) <- st_getref position;;
  '(class, _) <- st_getref remark;;
  Ret (FactEnt class remark position story).

(** internal/concrete/fact/storage.go 130-154 *)
Definition fact_read_by_story (story : N) : prog fact_ent :=
  '(position, _) <- st_getref story;;
  '(remark, _) <- st_getref position;;
  '(class, _) <- st_getref remark;;
  Ret (FactEnt class remark position story).

(** internal/concrete/fact/entity.go 39-42 *)
Definition fact_point_to_story (e : fact_ent) (story : N) : prog unit :=
  st_connect (fe_story e) story.

(** internal/concrete/fact/entity.go 44-47 *)
Definition fact_point_to_remark (e : fact_ent) (remark : N) : prog unit :=
  st_connect (fe_remark e) remark.

(** internal/concrete/fact/entity.go 49-52 *)
Definition fact_point_to_position (e : fact_ent) (position : N) : prog unit :=
  st_connect (fe_position e) position.

(** internal/concrete/fact/entity.go 54-62 *)
Definition fact_has_target_fact (e : fact_ent) : prog bool :=
  targets <- st_targets (fe_position e);;
  Ret (nonempty targets).

(** internal/concrete/fact/entity.go 64-76 *)
Definition fact_get_target_fact (e : fact_ent) : prog N :=
  targets <- st_targets (fe_position e);;
  single EFactTargets targets.

(** internal/concrete/fact/entity.go 78-90 *)
Definition fact_get_first_remark (e : fact_ent) : prog N :=
  targets <- st_targets (fe_remark e);;
  single EFactRemarks targets.

(** internal/concrete/fact/entity.go 92-104 *)
Definition fact_get_target_story (e : fact_ent) : prog N :=
  targets <- st_targets (fe_story e);;
  single EFactStories targets.

(** internal/concrete/fact/aggregate.go 61, 73, 108, 120, 155: the error of
    GetTargetStory is not looked at; the identifier is 0 then. *)
Definition fact_target_story_or_zero (e : fact_ent) : prog N :=
  r <- try (fact_get_target_story e);;
  Ret (match r with Ok x => x | Err _ => 0 end).

(** Use of the field factStorage of an aggregate. *)
Definition fact_storage (a : fact_agg) : prog unit :=
  if fa_storage a then Ret tt else Panic.

(** internal/concrete/fact/aggregate.go 31-34 *)
Definition fact_agg_has_next_fact (a : fact_agg) : prog bool :=
  fact_has_target_fact (fa_fact a).

(** internal/concrete/fact/aggregate.go 36-52 *)
Definition fact_agg_to_next_fact (a : fact_agg) : prog fact_agg :=
  nextFactIdentifier <- fact_get_target_fact (fa_fact a);;
  fact_storage a;;;
  nextFact <- fact_read_by_position nextFactIdentifier;;
  Ret (FactAgg nextFact false).

(** internal/concrete/fact/aggregate.go 59-69 *)
Definition fact_agg_has_next_story (a : fact_agg) : prog bool :=
  storyIdentifier <- fact_target_story_or_zero (fa_fact a);;
  story <- story_read_by_fact storyIdentifier;;
  story_has_target_position story.

(** internal/concrete/fact/aggregate.go 71-104 *)
Definition fact_agg_to_next_story (a : fact_agg) : prog fact_agg :=
  storyIdentifier <- fact_target_story_or_zero (fa_fact a);;
  story <- story_read_by_fact storyIdentifier;;
  nextStoryIdentifier <- story_get_target_position story;;
  nextStory <- story_read_by_position nextStoryIdentifier;;
  nextFactIdentifier <- story_get_target_fact nextStory;;
  fact_storage a;;;
  nextFact <- fact_read_by_story nextFactIdentifier;;
  Ret (FactAgg nextFact false).

(** internal/concrete/fact/aggregate.go 153-176.  (HasParentStory and
    ToParentStory, lines 106-151, are called from nowhere: [Model4].) *)
Definition fact_agg_to_first_fact (a : fact_agg) : prog fact_agg :=
  storyIdentifier <- fact_target_story_or_zero (fa_fact a);;
  story <- story_read_by_fact storyIdentifier;;
  firstFactIdentifier <- story_get_target_fact story;;
  fact_storage a;;;
  firstFact <- fact_read_by_story firstFactIdentifier;;
  Ret (FactAgg firstFact false).

(** internal/concrete/fact/repository.go 30-67 *)
Definition fact_create_first_story_fact : prog fact_agg :=
  class_provide;;;
  classIdentifier <- class_new factIdentifier;;
  fact <- fact_create_entity classIdentifier;;
  story <- story_create;;
  fact_point_to_story fact (se_fact story);;;
  story_point_to_fact story (fe_story fact);;;
  Ret (FactAgg fact true).

(** internal/concrete/fact/repository.go 69-81 *)
Definition fact_fetch_by_remark (remarkIdentifier : N) : prog fact_agg :=
  fact <- fact_read_by_remark remarkIdentifier;;
  Ret (FactAgg fact true).

(** internal/concrete/fact/repository.go 83-125 *)
Definition fact_create_next_fact (remarkIdentifier : N) : prog fact_agg :=
  fact <- fact_read_by_remark remarkIdentifier;;
  story <- story_read_by_fact (fe_story fact);;
  class_provide;;;
  classIdentifier <- class_new factIdentifier;;
  nextFact <- fact_create_entity classIdentifier;;
  fact_point_to_story nextFact (se_fact story);;;
  fact_point_to_position fact (fe_position nextFact);;;
  Ret (FactAgg nextFact true).

(** internal/concrete/fact/repository.go 161-180: walk to the last sibling.
    [fuel] bounds the [for] loop. *)
Fixpoint fact_last_sibling (fuel : nat) (siblingStory : story_ent) : prog story_ent :=
  match fuel with
  | O => Diverge
  | S fuel' =>
    hasTargetPosition <- story_has_target_position siblingStory;;
    if negb hasTargetPosition then Ret siblingStory
    else
      targetPosition <- story_get_target_position siblingStory;;
      next <- story_read_by_position targetPosition;;
      fact_last_sibling fuel' next
  end.

(** internal/concrete/fact/repository.go 127-228 *)
Definition fact_create_child_story_fact (fuel : nat) (remarkIdentifier : N) : prog fact_agg :=
  fact <- fact_read_by_remark remarkIdentifier;;
  story <- story_read_by_fact (fe_story fact);;
  hasTargetTree <- story_has_target_tree story;;
  childStory <- story_create;;
  story_point_to_tree childStory (se_tree story);;;
  (if hasTargetTree then
     siblingStory <- story_read_by_tree (se_tree story);;
     last <- fact_last_sibling fuel siblingStory;;
     story_point_to_position last (se_position childStory);;;
     story_point_to_tree story (se_tree childStory)
   else Ret tt);;;
  class_provide;;;
  classIdentifier <- class_new factIdentifier;;
  firstFact <- fact_create_entity classIdentifier;;
  fact_point_to_story firstFact (se_fact childStory);;;
  story_point_to_fact childStory (fe_story firstFact);;;
  Ret (FactAgg firstFact true).

(** * remark *)

(** internal/concrete/remark/entity.go 10-16.  A remark aggregate
    (aggregate.go 11-17) is its entity; remark.go 5-7 wraps the aggregate. *)
Record remark_ent := RemarkEnt { re_class : N; re_detail : N; re_position : N; re_fact : N }.

(** internal/concrete/remark/storage.go 21-60 *)
Definition remark_create_entity (class : N) : prog remark_ent :=
  detail <- st_create;;
  position <- st_create;;
  fact <- st_create;;
  st_setref class detail;;;
  st_setref detail position;;;
  st_setref position fact;;;
  Ret (RemarkEnt class detail position fact).

(** internal/concrete/remark/storage.go 62-86 *)
Definition remark_read_by_class (class : N) : prog remark_ent :=
  '(_, detail) <- st_getref class;;
  '(_, position) <- st_getref detail;;
  '(_, fact) <- st_getref position;;
  Ret (RemarkEnt class detail position fact).

(** internal/concrete/remark/storage.go 109-128 *)
Definition remark_read_by_position (position : N) : prog remark_ent :=
  '(detail, fact) <- st_getref position;;
  '(class, _) <- st_getref detail;;
  Ret (RemarkEnt class detail position fact).

(** internal/concrete/remark/storage.go 130-154 *)
Definition remark_read_by_fact (fact : N) : prog remark_ent :=
  '(position, _) <- st_getref fact;;
  '(detail, _) <- st_getref position;;
  '(class, _) <- st_getref detail;;
  Ret (RemarkEnt class detail position fact).

(** internal/concrete/remark/entity.go 45-48 *)
Definition remark_point_to_fact (e : remark_ent) (fact : N) : prog unit :=
  st_connect (re_fact e) fact.

(** internal/concrete/remark/entity.go 50-62 *)
Definition remark_get_target_fact (e : remark_ent) : prog N :=
  targetFacts <- st_targets (re_fact e);;
  single ERemarkFacts targetFacts.

(** internal/concrete/remark/entity.go 64-76 *)
Definition remark_get_source_detail (e : remark_ent) : prog N :=
  sourceDetails <- st_sources (re_detail e);;
  single ERemarkDetails sourceDetails.

(** internal/concrete/remark/entity.go 104-116 *)
Definition remark_get_next_position (e : remark_ent) : prog N :=
  targets <- st_targets (re_position e);;
  single ERemarkNext targets.

(** internal/concrete/remark/aggregate.go 21-23 *)
Definition get_identifier (a : remark_ent) : N := re_class a.

(** internal/concrete/remark/aggregate.go 25-28, entity.go 93-102 *)
Definition has_next_remark (a : remark_ent) : prog bool :=
  targets <- st_targets (re_position a);;
  Ret (nonempty targets).

(** internal/concrete/remark/aggregate.go 30-60.  The error of
    ReadEntityByPosition (line 37) is not looked at: all fields are 0 then. *)
Definition get_next_remark (a : remark_ent) : prog remark_ent :=
  nextRemarkIdentifier <- remark_get_next_position a;;
  r <- try (remark_read_by_position nextRemarkIdentifier);;
  let nextRemark := match r with Ok e => e | Err _ => RemarkEnt 0 0 0 0 end in
  class_provide;;;
  isRemark <- class_is remarkIdentifier (re_class nextRemark);;
  if isRemark then Ret nextRemark else Throw ERemarkClass.

(** internal/concrete/remark/aggregate.go 62-70 *)
Definition has_next_fact (a : remark_ent) : prog bool :=
  fact <- fact_fetch_by_remark (re_fact a);;
  fact_agg_has_next_fact fact.

(** internal/concrete/remark/aggregate.go 72-101 *)
Definition get_next_fact (a : remark_ent) : prog remark_ent :=
  fact <- fact_fetch_by_remark (re_fact a);;
  nextFact <- fact_agg_to_next_fact fact;;
  remarkFact <- fact_get_first_remark (fa_fact nextFact);;
  remark_read_by_fact remarkFact.

(** internal/concrete/remark/aggregate.go 103-138 *)
Definition get_first_fact (a : remark_ent) : prog remark_ent :=
  factIdentifier <- remark_get_target_fact a;;
  fact <- fact_fetch_by_remark factIdentifier;;
  firstFact <- fact_agg_to_first_fact fact;;
  remarkFact <- fact_get_first_remark (fa_fact firstFact);;
  remark_read_by_fact remarkFact.

(** internal/concrete/remark/aggregate.go 140-148 *)
Definition has_next_story (a : remark_ent) : prog bool :=
  fact <- fact_fetch_by_remark (re_fact a);;
  fact_agg_has_next_story fact.

(** internal/concrete/remark/aggregate.go 150-179 *)
Definition get_next_story (a : remark_ent) : prog remark_ent :=
  fact <- fact_fetch_by_remark (re_fact a);;
  nextFact <- fact_agg_to_next_story fact;;
  nextIdentifier <- fact_get_first_remark (fa_fact nextFact);;
  remark_read_by_fact nextIdentifier.

(** internal/concrete/remark/aggregate.go 181-194 *)
Definition get_object_and_property (fuel : nat) (a : remark_ent) : prog (gostring * gostring) :=
  detailIdentifier <- remark_get_source_detail a;;
  detail <- detail_fetch detailIdentifier;;
  detail_get_object_and_property fuel detail.

(** internal/concrete/remark/aggregate.go 196-264 *)
Definition add_remark_to_fact (fuel : nat) (a : remark_ent) (property : gostring) : prog remark_ent :=
  class_provide;;;
  classIdentifier <- class_new remarkIdentifier;;
  remark <- remark_create_entity classIdentifier;;
  detailIdentifier <- remark_get_source_detail a;;
  aggregateDetail <- detail_fetch detailIdentifier;;
  '(aggregateObject, _) <- detail_get_object_and_property fuel aggregateDetail;;
  detail <- detail_provide fuel aggregateObject property;;
  detail_point_to_remark detail (re_detail remark);;;
  factIdentifier <- remark_get_target_fact a;;
  fact <- fact_fetch_by_remark factIdentifier;;
  remark_point_to_fact remark (fe_remark (fa_fact fact));;;
  Ret remark.

(** internal/concrete/remark/aggregate.go 266-314 *)
Definition add_fact_to_story (fuel : nat) (a : remark_ent) (object property : gostring) : prog remark_ent :=
  class_provide;;;
  classIdentifier <- class_new remarkIdentifier;;
  remark <- remark_create_entity classIdentifier;;
  detail <- detail_provide fuel object property;;
  detail_point_to_remark detail (re_detail remark);;;
  nextFact <- fact_create_next_fact (re_fact a);;
  remark_point_to_fact remark (fe_remark (fa_fact nextFact));;;
  Ret remark.

(** internal/concrete/remark/aggregate.go 316-369 *)
Definition create_child_story (fuel : nat) (a : remark_ent) (object property : gostring) : prog remark_ent :=
  class_provide;;;
  classIdentifier <- class_new remarkIdentifier;;
  remark <- remark_create_entity classIdentifier;;
  detail <- detail_provide fuel object property;;
  detail_point_to_remark detail (re_detail remark);;;
  firstFact <- fact_create_child_story_fact fuel (re_fact a);;
  remark_point_to_fact remark (fe_remark (fa_fact firstFact));;;
  fact_point_to_remark (fa_fact firstFact) (re_fact remark);;;
  Ret remark.

(** internal/concrete/remark/repository.go 35-88 and graph.go 43-51 *)
Definition create_story (fuel : nat) (object property : gostring) : prog remark_ent :=
  class_provide;;;
  classIdentifier <- class_new remarkIdentifier;;
  remark <- remark_create_entity classIdentifier;;
  detail <- detail_provide fuel object property;;
  detail_point_to_remark detail (re_detail remark);;;
  fact <- fact_create_first_story_fact;;
  remark_point_to_fact remark (fe_remark (fa_fact fact));;;
  fact_point_to_remark (fa_fact fact) (re_fact remark);;;
  Ret remark.

(** internal/concrete/remark/repository.go 90-104 and graph.go 53-61 *)
Definition get_remark (remarkIdentifier : N) : prog remark_ent :=
  remark_read_by_class remarkIdentifier.

(** * output *)

(** output.go 25-49: the loop *)
Fixpoint get_story_loop (tfuel fuel : nat) (factRemark : remark_ent) (buffer : gostring) : prog gostring :=
  match fuel with
  | O => Diverge
  | S fuel' =>
    '(object, property) <- get_object_and_property tfuel factRemark;;
    let buffer' := buffer ++ object ++ [space] ++ property ++ [space] in
    hasNextRemark <- has_next_remark factRemark;;
    if negb hasNextRemark then Ret buffer'
    else
      next <- get_next_remark factRemark;;
      get_story_loop tfuel fuel' next buffer'
  end.

(** output.go 16-52 *)
Definition get_story (fuel : nat) (remark : remark_ent) : prog gostring :=
  factRemark <- get_first_fact remark;;
  get_story_loop fuel fuel factRemark [].
