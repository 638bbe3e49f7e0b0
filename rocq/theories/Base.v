(** Programs over the storage interface.

    Go functions of /repo are modelled as values of type [prog A]: trees of
    storage calls.  A Go function returning [(A, error)] becomes a [prog A];
    [Throw e] is [return nil, err].  *)
From Coq Require Import NArith ZArith List Ascii.
Import ListNotations.
Set Implicit Arguments.

(** Errors the Go code can return.  [EStorage] stands for an error handed up
    from the storage; every other constructor is one [fmt.Errorf] of /repo. *)
Inductive err : Set :=
| EStorage
| EWrongClassNode (k : N)     (* internal/concrete/class/repository.go 52,61,75,89,103,117,131,145 *)
| EWrongClassTargets (k : N)  (* internal/concrete/class/node/*.go  Is *)
| EWrongBitCount              (* internal/concrete/bit/layer.go 140 *)
| EWrongBitId                 (* internal/concrete/bit/repository.go 54 *)
| EBitTargets                 (* internal/concrete/bit/entity.go 45, 71 *)
| EBitOccupied                (* internal/concrete/bit/entity.go 57 *)
| ENoBits                     (* internal/concrete/character/paths.go 26 *)
| EInvalidBitName             (* internal/concrete/character/paths.go 33 *)
| ECharTargetBits             (* internal/concrete/character/entity.go 52 *)
| ECharSources                (* internal/concrete/character/entity.go 82 *)
| ECharTargetWords            (* internal/concrete/character/entity.go 116, 128 *)
| ENoCharacters               (* internal/concrete/word/paths.go 26 *)
| EWordTargetPhrases          (* internal/concrete/word/entity.go 71, 90 *)
| EWordTargetCharacters       (* internal/concrete/word/entity.go 107 *)
| EWordSources                (* internal/concrete/word/entity.go 132 *)
| EWordSourceCharacters       (* internal/concrete/word/entity.go 47 *)
| ENoWords                    (* internal/concrete/phrase/paths.go 27 *)
| EPhraseTargetWords          (* internal/concrete/phrase/entity.go 76 *)
| EPhraseSources              (* internal/concrete/phrase/entity.go 101 *)
| EPhraseSourceWords          (* internal/concrete/phrase/entity.go 57 *)
| ETooManyDetails             (* internal/concrete/detail/factory.go 52 *)
| EDetailSources              (* internal/concrete/detail/entity.go 46 *)
| EDetailTargets              (* internal/concrete/detail/entity.go 55 *)
| EStoryNext                  (* internal/concrete/story/entity.go 72 *)
| EStoryFacts                 (* internal/concrete/story/entity.go 86 *)
| EStoryTargetTrees           (* internal/concrete/story/entity.go 110 *)
| EStorySourceTrees           (* internal/concrete/story/entity.go 134 *)
| EFactTargets                (* internal/concrete/fact/entity.go 72 *)
| EFactRemarks                (* internal/concrete/fact/entity.go 86 *)
| EFactStories                (* internal/concrete/fact/entity.go 100 *)
| ERemarkFacts                (* internal/concrete/remark/entity.go 58, 86 *)
| ERemarkDetails              (* internal/concrete/remark/entity.go 72 *)
| ERemarkNext                 (* internal/concrete/remark/entity.go 112 *)
| ERemarkClass.               (* internal/concrete/remark/aggregate.go 50 *)

Inductive res (A : Type) : Type :=
| Ok (a : A)
| Err (e : err).
Arguments Ok {A} a.
Arguments Err {A} e.

(** internal/abstract/storage.go 3-13: the storage interface.  [uint] is [N]
    (no wrap-around: ids never come close to 2^64). *)
Inductive call : Set :=
| CHas (source : N)
| CCreate
| CSources (target : N)
| CTargets (source : N)
| CSetRef (source reference : N)
| CGetRef (source : N)
| CConnect (source target : N)
| CDisconnect (source target : N)
| CDelete (source : N).

Definition answer (c : call) : Set :=
  match c with
  | CHas _ => bool
  | CCreate => N
  | CSources _ | CTargets _ => list N
  | CGetRef _ => (N * N)%type
  | CSetRef _ _ | CConnect _ _ | CDisconnect _ _ | CDelete _ => unit
  end.

(** internal/concrete/bit/entity.go 9-14: a bit entity.  The storage pointer is
    implicit: every bit entity of /repo carries the one storage. *)
Record bit_ent := BitEnt { be_value : bool; be_class : N; be_char : N }.

(** internal/concrete/bit/layer.go 9-15: the mutable state of a Graph value is
    the pair of cached bit entities ([None] while [isInitialized] is false).
    class/repository.go's [isInitialized] is never set to true, so it is no
    state. *)
Definition cache := option (bit_ent * bit_ent).

Inductive prog (A : Type) : Type :=
| Ret (a : A)
| Throw (e : err)
| Panic                                    (* nil dereference *)
| Diverge                                  (* a [for] loop ran out of fuel *)
| Call (c : call) (k : res (answer c) -> prog A)
| LoadBits (k : cache -> prog A)           (* read of bit/layer.go 11-14 *)
| StoreBits (m : cache) (k : prog A).      (* write of bit/layer.go 11-14 *)
Arguments Ret {A} a.
Arguments Throw {A} e.
Arguments Panic {A}.
Arguments Diverge {A}.
Arguments Call {A} c k.
Arguments LoadBits {A} k.
Arguments StoreBits {A} m k.

(** Go: [x, err := p(); if err != nil { return nil, err }; ...] *)
Fixpoint bind {A B} (p : prog A) (f : A -> prog B) : prog B :=
  match p with
  | Ret a => f a
  | Throw e => Throw e
  | Panic => Panic
  | Diverge => Diverge
  | Call c k => Call c (fun r => bind (k r) f)
  | LoadBits k => LoadBits (fun m => bind (k m) f)
  | StoreBits m k => StoreBits m (bind k f)
  end.

(** Go: [x, err := p()] where [err] is not looked at. *)
Fixpoint try {A} (p : prog A) : prog (res A) :=
  match p with
  | Ret a => Ret (Ok a)
  | Throw e => Ret (Err e)
  | Panic => Panic
  | Diverge => Diverge
  | Call c k => Call c (fun r => try (k r))
  | LoadBits k => LoadBits (fun m => try (k m))
  | StoreBits m k => StoreBits m (try k)
  end.

Declare Scope prog_scope.
Delimit Scope prog_scope with prog.
Notation "x <- p ;; q" := (bind p (fun x => q))
  (at level 100, p at next level, right associativity) : prog_scope.
Notation "' pat <- p ;; q" := (bind p (fun x => match x with pat => q end))
  (at level 100, pat pattern, p at next level, right associativity) : prog_scope.
Notation "p ;;; q" := (bind p (fun _ => q))
  (at level 100, right associativity) : prog_scope.
Open Scope prog_scope.

Definition of_res {A} (r : res A) : prog A :=
  match r with Ok a => Ret a | Err e => Throw e end.

(** One storage call whose error is propagated. *)
Definition invoke (c : call) : prog (answer c) := Call c of_res.

Definition st_has (x : N) : prog bool := invoke (CHas x).
Definition st_create : prog N := invoke CCreate.
Definition st_sources (x : N) : prog (list N) := invoke (CSources x).
Definition st_targets (x : N) : prog (list N) := invoke (CTargets x).
Definition st_setref (x y : N) : prog unit := invoke (CSetRef x y).
Definition st_getref (x : N) : prog (N * N) := invoke (CGetRef x).
Definition st_connect (x y : N) : prog unit := invoke (CConnect x y).

(** A result dropped together with its error: the interface value is nil. *)
Definition nil_on_err {A} (r : res A) : option A :=
  match r with Ok a => Some a | Err _ => None end.

(** Method call on an interface value that may be nil. *)
Definition deref {A} (o : option A) : prog A :=
  match o with Some a => Ret a | None => Panic end.

(** Go: [if len(xs) != 1 { return err }; return xs[0]] *)
Definition single {A} (e : err) (xs : list A) : prog A :=
  match xs with [x] => Ret x | _ => Throw e end.

(** Go: [switch len(xs) { case 0: false; case 1: true; default: err }] *)
Definition zero_or_one {A} (e : err) (xs : list A) : prog bool :=
  match xs with [] => Ret false | [_] => Ret true | _ => Throw e end.

Definition nonempty {A} (xs : list A) : bool :=
  match xs with [] => false | _ => true end.

(** What a finished (or cut short) API call shows to its caller. *)
Inductive outcome (A : Type) : Type :=
| OOk (a : A)
| OErr (e : err)
| OPanic
| ODiverge
| OKilled.
Arguments OOk {A} a.
Arguments OErr {A} e.
Arguments OPanic {A}.
Arguments ODiverge {A}.
Arguments OKilled {A}.
