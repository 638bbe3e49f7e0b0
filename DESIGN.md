# Design

Subject: `mem-memov/semnet` (Go), a text-to-graph store layered on an external
graph storage (`clew`, not available here). Everything below concerns the code
in `/repo` at the pinned commit, read as text.

## 1. What is modelled

### 1.1 Programs
Every Go function of `internal/concrete/**`, `graph.go` and `output.go` that an
API call can reach becomes one Gallina definition (files `Model*.v`), with a
comment naming its Go file and lines. The definitions are written in a small
free monad over *storage calls*:

* `Call c k` - one call of the `abstract.Storage` interface, `k` receives either
  the answer or an error (so each `if err != nil` of the Go code is a case);
* `Throw e` - `return nil, err`; `Panic` - nil dereference;
* `Diverge` - a `for {}` loop ran out of the fuel it was given;
* `LoadBits` / `StoreBits` - the cache of `bit/layer.go`.

Errors are values. A Go call whose error is ignored (`x, _ := f()`), or is
shadowed, is modelled with `try`, so the nil result flows on and panics where Go
would panic. Strings are byte strings; `[]rune(s)`, `string(runes)`,
`strings.Split`, `strings.Join`, `fmt.Sprintf("%b", …)` and int32 shifts are
modelled in `GoText.v`. Constructors (`New…`), methods that return a field and
methods that only pass a call on to the entity have no definition of their own:
a record field or the entity's definition stands in their place.

### 1.2 Storage
The storage is *not* the code under study. It is quantified over: a contract
(`Storage.v`) relates an abstract labelled-free graph (nodes, edges, forward and
backward references) before and after each call. The contract says: Create
returns a fresh non-zero node (1, 2, 3, … as long as no edge exists, which is
what `class/repository.go` requires); Connect is idempotent (what
`word/element.go` requires); reads return the neighbours in *any* order;
GetReference yields 0 for an unset side; a call on an unknown node fails and
changes nothing. Node 0 is the "no reference" value; the Go code passes it back
to the storage in several places, so the contract has two variants: `ZStrict`
(0 is an unknown node) and `ZNode` (0 behaves as a node). Theorems hold for both
unless they name one. An executable storage (`RefStorage.v`), numbered like the
unit tests of the repository expect, is proved to meet the contract; it is used
for the concrete examples, so hypotheses are never vacuous.

### 1.3 Executions
* faults: any storage call may fail without effect;
* kills: execution may stop before any storage call;
* histories: lists of API calls on any number of Graph values over one storage,
  each with its own bit cache (a fresh Graph is a restart);
* schedules: two programs interleaved at storage-call granularity.

### 1.4 Not modelled
`clew` itself, the Go memory model (data races on the bit cache inside one
Graph), memory exhaustion, exhaustion of the id counter, test-only code.

## 2. Proof method
A weakest-precondition calculus over the free monad with a step invariant that
is re-established after *every* storage call, so a crash or fault at any point
leaves the invariant. The invariant labels each node with the value it stands
for (bit path, word, phrase, detail, remark …) and says which edges are allowed
between labels, which nodes have at most one target/source, and that references
chain entities correctly. Programs only extend labels, edges and references;
facts about complete entities are therefore stable. Readers are verified against
an environment that may extend the state between any two storage calls, which
gives both stability over histories and the concurrent-reader theorem. For
fault-free histories a pure abstract machine predicts every outcome.

## 3. Properties

| id | model | proof |
|----|-------|-------|
| C01 | `%b` path, int32 fold, character trie programs | codec induction; wp of Provide/Extract |
| C02 | character Provide | wp with "no write" postcondition |
| C03 | word Provide/Extract | wp, labels carry the rune list |
| C04 | phrase Provide/Extract | wp, labels carry the word list |
| C05 | CreateStory, GetObjectAndProperty | wp of the whole call, reader wp |
| C06 | UTF-8 decode/encode | as C05 with `sanitize`, iff lemma |
| C07 | histories with faults and kills | invariant + stability of complete remarks |
| C08 | GetRemark, restart | reference chain of remark entities is stable |
| C09 | identifiers | freshness through label map |
| C10 | all calls | extension relation of every step; call whitelist |
| C11 | class ProvideEntity | wp from empty and from initialised store |
| C12 | class ProvideEntity + kill | refuted by computation; exact rule by inversion of executions |
| C13 | bit layer | wp, bits recorded in the invariant |
| C14 | bit layer + kill | refuted; exact rule by inversion of executions |
| C15 | word collect | wp |
| C16 | CreateStory | expected false: refutation; exact rule from C18 machine |
| C17 | word head rule | expected false: refutation; exact rule proved |
| C18 | CreateStory/AddRemarkToFact histories | refinement to pure machine |
| C19 | word/phrase/detail sharing | words expected false: refutation; conditional positive theorems |
| C20 | AddRemarkToFact | wp |
| C21 | HasNextRemark | expected false: always answers false (proved) |
| C22 | GetStory | wp, exact output |
| C23 | AddFactToStory | expected false under ZStrict: always fails (proved) |
| C24 | HasNextFact/GetNextFact | expected false: always fails (proved) |
| C25 | CreateChildStory | expected false under ZStrict |
| C26 | HasNextStory/GetNextStory | expected false under ZStrict |
| C27 | readers | reader wp has no writes |
| C28 | interleavings | reader wp under environment |
| C29 | interleavings | expected false: refutation |
| C30 | faults | expected false: refutation; "never a wrong success" positive part |
| C31 | failed calls | expected false: refutation |
| C32 | faults then retry | expected false: refutation |
| C33 | GetRemark | expected false: refutation |
| C34 | multigraph storage | expected false: refutation |
| C35 | fuel | wp shows Diverge unreachable with stated fuel; programs with more fuel do the same where those with less do not diverge |
| C36 | invariant | every step |
| C37 | GetFirstFact | wp |
| C38 | split/join | induction |
| C39 | UTF-8 | induction |
| C40 | crash in the first call | refuted on a storage with dense numbering |
| C41 | class checks | invariant: a class node that refers to something is connected to its class |
| C42 | missing or ambiguous neighbours are reported | on every storage contents, damaged or not; inversion of `exec` |
| C43 | lookups of an entity by any of its nodes agree | the graph is typed, so references lead back |
| C44 | parent stories | the label of a tree node says if its story is a child; refuted for child stories where node 0 exists |
| C45 | cost of reading | counting logic over the program tree; characters have at most 31 bits by the invariant |
| C46 | overlapping writers | refuted by computing two interleavings |
| C47 | readers in a crowd of writers | a logic over kinds of nodes: each writer adds nodes of its own and points to nothing that was there before but by edges readers do not follow |
| C48 | what a crowd makes reads back | the invariant of the text layers holds while several calls write; each running call owns the nodes it is making, so that the nodes of a remark handed out are complete and nobody's |
| C49 | remarks made at once are distinct | a running call knows the nodes its own `Create` calls returned, whatever the storage answers; these sets stay apart |
| C50 | walks from fact to fact | each step is a chain of lookups and single neighbours, each of which has one outcome on coherent contents; the contents made by hand in `WalkCases` have two linked stories; walking on refuted |
| C51 | how much a call stores | a bound on the `Create` and link calls of a program, found by going through its tree; a rune has at most 21 bits; answers of the storage that would make a loop longer are ruled out by the invariant |
| C52 | what entities write | inversion of `exec` on arbitrary contents; the six CreateEntity functions are one program up to the name of the record |
| C53 | reversing a path | the loop of `path.go` over a slice; induction on what is left of the path |
| C54 | what facts and stories are made of | `enlarged` composes over the steps of a call; a call that is cut short leaves a part of it |
| C55 | what the factories make or find | as C54; the three factories are one program up to names, and the way the edge back is made |
| C56 | what a text is in the storage | the chains are described node by node in `SpecSpelling`; reading follows the description by induction, and the invariant of the histories implies it |
| C57 | what is there already is found | one lemma for a layer (children read, the first with the value taken, the loop over the path), used for bits, characters and words; reading the values is C56 |
| C58 | what is not there yet is made | the layer lemma of C57 gives nothing found, then the factories (C55); for whole characters induction over the missing digits, as a new node has no children |
| C59 | characters are made once, contents stay in order | C57 and C58 say what one Provide does; a new tail or head leaves the rows and children of all other nodes as they were, so found digit strings stay found and breaks stay breaks; induction over the missing digits, then over the sequence |
| C60 | a further child comes after the last story | induction over the row of stories for the walk, which is read only; new nodes leave the row as it was; then the steps of C54 |

"Expected false" properties end in `_refuted` theorems; where a weaker or exact
statement holds it is proved beside them (see `Properties.v`).

## 4. Files

Model: `Base` (monad, storage calls), `GoText` (Go strings), `Model1` (class,
bit, character), `Model2` (word, phrase, detail), `Model3` (story, fact, remark,
graph, output), `Model4` (functions that no API call reaches), `Storage`
(contract, executions, faults), `RefStorage`
(executable storage).

Specification, independent of the model's helpers: `SpecText` (UTF-8, words),
`Spec` (API calls, histories, what a history says), `SpecMachine` (the machine
of C18), `SpecLayers` (direct use of the lower layers), `SpecPlay` (histories on
a concrete storage), `SpecMoments` (the storage at every call, overlapping
calls, kinds of nodes), `SpecCrowd` (any number of overlapping calls), `SpecGuards` (looking at neighbours), `SpecWalk` (walks from fact to fact), `SpecCost` (numbers of storage calls), `SpecGrowth` (how much is stored), `SpecEntities` (what entities and repositories write), `SpecFactories` (what factories make), `SpecSpelling` (what texts are in the storage), `SpecKept` (texts that can be found), `Claims` (the
claims that do not hold).

Proofs: `Codec`, `Utf8Proofs` (text); `Inv` (invariant), `Wp`, `Steps`, `Entity`,
`Reads` (program logic); `BitProofs` … `StoryProofs` (each layer); `HistoryProofs`,
`ApiProofs`, `LaterProofs` (histories); `LayerProofs`, `InitProofs`, `PlayProofs`,
`RefProofs`; `GuardProofs`, `GuardFaults` (C42), `LookupProofs` (C43, C44), `WalkProofs` and `WalkCases` (C50);
`EmptyProofs` (C15), `MomentProofs` (C10, C28, C36), `CallProofs` (C10, C16,
C27), `CrowdLogic`, `CrowdWrites`, `CrowdCalls`, `CrowdReads`, `CrowdProofs` (C47), `CrowdStates`, `CrowdTexts`, `CrowdRemarks`, `CrowdTold` (C48), `CrowdFresh` (C49), `GrowthProofs` (C51), `WriteProofs` (C52), `StoryWrites` (C54), `FactoryProofs` (C55), `SpellProofs` and `SpellCases` (C56), `KeptProofs` and `KeptCases` (C57), `ExtendProofs` (C58), `OrderProofs` and `OrderCases` (C59), `SpecSiblings`, `SiblingProofs` and `SiblingCases` (C60), `PathProofs` (C53), `FaultProofs` (C30), `FuelProofs` (C35), `CostProofs` (C45), `Refute` (refutations by computation); `Tests`,
`Samples` (concrete histories); `Properties` (the theorems, with
`Print Assumptions` and a case beneath each).

## 5. Trusted base

* Coq 8.16.1's kernel, its virtual machine (`vm_compute`) included. `coqchk`
  accepts the development; the only axioms it lists come from the standard
  library's `Coq.ssr.ssrunder` (loaded by std++, used by no theorem here).
* `Print Assumptions` answers "Closed under the global context" for every
  theorem of `Properties.v`: no axioms at all.
* That the model follows the Go text. Modelled: all of `internal/concrete/**`,
  `graph.go` and `output.go`; what no API call reaches is in `Model4`. Not
  modelled: `clew`, the Go memory model (data races on the bit cache inside one
  Graph value), memory and id exhaustion, test code.
* The storage contract of `Storage.v` as a description of `clew` (section 1.2).
* Histories (`Spec.legal`, `Spec.reach`): methods are called on remarks that a
  creating call returned; GetStory on remarks whose story was opened by
  CreateStory or CreateChildStory; faults and kills after the first successful
  creating call and on storages that do not know node 0. The refutations of C12,
  C14, C23, C26, C29, C32, C33 and C40 show what happens outside these limits.

## 6. Wrong programs

`seeded/LOG.jsonl` has one line for each wrong program tried: the definition, the
edit, the claim it should break, the proofs and theorems that then failed, and the
theorems added or made stronger where nothing failed. The edits were made in scratch
copies; proofs that broke were cut out there, and a theorem counts as failed when
`Print Assumptions` shows that it needs one of them. Attempts N and Q were run
against the theorems of C42, C50 and C52 to C58 only, attempts U against C58 to C60
only, so their lists of failed theorems are not complete. An attempt marked "again"
repeats an earlier edit after new theorems were stated; N27 was tried again as U01.
M04, M05, M06 and S08 have no such line: the theorems named there were stated because
of them, but these four edits were not tried again.
Some edits do not change what the program does; theorems can
fail for them too, since a proof script may not fit the new text. So a failed
theorem means that its proof follows the definition, not always that the claim is
false of the edited one.
