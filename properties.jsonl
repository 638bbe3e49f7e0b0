{"id": "C01", "title": "Character codec round trip", "statement": "Storing a code point as a character and extracting it gives back the same code point, for every non-negative 32-bit code point; a negative one is rejected with an error and nothing is written.", "quantifier": "every rune (int32) and every reachable storage state", "why_tests_cant": "2^31 inputs times unboundedly many prior storage states; tests use six small integers on an empty store", "anchors": ["internal/concrete/character/paths.go collect", "internal/concrete/character/aggragate.go Extract", "internal/concrete/character/repository.go Provide"]}
{"id": "C02", "title": "Characters are shared", "statement": "Storing a code point that the store already holds returns the very same character and writes nothing at all.", "quantifier": "every code point and every reachable state in which that code point is already stored", "why_tests_cant": "depends on every prior history of stored code points", "anchors": ["internal/concrete/character/repository.go Provide", "internal/concrete/character/element.go ProvideNextElement"]}
{"id": "C03", "title": "Word round trip", "statement": "If storing a word succeeds, extracting it returns the same word (valid UTF-8), whatever the store already contains.", "quantifier": "every string and every reachable state", "why_tests_cant": "the word forest grows with history; the unit test returns before it ever compares", "anchors": ["internal/concrete/word/repository.go Provide", "internal/concrete/word/aggregate.go Extract"]}
{"id": "C04", "title": "Phrase round trip", "statement": "If storing a phrase succeeds, extracting it returns the same phrase, including the positions of its single spaces.", "quantifier": "every string and every reachable state", "why_tests_cant": "the phrase forest grows with history; the unit test returns before it ever compares", "anchors": ["internal/concrete/phrase/repository.go Provide", "internal/concrete/phrase/aggregate.go Extract"]}
{"id": "C05", "title": "Object and property read back", "statement": "When CreateStory(object, property) succeeds, GetObjectAndProperty on the returned remark yields exactly (object, property) whenever both are valid UTF-8.", "quantifier": "every pair of valid UTF-8 strings, every prior history, every storage meeting the contract", "why_tests_cant": "unbounded strings and histories", "anchors": ["graph.go CreateStory", "internal/concrete/remark/aggregate.go GetObjectAndProperty"]}
{"id": "C06", "title": "Invalid UTF-8 is normalised, not preserved", "statement": "For arbitrary byte strings the text read back is the stored text with every invalid byte replaced by U+FFFD; it equals the input exactly when the input is valid UTF-8.", "quantifier": "every byte string", "why_tests_cant": "all byte strings of all lengths", "anchors": ["internal/concrete/word/paths.go collect", "internal/concrete/word/path.go toString"]}
{"id": "C07", "title": "Issued remarks never change", "statement": "The object and property of a remark once returned by the API stay the same for ever: under every later sequence of API calls by any Graph on the same storage, including calls that fail, panic, hit storage errors at any point, or are killed half-way.", "quantifier": "every history, every placement of storage errors and kills after the remark was returned", "why_tests_cant": "histories, fault points and crash points are unbounded", "anchors": ["internal/concrete/remark/aggregate.go", "internal/concrete/detail/factory.go", "internal/concrete/word/element.go"]}
{"id": "C08", "title": "Identifier round trip and restart", "statement": "GetRemark(r.GetIdentifier()), on the same or on a freshly built Graph over the same storage, returns a remark equal to r, after any later history.", "quantifier": "every remark returned by the API and every later history, restarts included", "why_tests_cant": "unbounded histories", "anchors": ["graph.go GetRemark", "internal/concrete/remark/storage.go ReadEntityByClass"]}
{"id": "C09", "title": "Identifiers are unique", "statement": "Two different successful creating calls never return remarks with the same identifier.", "quantifier": "every history", "why_tests_cant": "unbounded histories", "anchors": ["internal/concrete/remark/repository.go CreateFirstUserRemark", "internal/concrete/remark/aggregate.go AddRemarkToFact"]}
{"id": "C10", "title": "The store is append-only", "statement": "No API call, successful or not, removes or overwrites a node, an edge or a reference; Disconnect and Delete are never called.", "quantifier": "every API call on every genuine remark in every reachable state, with faults and kills at any point", "why_tests_cant": "needs every path of every call", "anchors": ["internal/abstract/storage.go", "internal/concrete"]}
{"id": "C11", "title": "Class layer initialisation is idempotent", "statement": "The first use creates class nodes 1..8 in a fixed reference chain; every later use finds them and writes nothing, also from a new Graph.", "quantifier": "every reachable state", "why_tests_cant": "every later history", "anchors": ["internal/concrete/class/repository.go ProvideEntity"]}
{"id": "C12", "title": "Class layer initialisation survives interruption", "statement": "If the first use is interrupted (crash or storage error), a retry completes the initialisation.", "quantifier": "every interruption point", "why_tests_cant": "every crash point", "anchors": ["internal/concrete/class/repository.go ProvideEntity"]}
{"id": "C13", "title": "Bit layer is canonical", "statement": "The zero bit and the one bit are two different nodes, and every Graph over the same storage agrees on them in every later state.", "quantifier": "every reachable state and every Graph instance", "why_tests_cant": "every history and restart", "anchors": ["internal/concrete/bit/layer.go initialize", "internal/concrete/bit/repository.go"]}
{"id": "C14", "title": "Bit layer initialisation survives interruption", "statement": "If creation of the two bits is interrupted, a retry completes it.", "quantifier": "every interruption point", "why_tests_cant": "every crash point", "anchors": ["internal/concrete/bit/layer.go initialize"]}
{"id": "C15", "title": "Empty text is rejected with an error", "statement": "CreateStory with an empty object or (given an acceptable object) an empty property returns an error, not a panic and not a remark.", "quantifier": "every reachable state", "why_tests_cant": "every prior history", "anchors": ["internal/concrete/word/paths.go collect", "internal/concrete/phrase/paths.go collect"]}
{"id": "C16", "title": "No panic on any input", "statement": "No API call panics, whatever strings it is given; exact characterisation of the inputs and states for which CreateStory panics.", "quantifier": "every pair of strings and every reachable state", "why_tests_cant": "all strings and all histories", "anchors": ["internal/concrete/phrase/repository.go Provide", "internal/concrete/word/repository.go Provide"]}
{"id": "C17", "title": "Acceptance of a word does not depend on history", "statement": "A non-empty word that can be stored in one state can be stored in every state; exact rule for when a word is accepted.", "quantifier": "every non-empty word and every reachable state", "why_tests_cant": "order dependent over all histories", "anchors": ["internal/concrete/character/entity.go HasTargetWord", "internal/concrete/word/factory.go ProvideHeadEntity"]}
{"id": "C18", "title": "Outcome of every creating call follows a simple abstract machine", "statement": "For every fault-free history on valid UTF-8 text the outcome (success, error or panic) of every CreateStory and AddRemarkToFact is the one computed by a small pure machine that knows only the set of stored code-point prefixes, a counter per first letter and the set of stored phrases.", "quantifier": "every history", "why_tests_cant": "refinement over unbounded histories", "anchors": ["graph.go CreateStory", "internal/concrete/remark/aggregate.go AddRemarkToFact"]}
{"id": "C19", "title": "Equal texts share one entity", "statement": "Storing the same word, phrase or object-property pair twice yields the same entity.", "quantifier": "every text and every history", "why_tests_cant": "all histories", "anchors": ["internal/concrete/word/factory.go ProvideHeadEntity", "internal/concrete/detail/factory.go ProvideEntity"]}
{"id": "C20", "title": "AddRemarkToFact reads back", "statement": "When r.AddRemarkToFact(property) succeeds the new remark reads back as (object of r, property).", "quantifier": "every issued remark, every valid property, every reachable state", "why_tests_cant": "unbounded histories", "anchors": ["internal/concrete/remark/aggregate.go AddRemarkToFact"]}
{"id": "C21", "title": "Added remarks can be reached from the fact", "statement": "After AddRemarkToFact the new remark is reachable by HasNextRemark/GetNextRemark from the remark it was added to.", "quantifier": "every history", "why_tests_cant": "unbounded histories", "anchors": ["internal/concrete/remark/entity.go HasNextRemark PointToPosition", "internal/concrete/remark/aggregate.go AddRemarkToFact"]}
{"id": "C22", "title": "Story text", "statement": "Output.GetStory of any remark of a story terminates and returns exactly the text 'object property ' of the first remark of the first fact of its story.", "quantifier": "every remark of every story in every reachable state", "why_tests_cant": "unbounded histories, loop termination", "anchors": ["output.go GetStory"]}
{"id": "C23", "title": "AddFactToStory extends the story", "statement": "r.AddFactToStory succeeds whenever CreateStory would accept the same text, and the new fact belongs to the story of r.", "quantifier": "every issued remark and every reachable state", "why_tests_cant": "unbounded histories", "anchors": ["internal/concrete/fact/repository.go CreateNextFact", "internal/concrete/remark/aggregate.go AddFactToStory"]}
{"id": "C24", "title": "Next fact navigation", "statement": "HasNextFact tells whether a fact was added after this one in the same story, and GetNextFact returns it.", "quantifier": "every issued remark and every reachable state", "why_tests_cant": "unbounded histories", "anchors": ["internal/concrete/remark/aggregate.go HasNextFact GetNextFact"]}
{"id": "C25", "title": "Child stories", "statement": "CreateChildStory creates a new story whose remarks read back and whose first fact is found from them.", "quantifier": "every issued remark and every reachable state", "why_tests_cant": "unbounded histories", "anchors": ["internal/concrete/fact/repository.go CreateChildStoryFact"]}
{"id": "C26", "title": "Next story navigation", "statement": "HasNextStory and GetNextStory enumerate the sibling stories.", "quantifier": "every issued remark and every reachable state", "why_tests_cant": "unbounded histories", "anchors": ["internal/concrete/remark/aggregate.go HasNextStory GetNextStory"]}
{"id": "C27", "title": "Read calls do not write", "statement": "GetRemark, GetObjectAndProperty, HasNextRemark, GetFirstFact and GetStory leave the storage unchanged.", "quantifier": "every issued remark and every reachable state", "why_tests_cant": "every path of every call", "anchors": ["internal/concrete/remark/aggregate.go", "output.go"]}
{"id": "C28", "title": "Readers next to one writer", "statement": "A reader on an issued remark running concurrently with a writer, interleaved at every storage call, returns the same text as without the writer.", "quantifier": "every interleaving at storage-call granularity, every writer call", "why_tests_cant": "all schedules", "anchors": ["internal/concrete/remark/aggregate.go GetObjectAndProperty"]}
{"id": "C29", "title": "Concurrent first use", "statement": "Two Graphs used for the first time concurrently over one empty storage both succeed.", "quantifier": "every interleaving", "why_tests_cant": "all schedules", "anchors": ["internal/concrete/class/repository.go ProvideEntity"]}
{"id": "C30", "title": "Storage errors surface as errors", "statement": "If a storage call fails during an API call then the API call returns an error, not a panic and not a success.", "quantifier": "every API call and every failing storage call", "why_tests_cant": "every fault point", "anchors": ["internal/concrete/character/repository.go Provide", "internal/concrete/character/elements.go ProvideFirstElement", "internal/concrete/detail/factory.go ProvideEntity"]}
{"id": "C31", "title": "Failed calls leave no trace", "statement": "An API call that returns an error leaves the storage as it was.", "quantifier": "every failing call", "why_tests_cant": "every input and state", "anchors": ["internal/concrete/remark/repository.go CreateFirstUserRemark"]}
{"id": "C32", "title": "A transient storage error does no lasting damage", "statement": "After a transient storage error the same call can be retried and succeeds as if the error had not happened.", "quantifier": "every fault point", "why_tests_cant": "every fault point", "anchors": ["internal/concrete/detail/factory.go ProvideEntity", "internal/concrete/detail/storage.go CreateEntity"]}
{"id": "C33", "title": "Foreign identifiers are rejected", "statement": "GetRemark with an identifier that was never issued for a remark returns an error.", "quantifier": "every identifier and every reachable state", "why_tests_cant": "all identifiers", "anchors": ["internal/concrete/remark/repository.go GetRemark"]}
{"id": "C34", "title": "Independence from parallel edges", "statement": "The word layer works on storages that keep parallel edges as well as on storages whose Connect is idempotent.", "quantifier": "every storage of either kind", "why_tests_cant": "quantifies over storages", "anchors": ["internal/concrete/word/element.go ProvideNextElement", "internal/concrete/word/factory.go CreateTailEntity"]}
{"id": "C35", "title": "Termination", "statement": "Every API call on issued remarks terminates; its loops run at most as often as the longest text stored is long.", "quantifier": "every history", "why_tests_cant": "unbounded loops over stored chains", "anchors": ["internal/concrete/character/aggragate.go Extract", "internal/concrete/word/aggregate.go Extract", "internal/concrete/phrase/aggregate.go Extract", "output.go GetStory"]}
{"id": "C36", "title": "The stored graph is well typed", "statement": "In every reachable state, at every storage call, every edge joins two nodes of kinds that the data model allows and cardinality limits hold.", "quantifier": "every history with faults and kills at every point", "why_tests_cant": "every intermediate state", "anchors": ["internal/concrete"]}
{"id": "C37", "title": "First fact of a story", "statement": "From any remark of a story GetFirstFact returns the first remark that created the story.", "quantifier": "every remark of every story in every reachable state", "why_tests_cant": "unbounded histories", "anchors": ["internal/concrete/remark/aggregate.go GetFirstFact", "internal/concrete/fact/aggregate.go ToFirstFact"]}
{"id": "C38", "title": "Splitting and joining of phrases", "statement": "Splitting a text at single spaces and joining it again is the identity and never gives an empty list.", "quantifier": "every byte string", "why_tests_cant": "all strings", "anchors": ["internal/concrete/phrase/paths.go collect", "internal/concrete/phrase/path.go toString"]}
{"id": "C39", "title": "UTF-8 codec", "statement": "Decoding to runes and encoding again is the identity exactly on valid UTF-8, decoding inverts encoding on all Unicode scalar values, and splitting at spaces commutes with decoding.", "quantifier": "every byte string and every list of scalar values", "why_tests_cant": "all strings", "anchors": ["internal/concrete/word/paths.go collect", "internal/concrete/word/path.go toString"]}
{"id": "C40", "title": "A crash in the very first call does no harm", "statement": "If the process is killed during the very first CreateStory and restarted, every CreateStory that then succeeds gives a remark whose object and property read back.", "quantifier": "every storage, every text, every storage call at which the process is killed", "why_tests_cant": "crash at every storage call on an unknown storage", "anchors": ["internal/concrete/class/repository.go ProvideEntity", "internal/concrete/remark/storage.go CreateEntity"]}
{"id": "C41", "title": "Class checks", "statement": "Asked whether an entity belongs to a class, the class layer says yes for the entity's own class and no for every other, at any later time.", "quantifier": "every remark and every bit, character, word and phrase ever handed out, in every reachable state, with faults and kills", "why_tests_cant": "every reachable state", "anchors": ["internal/concrete/class/node/remark.go Is", "internal/concrete/class/entity.go"]}
{"id": "C42", "title": "Missing or ambiguous neighbours are reported", "statement": "A method that fetches the neighbour of a node returns it exactly if there is one and no other, and reports an error otherwise; a second joint detail, a wrong number of bits, a taken bit and a node that is no bit or no remark are reported; nothing is written in these cases. If storage calls may fail, the answer is still right or the failure is reported, except that a failing look for a joint detail makes a second one.", "quantifier": "every storage contents, also damaged ones, and every node of them; every fault and kill", "why_tests_cant": "damaged contents that no sequence of calls produces", "anchors": ["internal/concrete/*/entity.go", "internal/concrete/detail/factory.go ProvideEntity", "internal/concrete/bit/layer.go", "internal/concrete/remark/aggregate.go GetNextRemark"]}
{"id": "C43", "title": "Lookups of an entity agree", "statement": "The nodes of an entity form a row in which each refers to the next; the ReadEntityBy functions find the same entity from whichever of its nodes they start, and write nothing; every remark and every entity of a lower layer that was handed out is such a row. An entity found by its class node can be used like the others.", "quantifier": "every moment of every execution, every row of nodes and every lookup function", "why_tests_cant": "the references must lead forth and back in every storage that any history leaves", "anchors": ["internal/concrete/*/storage.go ReadEntityBy...", "internal/concrete/character/storage.go ReadEntityByClass"]}
{"id": "C44", "title": "Parent stories", "statement": "A child story has a parent story (HasParentStory) and ToParentStory finds it; a story that is nobody's child has none.", "quantifier": "every history, every remark of a story", "why_tests_cant": "depends on the whole history", "anchors": ["internal/concrete/fact/aggregate.go HasParentStory, ToParentStory", "internal/concrete/story/entity.go HasSourceTree, GetTargetTree"]}
{"id": "C45", "title": "Cost of reading", "statement": "Reading the texts of a remark takes a number of storage calls bounded by the length of these texts alone (at most 160 for each byte and 46 more), GetStory 21 more, every other reading call at most 20, whatever the storage holds.", "quantifier": "every storage, every history, every remark, every schedule of faults, every state of the cache", "why_tests_cant": "the bound must not depend on how much is stored", "anchors": ["internal/concrete/remark/aggregate.go GetObjectAndProperty", "internal/concrete/word/paths.go", "internal/concrete/character/element.go", "output.go GetStory"]}
{"id": "C46", "title": "Overlapping writers", "statement": "Two CreateStory calls that succeed one after the other, in either order, also succeed when they run at once on a storage in use; what they make reads back, and a later call succeeds as it would after the two had run one after the other.", "quantifier": "every storage, every pair of texts, every interleaving at storage calls", "why_tests_cant": "races between two writers, at every storage call", "anchors": ["internal/concrete/detail/factory.go ProvideEntity", "internal/concrete/detail/storage.go CreateEntity", "internal/concrete/character/repository.go"]}
{"id": "C47", "title": "Readers in a crowd of writers", "statement": "While any number of calls run at once on a storage in use, some failing, some killed, a call that reads a remark made before answers as if nobody else were at work; at every moment the storage has only grown, its edges and references join nodes of the right kinds, and every storage call made is one the storage contract specifies.", "quantifier": "every number of Graph values, every interleaving at storage calls, every fault and kill, on a storage that does not know node 0", "why_tests_cant": "every interleaving of every number of calls", "anchors": ["graph.go", "internal/concrete/*/repository.go", "internal/concrete/*/storage.go", "output.go"]}
{"id": "C48", "title": "What a crowd makes reads back", "statement": "A remark made while any number of calls run at once can be read at once, by its identifier, its texts, its first fact and its story, by every call begun after it was handed out, while the crowd goes on.", "quantifier": "every number of Graph values, every interleaving at storage calls, every fault and kill, every text, on a storage that does not know node 0", "why_tests_cant": "every interleaving of every number of calls", "anchors": ["graph.go", "internal/concrete/remark/aggregate.go", "internal/concrete/detail/factory.go ProvideEntity", "internal/concrete/*/repository.go", "output.go"]}
{"id": "C49", "title": "Remarks made at once are distinct", "statement": "A remark made while any number of calls run at once shares no node with any remark handed out before.", "quantifier": "every number of Graph values, every interleaving at storage calls, every fault and kill, on a storage that does not know node 0", "why_tests_cant": "every interleaving of every number of calls", "anchors": ["graph.go", "internal/concrete/remark/storage.go CreateEntity"]}
{"id": "C50", "title": "Walks from fact to fact", "statement": "ToNextFact, ToFirstFact, ToNextStory and ToParentStory of a fact lead to the fact the links of the stored facts and stories point to, and HasNextFact, HasNextStory, HasParentStory tell whether the node they look at has a neighbour; nothing is changed; one can walk on from a fact one walked to.", "quantifier": "every storage contents, not only what the program makes; every fact and story", "why_tests_cant": "the contents are arbitrary", "anchors": ["internal/concrete/fact/aggregate.go", "internal/concrete/story/entity.go", "internal/concrete/fact/entity.go"]}
{"id": "C51", "title": "How much a call stores", "statement": "A call that creates a story, a child story, a fact or a remark adds a fixed number of nodes and links plus a fixed number for every byte of the texts it was given (for a further remark: of the object it repeats too); a call that reads adds nothing. It holds whether the call succeeds, fails or is killed, and however much is already stored.", "quantifier": "every storage, every history on a storage in use, every call, every text, every fault and kill", "why_tests_cant": "the bound must not depend on how much is stored, nor on where a call is interrupted", "anchors": ["internal/concrete/class/repository.go", "internal/concrete/character/factory.go", "internal/concrete/character/storage.go", "internal/concrete/word/element.go", "internal/concrete/phrase/factory.go", "internal/concrete/detail/storage.go CreateEntity", "internal/concrete/remark/aggregate.go AddRemarkToFact", "internal/concrete/remark/repository.go", "internal/concrete/fact/repository.go"]}
{"id": "C52", "title": "What entities write", "statement": "Each PointTo\u2026 method adds exactly the one edge it names, in the right direction, and nothing else; CreateEntity adds new nodes only, each referring to the next, and disturbs no reference that was there; a method that fails has added no edge it should not have. The unfinished functions (CreateNextStoryFact, ExtendObject, ExtendProperty) change nothing and return nil.", "quantifier": "every storage contents, not only what the program makes; every entity and node; every fault and kill", "why_tests_cant": "the contents are arbitrary, and the calls may break off anywhere", "anchors": ["internal/concrete/*/entity.go", "internal/concrete/*/storage.go CreateEntity", "internal/concrete/class/node/*.go Create", "internal/concrete/detail/aggregate.go"]}
{"id": "C53", "title": "Reversing a path", "statement": "path.reverse returns the elements of the path in the opposite order, whatever the path.", "quantifier": "every path, of any length, over any type of element", "why_tests_cant": "paths of every length", "anchors": ["internal/concrete/character/path.go reverse", "internal/concrete/word/path.go reverse", "internal/concrete/phrase/path.go reverse"]}
{"id": "C54", "title": "What facts and stories are made of", "statement": "A first fact comes with a story of its own: eight new nodes in two rows, the two class edges, and an edge each way between the fact's story node and the story's fact node; nothing else is added and nothing that was there changes. If the storage takes 0 for a node, a next fact is four new nodes, its class edge, the edge from the last fact's position node, and an edge to the last fact's own story node instead of to the story; a child story is made like a first one and has node 0 as its parent. If the storage knows no node 0, neither is made and the storage stays as it is.", "quantifier": "every storage contents in which references are kept at both ends and the class nodes exist, not only what the program makes; every fact; every fault and kill", "why_tests_cant": "the contents are arbitrary, and the calls may break off anywhere", "anchors": ["internal/concrete/fact/repository.go CreateFirstStoryFact, CreateNextFact, CreateChildStoryFact", "internal/concrete/story/repository.go CreateStory, FetchByFact", "internal/concrete/fact/storage.go", "internal/concrete/story/storage.go"]}
{"id": "C55", "title": "What the factories make or find", "statement": "ProvideHeadEntity of characters, words and phrases: if the node it looks at points to nothing, a new entity is made, four new nodes in a row, with its class edge and an edge each way to the node it belongs to, and nothing else; if there is exactly one, that entity is returned and nothing is written; otherwise an error is returned and nothing is written. (For words the node looked at is not the one the word belongs to.) CreateTailEntity makes a new entity that belongs to the one node and comes after the other. ProvideEntity of details makes a new detail between the two phrases if they have none in common.", "quantifier": "every storage contents in which references are kept at both ends, not only what the program makes; every entity; every fault and kill", "why_tests_cant": "the contents are arbitrary, the error cases never occur in contents the program makes, and the calls may break off anywhere", "anchors": ["internal/concrete/character/factory.go", "internal/concrete/word/factory.go", "internal/concrete/phrase/factory.go", "internal/concrete/detail/factory.go", "internal/concrete/bit/entity.go"]}
{"id": "C56", "title": "What a text is in the storage", "statement": "A remark whose nodes form the described chains (bits spell a code point, characters a word, words a phrase, a detail lies between two phrases, the remark is the detail's target) is read as exactly the texts these chains spell, whoever made them; reading writes nothing, and a fault or kill never gives other texts. Every remark the calls have returned forms such chains, over the two nodes that stand for the bits, with the texts it was told. On contents whose chain is a ring, reading does not end.", "quantifier": "every coherent storage contents and every remark, word and phrase in it, of any length; every fault and kill; every history of calls", "why_tests_cant": "the chains are of any length and made by anybody; round-trip tests only see what the same program wrote, and cannot show that a loop never ends", "anchors": ["internal/concrete/remark/aggregate.go", "internal/concrete/detail/aggregate.go", "internal/concrete/phrase/aggregate.go", "internal/concrete/word/aggregate.go", "internal/concrete/character/aggragate.go", "internal/concrete/detail/entity.go"]}
{"id": "C57", "title": "What is there already is found", "statement": "On any coherent contents, whoever made them: a character whose digits are followed from its first bit, a word whose characters are followed from its first character, and a phrase whose words are followed from its first word, where each step has one child for the wanted value and the other children are for other values, is found; Provide gives exactly that entity and writes nothing, with faults it gives that or fails (a character may come back nil). The detail of two such phrases is found as well, unless a storage call fails, when a second one may be made. A word whose first character has no child in the tree of characters is not found although it is there: it is made again.", "quantifier": "every coherent storage contents, every character, word and phrase of any length, any number of children, every fault and kill", "why_tests_cant": "needs contents with branches at every level that the program did not make itself, any number of children, in any order of listing, and faults at every call", "anchors": ["internal/concrete/character/repository.go", "internal/concrete/character/element.go", "internal/concrete/character/elements.go", "internal/concrete/word/repository.go", "internal/concrete/word/element.go", "internal/concrete/phrase/repository.go", "internal/concrete/phrase/element.go", "internal/concrete/detail/repository.go", "internal/concrete/detail/factory.go"]}
{"id": "C58", "title": "What is not there yet is made, and only that", "statement": "On any mirrored contents, whoever made them: where the children of an element are for other values only, ProvideNextElement of characters, words and phrases makes exactly one new entity of the right class, which belongs to the wanted bit, character or word and comes after that element; at a character or word without children the first element is one new head. Provide of a character of which a first part of the digits is found makes one entity for each missing digit, one after the other, and nothing for the others; from a bit without children, a head and then the rest. With faults and kills it is that or an end without an answer on contents that only grew (a character of one digit may come back nil).", "quantifier": "every mirrored storage contents, every character, word and phrase, any number of children, digit strings of any length, every fault and kill", "why_tests_cant": "needs contents with branches at every level that the program did not make itself, and a look at every node, edge and reference of the storage afterwards", "anchors": ["internal/concrete/character/element.go", "internal/concrete/character/elements.go", "internal/concrete/character/repository.go", "internal/concrete/character/factory.go", "internal/concrete/word/element.go", "internal/concrete/word/elements.go", "internal/concrete/word/factory.go", "internal/concrete/phrase/element.go", "internal/concrete/phrase/elements.go", "internal/concrete/phrase/factory.go"]}
{"id": "C59", "title": "Characters are made once, and contents stay in order", "statement": "Call contents in order if every digit string is found, or a first part of it is found and the next digit is missing, or its first bit has no children (and no chain is longer than four nodes). On such contents, whoever made them, Provide of a character without faults gives a character for the digits, leaves the contents in order, keeps every character that was found before, and writes nothing if the character was found. So after any number of characters, asked for in any sequence, each of them is found, the same number always got the same character, and asking again, with faults and kills too, never writes.", "quantifier": "every mirrored storage contents in order, every number, sequences of any length, digit strings of any length; for the last part every fault and kill", "why_tests_cant": "an invariant over all sequences of characters: a test can only play some sequences from some contents", "anchors": ["internal/concrete/character/repository.go", "internal/concrete/character/elements.go", "internal/concrete/character/element.go", "internal/concrete/character/factory.go", "internal/concrete/bit/repository.go"]}
{"id": "C60", "title": "A further child of a story comes after the last story that follows it", "statement": "On any mirrored contents, whoever made them: the walk of CreateChildStoryFact along the positions ends at the last story of the row, however long it is, and writes nothing; where the positions go on and on (a ring, for example) it never ends. If the tree node of a story leads somewhere, CreateChildStoryFact makes exactly a new story and its first fact, puts the position of the new story after the last story that follows the story itself, and ties the tree nodes in both directions. With faults and kills it is that or an end without an answer on contents that only grew.", "quantifier": "every mirrored storage contents, rows of stories of any length, rings of any length, every fault and kill", "why_tests_cant": "needs rows of stories and rings that the program does not make itself; that a walk never ends is not seen by a test", "anchors": ["internal/concrete/fact/repository.go", "internal/concrete/story/entity.go", "internal/concrete/story/storage.go", "internal/concrete/story/repository.go"]}
