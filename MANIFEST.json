{"claims": [
{"property": "C01", "status": "proved", "theorems": ["C01_round_trip", "C01_accepted", "C01_negative_refused"], "note": "Round trip for every stored rune, acceptance of every non-negative rune, refusal of negative runes with no write; after any API and layer history, with faults and kills."},
{"property": "C02", "status": "proved", "theorems": ["C02_shared"], "note": ""},
{"property": "C03", "status": "proved", "theorems": ["C03_round_trip", "C03_any_bytes"], "note": "Valid UTF-8 exactly; any bytes up to U+FFFD replacement."},
{"property": "C04", "status": "proved", "theorems": ["C04_round_trip", "C04_any_bytes"], "note": "Valid UTF-8 exactly; any bytes up to U+FFFD replacement."},
{"property": "C05", "status": "proved", "theorems": ["C05_reads_back", "C05_on_every_storage"], "note": "At any later moment; both for the abstract contract and for every concrete storage meeting it."},
{"property": "C06", "status": "proved", "theorems": ["C06_normalised", "C06_unique", "C06_exact_iff_valid"], "note": ""},
{"property": "C07", "status": "proved", "theorems": ["C07_never_change", "C07_every_remark_tells"], "note": "Faults and kills are considered after the first successful creating call and on storages that do not know node 0; without faults on both kinds of storage."},
{"property": "C08", "status": "proved", "theorems": ["C08_identifier", "C08_on_every_storage"], "note": "Same histories as C07."},
{"property": "C09", "status": "proved", "theorems": ["C09_unique"], "note": ""},
{"property": "C10", "status": "proved", "theorems": ["C10_append_only", "C10_at_every_call", "C10_calls_made", "C10_never_removes", "C10_moments"], "note": "At every storage call of every history, faults and kills included; Disconnect and Delete are called by no program whatever the storage answers, SetReference never overwrites."},
{"property": "C11", "status": "proved", "theorems": ["C11_first_use", "C11_idempotent"], "note": ""},
{"property": "C12", "status": "proved", "theorems": ["C12_refuted", "C12_rule"], "note": "Refuted: the claim is false of the code. Killing the first use after the first class node leaves a store on which initialisation never completes; what a retry does after every possible interruption is proved."},
{"property": "C13", "status": "proved", "theorems": ["C13_canonical", "C13_for_ever", "C13_two_bits"], "note": ""},
{"property": "C14", "status": "proved", "theorems": ["C14_refuted", "C14_rule"], "note": "Refuted: the claim is false of the code. A kill after one bit is connected makes every later use fail; what a later use does after every possible interruption is proved."},
{"property": "C15", "status": "proved", "theorems": ["C15_rejected"], "note": "In any history, after faults too. If the object itself is not acceptable the call may fail with another error, or panic if the object has several words."},
{"property": "C16", "status": "proved", "theorems": ["C16_refuted", "C16_panic_rule", "C16_readers_partial", "C16_navigation_partial"], "note": "Refuted: CreateStory(\"a 0\", \"b\") panics on a fresh store. The exact panic rule is proved for fault-free histories on valid UTF-8; calls that create nothing never panic without storage errors."},
{"property": "C17", "status": "proved", "theorems": ["C17_refuted", "C17_rule"], "note": "Refuted: \"0\" is accepted by an empty store and refused after CreateStory(\"a\", \"b\"). The exact acceptance rule is proved."},
{"property": "C18", "status": "proved", "theorems": ["C18_predicted"], "note": ""},
{"property": "C19", "status": "proved", "theorems": ["C19_words_refuted", "C19_phrases_refuted", "C19_details_refuted", "C19_words_partial", "C19_phrases_partial"], "note": "Refuted for words, phrases and pairs; sharing is proved when the first word is not made anew."},
{"property": "C20", "status": "proved", "theorems": ["C20_reads_back"], "note": ""},
{"property": "C21", "status": "proved", "theorems": ["C21_refuted", "C21_never"], "note": "Refuted; moreover HasNextRemark is false for every remark on every storage."},
{"property": "C22", "status": "proved", "theorems": ["C22_story", "C22_on_every_storage"], "note": ""},
{"property": "C23", "status": "proved", "theorems": ["C23_refuted", "C23_same_story_refuted", "C23_strict_never", "C23_texts_partial"], "note": "Refuted: without node 0 the call never succeeds; with node 0 it succeeds but GetFirstFact on the new fact answers with something that is no remark. The texts read back."},
{"property": "C24", "status": "proved", "theorems": ["C24_has_refuted", "C24_get_refuted", "C24_C26_strict_never", "C24_lenient_has"], "note": "Refuted on both kinds of storage; what HasNextFact really tells is proved."},
{"property": "C25", "status": "proved", "theorems": ["C25_refuted", "C25_strict_never", "C25_texts_partial", "C25_first_fact_partial"], "note": "Refuted: without node 0 never succeeds, with node 0 it stops working after two edges leave node 0. What a successful call makes reads back and is its own first fact."},
{"property": "C26", "status": "proved", "theorems": ["C24_C26_strict_never", "C26_get_refuted", "C26_has_refuted"], "note": "Refuted on both kinds of storage."},
{"property": "C27", "status": "proved", "theorems": ["C27_reads_keep", "C27_only_looks"], "note": "In every history, faults and kills included; seven of the calls make no writing storage call on any receiver and whatever the storage answers."},
{"property": "C28", "status": "proved", "theorems": ["C28_texts", "C28_story", "C28_first_fact", "C28_identifier", "C28_has_next_remark"], "note": "The reader may run next to any further history of writers (calls one after another, restarts, faults and kills), interleaved at every storage call; its own storage calls may fail too."},
{"property": "C29", "status": "proved", "theorems": ["C29_refuted"], "note": "Refuted: two first uses at once make one of them fail."},
{"property": "C30", "status": "proved", "theorems": ["C30_refuted", "C30_no_wrong_texts_partial", "C30_reads_notice_partial"], "note": "Refuted: some failing reads are ignored. A read of texts that succeeds despite faults is right, and five reads never succeed when a storage call failed."},
{"property": "C31", "status": "proved", "theorems": ["C31_refuted"], "note": "Refuted: CreateStory(\"c\", \"\") fails and has written."},
{"property": "C32", "status": "proved", "theorems": ["C32_refuted"], "note": "Refuted: a fault can leave a detail without remark for ever."},
{"property": "C33", "status": "proved", "theorems": ["C33_refuted"], "note": "Refuted: GetRemark(1) succeeds."},
{"property": "C34", "status": "proved", "theorems": ["C34_refuted"], "note": "Refuted on a storage that keeps parallel edges."},
{"property": "C35", "status": "proved", "theorems": ["C35_terminates", "C35_any_fuel", "C35_more_fuel", "C35_less_fuel", "C35_on_every_storage"], "note": "The programs are finite trees; the only unbounded loops run on fuel, which never runs out if it is at least 3 times the length of every text plus 31. More fuel changes no step, no history and no run (C35_any_fuel, C35_more_fuel, C35_on_every_storage), and a history reached with more fuel is reached with any fuel its texts fit (C35_less_fuel)."},
{"property": "C36", "status": "proved", "theorems": ["C36_typed"], "note": "At every storage call of every history."},
{"property": "C37", "status": "proved", "theorems": ["C37_first_fact", "C37_on_every_storage"], "note": ""},
{"property": "C38", "status": "proved", "theorems": ["C38_join_split", "C38_split_unique"], "note": ""},
{"property": "C39", "status": "proved", "theorems": ["C39_identity_iff_valid", "C39_repairs", "C39_decodes", "C39_encodes", "C39_decode_encode", "C39_split_commutes"], "note": ""},
{"property": "C40", "status": "proved", "theorems": ["C40_refuted"], "note": "Refuted: on a storage that numbers nodes densely, killed at the tenth storage call, the retried CreateStory succeeds but its texts are lost."},
{"property": "C41", "status": "proved", "theorems": ["C41_remarks", "C41_layers"], "note": ""},
{"property": "C42", "status": "proved", "theorems": ["C42_fetch", "C42_ask", "C42_phrases", "C42_joint", "C42_occupied", "C42_bit_count", "C42_no_bit", "C42_next_remark", "C42_fetch_faults", "C42_ask_faults", "C42_phrases_faults", "C42_joint_faults", "C42_crowded_faults", "C42_second_detail_refuted"], "note": "With storage faults too, except for the joint detail: a failing look at the second phrase is taken for a missing detail and a second one is made (C42_joint_faults, C42_second_detail_refuted)."},
{"property": "C43", "status": "proved", "theorems": ["C43_moments", "C43_layers", "C43_remark_row", "C43_layer_row", "C43_by_class_refuted"], "note": "The last sentence is refuted: a character found by its class node has no storage, so its methods panic."},
{"property": "C44", "status": "proved", "theorems": ["C44_own_has", "C44_own_get", "C44_strict_own", "C44_has_refuted", "C44_get_refuted"], "note": "Refuted for child stories where node 0 exists (HasParentStory false, ToParentStory an error); where it does not, there are none (proved). Every story that is not a child has no parent, on either storage (proved)."},
{"property": "C45", "status": "proved", "theorems": ["C45_texts", "C45_story", "C45_navigation"], "note": "Numbers of storage calls of successful reads; the bound for navigation holds in any state and for any outcome. GetStory without faults, from a remark whose story was opened by CreateStory (or CreateChildStory) and was given no further facts."},
{"property": "C46", "status": "proved", "theorems": ["C46_refuted", "C46_later_refuted"], "note": "Refuted: if the second call sees the detail that the first is still making, it fails (or, where node 0 exists, succeeds with lost texts); if both make the detail, both succeed and every later CreateStory of the same texts fails."},
{"property": "C47", "status": "proved", "theorems": ["C47_reads", "C47_texts", "C47_identifier", "C47_first_fact", "C47_story", "C47_sorted", "C47_specified"], "note": "On a storage that does not know node 0 and on which a creating call has succeeded."},
{"property": "C48", "status": "proved", "theorems": ["C48_texts", "C48_identifier", "C48_first_fact", "C48_story"], "note": "On a storage that does not know node 0 and on which a creating call has succeeded before the crowd came together; texts fit the fuel of the model."},
{"property": "C49", "status": "proved", "theorems": ["C49_fresh"], "note": "On a storage that does not know node 0 and on which a creating call has succeeded before the crowd came together."},
{"property": "C50", "status": "proved", "theorems": ["C50_walk", "C50_look", "C50_stuck", "C50_walk_on_refuted", "C50_coherent"], "note": "Single steps proved for all contents in which references go both ways (which is what the program makes, C50_coherent). Walking on is refuted: the aggregate returned by a step has no fact storage, so the next step panics (C50_stuck, C50_walk_on_refuted)."},
{"property": "C51", "status": "proved", "theorems": ["C51_growth", "C51_history", "C51_amount"], "note": "For every call that ends on a storage in use (a creating call has succeeded before); any storage, faults and kills included. The constants are upper bounds: 88 nodes and 133 links per byte, 23 and 37 per call."},
{"property": "C52", "status": "proved", "theorems": ["C52_ties", "C52_builds", "C52_class", "C52_detail", "C52_stub_fact", "C52_stub_extend", "C52_mirrored"], "note": "For all contents in which references are kept at both ends (which is what the program makes, C52_mirrored)."},
{"property": "C53", "status": "proved", "theorems": ["C53_place", "C53_length", "C53_rev"], "note": ""},
{"property": "C54", "status": "proved", "theorems": ["C54_first_fact", "C54_next_fact", "C54_next_fact_reached", "C54_child_story", "C54_strict"], "note": "On storages that take 0 for a node, a child story is covered while node 0 points to nothing."},
{"property": "C55", "status": "proved", "theorems": ["C55_head_new", "C55_head_found", "C55_head_crowded", "C55_tail", "C55_detail"], "note": "What ProvideEntity of details does when there is a detail is in C42_joint."},
{"property": "C56", "status": "proved", "theorems": ["C56_read", "C56_written", "C56_ends_refuted"], "note": "The number of steps that suffices depends on the lengths of the chains. C56_ends_refuted: reading ends on the described chains only."},
{"property": "C57", "status": "proved", "theorems": ["C57_character", "C57_word", "C57_phrase", "C57_detail", "C57_childless_refuted"], "note": "The bits are known to the program (cache). The number of steps that suffices depends on the contents. C57_childless_refuted: the hypothesis on the first character of a word is needed."},
{"property": "C58", "status": "proved", "theorems": ["C58_digit", "C58_letter", "C58_word", "C58_first_letter", "C58_first_word", "C58_character", "C58_character_from_bit"], "note": "The bits are known to the program (cache). For words and phrases one step is described; the character or word of the step is there already (C57). C58_character needs that edges start at nodes."},
{"property": "C59", "status": "proved", "theorems": ["C59_settles", "C59_again", "C59_one", "C59_many", "C59_same", "C59_start"], "note": "The bits are known to the program (cache) and stay the same. Making a character is without faults here; with faults C58 says what can be left over."},
{"property": "C60", "status": "proved", "theorems": ["C60_last", "C60_endless", "C60_child"], "note": "Found missing by a wrong program (a walk that stops early) which nothing else noticed. The walk starts at the story itself, as the code does."}
]}
