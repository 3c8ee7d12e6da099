{
 "claims": [
  {
   "property": "C01",
   "status": "proved",
   "theorems": [
    "C01_find_lcs_is_longest"
   ],
   "note": ""
  },
  {
   "property": "C02",
   "status": "proved",
   "theorems": [
    "C02_find_lcs_first",
    "C02_answer_determined"
   ],
   "note": ""
  },
  {
   "property": "C03",
   "status": "proved",
   "theorems": [
    "C03_find_substring_all"
   ],
   "note": ""
  },
  {
   "property": "C04",
   "status": "proved",
   "theorems": [
    "C04_find_substring_first"
   ],
   "note": ""
  },
  {
   "property": "C05",
   "status": "proved",
   "theorems": [
    "C05_all_suffixes"
   ],
   "note": ""
  },
  {
   "property": "C06",
   "status": "proved",
   "theorems": [
    "C06_linear",
    "C06_count_is_of_build"
   ],
   "note": "nodes, transitions and link-following steps; the time to copy a transition dictionary when a node is cloned is not counted"
  },
  {
   "property": "C07",
   "status": "proved",
   "theorems": [
    "C07_find_lcs_multiple",
    "C07_no_strings"
   ],
   "note": ""
  },
  {
   "property": "C08",
   "status": "partial",
   "theorems": [
    "C08_separators_refuted",
    "C08_separators_partial"
   ],
   "note": "False: a namedtuple equals the plain tuple with the same fields. Proved when no token is the tuple (i,) with i the index of a string."
  },
  {
   "property": "C09",
   "status": "proved",
   "theorems": [
    "C09_forward_patch"
   ],
   "note": ""
  },
  {
   "property": "C10",
   "status": "proved",
   "theorems": [
    "C10_reverse_patch"
   ],
   "note": ""
  },
  {
   "property": "C100",
   "status": "proved",
   "theorems": [
    "C100_difflib_pairs",
    "C100_difflib_quadratic",
    "C100_difflib_constant",
    "C100_gaspra_linear"
   ],
   "note": "Steps are times around the inner loop of find_longest_match and around the loops of build and find_lcs; what a dictionary access costs is not part of the model."
  },
  {
   "property": "C101",
   "status": "proved",
   "theorems": [
    "C101_find_substring_cost"
   ],
   "note": "Steps are iterations of the loops; the cost of a dictionary access and of sorted() is not counted."
  },
  {
   "property": "C102",
   "status": "partial",
   "theorems": [
    "C102_multiple_cost_partial",
    "C102_offsets_quadratic",
    "C102_linear_refuted"
   ],
   "note": "The construction, the while loop and the collection of positions are linear in all cases. get_string_offsets scans the list of all positions from its start for each string: C102_linear_refuted shows that its steps are bounded by no multiple of the total length, C102_offsets_quadratic for which strings."
  },
  {
   "property": "C103",
   "status": "proved",
   "theorems": [
    "C103_file",
    "C103_console"
   ],
   "note": "With -s see C57, C96. That the units of a text are unique is C75_units_unique where the tokenizers are."
  },
  {
   "property": "C104",
   "status": "proved",
   "theorems": [
    "C104_file",
    "C104_console"
   ],
   "note": "-s without -d does nothing (C96_idle_partial); with -d see C96. With -l a Change can be empty (C105_lines_refuted), so there the line groups are only described by their texts."
  },
  {
   "property": "C105",
   "status": "partial",
   "theorems": [
    "C105_words_refuted",
    "C105_lines_refuted",
    "C105_characters_refuted",
    "C105_characters_partial"
   ],
   "note": "False for every unit: gaspra-merge -wg can write a conflict between 'ab ' and 'ab ' (the units a, b against ab), gaspra-merge -lg one between nothing and nothing (the empty last line against no line), gaspra-merge -g one between 'caa' and 'caa' (parent abab, from caa, into caab: two conflicts on one line that cancel out). Proved for characters: no character is on both sides of a conflict of the merge before it is gathered into lines, and not both are empty, so without -g and -L the sides shown differ."
  },
  {
   "property": "C106",
   "status": "proved",
   "theorems": [
    "C106_counts",
    "C106_merge_cost",
    "C106_total",
    "C106_no_collision",
    "C106_slow_diff",
    "C106_slow_conflict"
   ],
   "note": "Steps are iterations of the loops; slices, joins, copies of lists and the cost of a dictionary access are not counted."
  },
  {
   "property": "C107",
   "status": "proved",
   "theorems": [
    "C107_same_state",
    "C107_same_add",
    "C107_sizes",
    "C107_gets",
    "C107_previous",
    "C107_adds",
    "C107_stored",
    "C107_info",
    "C107_database",
    "C107_database_gets"
   ],
   "note": "For the line tokenizer the length of what is retrieved is assumed to be below 2^63 (C107_sizes proves it for the others)."
  },
  {
   "property": "C108",
   "status": "proved",
   "theorems": [
    "C108_local",
    "C108_lost",
    "C108_few",
    "C108_local_db",
    "C108_lost_db"
   ],
   "note": "A changed entry, unlike a lost one, goes unnoticed (C108_changed): there are no checksums."
  },
  {
   "property": "C109",
   "status": "partial",
   "theorems": [
    "C109_linear_refuted",
    "C109_reading_partial",
    "C109_writing_partial",
    "C109_counts",
    "C109_apply",
    "C109_retrieval_partial",
    "C109_retrieval_db_partial",
    "C109_get_counts"
   ],
   "note": "False: quadratic in the number of pieces. Proved: at most L(L+1)/2 bytes for L bytes stored, at least about 2k^2 for k pieces, and the bound on retrievals."
  },
  {
   "property": "C11",
   "status": "proved",
   "theorems": [
    "C11_diff_accounts"
   ],
   "note": ""
  },
  {
   "property": "C110",
   "status": "partial",
   "theorems": [
    "C110_end_partial",
    "C110_around_partial",
    "C110_cut_partial",
    "C110_front_partial",
    "C110_distinct_partial",
    "C110_place_partial",
    "C110_refuted"
   ],
   "note": "False: from aaa to abaa an a is shown as removed. Proved: for a piece at either end of any text, for a piece anywhere in a text without repeated tokens, and exactly where it is shown if its tokens are new."
  },
  {
   "property": "C111",
   "status": "proved",
   "theorems": [
    "C111_way",
    "C111_line",
    "C111_one_head",
    "C111_way_db"
   ],
   "note": "For all tokenizers but lines, in memory and on a database."
  },
  {
   "property": "C112",
   "status": "partial",
   "theorems": [
    "C112_growing_partial",
    "C112_appending_partial",
    "C112_growing_db_partial",
    "C112_appending_db_partial",
    "C112_growing_words_partial",
    "C112_appending_words_partial",
    "C112_growing_words_db_partial",
    "C112_appending_words_db_partial",
    "C112_words_refuted"
   ],
   "note": "False with words as tokens: a last word that grows is another word and is stored in full. Proved without a tokenizer, with characters as tokens, and with words as tokens for texts to which whole words are added (no word is cut where the old text begins or ends), in memory and on a database."
  },
  {
   "property": "C113",
   "status": "proved",
   "theorems": [
    "C113_one_edit",
    "C113_shared_edit",
    "C113_append"
   ],
   "note": "All tokens and kinds. The edits are those shown by the two diffs against the parent, as in C19."
  },
  {
   "property": "C114",
   "status": "proved",
   "theorems": [
    "C114_rewrites",
    "C114_conflict",
    "C114_appends"
   ],
   "note": "All tokens and kinds, bytes too: a conflict of this shape has two sequences, so the joiner for bytes gets no str."
  },
  {
   "property": "C115",
   "status": "proved",
   "theorems": [
    "C115_versions",
    "C115_memory"
   ],
   "note": "Rows as in C40; _old_update_metrics is not modelled, the metrics are those kept by _new_update_metrics."
  },
  {
   "property": "C116",
   "status": "partial",
   "theorems": [
    "C116_protocol_partial",
    "C116_refuted"
   ],
   "note": "Holds after all calls for which the two child slots of a row do (as C41). False otherwise: a second node moved into the first slot of its parent replaces the first there, so get_split no longer sees it, while old_get_split does."
  },
  {
   "property": "C117",
   "status": "proved",
   "theorems": [
    "C117_dot",
    "C117_dump"
   ],
   "note": "A written line is modelled by its fields. dot_dump.py does not import as it stands (it imports gaspra.revision_tree, which is not in the package); tokens are not escaped in the DOT labels."
  },
  {
   "property": "C118",
   "status": "partial",
   "theorems": [
    "C118_dump_partial",
    "C118_all_suffixes_partial",
    "C118_refuted"
   ],
   "note": "Both nest exactly len(s) + 1 calls for every text s, so each recursion limit is exceeded by some text, and a text as long as the limit always exceeds it."
  },
  {
   "property": "C119",
   "status": "partial",
   "theorems": [
    "C119_order_partial",
    "C119_two_partial",
    "C119_fewer",
    "C119_order_refuted",
    "C119_two_refuted"
   ],
   "note": "The length is always the same; the positions are if there is only one longest common word. With several longest common words the one found depends on the order of the strings, and may differ from the one that find_lcs finds."
  },
  {
   "property": "C12",
   "status": "proved",
   "theorems": [
    "C12_diff_normal_form"
   ],
   "note": ""
  },
  {
   "property": "C120",
   "status": "proved",
   "theorems": [
    "C120_ways",
    "C120_ways_db",
    "C120_determined"
   ],
   "note": "Null, Char and Symbol tokenizers; the Line tokenizer can refuse an add."
  },
  {
   "property": "C121",
   "status": "proved",
   "theorems": [
    "C121_writes",
    "C121_writes_db"
   ],
   "note": "Writes are counted by a store that logs its keys; it answers like the plain one."
  },
  {
   "property": "C122",
   "status": "partial",
   "theorems": [
    "C122_lines_partial",
    "C122_bytes",
    "C122_bytes_equal",
    "C122_bytes_refuted"
   ],
   "note": "Proved for str. False for bytes: handle_fragment passes over every bytes fragment, so the common text is lost."
  },
  {
   "property": "C123",
   "status": "partial",
   "theorems": [
    "C123_arrows_partial",
    "C123_edges",
    "C123_arrows_refuted"
   ],
   "note": "Proved when the tags are inserted in increasing order; otherwise each edge is written once but its arrow goes from the larger tag to the smaller, which may be upwards."
  },
  {
   "property": "C124",
   "status": "partial",
   "theorems": [
    "C124_calls_partial",
    "C124_calls_db_partial",
    "C124_ends",
    "C124_alone",
    "C124_adds_refuted",
    "C124_get_refuted",
    "C124_get_error_refuted"
   ],
   "note": "Proved for adds on different heads (or without a base) and gets of versions of other lines, for every interleaving of the calls of store and tree methods. False on one line: two adds on the same head can both return and lose the old head, and a get during an add can return wrong bytes or raise KeyError."
  },
  {
   "property": "C125",
   "status": "partial",
   "theorems": [
    "C125_goes_on_partial",
    "C125_goes_on_db_partial",
    "C125_again_partial",
    "C125_again_db",
    "C125_goes_on_refuted",
    "C125_again_refuted"
   ],
   "note": "Proved for every update but the third of an add that splits: the object can be used as if the version had not been added, had been added without a base, or had been added. In memory the same add succeeds again, or raises KeyError if it had a base and all of its updates were made, and the object is then as if the add had not been interrupted; on a database it raises IntegrityError once the tree has the tag and harms nothing. False after the third update of an add that splits (a version is lost, and making the add again does not bring it back); C125_again_refuted shows the KeyError. Other lines are never harmed: C135."
  },
  {
   "property": "C126",
   "status": "proved",
   "theorems": [
    "C126_find_lcs",
    "C126_find_substring",
    "C126_find_lcs_multiple",
    "C126_patches",
    "C126_diff",
    "C126_diff_equal",
    "C126_merge_equal",
    "C126_merge_unchanged",
    "C126_merge_same",
    "C126_common_prefix"
   ],
   "note": "For every equivalence ==, which need not be identity. Patches need not give the modified sequence itself: C126_example shows 1, 2, 3 for True, 2.0, 3."
  },
  {
   "property": "C127",
   "status": "partial",
   "theorems": [
    "C127_same",
    "C127_goes_on_partial",
    "C127_reads_partial",
    "C127_again_partial",
    "C127_goes_on_refuted",
    "C127_reads_refuted"
   ],
   "note": "The full statement is false: after the third commit of an add that splits a version reads as another one, and after the fourth one the old head has a height that is too large, so that adds to it raise a TypeError. Proved for all other commits; reading is right after the fourth commit too. Other lines are never harmed: C135."
  },
  {
   "property": "C128",
   "status": "proved",
   "theorems": [
    "C128_forward",
    "C128_reverse",
    "C128_forward_exactly",
    "C128_reverse_exactly"
   ],
   "note": "For texts at least as long as the patch's own. Of a shorter text the patch keeps what is there (C128_example_shorter)."
  },
  {
   "property": "C129",
   "status": "proved",
   "theorems": [
    "C129_shown",
    "C129_merged",
    "C129_conflict"
   ],
   "note": "The conditions on the edits are those of C77, where each is shown to be needed; what exactly a line diff looks like is said by C103 and C104."
  },
  {
   "property": "C13",
   "status": "proved",
   "theorems": [
    "C13_diff_self",
    "C13_diff_disjoint"
   ],
   "note": ""
  },
  {
   "property": "C130",
   "status": "proved",
   "theorems": [
    "C130_counts",
    "C130_same",
    "C130_same_db",
    "C130_add",
    "C130_add_db",
    "C130_total",
    "C130_total_db",
    "C130_exact",
    "C130_exact_db",
    "C130_path"
   ],
   "note": "Rounds of the loops are counted, one for each node visited; the recursive query by which a DBTree finds a path is not counted. For the LineTokenizer the shape of the tree is not known in general (C24)."
  },
  {
   "property": "C131",
   "status": "partial",
   "theorems": [
    "C131_refuted",
    "C131_partial",
    "C131_db_partial",
    "C131_ascii_partial",
    "C131_ascii_db_partial",
    "C131_changeset"
   ],
   "note": "C131_refuted: each pair of different tokenizers silently gives back wrong bytes for one history of two versions (letters as in Latin-1). The partial theorems need contents with the same tokens for all tokenizers used, and leave out the LineTokenizer."
  },
  {
   "property": "C132",
   "status": "partial",
   "theorems": [
    "C132_square_partial",
    "C132_diff_partial",
    "C132_texts_partial",
    "C132_shared_refuted",
    "C132_neighbours_refuted",
    "C132_repeats_refuted"
   ],
   "note": "Partial: tokens must be different and edits apart from each other and not shared. The refutations show that each condition is needed: a shared edit gets lost, touching edits or repeated tokens make a conflict."
  },
  {
   "property": "C133",
   "status": "proved",
   "theorems": [
    "C133_order",
    "C133_order_db",
    "C133_raising",
    "C133_exchange",
    "C133_alone",
    "C133_alone_db",
    "C133_alone_is",
    "C133_same_line_refuted"
   ],
   "note": "Null, Char and Symbol tokenizers; the Line tokenizer can refuse an add. The order of the keys of dictionaries and the order_id of nodes do depend on the order of adds. The refutation shows that adds to the same head cannot be exchanged."
  },
  {
   "property": "C134",
   "status": "proved",
   "theorems": [
    "C134_stores",
    "C134_stores_db",
    "C134_trees",
    "C134_trees_db",
    "C134_lines_refuted"
   ],
   "note": "Null, Char and Symbol tokenizers; the Line tokenizer can refuse an add. The refutation shows that the set must be made of whole lines."
  },
  {
   "property": "C135",
   "status": "proved",
   "theorems": [
    "C135_stopped",
    "C135_stopped_db",
    "C135_commits"
   ],
   "note": "Null, Char and Symbol tokenizers; the Line tokenizer can refuse an add. What happens to the line of the new version itself is C125 and C127."
  },
  {
   "property": "C136",
   "status": "proved",
   "theorems": [
    "C136_any_order",
    "C136_shown",
    "C136_one_run"
   ],
   "note": "Without the options that add to the text (-g, -L, -s, -d); their effect on one run is C129."
  },
  {
   "property": "C137",
   "status": "proved",
   "theorems": [
    "C137_undo"
   ],
   "note": "Without the options that add to the text (-g, -L, -s, -d). That the conditions on the edits are needed is shown by the refutations of C132."
  },
  {
   "property": "C14",
   "status": "proved",
   "theorems": [
    "C14_diff_renaming",
    "C14_merge_renaming"
   ],
   "note": ""
  },
  {
   "property": "C15",
   "status": "partial",
   "theorems": [
    "C15_bounded_recursion_refuted",
    "C15_recursion_partial"
   ],
   "note": "The recursion depth is unbounded (witness family), so Python's recursion limit is reached on long inputs; proved: min(len)+1 levels always suffice."
  },
  {
   "property": "C16",
   "status": "partial",
   "theorems": [
    "C16_merge_total_refuted",
    "C16_merge_total_partial",
    "C16_merge_bytes_partial",
    "C16_merge_bytes_raises_partial",
    "C16_merge_bytes_returns_partial",
    "C16_merge_bytes_replacing_partial"
   ],
   "note": "bytes merges can raise TypeError (merge.py uses the literal \"\"); proved for str and tuple. For bytes the result is the same or that TypeError, with an exact condition on the two diffs for the TypeError (a clash and, before a token both keep, an insertion of one branch alone)."
  },
  {
   "property": "C17",
   "status": "proved",
   "theorems": [
    "C17_merge_left",
    "C17_merge_right"
   ],
   "note": ""
  },
  {
   "property": "C18",
   "status": "proved",
   "theorems": [
    "C18_merge_same"
   ],
   "note": ""
  },
  {
   "property": "C19",
   "status": "proved",
   "theorems": [
    "C19_merge_union"
   ],
   "note": ""
  },
  {
   "property": "C20",
   "status": "proved",
   "theorems": [
    "C20_merge_normal"
   ],
   "note": ""
  },
  {
   "property": "C21",
   "status": "partial",
   "theorems": [
    "C21_merge_sides_refuted",
    "C21_merge_sides_partial"
   ],
   "note": "False when an edit of branch1 reaches over an edit of branch0 (sides swapped); proved outside two precisely described situations."
  },
  {
   "property": "C22",
   "status": "proved",
   "theorems": [
    "C22_merge_tokens"
   ],
   "note": ""
  },
  {
   "property": "C23",
   "status": "proved",
   "theorems": [
    "C23_merge_inserted"
   ],
   "note": ""
  },
  {
   "property": "C24",
   "status": "partial",
   "theorems": [
    "C24_merge_symmetric_refuted",
    "C24_merge_symmetric_partial",
    "C24_merge_readings_partial",
    "C24_merge_swap_partial",
    "C24_merge_readings_refuted",
    "C24_merge_swap_refuted"
   ],
   "note": "False in general. Compatible edits: proved. Colliding edits: when no edit of a branch reaches over the beginning of an edit of the other, both orders succeed or fail alike, have conflicts alike and their two texts are exchanged; if moreover what is inserted is new and different, the results are each other with the sides swapped. Both conditions are shown to be needed by counterexamples."
  },
  {
   "property": "C26",
   "status": "proved",
   "theorems": [
    "C26_vint_round_trip",
    "C26_vint_overflow"
   ],
   "note": ""
  },
  {
   "property": "C27",
   "status": "proved",
   "theorems": [
    "C27_vint_shape",
    "C27_vint_prefix_free",
    "C27_vint_order"
   ],
   "note": ""
  },
  {
   "property": "C28",
   "status": "proved",
   "theorems": [
    "C28_patch_round_trip",
    "C28_trimmed_same_effect",
    "C28_patch_rejected",
    "C28_made_patches"
   ],
   "note": ""
  },
  {
   "property": "C29",
   "status": "proved",
   "theorems": [
    "C29_truncation"
   ],
   "note": ""
  },
  {
   "property": "C30",
   "status": "proved",
   "theorems": [
    "C30_int_round_trip",
    "C30_int_overflow",
    "C30_int_short"
   ],
   "note": ""
  },
  {
   "property": "C31",
   "status": "proved",
   "theorems": [
    "C31_versions_verbatim",
    "C31_adds_succeed"
   ],
   "note": "every tokenizer but the line tokenizer, dict stores and MemoryTree; see C43 for DBCollection/DBTree"
  },
  {
   "property": "C32",
   "status": "proved",
   "theorems": [
    "C32_stored_once"
   ],
   "note": ""
  },
  {
   "property": "C33",
   "status": "proved",
   "theorems": [
    "C33_base_reported"
   ],
   "note": ""
  },
  {
   "property": "C34",
   "status": "proved",
   "theorems": [
    "C34_metrics_exact"
   ],
   "note": ""
  },
  {
   "property": "C35",
   "status": "proved",
   "theorems": [
    "C35_split"
   ],
   "note": ""
  },
  {
   "property": "C36",
   "status": "partial",
   "theorems": [
    "C31_versions_verbatim",
    "C36_line_partial",
    "C36_line_quiet_partial",
    "C36_line_quiet_adds_partial",
    "C36_line_surround_partial",
    "C36_line_insert_partial",
    "C36_line_refuted"
   ],
   "note": "Null, Char and Symbol tokenizers: all histories. Line tokenizer: false from four versions on (its encoding depends on the calls made before). Proved for branches of at most three versions; for all histories in which no diff back to an older version inserts a piece that ends with a newline; and for two kinds of such histories: files to which something is only appended or whole lines put in front, and files of different lines to which lines are only added."
  },
  {
   "property": "C37",
   "status": "partial",
   "theorems": [
    "C37_rejected",
    "C37_rejected_harmless_partial",
    "C37_rejected_visible_refuted",
    "C37_own_base_refuted"
   ],
   "note": "rejected adds leave their tag behind; earlier versions are unharmed; a tag as its own base never terminates"
  },
  {
   "property": "C38",
   "status": "partial",
   "theorems": [
    "C38_again_partial",
    "C38_again_refuted"
   ],
   "note": "false in general; true for a version without base and successor"
  },
  {
   "property": "C39",
   "status": "partial",
   "theorems": [
    "C39_interruption_partial",
    "C39_interruption_split_partial",
    "C39_interruption_refuted"
   ],
   "note": "false between lines 47 and 52; true at every other point"
  },
  {
   "property": "C40",
   "status": "proved",
   "theorems": [
    "C40_trees_interchangeable",
    "C40_versions_same"
   ],
   "note": "DBTree on dict stores and on DBCollections against MemoryTree. For tags never added path_to gives () instead of None; Versions treats both alike."
  },
  {
   "property": "C41",
   "status": "partial",
   "theorems": [
    "C41_protocol_partial",
    "C41_slots_refuted",
    "C41_existing_tag",
    "C41_existing_tag_refuted",
    "C41_unknown_tag",
    "C41_unknown_parent"
   ],
   "note": "Adding an existing tag raises IntegrityError on one tree and replaces the node on the other; calls with unknown tags or parents raise different exceptions. For other calls also false in general: a row has two child slots and the slot is chosen by whether the node had a parent, so two parentless nodes moved below one node overwrite each other. Proved for all call sequences for which the slots are enough; these include all calls Versions makes."
  },
  {
   "property": "C42",
   "status": "proved",
   "theorems": [
    "C42_collection_like_dict"
   ],
   "note": "Any sequence of calls, any placement of rows by sqlite; iteration up to order."
  },
  {
   "property": "C43",
   "status": "partial",
   "theorems": [
    "C43_collections_partial",
    "C43_version_info_refuted"
   ],
   "note": "version_info raises AttributeError for every tag since DBCollection has no method get; every other method is proved to work."
  },
  {
   "property": "C44",
   "status": "proved",
   "theorems": [
    "C44_writes",
    "C44_path_bound"
   ],
   "note": ""
  },
  {
   "property": "C46",
   "status": "proved",
   "theorems": [
    "C46_round_trip",
    "C46_encodes",
    "C46_raises",
    "C46_fresh"
   ],
   "note": "all four tokenizers, any encode history before and after; \\w is an arbitrary predicate"
  },
  {
   "property": "C47",
   "status": "proved",
   "theorems": [
    "C47_ids_are_texts",
    "C46_round_trip"
   ],
   "note": "C46_round_trip with later calls covers that earlier tokens keep their text"
  },
  {
   "property": "C48",
   "status": "proved",
   "theorems": [
    "C48_diff_accounts"
   ],
   "note": ""
  },
  {
   "property": "C49",
   "status": "partial",
   "theorems": [
    "C49_diff_stateless_refuted",
    "C49_diff_stateless_partial"
   ],
   "note": "false: the default NullTokenizer is shared and remembers the type of its first text; proved for histories of one text type"
  },
  {
   "property": "C50",
   "status": "partial",
   "theorems": [
    "C50_merged_refuted",
    "C50_merged_type_error"
   ],
   "note": "false: merged passes three arguments to decode_changes and raises TypeError on every input"
  },
  {
   "property": "C51",
   "status": "proved",
   "theorems": [
    "C51_line_encode"
   ],
   "note": ""
  },
  {
   "property": "C52",
   "status": "proved",
   "theorems": [
    "C52_texts",
    "C52_texts_changes"
   ],
   "note": "with the exact condition for the added newline"
  },
  {
   "property": "C53",
   "status": "proved",
   "theorems": [
    "C53_whole_lines",
    "C53_sides"
   ],
   "note": "every stream"
  },
  {
   "property": "C54",
   "status": "partial",
   "theorems": [
    "C54_any_stream_partial",
    "C54_any_stream_refuted"
   ],
   "note": "False when two strings are adjacent: the text left over from the first is emitted after the lines of the second."
  },
  {
   "property": "C55",
   "status": "proved",
   "theorems": [
    "C55_consolidate",
    "C55_consolidate_whole"
   ],
   "note": ""
  },
  {
   "property": "C56",
   "status": "proved",
   "theorems": [
    "C56_diff_git",
    "C56_merge_git",
    "C56_names"
   ],
   "note": "end to end, from the texts to the file, for each tokenizer"
  },
  {
   "property": "C57",
   "status": "partial",
   "theorems": [
    "C57_strikeout_partial",
    "C57_strikeout_refuted",
    "C57_diff_renders_partial",
    "C57_merge_renders_partial",
    "C57_merge_idle_partial",
    "C57_merge_strikeout_partial",
    "C57_sticky_refuted"
   ],
   "note": "False: TypeError exactly when a second side is to be shown, in gaspra-diff and in gaspra-merge -d; also sticks to the module-level dicts, so that the merge after the diffs can raise too. Without the option, and in gaspra-merge without -d, nothing raises."
  },
  {
   "property": "C58",
   "status": "proved",
   "theorems": [
    "C58_manifests",
    "C58_chain_succeeds",
    "C58_manifests_db",
    "C58_chain_db",
    "C58_unknown",
    "C58_not_a_manifest"
   ],
   "note": "Every history of calls, failed ones included; a tag is used for one content, manifests have tags of their own, tokenizers Null, Char and Symbol (C36 for Line). A chain of manifests that change or drop files always succeeds. Also in DBCollections with a DBTree."
  },
  {
   "property": "C59",
   "status": "partial",
   "theorems": [
    "C59_new_file_refuted",
    "C59_new_file_fails_partial"
   ],
   "note": "False: base_manifest[name] raises KeyError. Proved instead: every such call raises KeyError."
  },
  {
   "property": "C60",
   "status": "partial",
   "theorems": [
    "C60_documents_partial",
    "C60_exactly",
    "C60_surrogates_refuted"
   ],
   "note": "False for a str with a high surrogate directly before a low one; true for every other str, and for int tags."
  },
  {
   "property": "C61",
   "status": "proved",
   "theorems": [
    "C61_common_prefix"
   ],
   "note": ""
  },
  {
   "property": "C62",
   "status": "partial",
   "theorems": [
    "C62_diff_header_refuted",
    "C56_merge_git"
   ],
   "note": "False: no newline follows the header. Without --diff it is C56."
  },
  {
   "property": "C63",
   "status": "proved",
   "theorems": [
    "C63_clean_merge",
    "C63_unchanged_branch"
   ],
   "note": ""
  },
  {
   "property": "C64",
   "status": "partial",
   "theorems": [
    "C64_int_name_refuted",
    "C64_int_name_partial",
    "C60_documents_partial"
   ],
   "note": "False: the name 1 comes back as the string of its digits. Int tags as values do come back."
  },
  {
   "property": "C65",
   "status": "proved",
   "theorems": [
    "C65_one_line_per_file"
   ],
   "note": ""
  },
  {
   "property": "C66",
   "status": "proved",
   "theorems": [
    "C66_sqrt_paths",
    "C66_sqrt_paths_db",
    "C66_exact_paths",
    "C66_exact_paths_db"
   ],
   "note": ""
  },
  {
   "property": "C67",
   "status": "proved",
   "theorems": [
    "C67_diff_is_greedy",
    "C67_longest_kept"
   ],
   "note": ""
  },
  {
   "property": "C68",
   "status": "proved",
   "theorems": [
    "C68_find_lcs_linear",
    "C68_diff_cost",
    "C68_counts",
    "C68_diff_quadratic"
   ],
   "note": "The quadratic bound cannot be improved (family of texts). Loop iterations are counted; the copying of slices and of transition dictionaries is not."
  },
  {
   "property": "C69",
   "status": "proved",
   "theorems": [
    "C69_every_file_reads",
    "C69_diff_file",
    "C69_merge_file",
    "C69_clean_merge_file",
    "C69_unchanged_branch_file",
    "C69_missing_file",
    "C69_bytes",
    "C69_bytes_missing",
    "C69_basename",
    "C69_diff_exceptions",
    "C69_merge_exceptions"
   ],
   "note": "Regular readable files; a writable output."
  },
  {
   "property": "C70",
   "status": "partial",
   "theorems": [
    "C70_bytes_refuted",
    "C70_encoding_refuted",
    "C70_same_text_refuted",
    "C70_bytes_partial",
    "C70_bytes_exactly_partial",
    "C70_same_text_partial"
   ],
   "note": "False: carriage returns are lost and ISO-8859-1 becomes UTF-8. The bytes come back exactly if they are the UTF-8 of a text with the line ends of the platform. Proved for UTF-8 files without carriage returns where os.linesep is a newline."
  },
  {
   "property": "C71",
   "status": "partial",
   "theorems": [
    "C71_diff_partial",
    "C71_merge_partial",
    "C71_piece_partial",
    "C71_tag_refuted",
    "C71_error_refuted",
    "C71_suffix_refuted",
    "C71_emoji_refuted",
    "C71_control_refuted"
   ],
   "note": "False: rich_escape does not treat backslashes, and rich replaces emoji codes and drops control codes. Proved for texts without these. Wrapping of long lines and tabs are not modelled."
  },
  {
   "property": "C72",
   "status": "partial",
   "theorems": [
    "C72_text_tags_partial",
    "C72_int_tags_refuted",
    "C72_same_text_refuted",
    "C72_base_refuted"
   ],
   "note": "False: a DBTree gives tags back as str, so with dicts for the versions get raises KeyError for an int tag; 1 and '1' are one version in the database; the base 1 is reported as '1'. Proved: in DBCollections with a DBTree every version comes back under its tag when no two tags have the same text."
  },
  {
   "property": "C73",
   "status": "partial",
   "theorems": [
    "C73_three_way_refuted",
    "C73_all_removed_refuted",
    "C73_three_way_partial",
    "C73_all_removed_partial"
   ],
   "note": "False: copy_change puts the change on the first side of the conflict whichever branch it is from (as in C21), and consolidate_conflicts then takes what the mixed sides share for merged text. Parent xbx, branches xx and empty: the merge is x, without a conflict. Proved when no edit of the second branch reaches over the start of one of the first and no removal of the first covers an insertion and a later edit of the second."
  },
  {
   "property": "C74",
   "status": "proved",
   "theorems": [
    "C74_line_diff",
    "C74_consolidated",
    "C74_diff",
    "C74_merge"
   ],
   "note": "For every stream of alternating items without a Change of two empty sides; C74_diff shows that diffs with every tokenizer are such streams, C74_merge that merges of texts are. Adjacent Changes or strings are outside the statement (C54)."
  },
  {
   "property": "C75",
   "status": "proved",
   "theorems": [
    "C75_units_exist",
    "C75_units_unique",
    "C75_encode",
    "C75_diff",
    "C75_lines_whole",
    "C75_words_whole",
    "C75_chars_whole",
    "C75_merge"
   ],
   "note": "The tokens are defined by a relation in SpecTokens, independent of split and of the regular expression matcher of the model. The Unicode table behind \\w is a parameter."
  },
  {
   "property": "C76",
   "status": "partial",
   "theorems": [
    "C76_separate_partial",
    "C76_collection_partial",
    "C76_tree_partial",
    "C76_untouched",
    "C76_continued",
    "C76_creation_empties",
    "C76_tree_creation_empties",
    "C76_reopen_refuted",
    "C76_tree_reopen_refuted",
    "C76_case_refuted",
    "C76_graph_refuted",
    "C76_index_refuted"
   ],
   "note": "False: __init__ drops the table, so creating the objects again loses all versions; names differing in case only are one table; a collection named graph takes the table of the tree, one named graph_parent or graph_parent_rid keeps it from being created. Proved for objects with unrelated names: the answers are those without the other calls."
  },
  {
   "property": "C77",
   "status": "partial",
   "theorems": [
    "C77_edits_partial",
    "C77_texts_partial",
    "C77_statement_refuted",
    "C77_inserts_refuted",
    "C77_removals_refuted",
    "C77_repeats_refuted"
   ],
   "note": "False when tokens repeat: diffs look for the longest common run, so 1 1 1 edited to 1 9 1 1 is shown as two insertions and a removal. Proved when the kept tokens are all different, the inserted ones are new and the removed ones are gone (a file whose lines are all different, for instance); each of the three conditions is shown to be needed."
  },
  {
   "property": "C78",
   "status": "partial",
   "theorems": [
    "C78_merge_partial",
    "C78_conflict_partial",
    "C78_texts_partial",
    "C78_texts_conflict_partial",
    "C78_statement_refuted",
    "C78_merge_refuted",
    "C78_conflict_refuted"
   ],
   "note": "False when tokens repeat, in both directions: edits in different places can conflict and colliding edits can merge silently. Proved, as an equivalence, under the conditions of C77 for both scripts."
  },
  {
   "property": "C79",
   "status": "partial",
   "theorems": [
    "C79_db_partial",
    "C79_memory_partial",
    "C79_memory_refuted",
    "C79_db_cycle_refuted",
    "C79_memory_cycle_refuted"
   ],
   "note": "False: moving a tag below itself never returns on either tree; MemoryTree.change_parent to an unknown tag raises after it has taken the tag from its parent, so its path is lost (and adding a tag again replaces its node, C41). Proved for all other calls: on DBTree all calls that make no circle, on MemoryTree those that add new tags and move to known ones."
  },
  {
   "property": "C80",
   "status": "proved",
   "theorems": [
    "C80_any_stream",
    "C80_any_int"
   ],
   "note": ""
  },
  {
   "property": "C81",
   "status": "proved",
   "theorems": [
    "C81_version_info"
   ],
   "note": "Dicts and MemoryTree (version_info raises AttributeError with a DBCollection, C43); tokenizers Null, Char and Symbol. The counts are of bytes and of pieces, not of tokens and changes as the field names say (C81_words_example)."
  },
  {
   "property": "C82",
   "status": "partial",
   "theorems": [
    "C82_width_partial",
    "C82_room_partial",
    "C82_room_refuted"
   ],
   "note": "False: three bytes are stored for a version of one byte. Proved: at most 2w+1 times the length of the version, where a number up to the length of the longest version takes w bytes (three times up to 240 bytes, five up to 2287, seven up to 67823; reached by examples for w=1 and w=2), and at most twenty times whatever the lengths."
  },
  {
   "property": "C83",
   "status": "partial",
   "theorems": [
    "C83_any_order_partial",
    "C83_texts_partial",
    "C83_statement_refuted",
    "C83_again_refuted",
    "C83_order_refuted"
   ],
   "note": "False even for edits of different lines (C78): where an edit of one branch touches one of another, the two become a single edit after the first merge. If one branch removes the last line and another adds a line after it, merging the second branch again adds the line once more; a third branch may conflict in one order and not in another. Proved under the conditions of C77 when there is a token of the parent between any two different edits; C83_texts_partial says so for the texts gaspra-merge reads and writes, by characters, lines or words, where each result is split into units again for the next merge."
  },
  {
   "property": "C84",
   "status": "partial",
   "theorems": [
    "C84_backwards_partial",
    "C84_exactly_partial",
    "C84_backwards_refuted"
   ],
   "note": "False: with two longest common parts the choice depends on the order of the arguments (1 2 and 2 1). Proved exactly when it holds: when in every round some longest common part comes first in both texts; and under the conditions of C77."
  },
  {
   "property": "C85",
   "status": "partial",
   "theorems": [
    "C85_most_kept_partial",
    "C85_most_kept_refuted",
    "C85_two_kept_refuted"
   ],
   "note": "False: the longest common run is kept first even if it is in the way of more; a diff may keep two tokens although there is a common subsequence of any given length. Proved for every diff in which what is removed is gone or what is inserted is new."
  },
  {
   "property": "C86",
   "status": "proved",
   "theorems": [
    "C86_frame",
    "C86_frame_none",
    "C86_frame_db",
    "C86_frame_none_db"
   ],
   "note": "Tokenizers Null, Char and Symbol (with Line tokens versions do not come back, C36). Which version is the split is not part of the statement; C66 bounds the lengths of the paths."
  },
  {
   "property": "C87",
   "status": "partial",
   "theorems": [
    "C87_diff_utf8_partial",
    "C87_diff_utf8_refuted"
   ],
   "note": "False for the default NullTokenizer, which compares byte by byte (as its comment says it may): the diff of the encodings of e-acute and e-grave keeps their common first byte. Proved for the Char, Line and Symbol tokenizers."
  },
  {
   "property": "C88",
   "status": "proved",
   "theorems": [
    "C88_diff_char_null",
    "C88_merge_char_null",
    "C88_other_bytes_differ"
   ],
   "note": "C88_other_bytes_differ shows that ASCII is needed for bytes."
  },
  {
   "property": "C89",
   "status": "proved",
   "theorems": [
    "C89_tree",
    "C89_longest",
    "C89_insert"
   ],
   "note": "Tags different from each other, as the docstring of insert asks."
  },
  {
   "property": "C90",
   "status": "proved",
   "theorems": [
    "C90_size",
    "C90_reevaluate",
    "C90_invalidate"
   ],
   "note": ""
  },
  {
   "property": "C91",
   "status": "partial",
   "theorems": [
    "C91_height_partial",
    "C91_exactly_partial",
    "C91_height_refuted"
   ],
   "note": "False: update_states adds the heights of both children instead of taking the larger, so the height is always the size (C90_size). Proved: no way down is longer than the recorded height, and one is as long exactly if no two edges leave the same tag anywhere below. C89 shows that the tree comes out with the conjectured shape all the same."
  },
  {
   "property": "C92",
   "status": "partial",
   "theorems": [
    "C92_insert_partial",
    "C92_insert_exactly_partial",
    "C92_construction_partial",
    "C92_reevaluate_partial",
    "C92_counted",
    "C92_linear_refuted"
   ],
   "note": "The last bound is false: update_states itself goes up to the root, and reevaluate calls it for every node on the way up, so n tags take about n^(3/2) steps; exact order proved. The others hold (path_to: C89_longest). Steps are times around the loops of update_states and of find_and_detach_best_split."
  },
  {
   "property": "C93",
   "status": "proved",
   "theorems": [
    "C93_accepted",
    "C93_unique",
    "C93_merge_order",
    "C93_diff_order",
    "C93_torture_order"
   ],
   "note": "argparse as in CPython 3.12 (the standard library's source was read); command lines with the argument -- more than once are left out."
  },
  {
   "property": "C94",
   "status": "proved",
   "theorems": [
    "C94_merge_touches",
    "C94_diff_touches",
    "C94_torture_touches",
    "C94_rejected",
    "C94_help",
    "C94_ambiguous"
   ],
   "note": "Command lines with the argument -- more than once are left out."
  },
  {
   "property": "C95",
   "status": "proved",
   "theorems": [
    "C95_roles",
    "C95_git_roles"
   ],
   "note": ""
  },
  {
   "property": "C96",
   "status": "partial",
   "theorems": [
    "C96_readme_refuted",
    "C96_strikeout_fails_partial",
    "C96_idle_partial"
   ],
   "note": "False: the program ends with TypeError as soon as one of the two diffs or the merge has something to strike out (exactly then, see C57_merge_strikeout_partial). Without -d, -s does nothing."
  },
  {
   "property": "C97",
   "status": "proved",
   "theorems": [
    "C97_torture_is_merge",
    "C97_options",
    "C97_files",
    "C97_listed_files",
    "C97_distinct_files"
   ],
   "note": ""
  },
  {
   "property": "C98",
   "status": "proved",
   "theorems": [
    "C98_merge",
    "C98_diff",
    "C98_merge_missing",
    "C98_diff_missing"
   ],
   "note": "What the merge and the diff themselves do is said by C56, C57, C62, C63, C69, C71, C74, C75 and the properties of merges and diffs."
  },
  {
   "property": "C99",
   "status": "proved",
   "theorems": [
    "C99_difflib_answer",
    "C99_exchanged",
    "C99_same_length",
    "C99_same_positions",
    "C99_positions_refuted"
   ],
   "note": "C99_positions_refuted shows two sequences for which the places differ when the arguments are in the same order. SequenceMatcher as in CPython 3.12 without junk (the standard library's source was read)."
  }
 ]
}