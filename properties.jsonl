{"id": "C01", "title": "find_lcs returns a longest common substring", "statement": "find_lcs(a,b) always returns some (pa,pb,l) with a[pa:pa+l]==b[pb:pb+l], both slices lying inside their sequences, and no common contiguous run of a and b is longer than l.", "quantifier": "every pair of finite token sequences over any token type with a lawful ==", "why_tests_cant": "The automaton has unboundedly many shapes; tests check a handful of strings and only local maximality for random ones.", "anchors": ["src/gaspra/suffix_automaton.py:build", "src/gaspra/suffix_automaton.py:extend", "src/gaspra/suffix_automaton.py:insert_node", "src/gaspra/suffix_automaton.py:find_lcs", "src/gaspra/wrappers.py:find_lcs"]}
{"id": "C02", "title": "find_lcs reports first occurrences", "statement": "Among all longest common substrings find_lcs picks the one ending earliest in b, pb is where it occurs there, and pa is its first occurrence in a; with nothing in common the answer is (0,0,0). The result is therefore a function of the sequences alone.", "quantifier": "every pair of finite token sequences", "why_tests_cant": "The docstring promise 'locations of the first occurences' depends on first_endpos of cloned states, which only rare inputs exercise.", "anchors": ["src/gaspra/suffix_automaton.py:find_lcs", "src/gaspra/wrappers.py:find_lcs"]}
{"id": "C03", "title": "find_substring returns exactly all occurrences", "statement": "find_substring(search_in, search_for) returns the strictly increasing list of exactly the positions where search_for occurs in search_in, overlapping occurrences included; the empty pattern occurs at 0..len.", "quantifier": "every pair of finite token sequences", "why_tests_cant": "Missing or spurious positions depend on link-tree shape; tests only cover a few patterns.", "anchors": ["src/gaspra/wrappers.py:find_substring", "src/gaspra/suffix_automaton.py:find_substring_all", "src/gaspra/suffix_automaton.py:follow_reverse_links", "src/gaspra/suffix_automaton.py:dedup_sorted"]}
{"id": "C04", "title": "suffix_automaton.find_substring finds the first occurrence", "statement": "find_substring(build(s), w) is None iff w does not occur in s, and otherwise is the smallest position at which w occurs.", "quantifier": "every pair of finite token sequences", "why_tests_cant": "Needs every substring of every string.", "anchors": ["src/gaspra/suffix_automaton.py:find_substring", "src/gaspra/suffix_automaton.py:_find_match_node"]}
{"id": "C05", "title": "The automaton enumerates each suffix exactly once", "statement": "list(all_suffixes(build(s))) contains every suffix of s (the empty one included) exactly once and nothing else.", "quantifier": "every finite token sequence", "why_tests_cant": "The tests check three strings.", "anchors": ["src/gaspra/suffix_automaton.py:all_suffixes", "src/gaspra/suffix_automaton.py:mark_terminal_nodes"]}
{"id": "C06", "title": "Automaton construction terminates with linear size", "statement": "build(s) terminates without error and creates at most 2*len(s)+1 nodes (at most 2*len(s)-1 when len(s) >= 2), and the number of link-following steps of construction is linear in len(s).", "quantifier": "every finite token sequence", "why_tests_cant": "Worst cases are adversarial; a benchmark samples random strings.", "anchors": ["src/gaspra/suffix_automaton.py:build", "src/gaspra/suffix_automaton.py:extend", "src/gaspra/suffix_automaton.py:insert_node"]}
{"id": "C07", "title": "find_lcs_multiple returns the longest substring common to all strings", "statement": "For a non-empty list of strings find_lcs returns one position per string and a length l such that the slices of length l at those positions are all equal, each position is the first occurrence in its string, and no substring common to all strings is longer; with no strings it returns ((), None).", "quantifier": "every finite list of token sequences whose tokens are never equal to a Separator", "why_tests_cant": "Ranges over arbitrarily many strings and a stack-based traversal of an arbitrary automaton.", "anchors": ["src/gaspra/multiple_strings.py:find_lcs", "src/gaspra/multiple_strings.py:get_string_offsets", "src/gaspra/multiple_strings.py:update_shared_strings"]}
{"id": "C08", "title": "Separators are never confused with tokens", "statement": "The separators inserted between strings can never be confused with a token of the sequences (claimed in a comment), so find_lcs_multiple is right for every hashable token.", "quantifier": "every finite list of sequences of hashable tokens, including tuples", "why_tests_cant": "Requires tokens that compare equal to a namedtuple; no test has one.", "anchors": ["src/gaspra/multiple_strings.py:concatenate_strings", "src/gaspra/types.py:Separator"]}
{"id": "C09", "title": "Forward patch reproduces the modified sequence", "statement": "apply_forward(find_changeset(o,m).as_change_stream(), o) == m, and likewise apply(strip_forward(..)) and old_apply_forward.", "quantifier": "every pair of finite token sequences", "why_tests_cant": "Recursion over arbitrary LCS splits.", "anchors": ["src/gaspra/changesets.py:find_changeset", "src/gaspra/changesets.py:apply", "src/gaspra/changesets.py:strip_forward", "src/gaspra/changesets.py:apply_forward", "src/gaspra/changesets.py:old_apply_forward"]}
{"id": "C10", "title": "Reverse patch reproduces the original sequence", "statement": "apply_reverse(find_changeset(o,m).as_change_stream(), m) == o, and likewise old_apply_reverse.", "quantifier": "every pair of finite token sequences", "why_tests_cant": "Recursion over arbitrary LCS splits.", "anchors": ["src/gaspra/changesets.py:strip_reverse", "src/gaspra/changesets.py:apply_reverse", "src/gaspra/changesets.py:old_apply_reverse"]}
{"id": "C11", "title": "A diff accounts for both sequences exactly", "statement": "In diff_token_sequences(o,m), concatenating the common items with the second components of the changes gives o, and with the first components gives m.", "quantifier": "every pair of finite token sequences", "why_tests_cant": "Needs every alignment.", "anchors": ["src/gaspra/changesets.py:diff_token_sequences", "src/gaspra/changesets.py:Changeset.as_diff_stream"]}
{"id": "C12", "title": "A diff is in normal form", "statement": "diff items strictly alternate between common runs and Changes, no item is empty, and the two sides of a Change have no token in common.", "quantifier": "every pair of finite token sequences", "why_tests_cant": "Adjacent common runs or left-over common tokens appear only when LCS maximality fails somewhere in the recursion.", "anchors": ["src/gaspra/changesets.py:find_changeset", "src/gaspra/changesets.py:ChangesetLeaf.as_diff_stream"]}
{"id": "C13", "title": "Trivial diffs", "statement": "diff(x,x) is [x] (or [] for empty x); diff of sequences with no common token is the single Change(m,o); diff against the empty sequence is one pure insertion or deletion.", "quantifier": "every finite token sequence", "why_tests_cant": "Universal identity laws.", "anchors": ["src/gaspra/changesets.py:diff_token_sequences"]}
{"id": "C14", "title": "Diffs depend only on the equality pattern of tokens", "statement": "Renaming tokens by any injective map renames the diff (and merge) accordingly; hence the integer ids chosen by a tokenizer never influence which regions are reported.", "quantifier": "every pair of sequences and every injective renaming", "why_tests_cant": "Quantifies over renamings.", "anchors": ["src/gaspra/changesets.py:find_changeset", "src/gaspra/tokenizers.py:generic_encode"]}
{"id": "C15", "title": "Diff works on inputs of any length", "statement": "find_changeset needs bounded recursion depth, so diff works for inputs of any length.", "quantifier": "every pair of sequences", "why_tests_cant": "Depth grows with the number of common runs; tests are short.", "anchors": ["src/gaspra/changesets.py:find_changeset"]}
{"id": "C16", "title": "Merge terminates without exception", "statement": "merge_token_sequence(p,b0,b1) always terminates and raises nothing, for str, tuple and bytes inputs.", "quantifier": "every triple of finite sequences of the same kind", "why_tests_cant": "Loop pushes fragments back; a literal '' is used whatever the sequence type.", "anchors": ["src/gaspra/merge.py:_merge", "src/gaspra/merge.py:flush_remaining", "src/gaspra/merge.py:pending_conflict"]}
{"id": "C17", "title": "Merging with an unchanged branch yields the other branch", "statement": "merge(p,p,b) == [b] and merge(p,b,p) == [b] for every p and b.", "quantifier": "every pair of sequences", "why_tests_cant": "Universal merge law.", "anchors": ["src/gaspra/merge.py:merge_token_sequence"]}
{"id": "C18", "title": "Merging identical branches yields the branch", "statement": "merge(p,b,b) == [b] without any conflict.", "quantifier": "every pair of sequences", "why_tests_cant": "Universal merge law.", "anchors": ["src/gaspra/merge.py:change_change", "src/gaspra/merge.py:are_identical_changes"]}
{"id": "C19", "title": "Conflict-free merge is the positional union of both edits", "statement": "If no edit of one branch collides with an edit of the other (two edits are compatible when they are identical, or one ends before the other starts, or they start together and one only inserts while the other only removes), the merge reports no conflict and the merged sequence is obtained from the parent by keeping exactly the tokens both branches keep and inserting both branches' insertions at their positions, each insertion made identically by both branches appearing once.", "quantifier": "every triple whose edit scripts do not conflict", "why_tests_cant": "Ranges over all pairs of edit scripts.", "anchors": ["src/gaspra/merge.py:_merge", "src/gaspra/merge.py:copy_change", "src/gaspra/merge.py:compose_changes"]}
{"id": "C20", "title": "Merge output is in normal form", "statement": "The merge result is never empty, strictly alternates plain runs and conflicts, contains no empty plain run unless it is the only item, no empty conflict, and the two sides of a conflict share no token.", "quantifier": "every triple of sequences", "why_tests_cant": "Two consolidation passes with re-diffing.", "anchors": ["src/gaspra/merge.py:consolidate", "src/gaspra/merge.py:consolidate_conflicts", "src/gaspra/merge.py:consolidate_all"]}
{"id": "C21", "title": "Conflict sides belong to their branches", "statement": "In every reported conflict the first side comes from branch0 and the second from branch1: resolving every conflict to the first side keeps branch0's text there.", "quantifier": "every triple of sequences", "why_tests_cant": "Depends on which fragment kind meets which; the swapped case is not in the tests.", "anchors": ["src/gaspra/merge.py:copy_change", "src/gaspra/merge.py:process_fragments"]}
{"id": "C22", "title": "Merge invents nothing", "statement": "Every token of the merge result occurs in branch0 or in branch1.", "quantifier": "every triple of sequences", "why_tests_cant": "Universal.", "anchors": ["src/gaspra/merge.py:merge_token_sequence"]}
{"id": "C23", "title": "Merge loses no insertion", "statement": "Every token inserted by either branch (relative to the parent, per its diff) occurs in the merge result.", "quantifier": "every triple of sequences", "why_tests_cant": "Universal; a dropped tail would lose text only in rare overlaps.", "anchors": ["src/gaspra/merge.py:_merge", "src/gaspra/merge.py:split_change_fragment", "src/gaspra/merge.py:ordinary_conflict"]}
{"id": "C24", "title": "Merge treats the branches symmetrically", "statement": "Swapping the branches swaps the sides of each conflict and changes nothing else.", "quantifier": "every triple of sequences", "why_tests_cant": "Quantifies over all inputs.", "anchors": ["src/gaspra/merge.py:process_fragments", "src/gaspra/merge.py:copy_change"]}
{"id": "C26", "title": "Variable-length integers round-trip", "statement": "vdeserialize_int(vserialize_int(v) + rest) == (v, rest) for 0 <= v < 2**64 and any rest; any other integer raises OverflowError.", "quantifier": "all integers and all byte strings", "why_tests_cant": "2**64 values and unbounded tails.", "anchors": ["src/gaspra/serialize.py:vserialize_int", "src/gaspra/serialize.py:vdeserialize_int"]}
{"id": "C27", "title": "Variable-length integers are prefix-free, ordered and compact", "statement": "Encodings are 1 to 9 bytes, no encoding is a proper prefix of another, lexicographic byte order equals numeric order, and length is monotone in the value.", "quantifier": "all pairs of integers below 2**64", "why_tests_cant": "Pairs of 2**64 values.", "anchors": ["src/gaspra/serialize.py:vserialize_int"]}
{"id": "C28", "title": "Patches survive serialization", "statement": "deserialize_changeset(serialize_changeset(patch)) yields the patch with empty byte strings and equal-bound slices dropped, hence applying it to any version gives the same result.", "quantifier": "every list of byte strings and slices with bounds below 2**64", "why_tests_cant": "Arbitrary interleavings of slices and byte strings and sizes.", "anchors": ["src/gaspra/serialize.py:serialize_changeset", "src/gaspra/serialize.py:deserialize_changeset"]}
{"id": "C29", "title": "Truncated streams never yield wrong data", "statement": "Deserializing any truncation of a serialized patch yields a prefix of the patch's items and then either stops or raises RuntimeError.", "quantifier": "every patch and every truncation point", "why_tests_cant": "Every cut of every stream.", "anchors": ["src/gaspra/serialize.py:deserialize_changeset", "src/gaspra/serialize.py:vdeserialize_int"]}
{"id": "C30", "title": "Fixed-width integers round-trip", "statement": "deserialize_int(serialize_int(v)+rest) == (v,rest) for 0 <= v < 2**32; shorter streams raise; larger values raise OverflowError.", "quantifier": "all integers and byte strings", "why_tests_cant": "2**32 values, unbounded tails.", "anchors": ["src/gaspra/serialize.py:serialize_int", "src/gaspra/serialize.py:deserialize_int"]}
{"id": "C31", "title": "Every version is retrievable verbatim", "statement": "After any history of successful adds with fresh tags, each based on nothing or on a current head, get(tag) returns exactly the bytes added under tag, and None for any other tag.", "quantifier": "every finite history of adds, any branching, any contents", "why_tests_cant": "Tree restructuring depends on the whole history.", "anchors": ["src/gaspra/versions.py:Versions.add", "src/gaspra/versions.py:Versions.get", "src/gaspra/versions.py:Versions._retrieve_using_path", "src/gaspra/memory_tree.py:MemoryTree"]}
{"id": "C32", "title": "Exactly the branch heads are stored verbatim", "statement": "After any such history the verbatim store holds exactly the tags that are not the base of a later add, every other tag has exactly one stored diff, and each version is stored exactly once.", "quantifier": "every finite history of adds", "why_tests_cant": "History-dependent invariant.", "anchors": ["src/gaspra/versions.py:Versions._add_edge"]}
{"id": "C33", "title": "version_info and base_version report the recorded base", "statement": "After any such history base_version(tag) is the base given when tag was added, tag in versions iff it was added, and version_info agrees.", "quantifier": "every finite history of adds", "why_tests_cant": "History-dependent; change_parent copies nodes with replace().", "anchors": ["src/gaspra/versions.py:Versions.version_info", "src/gaspra/memory_tree.py:MemoryTree.base_version"]}
{"id": "C34", "title": "Tree metrics are exact", "statement": "After any history height and size of every node equal the true height and number of nodes of its subtree, each node is listed exactly once among its parent's children, and parents form a forest.", "quantifier": "every finite history of adds", "why_tests_cant": "Incremental maintenance.", "anchors": ["src/gaspra/memory_tree.py:MemoryTree._update_metrics", "src/gaspra/memory_tree.py:MemoryTree.change_parent"]}
{"id": "C35", "title": "get_split returns a path to a descendant", "statement": "get_split(head) terminates with a split and the path from head to it, each step a parent-child edge.", "quantifier": "every finite history of adds", "why_tests_cant": "max() over children would raise on a leaf if metrics were wrong.", "anchors": ["src/gaspra/memory_tree.py:MemoryTree.get_split"]}
{"id": "C36", "title": "Versions work with every tokenizer", "statement": "get(tag) returns exactly the bytes added under tag for Versions(tokenizer_factory=X) for the Null, Char, Symbol and Line tokenizers.", "quantifier": "every finite history of adds with contents the tokenizer accepts", "why_tests_cant": "Re-encoding of stored fragments is not a homomorphism in general.", "anchors": ["src/gaspra/versions.py:Versions._retrieve_using_path", "src/gaspra/tokenizers.py:LineTokenizer", "src/gaspra/tokenizers.py:SymbolTokenizer", "src/gaspra/tokenizers.py:CharTokenizer"]}
{"id": "C37", "title": "A rejected add does no harm", "statement": "If add raises (base is unknown or not a head), every previously added version is still retrievable verbatim and the new tag is not visible.", "quantifier": "every history and every invalid base", "why_tests_cant": "Failure paths after every history.", "anchors": ["src/gaspra/versions.py:Versions.add"]}
{"id": "C38", "title": "Re-adding a tag is rejected or harmless", "statement": "Adding an existing tag again never corrupts another version.", "quantifier": "every history", "why_tests_cant": "Histories with duplicates.", "anchors": ["src/gaspra/versions.py:Versions.add", "src/gaspra/memory_tree.py:MemoryTree.add", "src/gaspra/db_tree.py:DBTree.add"]}
{"id": "C39", "title": "An interrupted add loses no earlier version", "statement": "If add is interrupted between any two of its store updates, every previously added version is still retrievable verbatim.", "quantifier": "every history and every interruption point", "why_tests_cant": "Crash points cannot be enumerated by tests.", "anchors": ["src/gaspra/versions.py:Versions.add", "src/gaspra/versions.py:Versions._add_edge"]}
{"id": "C40", "title": "DBTree and MemoryTree are interchangeable under Versions", "statement": "For every history of adds with fresh tags (Null, Char and Symbol tokenizers) the SQL-backed tree gives the same containment as the in-memory tree for every tag, and the same path, split and base version for every tag that was added; Versions objects built on either return the same contents for every tag and accept the same adds.", "quantifier": "every finite history of adds with fresh tags", "why_tests_cant": "Refinement over all histories.", "anchors": ["src/gaspra/db_tree.py:DBTree", "src/gaspra/db_tree_sql.py", "src/gaspra/memory_tree.py:MemoryTree"]}
{"id": "C41", "title": "DBTree and MemoryTree are interchangeable for any use of the Tree protocol", "statement": "Any sequence of add/change_parent calls that creates no cycle leaves both trees with the same metrics and splits.", "quantifier": "every sequence of protocol calls", "why_tests_cant": "Only sequences giving one node three children reveal the two-slot table.", "anchors": ["src/gaspra/db_tree.py:DBTree.change_parent", "src/gaspra/tree.py"]}
{"id": "C42", "title": "DBCollection behaves like a dict", "statement": "Any sequence of set/get/del/len/contains/iter calls gives the results a dict gives, KeyErrors included.", "quantifier": "every finite sequence of operations", "why_tests_cant": "Unbounded operation sequences.", "anchors": ["src/gaspra/db_collections.py:DBCollection"]}
{"id": "C43", "title": "Versions works on DBCollection stores", "statement": "Every Versions method works when its stores are DBCollections.", "quantifier": "every history", "why_tests_cant": "version_info uses a method DBCollection does not have.", "anchors": ["src/gaspra/versions.py:Versions.version_info", "src/gaspra/db_collections.py:DBCollection"]}
{"id": "C44", "title": "Adding a version rewrites at most two diffs", "statement": "Each add writes at most two diffs, so a history of n adds writes at most 2n diffs, and a retrieval applies at most height-1 diffs.", "quantifier": "every finite history of adds", "why_tests_cant": "Cost over all histories.", "anchors": ["src/gaspra/versions.py:Versions.add"]}
{"id": "C46", "title": "Tokenizers round-trip", "statement": "decode(encode(x)) == x for the Null, Char, Line and Symbol tokenizers, whatever was encoded before with the same tokenizer.", "quantifier": "every content (valid UTF-8 for Char/Symbol on bytes) and every earlier encode history", "why_tests_cant": "Unbounded contents and histories.", "anchors": ["src/gaspra/tokenizers.py:CharTokenizer", "src/gaspra/tokenizers.py:LineTokenizer", "src/gaspra/tokenizers.py:SymbolTokenizer", "src/gaspra/tokenizers.py:generic_encode", "src/gaspra/tokenizers.py:generic_decode"]}
{"id": "C47", "title": "Token ids identify token texts", "statement": "Across all encode calls on one tokenizer, two tokens get the same id iff their texts are equal, and tokens encoded earlier still decode to the same text.", "quantifier": "every sequence of encode calls", "why_tests_cant": "Unbounded histories.", "anchors": ["src/gaspra/tokenizers.py:generic_encode"]}
{"id": "C48", "title": "diff() accounts for both texts exactly for every tokenizer", "statement": "With any tokenizer, joining the common items with the second (first) components of diff(o,m) gives o (m) as text.", "quantifier": "every pair of texts, every tokenizer", "why_tests_cant": "Composition over all inputs.", "anchors": ["src/gaspra/tokenizers.py:diff", "src/gaspra/tokenizers.py:decode_changes"]}
{"id": "C49", "title": "diff() depends only on its arguments", "statement": "diff(a,b) gives the same result whatever calls were made before.", "quantifier": "every history of calls", "why_tests_cant": "The default tokenizer is a shared mutable object.", "anchors": ["src/gaspra/tokenizers.py:diff", "src/gaspra/tokenizers.py:NullTokenizer.encode"]}
{"id": "C50", "title": "tokenizers.merged merges", "statement": "merged(parent,current,other) returns the decoded merge for every input.", "quantifier": "every triple", "why_tests_cant": "It is never called in the tests.", "anchors": ["src/gaspra/tokenizers.py:merged", "src/gaspra/tokenizers.py:decode_changes"]}
{"id": "C51", "title": "line_encode_strings round-trips", "statement": "For line_encode_strings(s1..sn), joining decoding[t] for t in the i-th encoding with newlines gives s_i, and ids identify lines.", "quantifier": "every tuple of strings", "why_tests_cant": "Unbounded.", "anchors": ["src/gaspra/tokenizers.py:line_encode_strings"]}
{"id": "C52", "title": "Line diffs preserve both texts", "statement": "to_line_diff of a diff or merge result contains exactly the two texts of its input, except that one newline may be appended to both at the very end.", "quantifier": "every alternating stream of strings and Changes", "why_tests_cant": "Accumulator state machine.", "anchors": ["src/gaspra/diff_to_lines.py:to_line_diff", "src/gaspra/diff_to_lines.py:handle_fragment", "src/gaspra/diff_to_lines.py:DiffAccumulator"]}
{"id": "C53", "title": "Line diffs consist of whole lines", "statement": "Every string item of to_line_diff and both sides of every Change end at a line boundary of their text.", "quantifier": "every alternating stream", "why_tests_cant": "Accumulator state machine.", "anchors": ["src/gaspra/diff_to_lines.py:DiffAccumulator.finish_conflict"]}
{"id": "C54", "title": "Line diff accepts any stream", "statement": "The line diff preserves both texts for any stream of strings and Changes.", "quantifier": "every stream, including adjacent strings", "why_tests_cant": "Adjacent strings never occur in the tests.", "anchors": ["src/gaspra/diff_to_lines.py:to_line_diff"]}
{"id": "C55", "title": "Consolidation preserves content and merges neighbours", "statement": "consolidate() preserves both texts, keeps strings unchanged and in order, and leaves no two adjacent Changes.", "quantifier": "every stream", "why_tests_cant": "Universal.", "anchors": ["src/gaspra/diff_to_lines.py:consolidate", "src/gaspra/diff_to_lines.py:consolidated_line_diff"]}
{"id": "C56", "title": "Git-style output is well formed", "statement": "With git markers each Change of a consolidated line diff is printed as <<<<<<<, first side, =======, second side, >>>>>>> with every marker at the start of a line; when no line of the texts is itself a marker line and the names are single lines, stripping the markers recovers either text (with one newline appended to both when one of them lacks its last newline). Output file (-o), without --strikeout (see C57) and --diff headers (see C62).", "quantifier": "every diff or merge result", "why_tests_cant": "Depends on every stream.", "anchors": ["src/gaspra/markup.py:markup_stream", "src/gaspra/markup.py:markup_change_item", "src/gaspra/markup.py:GIT_MARKUP_LEVEL0"]}
{"id": "C57", "title": "Strikeout rendering works", "statement": "The --strikeout option renders every diff without error.", "quantifier": "every diff", "why_tests_cant": "Never exercised.", "anchors": ["src/gaspra/merge_tool.py:get_markup_style", "src/gaspra/markup.py:markup_change_item"]}
{"id": "C58", "title": "Manifests round-trip", "statement": "After add_manifest succeeds, get_manifest returns the manifest and every file version it names is retrievable with its contents.", "quantifier": "every history of manifests", "why_tests_cant": "Histories of manifests.", "anchors": ["src/gaspra/manifest.py:add_manifest", "src/gaspra/manifest.py:get_manifest"]}
{"id": "C59", "title": "A manifest may add a file", "statement": "add_manifest succeeds when the new manifest names a file its base manifest does not have.", "quantifier": "every base manifest and extension", "why_tests_cant": "Tests use a fixed set of files.", "anchors": ["src/gaspra/manifest.py:add_manifest"]}
{"id": "C60", "title": "Manifest documents round-trip", "statement": "doc_to_manifest(manifest_to_doc(m)) == m for every manifest of strings.", "quantifier": "every dict from str to str", "why_tests_cant": "All strings incl. quotes, control characters, non-BMP.", "anchors": ["src/gaspra/manifest.py:manifest_to_doc", "src/gaspra/manifest.py:doc_to_manifest"]}
{"id": "C61", "title": "common_prefix_length is the length of the longest common prefix", "statement": "common_prefix_length(a,b) is the largest n with a[:n]==b[:n].", "quantifier": "every pair of sequences", "why_tests_cant": "Universal.", "anchors": ["src/gaspra/common.py:common_prefix_length"]}
{"id": "C62", "title": "Git-style output with --diff is well formed", "statement": "gaspra-merge --diff -g puts every marker at the start of a line, so that stripping the markers works for the diffs shown before the merge.", "quantifier": "every triple of texts", "why_tests_cant": "The header is only looked at by eye.", "anchors": ["src/gaspra/markup.py:show_header", "src/gaspra/merge_tool.py:_merge", "src/gaspra/markup.py:GIT_MARKUP_LEVEL0"]}
{"id": "C63", "title": "A merge without conflicts is written verbatim", "statement": "Without -g and -L, gaspra-merge -o writes exactly the merged text when there is no conflict; in particular the other text when one branch equals the parent, and the common text when the branches are equal.", "quantifier": "every triple of texts, every tokenizer", "why_tests_cant": "End-to-end statement over all texts.", "anchors": ["src/gaspra/merge_tool.py:_merge", "src/gaspra/markup.py:markup_changes"]}
{"id": "C64", "title": "Manifest documents keep names that are not strings", "statement": "doc_to_manifest(manifest_to_doc(m)) == m also when names of m are ints: Manifest is declared as dict[Tag, Tag] with any hashable tags.", "quantifier": "every manifest of strings and ints", "why_tests_cant": "Tests use strings only.", "anchors": ["src/gaspra/manifest.py:Manifest", "src/gaspra/manifest.py:manifest_to_doc", "src/gaspra/manifest.py:doc_to_manifest"]}
{"id": "C65", "title": "A manifest document has one line per file", "statement": "manifest_to_doc(m) has max(1, len(m)) lines; the line of an entry is the same in every manifest up to its first and last character, and lines of different entries differ, so a line diff of two documents shows the changed files.", "quantifier": "every manifest", "why_tests_cant": "Names may contain newlines, quotes and other control characters.", "anchors": ["src/gaspra/manifest.py:manifest_to_doc"]}
{"id": "C66", "title": "Retrieval and insertion paths are O(sqrt n)", "statement": "Among n versions, retrieving any version replays d diffs with (d+1)(d+3) <= 8n, and the split chosen by an add lies at most e nodes below the head with e(e-1) <= 2n: both are at most of the order of the square root of n. n may be taken as the number of versions in the tree of the head concerned. Exactly: if head x was made from n versions (x, the head it was added to, and so on), the longest of the paths from x to them has d versions, where (d+1)^2 <= 4n+1 < (d+2)^2, and the path to the split has floor(d/2)+1. The author conjectures this for the earlier tree (src/deprecated/revision_tree.py: 'appears to be O(n^(1/2)) (unproven ...)').", "quantifier": "every finite history of adds with fresh tags, accepted or rejected; MemoryTree and DBTree", "why_tests_cant": "An asymptotic claim; the author could only time it.", "anchors": ["src/gaspra/memory_tree.py:MemoryTree.get_split", "src/gaspra/memory_tree.py:MemoryTree.path_to", "src/gaspra/db_tree.py:DBTree.get_split", "src/gaspra/versions.py:Versions.add", "src/deprecated/revision_tree.py:Tree"]}
{"id": "C67", "title": "A diff is exactly the recursive LCS diff", "statement": "diff_token_sequences(o,m) keeps the longest run of tokens common to both sequences (of several, the one that comes first in the modified sequence, taken where it first occurs in the original) as one unchanged item, and does the same before and after it; changes are what is left. This determines the diff. In particular, some unchanged item is as long as any common run.", "quantifier": "every pair of token sequences", "why_tests_cant": "Tests fix a few outputs; the rule that determines all of them is never checked.", "anchors": ["src/gaspra/changesets.py:find_changeset", "src/gaspra/changesets.py:diff_token_sequences"]}
{"id": "C68", "title": "Searches are linear, diffs at most quadratic", "statement": "find_lcs(a,b), building included, makes at most 6|a|+2|b|+2 loop iterations; diff_token_sequences(o,m) makes at most min(|o|,|m|)+1 times that for whole sequences (README: 'suffix automata with linear time and space complexity'), and there are texts for which it takes quadratically many.", "quantifier": "every pair of token sequences", "why_tests_cant": "Worst-case cost over all inputs.", "anchors": ["src/gaspra/suffix_automaton.py:find_lcs", "src/gaspra/changesets.py:find_changeset", "README.md"]}
{"id": "C69", "title": "Reading and writing files", "statement": "With --output, for input files with any bytes and any os.linesep: every existing input can be read (UTF-8, else ISO-8859-1) as text without carriage returns; gaspra-diff and gaspra-merge (without -s, file names encodable and without CR) do not raise and change no file but the output; reading the output gives exactly the text written. A conflict-free merge reads back as the merged text, a merge with an unchanged branch as the other branch, also when the output is one of the inputs. The name shown for a file is the part of its path after the last slash. Whatever the options and names, the output file holds everything written before the first chunk that cannot be encoded, and an exception of the rendering or of the encoding is raised to the caller. If an input is missing the error is OSError and no file is changed.", "quantifier": "every file system content, file names, options, line separator", "why_tests_cant": "All byte strings are possible inputs, including invalid UTF-8, mixed line ends and lone carriage returns; tests use a few files.", "anchors": ["src/gaspra/merge_tool.py:get_text", "src/gaspra/merge_tool.py:_merge", "src/gaspra/merge_tool.py:diff_cli", "src/gaspra/markup.py:file_writer"]}
{"id": "C70", "title": "A merge with an unchanged branch copies the other file", "statement": "gaspra-merge -o out p c t with c and p the same bytes writes exactly the bytes of t; two files are shown without a difference only if they have the same bytes.", "quantifier": "every three files", "why_tests_cant": "Depends on all byte sequences; line ends and encodings change silently.", "anchors": ["src/gaspra/merge_tool.py:get_text", "src/gaspra/markup.py:file_writer"]}
{"id": "C71", "title": "The console shows the texts", "statement": "Without --output, gaspra-diff shows on the console exactly the two texts: what is not red is the modified text, what is not green the original one (in line mode with a final newline); nothing in the texts is taken for markup of rich. Likewise for gaspra-merge and the two sides of the merge.", "quantifier": "every pair of texts, every option but -g and -s", "why_tests_cant": "Texts may contain brackets, backslashes, colons and control codes in any combination.", "anchors": ["src/gaspra/markup.py:rich_escape", "src/gaspra/markup.py:console_writer", "src/gaspra/markup.py:markup_stream", "src/gaspra/merge_tool.py:diff_cli"]}
{"id": "C72", "title": "The database classes take the tags the protocol allows", "statement": "Tags are Hashable in the Tree protocol and in Versions. A version added under a tag that is an int is retrievable under it when the tree is a DBTree, two different tags are two different versions, and base_version returns the tag that was given.", "quantifier": "every history of adds with str and int tags", "why_tests_cant": "The tests use str tags with the database classes; the TEXT columns turn ints into str silently.", "anchors": ["src/gaspra/db_tree_sql.py:CREATE_GRAPH", "src/gaspra/db_collections.py:DBCollection", "src/gaspra/db_tree.py:DBTree.path_to", "src/gaspra/tree.py:Tree", "src/gaspra/versions.py:Versions.get"]}
{"id": "C73", "title": "A merge is a three-way merge", "statement": "Going through the parent, wherever one branch keeps the parent the merge has what the other branch has there; wherever both change the same tokens or insert at the same place, or a removal of one reaches over the start of a change of the other, the merge shows the text of both branches, the first on the first side and the second on the second. Nothing else is in the merge. In particular, when one branch only removes tokens and the other removes everything, no text remains without a conflict.", "quantifier": "every parent, pair of branches and sequence type", "why_tests_cant": "A merge without a reported conflict is taken without being read; which overlaps of edits go wrong silently depends on all pairs of diffs.", "anchors": ["src/gaspra/merge.py:_merge", "src/gaspra/merge.py:copy_change", "src/gaspra/merge.py:pending_conflict", "src/gaspra/merge.py:consolidate"]}
{"id": "C74", "title": "Line diffs mark exactly the changes and show no unchanged line as changed", "statement": "The line diff of a diff or merge, read back character by character, marks the same characters as inserted and as removed as the diff itself, in the same order, plus at most one final newline marked as common. Every Change of the line diff has something inserted or removed in it, and no whole line in it is common to both texts, blank lines apart.", "quantifier": "every isspace predicate, every stream of alternating strings and Changes; in particular every diff of two texts with every tokenizer and every merge", "why_tests_cant": "Tests look at a few layouts; a line wrongly shown as changed, or an inserted character shown unmarked, depends on where the newlines fall in every fragment.", "anchors": ["src/gaspra/changesets.py:diff_token_sequences", "src/gaspra/diff_to_lines.py:to_line_diff", "src/gaspra/diff_to_lines.py:handle_fragment", "src/gaspra/diff_to_lines.py:consolidated_line_diff"]}
{"id": "C75", "title": "Diffs and merges never split a line, word or character", "statement": "Each tokenizer has one way to cut a text: NullTokenizer into single characters or bytes; CharTokenizer into characters, of bytes their UTF-8 encodings; LineTokenizer into lines with their newline and what follows the last newline; SymbolTokenizer into longest runs of word characters, dollar and hyphen, and single other characters. encode returns one token for each such piece. Every string in a diff is put together from whole pieces, so with the LineTokenizer every cut is at the start of a line or at the end of the text, with the SymbolTokenizer never inside a word, with the CharTokenizer never inside an encoded character; no piece is on both sides of a Change. Every piece in a merge of gaspra-merge is a piece of one of the branches.", "quantifier": "every text (bytes or str), every tokenizer after any use on texts of the same type, every meaning of \\w", "why_tests_cant": "Whether a word or a line can be cut depends on what is next to it in every text; tests show it for a few texts.", "anchors": ["src/gaspra/tokenizers.py:SYMBOLS", "src/gaspra/tokenizers.py:CharTokenizer", "src/gaspra/tokenizers.py:LineTokenizer", "src/gaspra/tokenizers.py:SymbolTokenizer", "src/gaspra/tokenizers.py:diff", "src/gaspra/merge.py:_merge"]}
{"id": "C76", "title": "What is in a database stays until it is removed", "statement": "Objects of DBCollection and DBTree on one database do not disturb each other: what is stored through one is found through it again whatever is created, stored or removed through others, also after the program was started again and the objects were created again for the same file.", "quantifier": "every sequence of creations and method calls on any number of objects, every content of the database at the beginning", "why_tests_cant": "Tests create each object once on a fresh database; whether two names meet or a second creation loses data shows only in histories with several objects.", "anchors": ["src/gaspra/db_collections.py:DBCollection", "src/gaspra/db_tree.py:DBTree", "src/gaspra/db_tree_sql.py:CREATE_GRAPH", "src/gaspra/db_connections.py:connection_factory"]}
{"id": "C77", "title": "A diff shows the edits that were made", "statement": "If somebody changes a text by replacing, inserting and removing pieces in some places (pieces of whole tokens; neighbouring edits are one edit, and what an edit inserts and removes share no token), then the diff of the two texts shows exactly these edits: the same kept, inserted and removed pieces in the same order.", "quantifier": "every script of edits over every token type; every pair of texts and tokenizer by their tokens", "why_tests_cant": "Tests fix a few texts; whether the diff aligns the two texts the way they were edited depends on all repetitions in them.", "anchors": ["src/gaspra/changesets.py:diff_token_sequences", "src/gaspra/changesets.py:find_changeset", "src/gaspra/suffix_automaton.py:find_lcs", "src/gaspra/tokenizers.py:Tokenizer.encode"]}
{"id": "C78", "title": "Edits in different places merge, edits in the same place conflict", "statement": "Two people edit the same parent. If none of the edits of the one collides with an edit of the other (they are equal, or one ends before the other begins, or at one place one only inserts and the other only removes), the merge has no conflict and is the parent with the edits of both; if some edits collide, the merge reports a conflict.", "quantifier": "every parent, every two scripts of edits of it, every sequence type; every three texts given to gaspra-merge by their tokens", "why_tests_cant": "The merge sees the texts and not the edits; a missed collision silently loses or mixes the work of one of them.", "anchors": ["src/gaspra/merge.py:merge_token_sequence", "src/gaspra/changesets.py:diff_token_sequences", "src/gaspra/merge_tool.py:merge_cli"]}
{"id": "C79", "title": "A tree keeps what it was told, and a call that raises changes nothing", "statement": "After any calls of add and change_parent a tree contains exactly the tags added, base_version is the base each was added with, and path_to is the way to the tag along the parents it was last given. A call that adds a tag twice or names an unknown tag raises and leaves the tree as it was; every other call returns.", "quantifier": "every sequence of calls, for DBTree and MemoryTree", "why_tests_cant": "Tests make a few calls in a sensible order; what a failing call leaves behind, and whether every call returns, depends on the whole history.", "anchors": ["src/gaspra/db_tree.py:DBTree.change_parent", "src/gaspra/db_tree.py:DBTree.add", "src/gaspra/memory_tree.py:MemoryTree.change_parent", "src/gaspra/memory_tree.py:MemoryTree.add", "src/gaspra/tree.py:Tree"]}
{"id": "C80", "title": "Any bytes can be read as a patch, and fail in one way only", "statement": "deserialize_changeset on any bytes ends; it raises nothing or the RuntimeError for a stream that is too short. What it yields can be serialized, contains no empty items, and its serialization is read back as the same patch and is no longer than the bytes read. A number read by vdeserialize_int is below 2**64 and takes one to nine bytes.", "quantifier": "every byte string, not only those written by serialize_changeset", "why_tests_cant": "A stream from a damaged file or another program can be anything; fuzzing tries a few thousand of them.", "anchors": ["src/gaspra/serialize.py:deserialize_changeset", "src/gaspra/serialize.py:vdeserialize_int"]}
{"id": "C81", "title": "version_info describes the diff to the neighbouring version", "statement": "For a version that is not a head, token_count is the number of bytes that the diff from the next version on the path to the head shows as inserted, change_count the number of its pieces that are kept or inserted, and the bytes stored for the version are at least token_count and at most token_count plus 19 for every piece.", "quantifier": "every history of adds, rejected ones included; every version in it that is not a head", "why_tests_cant": "The counts come from a serialized patch, the diff from another code path; that they agree for every history is a fact about both and about which version is the neighbour after all the splits.", "anchors": ["src/gaspra/versions.py:Versions.version_info", "src/gaspra/versions.py:Versions._make_changeset", "src/gaspra/serialize.py:serialize_changeset", "src/gaspra/tokenizers.py:diff"]}
{"id": "C82", "title": "Storing a version as a diff takes no more room than its contents", "statement": "The bytes stored for a version that is no longer a head are not more than the version itself.", "quantifier": "every history of adds; every version in it", "why_tests_cant": "Tests store a few texts with small differences; the worst case is never among them.", "anchors": ["src/gaspra/versions.py:Versions.add", "src/gaspra/serialize.py:serialize_changeset"]}
{"id": "C83", "title": "The order in which branches are merged does not matter", "statement": "If the branches of a parent merge two by two without conflict, then merging them one after the other gives the parent with the edits of all of them, in whatever order they are merged, and merging a branch that has been merged already changes nothing.", "quantifier": "every parent, every number of branches, every order with or without repetitions", "why_tests_cant": "Tests merge two branches once; orders and repetitions multiply with every branch.", "anchors": ["src/gaspra/merge.py:merge_token_sequence", "src/gaspra/merge.py:_merge"]}
{"id": "C84", "title": "The diff of the exchanged texts is the diff read backwards", "statement": "Exchanging the arguments of diff exchanges the two sides of every change and nothing else.", "quantifier": "every two sequences", "why_tests_cant": "The choice among equally long common parts depends on the order of the arguments; only some inputs have such parts.", "anchors": ["src/gaspra/changesets.py:diff_token_sequences", "src/gaspra/suffix_automaton.py:find_lcs"]}
{"id": "C85", "title": "A diff keeps as many tokens as possible", "statement": "No common subsequence of the two sequences is longer than the unchanged parts of the diff.", "quantifier": "every two sequences and every common subsequence of them", "why_tests_cant": "Whether more could have been kept is a statement about all common subsequences.", "anchors": ["src/gaspra/changesets.py:diff_token_sequences", "src/gaspra/changesets.py:find_changeset"]}
{"id": "C86", "title": "An add touches one branch, and there at most two diffs", "statement": "Adding a version on top of a head leaves every other branch as it was: the same paths, the same stored bytes. On its own branch there is one version at which paths are cut: paths through it now start at the new head and go on from it directly, all other paths become one step longer; only the diffs of that version and of the old head are written. An add without a base, or one that is refused, leaves all stored entries of the other versions as they were.", "quantifier": "every history of adds with new tags, every further add, every version; in memory and on a database", "why_tests_cant": "What must not change is everything else; a test looks at the versions it thinks of.", "anchors": ["src/gaspra/versions.py:Versions.add", "src/gaspra/versions.py:Versions._add_edge", "src/gaspra/memory_tree.py:MemoryTree.get_split", "src/gaspra/memory_tree.py:MemoryTree.change_parent", "src/gaspra/db_tree.py:DBTree.change_parent"]}
{"id": "C87", "title": "The diff of UTF-8 bytes is the UTF-8 of the diff", "statement": "diff(a.encode(), b.encode(), tokenizer) is diff(a, b, tokenizer) with every piece encoded. In particular every piece of a diff of UTF-8 bytes is valid UTF-8: no character is torn apart, and a diff read from files as bytes can be decoded piece by piece.", "quantifier": "all strs a and b without surrogates; every tokenizer, with any earlier contents of the same type", "why_tests_cant": "the tokens are different numbers in the two cases, and the decoders, the line splitter and the symbol pattern run on different data; characters of two, three and four bytes sharing bytes with other characters", "anchors": ["src/gaspra/tokenizers.py:diff", "src/gaspra/tokenizers.py:CharTokenizer", "src/gaspra/tokenizers.py:LineTokenizer", "src/gaspra/tokenizers.py:SymbolTokenizer", "src/gaspra/tokenizers.py:NullTokenizer"]}
{"id": "C88", "title": "Comparing by character is comparing without a tokenizer", "statement": "For strs, and for bytes with ASCII contents, diff with CharTokenizer gives exactly the diff without a tokenizer; gaspra-merge with character tokens shows exactly the merge that merge_token_sequence makes of the three strs.", "quantifier": "all strs (surrogates included) and all ASCII bytes; any earlier contents of the same type; all options without word and line tokens", "why_tests_cant": "an equality between two pipelines: tuples of code points with decoding, and the raw strings", "anchors": ["src/gaspra/tokenizers.py:CharTokenizer", "src/gaspra/tokenizers.py:NullTokenizer", "src/gaspra/tokenizers.py:diff", "src/gaspra/merge.py:merge_token_sequence", "src/gaspra/merge_tool.py:make_tokenizer"]}
{"id": "C89", "title": "The deprecated revision tree is a tree with ways of known length", "statement": "After inserting tags one by one into revision_tree.Tree, edges() has one edge to every tag but the last and makes a tree rooted at the last tag; path_to gives the one way from there to each tag and raises KeyError for any other tag. The longest way has exactly d tags, where d is the largest number with (d+1)^2 <= 4n+1 for n tags: the conjecture O(n^(1/2)) of the docstring. An insertion reports exactly the edges it adds (at most two, from the new tag, one of them to the previous tag) and removes (at most one).", "quantifier": "every sequence of different hashable tags", "why_tests_cant": "The docstring says itself that the bound is unproven; tests insert ten tags.", "anchors": ["src/deprecated/revision_tree.py:Tree.insert", "src/deprecated/revision_tree.py:Tree.edges", "src/deprecated/revision_tree.py:Tree.path_to", "src/deprecated/revision_tree.py:find_and_detach_best_split"]}
{"id": "C90", "title": "Sizes in the deprecated revision tree, and reevaluate", "statement": "The size recorded for a tag is the number of tags whose way leads through it. reevaluate() brings all sizes and heights back, whatever they were before; in particular after _invalidate().", "quantifier": "every sequence of different tags; every contents of the size and height fields", "why_tests_cant": "reevaluate visits the leaves in the order of insertion and overwrites nodes whose other branches are still wrong; that the last visit finds everything right depends on the whole tree.", "anchors": ["src/deprecated/revision_tree.py:Tree.reevaluate", "src/deprecated/revision_tree.py:Tree._invalidate", "src/deprecated/revision_tree.py:Tree._get_state", "src/deprecated/revision_tree.py:Node.update_states"]}
{"id": "C91", "title": "Heights in the deprecated revision tree", "statement": "The height recorded for a tag is the number of tags on the longest way down from it.", "quantifier": "every sequence of different tags", "why_tests_cant": "The test compares heights before and after reevaluate only.", "anchors": ["src/deprecated/revision_tree.py:Node.update_states", "src/deprecated/revision_tree.py:Tree._get_state"]}
{"id": "C92", "title": "The running times in the docstring of the deprecated revision tree", "statement": "Adding a node takes O(sqrt(n)) steps, adding n nodes O(n^(3/2)), path_to O(sqrt(n)) and reevaluate O(n).", "quantifier": "every sequence of different tags", "why_tests_cant": "Timing experiments cannot settle a bound.", "anchors": ["src/deprecated/revision_tree.py:Tree", "src/deprecated/revision_tree.py:Tree.insert", "src/deprecated/revision_tree.py:Tree.reevaluate", "src/deprecated/revision_tree.py:Node.update_states"]}
{"id": "C93", "title": "What a command line means", "statement": "A command line of gaspra-diff, gaspra-merge or gaspra-torture (with the argument -- at most once) is accepted exactly if it can be read as operands, flags (-c, joined letters, full names or unambiguous beginnings of names) and output files (-o x, -ox, -o=x, --output x, --output=x), after -- as operands only, with as many operands as the program takes and no two different ones of -c, -w, -l. It can be read in one way only. Two command lines with the same operands in order, the same set of flags and the same last output file do exactly the same.", "quantifier": "every list of arguments with -- at most once, every file system, console and platform line separator", "why_tests_cant": "There are unboundedly many ways to write a command line; abbreviations, joined letters, negative numbers and values that look like options interact.", "anchors": ["src/gaspra/merge_tool.py:get_merge_arguments", "src/gaspra/merge_tool.py:get_diff_arguments", "src/gaspra/merge_tool.py:get_torture_test_arguments", "src/gaspra/merge_tool.py:add_common_arguments"]}
{"id": "C94", "title": "A rejected command line does nothing, and only the output file is ever written", "statement": "Whatever the arguments (with -- at most once), no file other than the output file named last is created or changed by gaspra-diff, gaspra-merge or gaspra-torture, also when they fail; when they exit without running, no file is changed and the status is 0 or 2. A wrong number of operands or two of -c, -w, -l give status 2; -h or --help after a good beginning gives status 0.", "quantifier": "every list of arguments with -- at most once, every file system", "why_tests_cant": "That nothing else is touched is a statement about all arguments and all files.", "anchors": ["src/gaspra/merge_tool.py:merge_cli", "src/gaspra/merge_tool.py:diff_cli", "src/gaspra/merge_tool.py:torture_cli", "src/gaspra/merge_tool.py:get_writer"]}
{"id": "C95", "title": "The operands of gaspra-merge are parent, from, into", "statement": "For every accepted command line with an output file (file names encodable and without CR) and without --diff: gaspra-merge succeeds; without -L and -g, if the second file reads like the first the output reads like the third, and if the third reads like the first or like the second the output reads like the second. With -g a conflict shows the third file's text first under its base name, the second file's text second under its base name.", "quantifier": "every way to write the command line, every contents of the files", "why_tests_cant": "Exchanging the two branches gives the same result on all inputs without conflicts.", "anchors": ["src/gaspra/merge_tool.py:get_merge_arguments", "src/gaspra/merge_tool.py:merge_cli", "src/gaspra/merge_tool.py:_merge"]}
{"id": "C96", "title": "The command of the README works", "statement": "gaspra-merge -s -d (as in README.md:30) shows the two diffs and the merge.", "quantifier": "every three files", "why_tests_cant": "Not run by any test; the exception depends on the texts.", "anchors": ["README.md", "src/gaspra/merge_tool.py:get_markup_style", "src/gaspra/markup.py:markup_change_item"]}
{"id": "C97", "title": "gaspra-torture is gaspra-merge on the files of a test case", "statement": "gaspra-torture with a test case does exactly what gaspra-merge does with the same options and the parent, the second and the first branch file of the test case as operands; for test cases outside the table of exceptions these are name.parent, name.2nd and name.1st in the directory of test cases, for those in it the names listed there; the three files are always different ones.", "quantifier": "every way to write both command lines, every file system", "why_tests_cant": "An equality between two programs for all inputs.", "anchors": ["src/gaspra/merge_tool.py:torture_cli", "src/gaspra/torture_test.py:get_filenames"]}
{"id": "C98", "title": "Each option and operand has its own effect", "statement": "An accepted command line of gaspra-merge or gaspra-diff runs the merge or the diff of exactly the files it names, in their roles, with exactly the options it asks for (words, lines, show-lines, git, strikeout, diff, output), to the output file or to the console; if one of the inputs does not exist the program ends with OSError and nothing is shown or written.", "quantifier": "every accepted command line, every file system", "why_tests_cant": "Every subset of the options and every spelling.", "anchors": ["src/gaspra/merge_tool.py:merge_cli", "src/gaspra/merge_tool.py:diff_cli", "src/gaspra/merge_tool.py:_merge", "src/gaspra/merge_tool.py:get_text", "src/gaspra/merge_tool.py:get_writer"]}
{"id": "C99", "title": "Both methods of the benchmark find the same match", "statement": "For any two sequences string_matching_lcs and difflib_lcs report matches of the same length; with the arguments exchanged they report the same places too. With the arguments in the same order the places are the same exactly if no longest match starts further to the front of the first sequence than the one found by find_lcs.", "quantifier": "every two sequences of every token type", "why_tests_cant": "The benchmark prints both triples for a few random strings and nobody compares them; among several longest matches each method has its own preference.", "anchors": ["src/gaspra/difflib_benchmark.py:difflib_lcs", "src/gaspra/difflib_benchmark.py:string_matching_lcs", "src/gaspra/suffix_automaton.py:find_lcs"]}
{"id": "C100", "title": "difflib takes quadratic time where gaspra takes linear time", "statement": "find_longest_match of difflib runs its inner loop once for every pair of equal tokens: n*m times for constant sequences, at least n*n/s times for a sequence of n tokens over s different ones compared with itself. find_lcs takes a number of steps linear in the lengths on every input.", "quantifier": "every two sequences; every alphabet", "why_tests_cant": "README.md says that the quadratic complexity of difflib is obvious from a table of timings; timings cannot settle a bound.", "anchors": ["README.md", "src/gaspra/difflib_benchmark.py:difflib_lcs", "src/gaspra/difflib_benchmark.py:string_matching_lcs", "src/gaspra/suffix_automaton.py:find_lcs"]}
{"id": "C101", "title": "Finding all occurrences takes steps in proportion to the word and to what is found", "statement": "Once the automaton of a text is built, in a number of steps linear in its length, find_substring_all looks up a word that does not occur in at most as many steps as the word has tokens, and one that occurs in one step per token and between one and two steps per occurrence, independently of the length of the text.", "quantifier": "every text and every word over every token type", "why_tests_cant": "A test can time some texts; that the reverse links lead to no more nodes than twice the number of occurrences is a fact about the automata of all texts.", "anchors": ["src/gaspra/suffix_automaton.py:find_substring_all", "src/gaspra/suffix_automaton.py:_find_match_node", "src/gaspra/suffix_automaton.py:follow_reverse_links"]}
{"id": "C102", "title": "The steps of find_lcs_multiple are linear in the total length", "statement": "find_lcs_multiple takes a number of steps linear in the total length of the strings.", "quantifier": "every non-empty list of strings over every token type", "why_tests_cant": "A test can time some lists of strings; the bound is about all of them, and fails only for many strings.", "anchors": ["src/gaspra/multiple_strings.py:find_lcs", "src/gaspra/multiple_strings.py:get_string_offsets", "src/gaspra/suffix_automaton.py:build"]}
{"id": "C103", "title": "gaspra-diff from two files to its output", "statement": "Every accepted command line of gaspra-diff without -s succeeds on files that exist. What it shows is the diff, by repeated longest common runs, of the units that the options ask for (words with -w, lines with -l, characters otherwise) of the two texts; without -L and -g each piece as it is, inserted ones in green4 and removed ones in dark_red tags; with -L as lines, every changed group of lines once with the new and once with the old lines, holding exactly the same inserted and removed characters; with -g the same groups between conflict markers with the names of the files. With -o this is the contents of the output file and no other file changes, without -o it is on the console, with the changed characters coloured, and no file changes.", "quantifier": "every way to write the command line, every two files (for the console: texts without backslashes, control characters and emoji codes, with -g also simple file names)", "why_tests_cant": "Units, line grouping, markup, escaping, encodings and options meet only in the whole program; no test runs it.", "anchors": ["src/gaspra/merge_tool.py:diff_cli", "src/gaspra/merge_tool.py:make_tokenizer", "src/gaspra/merge_tool.py:get_markup_function", "src/gaspra/markup.py:markup_changes", "src/gaspra/markup.py:show_header"]}
{"id": "C104", "title": "gaspra-merge from three files to its output", "statement": "Every accepted command line of gaspra-merge without -s succeeds on files that exist. What it shows is the merge (by merge_token_sequence) of the units that the options ask for, with -d after the diffs of the branch merged into and of the branch merged from against the parent, each under a heading with the name of the branch and the merge under the heading Merged; in the three forms of C103, where with -L or -g the groups of the merge are whole lines and together have the two texts of the merge, and without -l mark exactly the characters that the merge marks and show no unchanged line inside a Change. With -o this is the contents of the output file and no other file changes, without -o it is on the console and no file changes.", "quantifier": "every way to write the command line, every three files (for the console as in C103)", "why_tests_cant": "Units, line grouping, markup, headings, escaping, encodings and options meet only in the whole program; no test runs it.", "anchors": ["src/gaspra/merge_tool.py:merge_cli", "src/gaspra/merge_tool.py:_merge", "src/gaspra/merge_tool.py:make_tokenizer", "src/gaspra/markup.py:markup_changes", "src/gaspra/markup.py:show_header"]}
{"id": "C105", "title": "The sides of a conflict differ", "statement": "The two sides of a conflict that gaspra-merge shows are different texts.", "quantifier": "every three files, every unit of comparison", "why_tests_cant": "Conflicts between equal texts come from units of different length that make up the same text, or from conflicts on one line that cancel out, on rare inputs.", "anchors": ["src/gaspra/merge_tool.py:_merge", "src/gaspra/merge.py:merge_token_sequence", "src/gaspra/tokenizers.py:SymbolTokenizer", "src/gaspra/tokenizers.py:LineTokenizer"]}
{"id": "C106", "title": "A merge takes at most quadratically many steps", "statement": "merge_token_sequence takes a number of steps (times around its loops and those of the functions it calls) that is at most quadratic in the total length of the three sequences. Apart from the searches for common runs, in the two diffs and in the conflicts, it is linear and at least the number of pieces of both diffs and of the result; the searches in the conflicts are quadratic in the lengths of the branches up to a linear term, look at every token that is in a conflict, and come to nothing if the edits of the branches do not collide. For neither kind of search is a better bound possible.", "quantifier": "every three sequences of every token type; every kind of sequence", "why_tests_cant": "A test can time some merges; the worst case of nested searches and of the queues of pieces that are split again and put back is about all of them.", "anchors": ["src/gaspra/merge.py:merge_token_sequence", "src/gaspra/merge.py:_merge", "src/gaspra/merge.py:consolidate_conflicts", "src/gaspra/changesets.py:find_changeset", "src/gaspra/suffix_automaton.py:find_lcs"]}
{"id": "C107", "title": "The tokenizer decides about the contents of the stored diffs only", "statement": "After the same adds, Versions objects with different tokenizers have the same heads with the same bytes, the same tree, and diffs for the same tags; every add raises the same exception or none. So whatever the tokenizer: an add raises exactly if its base is not a head, every version added can be retrieved without an exception, heads and the base of the version added last come back as they were added, tags never added give None, each version is stored once, and version_info reports the right base. (With the line tokenizer the bytes of other versions may differ, C36.)", "quantifier": "every history of adds with new tags and contents the tokenizer accepts, of any length; in memory and on a database; provided that no version retrieved is longer than a Python object can be (only needed for the line tokenizer)", "why_tests_cant": "That a wrongly replayed version (C36) cannot make a later add fail, or change the shape of the tree, depends on all histories; the shape is computed without looking at contents, but the contents of replayed versions are diffed again.", "anchors": ["src/gaspra/versions.py:Versions.add", "src/gaspra/versions.py:Versions.get", "src/gaspra/versions.py:Versions.version_info", "src/gaspra/versions.py:Versions._make_changeset", "src/gaspra/versions.py:Versions._retrieve_using_path", "src/gaspra/tokenizers.py:LineTokenizer"]}
{"id": "C108", "title": "A lost entry takes with it only the versions that need it", "statement": "A version needs the stored head of its branch and the stored diffs on the path to it, about sqrt(8n) entries at most for n versions. Whatever happens to all other entries of head_version and diffs, get returns the version as it was added. If any entries are lost, get raises KeyError for exactly the versions that need one of them, and never returns other contents than those added.", "quantifier": "every history of adds with new tags, every version, every set of lost entries, every change to the entries that a version does not need; in memory and on a database", "why_tests_cant": "There are as many kinds of damage as sets of entries, and a retrieval that read one entry more would give the same results on undamaged stores.", "anchors": ["src/gaspra/versions.py:Versions.get", "src/gaspra/versions.py:Versions._retrieve_using_path", "src/gaspra/versions.py:Versions.head_version", "src/gaspra/versions.py:Versions.diffs"]}
{"id": "C109", "title": "Reading and writing a diff copies a linear number of bytes", "statement": "serialize_changeset and deserialize_changeset copy a number of bytes linear in the length of what is stored. Retrieving a version of a history of n versions of at most B bytes copies at most about sqrt(8n) times what is copied for one diff.", "quantifier": "every patch, every stored stream of bytes, every history of adds and every version in it; in memory and on a database", "why_tests_cant": "Timing some diffs shows nothing as long as they have few pieces; the copies made by += and by slices of the rest only matter for many pieces.", "anchors": ["src/gaspra/serialize.py:serialize_changeset", "src/gaspra/serialize.py:deserialize_changeset", "src/gaspra/serialize.py:vdeserialize_int", "src/gaspra/versions.py:Versions._retrieve_using_path", "src/gaspra/changesets.py:apply"]}
{"id": "C110", "title": "One inserted piece is shown as an insertion", "statement": "If the second text is the first one with one piece inserted somewhere, the diff shows insertions only; if one piece is removed, it shows removals only. If the piece is at the end, or its tokens are new and no token of the rest is repeated, exactly this piece is shown at its place.", "quantifier": "every text, every piece, every place", "why_tests_cant": "The counterexamples need texts with repeated tokens in the right places; for texts without them there is still one case for each text, piece and place.", "anchors": ["src/gaspra/changesets.py:diff_token_sequences", "src/gaspra/changesets.py:find_changeset"]}
{"id": "C111", "title": "A version is stored as a diff from a later version of its own line", "statement": "On the path from a head to a version each version was made from the next one, in one or more adds. The versions made from a version are a line without branches, and its end is the head that the path starts from.", "quantifier": "every history of adds with new tags and every version; in memory and on a database", "why_tests_cant": "After every add get_split reconnects the tree; a split that put a version below one of another file would still give back all contents.", "anchors": ["src/gaspra/versions.py:Versions.add", "src/gaspra/memory_tree.py:MemoryTree.get_split", "src/gaspra/memory_tree.py:MemoryTree.change_parent", "src/gaspra/db_tree.py:DBTree.get_split", "src/gaspra/db_tree.py:DBTree.path_to"]}
{"id": "C112", "title": "An old version of a text that only grows takes three numbers", "statement": "If every version contains the contents of the version it was made from as one run, each version that is no head is stored in at most 1 + 2w bytes, where w is the length of the serialized length of the longest version; if texts are only appended, in at most 2 bytes and the serialized length of the version itself.", "quantifier": "every history of adds with new tags in which texts only grow, every version, every tokenizer that is not by lines; in memory and on a database", "why_tests_cant": "The reconnections of the tree make diffs between versions that are far apart; that each of these is one copied slice depends on which of several longest runs is taken.", "anchors": ["src/gaspra/versions.py:Versions.add", "src/gaspra/versions.py:Versions._make_changeset", "src/gaspra/serialize.py:serialize_changeset", "src/gaspra/changesets.py:find_changeset"]}
{"id": "C113", "title": "An edit in a place the other branch leaves alone is carried over to it", "statement": "If the diff of one branch against the parent is a single edit, and every edit of the other branch ends before its place, starts after it, or touches it only by inserting where it removes or removing where it inserts, the merge has no conflict and is the other branch with the one edit made at the place standing for the same tokens of the parent; if the other branch has the same edit the merge is the other branch. What one branch appends is appended to any other branch that does not itself end with something appended.", "quantifier": "all parents and branches with such diffs, all edits of the other branch, both orders of the branches, all kinds of sequences", "why_tests_cant": "The place depends on all edits of the other branch before it; the tests merge a handful of short texts.", "anchors": ["src/gaspra/merge.py:merge_token_sequence", "src/gaspra/merge.py:_merge", "src/gaspra/merge.py:copy_change", "src/gaspra/changesets.py:diff_token_sequences"]}
{"id": "C114", "title": "Two rewrites of the same piece conflict exactly where they differ", "statement": "If both branches replace the same piece of the parent by different texts, the merge is the diff of the two replacements between the parts of the parent before and after, with adjoining runs joined, and it has a conflict; so for two branches that append different texts it is the parent followed by the diff of what they append.", "quantifier": "all parents, pieces and pairs of different replacements, all kinds of sequences", "why_tests_cant": "The shown conflict depends on a second diff, of the conflicting texts, for which the tests have few shapes.", "anchors": ["src/gaspra/merge.py:merge_token_sequence", "src/gaspra/merge.py:ordinary_conflict", "src/gaspra/merge.py:consolidate_conflicts", "src/gaspra/merge.py:consolidate_all"]}
{"id": "C115", "title": "The split computed from parent links is the one computed from child slots", "statement": "On every table Versions builds through a DBTree, old_get_split returns the split and the path that get_split returns, and raises for the same tags; for a known tag both return what MemoryTree returns.", "quantifier": "all histories and tags, every tokenizer but the line tokenizer, tags and contents in any place of the database", "why_tests_cant": "It needs the parent links, the child slots and the heights of all rows to agree after every sequence of moves; no test calls old_get_split.", "anchors": ["src/gaspra/db_tree.py:DBTree.old_get_split", "src/gaspra/db_tree.py:DBTree.new_get_split", "src/gaspra/db_tree_sql.py:OLD_GET_BEST_PATH", "src/gaspra/db_tree_sql.py:GET_BEST_PATH"]}
{"id": "C116", "title": "Both ways of splitting agree after any use of the Tree protocol", "statement": "After any calls of add and change_parent on a DBTree that make sense for a tree, old_get_split and get_split return the same for every tag.", "quantifier": "all sequences of calls, all tags", "why_tests_cant": "The two look at different columns, which a call may update differently; the tests use the tree through Versions.", "anchors": ["src/gaspra/db_tree.py:DBTree.old_get_split", "src/gaspra/db_tree.py:DBTree.new_get_split", "src/gaspra/db_tree.py:DBTree.change_parent"]}
{"id": "C117", "title": "What is written of an automaton is the minimal automaton of the suffixes", "statement": "The transitions and terminal nodes that dot_dump.dump and suffix_automaton.dump write for build(s), each once, form the minimal deterministic automaton that reads the words occurring in s and accepts the suffixes of s; dump writes each node once, with the length of the longest word that leads to it.", "quantifier": "all texts s", "why_tests_cant": "A picture of one automaton shows nothing about others; minimality compares all pairs of nodes on all words, and both functions are excluded from the tests.", "anchors": ["src/gaspra/suffix_automaton.py:dump", "src/gaspra/suffix_automaton.py:build", "src/gaspra/dot_dump.py:dump"]}
{"id": "C118", "title": "Automata of texts of any length can be dumped and enumerated", "statement": "dump(build(s)) and all_suffixes(build(s)) do not exceed the recursion limit.", "quantifier": "all texts s, all recursion limits", "why_tests_cant": "The depth depends on the order in which transitions were made and on which nodes were dumped before; the tests enumerate short texts only.", "anchors": ["src/gaspra/suffix_automaton.py:dump", "src/gaspra/suffix_automaton.py:all_suffixes"]}
{"id": "C119", "title": "find_lcs_multiple does not depend on the order of its strings and agrees with find_lcs", "statement": "Giving the same strings in another order, or some of them twice, find_lcs_multiple finds the same word in each string; for two strings it finds the positions that find_lcs finds; with more strings the word is not longer.", "quantifier": "all lists of strings with a common token", "why_tests_cant": "The word found depends on the order of the alphabet and of the transitions; relating two calls takes all pairs of inputs.", "anchors": ["src/gaspra/multiple_strings.py:find_lcs", "src/gaspra/suffix_automaton.py:find_lcs"]}
{"id": "C120", "title": "The way to a version is given by its number alone", "statement": "After any history, the versions that a retrieval goes through to get to version i of a line of m versions, and the version that the next add moves, are those whose numbers a closed formula in i and m gives; tags, contents and other lines do not matter; the same on a database.", "quantifier": "all histories of adds with fresh tags, all lines, all numbers i and m", "why_tests_cant": "Tests look at small trees and at depths; that the whole shape follows a formula holds for every length only by induction on the history.", "anchors": ["src/gaspra/memory_tree.py:MemoryTree.path_to", "src/gaspra/memory_tree.py:MemoryTree.get_split", "src/gaspra/versions.py:Versions.add", "src/gaspra/db_tree.py:DBTree.path_to"]}
{"id": "C121", "title": "The diff of a version is written at most three times", "statement": "Over any history the diff of a version is written at most three times, once for each of the later versions from which it is kept as a diff when they are added; a failing add writes none.", "quantifier": "all histories of adds with fresh tags, all versions", "why_tests_cant": "The number of writes of one key over unboundedly many adds is an amortized bound that no finite history settles.", "anchors": ["src/gaspra/versions.py:Versions.add", "src/gaspra/versions.py:Versions._add_edge", "src/gaspra/memory_tree.py:MemoryTree.get_split", "src/gaspra/db_tree.py:DBTree.get_split"]}
{"id": "C122", "title": "A token diff shown by lines keeps both texts", "statement": "decode_and_line_diff_changes turns the diff of the tokens of two texts, str or bytes, into items made of whole lines, whose two sides are the two texts up to a last newline.", "quantifier": "all tokenizers, all pairs of texts, str or bytes, all choices of which characters are spaces", "why_tests_cant": "No test calls the function; which common text survives depends on every grouping of tokens into changes and on the type of the text.", "anchors": ["src/gaspra/tokenizers.py:decode_and_line_diff_changes", "src/gaspra/tokenizers.py:decode_changes", "src/gaspra/diff_to_lines.py:to_line_diff", "src/gaspra/diff_to_lines.py:handle_fragment"]}
{"id": "C123", "title": "The drawing of a revision tree shows its edges", "statement": "After inserting any different tags, revision_dot_dump writes every edge of the tree once, as an arrow from the upper node to the lower.", "quantifier": "all sequences of different integer tags", "why_tests_cant": "The test writes one file and looks at nothing; that all edges point downwards needs every insertion order.", "anchors": ["src/gaspra/dot_dump.py:revision_dot_dump", "src/deprecated/revision_tree.py:Tree.edges"]}
{"id": "C124", "title": "Calls of one Versions object at the same time do not harm each other", "statement": "When several adds and gets of a Versions object run at the same time, each returns as if it ran alone, and when all have returned the object is as if the adds had been made one after the other: all versions can be retrieved, the heads are right, and later adds succeed.", "quantifier": "all histories, all finite sets of calls, all orders in which their accesses of the stores and the tree follow each other, all tokenizers that split no lines, in memory or on a database", "why_tests_cant": "A test sees one interleaving of a run, and not one it can choose; the number of interleavings grows exponentially with the number of calls.", "anchors": ["src/gaspra/versions.py:Versions.add", "src/gaspra/versions.py:Versions._add_edge", "src/gaspra/versions.py:Versions.get", "src/gaspra/versions.py:Versions._retrieve_using_path"]}
{"id": "C125", "title": "After an interrupted add the object can be used and the add made again", "statement": "When Versions.add stops after one of its updates of the stores and the tree (a crash, an exception of a store), the object left behind can be used: all versions added before can be retrieved, adds on heads succeed and their versions can be retrieved, and the interrupted add can be made again.", "quantifier": "all valid histories, all interrupted adds on a head or without a base, all updates after which they stop, all valid sequences of adds made afterwards, all tokenizers that split no lines, in memory or on a database", "why_tests_cant": "A test can stop an add at one place of one history and look at a few versions afterwards; that no later sequence of adds meets trouble is a statement about all of them.", "anchors": ["src/gaspra/versions.py:Versions.add", "src/gaspra/versions.py:Versions._add_edge", "src/gaspra/memory_tree.py:MemoryTree.add", "src/gaspra/db_tree.py:DBTree.add"]}
{"id": "C126", "title": "Tokens that are equal without being the same", "statement": "Tokens are compared with == only: for tokens such as 1, True and 1.0, which are equal without being the same, the searches answer for sequences with equal tokens in the same places, patches give a sequence equal to the modified one, a diff contains the original itself and a sequence equal to the modified one, equal arguments give equal diffs and merges, and a branch that equals the parent or the other branch is merged without conflict.", "quantifier": "all token types on which == is reflexive, symmetric and transitive, all sequences, all kinds of merges", "why_tests_cant": "The tests use characters and small integers of one type only; that nothing but == decides about every result is a statement about all token types.", "anchors": ["src/gaspra/wrappers.py:find_substring", "src/gaspra/wrappers.py:find_lcs", "src/gaspra/multiple_strings.py:find_lcs", "src/gaspra/changesets.py:find_changeset", "src/gaspra/changesets.py:apply_forward", "src/gaspra/changesets.py:apply_reverse", "src/gaspra/changesets.py:diff_token_sequences", "src/gaspra/merge.py:merge_token_sequence", "src/gaspra/common.py:common_prefix_length"]}
{"id": "C127", "title": "Going on after a crash between two commits", "statement": "DBTree.change_parent commits three times: the move, the heights above the old parent, the heights above the new one. A process that stops after any commit of an add leaves a database that can be used, through all later adds and reads, as if the version had not been added, had been added without a base, or had been added; making the same add again raises IntegrityError and harms nothing. An add that shows its commits ends as the add without them.", "quantifier": "all valid histories, all adds, all commits, all later histories, all places of rows in the tables", "why_tests_cant": "The tests never stop between two commits; they would have to do so after every commit of every add and to go on with every possible history.", "anchors": ["src/gaspra/db_tree.py:DBTree.change_parent", "src/gaspra/db_tree.py:DBTree._new_update_metrics", "src/gaspra/db_tree.py:DBTree.new_get_split", "src/gaspra/db_collections.py:DBCollection", "src/gaspra/versions.py:Versions.add"]}
{"id": "C128", "title": "A patch carries its edits over to another text", "statement": "Applied to a text it was not made from, if that is at least as long, a patch makes its edits at the same places, forward or in reverse: as much is kept, as much is removed and the same is put in as in the diff; what is kept is kept as it is in that text, and what is beyond the length of the patch's own text is dropped. The result is that for its own text exactly when both texts agree wherever the patch keeps something. No check is made and nothing is raised.", "quantifier": "all pairs of sequences, all other sequences that are at least as long, both APIs", "why_tests_cant": "The tests apply patches only to the sequences they were made from.", "anchors": ["src/gaspra/changesets.py:apply", "src/gaspra/changesets.py:apply_forward", "src/gaspra/changesets.py:apply_reverse", "src/gaspra/changesets.py:strip_forward", "src/gaspra/changesets.py:strip_reverse", "src/gaspra/changesets.py:old_apply_forward", "src/gaspra/changesets.py:old_apply_reverse"]}
{"id": "C129", "title": "Edits made in a file are shown as made, and edits in different places are merged", "statement": "If each line (word, character) that is kept is the only one of its kind in the file, what is inserted is new and what is removed is gone, gaspra-diff -o writes exactly the edits that were made. If two copies of a file have been edited so, gaspra-merge -o writes the file with the edits of both, without a conflict, if no edit of one collides with one of the other (with -g or -L with a newline at the end if there was none); with -g the file written has conflict markers exactly if some edits collide.", "quantifier": "all files, all command lines with -o and without -s (for gaspra-merge without -d), all edits that meet the conditions", "why_tests_cant": "There are as many files and edits as one likes, and nothing in the repository tests the programs from files to files.", "anchors": ["src/gaspra/merge_tool.py:diff_cli", "src/gaspra/merge_tool.py:merge_cli", "src/gaspra/merge.py:merge_token_sequence", "src/gaspra/changesets.py:diff_token_sequences", "src/gaspra/diff_to_lines.py:to_line_diff", "src/gaspra/markup.py:markup_changes"]}
{"id": "C130", "title": "An add visits about the square root of the number of versions of the tree", "statement": "To add a version on top of a head visits exactly 2|p|+2 nodes of the tree of versions (none but the head if the tree is not split), where p is the path get_split returns: |p|-1 to find the split and |p|+3 to bring heights and sizes up to date. |p| is the number n with n(n-1) <= m < n(n+1) if the line of the head has m versions, so a line of n(n+1) versions visits exactly (n(n+1)(2n+10)-21)/3 nodes when parents are changed, and any n adds visit at most n(sqrt(2n)+4). A refused add and one without a base visit none. Looking up the way to a version visits as many nodes as the way has. MemoryTree and DBTree visit equally many.", "quantifier": "all tokenizers but LineTokenizer, all histories of versions with any branches and refused adds", "why_tests_cant": "How the number of visited nodes grows with the history is a statement about all lengths, and no test counts.", "anchors": ["src/gaspra/memory_tree.py:MemoryTree", "src/gaspra/db_tree.py:DBTree", "src/gaspra/versions.py:Versions.add"]}
{"id": "C131", "title": "Stores opened again with another tokenizer", "statement": "Nothing in the stores or the tree says with which tokenizer they were written. In full: a Versions object over stores written with one tokenizer reads back every version, whichever tokenizer_factory it is given. This is false for every pair of tokenizers: get returns other bytes than were added, without an exception. It holds when the tokenizers cut every contents into the same tokens (for example bytes and characters on ASCII contents): then the stores and the tree are the same whoever made each add, every version comes back verbatim, and the next add makes the same updates.", "quantifier": "all sets of tokenizers without LineTokenizer, all histories in which every add may use another of them, dict and database stores, MemoryTree and DBTree", "why_tests_cant": "A test fixes the tokenizers, contents and order of adds; that the tokenizer leaves no trace in the stores concerns all of them.", "anchors": ["src/gaspra/versions.py:Versions", "src/gaspra/tokenizers.py:NullTokenizer", "src/gaspra/tokenizers.py:CharTokenizer", "src/gaspra/tokenizers.py:SymbolTokenizer"]}
{"id": "C132", "title": "A merge can be taken apart again", "statement": "When two branches edit a text in places of their own, merge has both edits, in either order, and any three of the four texts (the text, the two branches, the merge) give the fourth by another merge: merging the merge and the parent with one branch as the parent gives the other branch, and merging the two branches with the merge as the parent gives the text back. The diff of the merge with one branch shows exactly the edits of the other. In full this would hold of every merge without a conflict; it is false when both branches made the same edit, when edits touch, and when tokens are repeated.", "quantifier": "all texts cut into untouched pieces, pieces the first replaces and pieces the second replaces, with something untouched between any two edits and no token twice, for token sequences and for the texts gaspra-merge reads", "why_tests_cant": "A test takes one merge apart; the law is about all of them, and its limits only show for particular texts.", "anchors": ["src/gaspra/merge.py:merge_token_sequence", "src/gaspra/changesets.py:diff_token_sequences", "src/gaspra/merge_tool.py:merge_cli"]}
{"id": "C133", "title": "Lines of versions do not influence each other", "statement": "When the same versions are added in two orders, both of which add to heads only, the two stores have the same heads, diffs, paths and splits and answer get and version_info the same; neighbouring adds that are not made from each other can always be exchanged. Everything kept for a line of versions is what would be kept if no other version had ever been added. Two adds to the same head cannot be exchanged.", "quantifier": "all histories of adds with new tags, all orders of them, all lines; in memory and on a database", "why_tests_cant": "A test adds a few versions in one order; that no order of adds to several lines changes what is stored is a statement about all interleavings, and the tree numbers its nodes across lines.", "anchors": ["src/gaspra/versions.py:Versions.add", "src/gaspra/memory_tree.py:MemoryTree.get_split", "src/gaspra/memory_tree.py:MemoryTree.add", "src/gaspra/db_tree.py:DBTree.get_split"]}
{"id": "C134", "title": "Harm done to some lines of versions stays there", "statement": "Whatever happens to the stored heads and diffs of the versions of some whole lines, and to their nodes of the tree, whether they are lost or replaced by others (of the tree only that the node is there is kept), the versions of all other lines can be had as before, and the object can be used further on: every add to another line, or of a version without a base, returns or raises what it would have, and what is stored for the other lines is what would have been stored. For less than a whole line this is false: a version depends on those made from it.", "quantifier": "all histories, all sets of whole lines, all contents of the entries of their versions, and all histories of further adds away from them; in memory and on a database", "why_tests_cant": "A test damages one entry and reads some versions; that no later add, with its splits and new diffs, ever touches the harm is a statement about all damage and all further histories.", "anchors": ["src/gaspra/versions.py:Versions.add", "src/gaspra/versions.py:Versions.get", "src/gaspra/memory_tree.py:MemoryTree.get_split", "src/gaspra/db_tree.py:DBTree.get_split"]}
{"id": "C135", "title": "An add that stops anywhere harms no other line", "statement": "When an add stops after any of its updates, or a process that uses a database between any two of its commits, all lines other than that of the new version can be used without limit: every version of them can be had, now and after any further adds to them or of versions without a base, and every such add on a head succeeds. This holds also at the points at which the line of the new version itself is harmed (C125, C127).", "quantifier": "all histories, all adds after them, all updates and all commits of the add, all sets of whole lines with the new version in one of them, and all histories of further adds away from them", "why_tests_cant": "A test can stop an add at one point in one history; that what it leaves half done, in the stores or in the rows of the tree, is never touched by what is done with other lines is a statement about all points and all further histories.", "anchors": ["src/gaspra/versions.py:Versions.add", "src/gaspra/versions.py:Versions._add_edge", "src/gaspra/db_tree.py:DBTree.change_parent", "src/gaspra/memory_tree.py:MemoryTree.change_parent"]}
{"id": "C136", "title": "Running gaspra-merge for one copy after the other collects all edits", "statement": "If copies of a file are edited so that between two different edits there is always a unit of the file that nobody touched (and what is kept occurs once, what is inserted is new, what is removed is gone), then running gaspra-merge -o out parent copy out for each copy, in any order and with repetitions, leaves in out the parent with exactly the edits of all copies. No run prints or raises anything and no other file changes; gaspra-diff of parent and out afterwards shows exactly the edits of all copies. A single run whose merge has no conflict writes just the merged text, also when the output is the file merged into.", "quantifier": "every parent and every number of copies, every order of the runs, every spelling of the command lines, characters, lines and words as units, every line separator", "why_tests_cant": "Each run reads a file that the previous one has written, encoded, with its line ends translated, and splits it into units again; tests run the program once on files they have made themselves.", "anchors": ["src/gaspra/merge_tool.py:merge_cli", "src/gaspra/merge_tool.py:_merge", "src/gaspra/markup.py:file_writer", "src/gaspra/merge.py:merge_token_sequence", "src/gaspra/tokenizers.py"]}
{"id": "C137", "title": "A merged branch can be taken out of a file again with gaspra-merge", "statement": "If two files are edited copies of a third, with their edits apart from each other and no unit occurring twice, then gaspra-merge -o out old branch out puts the edits of the branch into out, and gaspra-merge -o out branch old out afterwards takes them out again: out reads as before the merge, no run prints or raises anything, and no other file has changed.", "quantifier": "every file and all edits of this kind, every spelling of the two command lines, characters, lines and words as units, every line separator", "why_tests_cant": "The second run starts from the file the first has written and uses the branch as the parent; that this removes exactly the edits of the branch depends on both diffs of both merges for every pair of edits.", "anchors": ["src/gaspra/merge_tool.py:merge_cli", "src/gaspra/merge_tool.py:_merge", "src/gaspra/markup.py:file_writer", "src/gaspra/merge.py:merge_token_sequence"]}
