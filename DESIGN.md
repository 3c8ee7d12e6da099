# Formal model of gaspra in Rocq/Coq 8.16

`properties.jsonl` states the properties, `MANIFEST.json` maps each property to its
theorems, `seeded/LOG.jsonl` records what happened when the model was given realistic
bugs. The Coq development is in `rocq/theories`; `rocq/_CoqProject` lists the files in
dependency order.

How to read the log: an edit is `rejected` if the development no longer builds with it;
`build_stopped_at` are the first proofs that fail. `theorems_failed` are the theorems of
the broken claims that could not be built any more, most of them because a lemma they
rest on failed; that each of them is false of the edited model was not proved. An edit
`survived` if everything still builds (examples that fail are listed and not counted);
then either the note says why no claim is broken, or `theorems_tightened` says what was
added. Attempts `auto…` are random edits.

## How the code is modelled

* One Gallina function per Python function, branch by branch. The comment above each
  definition cites the file and lines and names every simplification.
* An exception is a value (`res A := Ok a | Err e`), Python's `None` is `option`, a
  dict is an insertion-ordered association list, an object that changes is a value
  passed along and returned, also when an exception is raised.
* A `while` loop is structural recursion where there is a measure in the data and
  recursion on fuel otherwise. Running out of fuel is a result of its own
  (`OutOfFuel`, or `None` at the level of the automaton) which is no Python exception.
  The theorems conclude that the result is an ordinary one, so they include
  termination.
* Generators are run to the end at once; where the moment of an exception matters
  (truncated streams, `decode_changes`) the items yielded before it are kept.
* Tokens are any type with a boolean equality. `TeqOk` says that it is equality; this
  excludes NaN, and C08 treats tokens that equal a `Separator`. C126 needs only an
  equivalence, so that 1, 1.0 and True may be used in the same sequence.
* `str` is a list of code points, `bytes` a list of numbers. UTF-8 and JSON are
  modelled explicitly. The Unicode tables behind `\w` and `isspace` are arbitrary
  predicates: the theorems hold for all of them.

| model | code | proofs | theorems |
|---|---|---|---|
| `Base` | slices, dicts, exceptions | | |
| `Automaton`, `AutomatonCost`, `SearchCost` | suffix_automaton.py, wrappers.py | `Strings`, `StringsExt`, `AutomatonInv`, `AutomatonProofs`, `AutomatonLcs`, `AutomatonCostProofs`, `SearchCostProofs` | `PropsAutomaton`, `PropsSearchCost` |
| `Multi` | multiple_strings.py | `MultiProofs`, `MultiRename`, `MultiCostProofs`, `MultiLaws` (the spec in `SpecMulti`) | `PropsMulti`, `PropsSearchCost`, `PropsMultiLaws` |
| `Changesets` | changesets.py, types.py | `ChangesetsProofs`, `DiffLaws`, `DiffProofs`, `DiffGreedy` | `PropsDiff`, `PropsGreedy` |
| `DiffCost` (counted copies) | suffix_automaton.py, changesets.py | `DiffCostProofs`, `DiffQuadratic` | `PropsGreedy` |
| `Merge` | merge.py, common.py | `MergeStreams`, `MergeSteps`, `MergeUnion`, `MergeConsolidate`, `MergeProofs`, `MergeLaws`, `MergeThreeWay`, `MergeSwap`, `MergeBytes` | `PropsMerge`, `PropsThreeWay`, `PropsSwap`, `PropsClash` |
| `MergeCost` (counted copy) | merge.py, changesets.py | `MergeCostProofs` | `PropsMergeCost` |
| `Serialize` | serialize.py | `SerializeProofs`, `StreamsProofs` | `PropsSerialize`, `PropsStreams` |
| `SerializeCost`, `VersionsCost` (counted copies) | serialize.py, changesets.py, versions.py | `SerializeCostProofs`, `VersionsCostProofs` | `PropsVersionsCost` |
| (the definitions of `Changesets`) | changesets.py | `DiffInsert` (vocabulary: `SpecInsert`) | `PropsInsert` |
| (the definitions of `Versions`) | versions.py, memory_tree.py, db_tree.py | `VersionsLineage`, `VersionsGrow`, `VersionsWords` (vocabulary: `SpecLineage`) | `PropsLineage` |
| (the definitions of `Merge`) | merge.py | `MergePlace`, `MergeSame`, `MergeOne` (vocabulary: `SpecPlace`) | `PropsPlace` |
| `DbTreeOld` | db_tree.py (`old_get_split`), db_tree_sql.py | `DbTreeOldProofs` | `PropsOld` |
| `Dump` (the spec in `SpecDump`) | suffix_automaton.py (`dump`), dot_dump.py (`dump`) | `DumpProofs`, `DumpDepth` | `PropsDump` |
| `Tokenizers` | tokenizers.py | `Utf8Proofs`, `TokenizersProofs`, `TokenizersDiff`, `TokensProofs`, `BytesProofs` | `PropsTokenizers`, `PropsTokens`, `PropsBytes` |
| `Changesets`, `Merge`, `Tokenizers` on given edits | changesets.py, merge.py | `EditsProofs`, `EditsConflicts`, `EditsTexts`, `EditsOrder`, `EditsLaws`, `DiffPoor`, `DiffBackwards` | `PropsEdits`, `PropsOrder` |
| `Tree` | memory_tree.py, tree.py | `TreeProofs`, `TreeExact` | `PropsVersions` |
| `Versions` | versions.py | `VersionsPatch`, `LinePatch`, `VersionsInv`, `VersionsProofs`, `VersionsMore`, `VersionsLine`, `TreeComb`, `VersionsSqrt`, `TreeShape`, `TreeRake`, `WaysNumbers`, `TreeWays`, `VersionsShape`, `VersionsWays`, `VersionsWrites` (the specs in `SpecWays`, `SpecWrites`), `VersionsFrame`, `VersionsSame`, `VersionsDamage`, `StorageProofs`, `StorageRoom` | `PropsVersions`, `PropsLineVersions`, `PropsSqrt`, `PropsShape`, `PropsWays`, `PropsFrame`, `PropsSame`, `PropsDamage`, `PropsStorage` |
| `Concurrent` (the spec in `SpecConcurrent`) | versions.py, several calls at the same time | `ConcurrentProofs`, `ConcurrentEnd` | `PropsConcurrent` |
| `SpecInterrupted` (spec only) | versions.py, an add that stops | `InterruptedProofs`, `MemoryLoose`, `InterruptedAgain` | `PropsInterrupted` |
| `SpecEqual` (spec only) | tokens compared by `==` | `EqualMaps`, `EqualProofs` | `PropsEqual` |
| `DbCommits`, `SpecCommits` | the commits of `DBTree.change_parent` and `Versions.add` | `DbLoose`, `CommitsProofs` | `PropsCommits` |
| `SpecOther` | patches on other texts | `OtherProofs` | `PropsOther` |
| - | edited files through the programs; what tokenizers raise | `LinesConflict`, `ProgramsEdits`, `TokenizersRaise` | `PropsProgramsEdits`, `PropsTokenizers` |
| `TreeCost` | the loops of memory_tree.py and db_tree.py, with counters | `TreeCostProofs`, `WaysSplit`, `VersionsSteps` | `PropsSteps` |
| `SpecMixed` (adds with changing tokenizers) | versions.py:25-32 | `VersionsMixed` | `PropsMixed` |
| `SpecSquare` (pieces of a text two people edit) | merge.py, changesets.py | `SquareProofs`, `SquareTexts`, `SquareUnits` | `PropsSquare` |
| `SpecAlone` (the adds of one line) | versions.py, memory_tree.py, db_tree.py | `VersionsOrder`, `VersionsAlone` | `PropsAlone` |
| `SpecElsewhere` (whole lines, adds away from them) | versions.py | `VersionsElsewhere` | `PropsElsewhere` |
| `SpecElsewhere` (going on outside) | versions.py, memory_tree.py, db_tree.py | `VersionsApart`, `InterruptedElsewhere` | `PropsApart` |
| `SpecOrder` | merge.py, tokenizers.py, through `merge_result` | `EditsOrderTexts` | `PropsOrderTexts` |
| `SpecRuns` | merge_tool.py, markup.py, through `CommandLine` and `Files` | `RunsProofs` | `PropsRuns` |
| `SpecRuns`, `SpecSquare` | merge_tool.py, through `CommandLine` and `Files` | `UndoProofs` | `PropsUndo` |
| `DbTree` | db_tree.py, db_tree_sql.py, db_collections.py | `DbTreeProofs`, `DbVersions`, `DbTreeMore`, `ForestProofs` | `PropsDb`, `PropsForest` |
| `Database` | db_collections.py, db_tree.py: several objects on one database | `DatabaseProofs` | `PropsDatabase` |
| `TextTags` | db_tree.py, db_collections.py with tags that are not str | `TextTagsProofs` | `PropsTags` |
| `LinesKinds` (the spec in `SpecLinesKinds`) | tokenizers.py (`decode_and_line_diff_changes`), diff_to_lines.py on bytes | `LinesKindsProofs` | `PropsLinesKinds` |
| `Lines` | diff_to_lines.py | `LinesProofs`, `LinesMore`, `LinesMarks`, `MarksCli` | `PropsLines`, `PropsMarks` |
| `Markup` | markup.py, merge_tool.py | `MarkupProofs`, `MarkupCli`, `MarkupStrike` | `PropsMarkup` |
| `Files` | merge_tool.py (get_text), markup.py (file_writer) | `OutputChars`, `FilesProofs` | `PropsFiles` |
| `Rich` | markup.py (console_writer); the library rich: markup.py, _emoji_replace.py | `ConsoleProofs` | `PropsConsole` |
| `CommandLine` | merge_tool.py (arguments, programs), torture_test.py; the standard library's argparse | `CommandLineProofs`, `CommandLineRuns`, `ProgramsConsole`, `ProgramsProofs` | `PropsCommandLine`, `PropsPrograms` |
| `Difflib` | difflib_benchmark.py; the standard library's difflib | `DifflibProofs`, `DifflibAgree` | `PropsDifflib` |
| `Revision`, `RevisionCost` | src/deprecated/revision_tree.py | `RevisionProofs`, `RevisionInsert`, `RevisionStep`, `RevisionShape`, `RevisionTree`, `RevisionState`, `RevisionSound`, `RevisionHeight`, `RevisionCostProofs` | `PropsRevision` |
| `RevisionDump` | dot_dump.py (`revision_dot_dump`) | `RevisionDumpProofs` | `PropsRevisionDump` |
| `Json`, `Manifest` | manifest.py, the builtin json | `JsonProofs`, `ManifestDocs`, `ManifestProofs`, `ManifestChain` | `PropsManifest` |

The files `Spec*.v` hold the vocabulary of the statements: occurrences and longest
common substrings, the two texts a diff stands for, the position-wise meaning of an
edit, histories of adds, and so on. They do not mention helpers of the model. The files
`Props*.v` hold only the property theorems, each closed by `exact`, followed by
`Print Assumptions` and by examples that satisfy the hypotheses.

## Trusted base

* Coq's kernel (`vm_compute` is used for examples and for witnesses of refutations).
* `Print Assumptions` prints "Closed under the global context" for every theorem
  listed in MANIFEST.json: no axiom of the standard library or of any other library is
  used. (A scan of the loaded modules also shows the parameters of
  `Coq.ssr.ssrunder`, which the standard library loads; no theorem depends on them.)
* The reading of the Python source documented in the comments of the model files.
  `RepoTests.v` evaluates the model on the cases of the repository's own tests and of
  README.md; the results are the expected ones in every case. (These are tests of the
  model. The timing tests, the tests of the test helpers and the tests with random
  queries are left out; the test with 2000 tokens is run with 200. README.md calls
  `gaspra.diff` and `gaspra.merge`; `__init__.py` exports no `diff`, and `gaspra.merge`
  is the module, so the functions behind these names are evaluated.)

Not modelled, and so outside every theorem: CPython's memory, running time and
recursion limit (but C15 is about the recursion depth, C06 about counted steps),
a second `--` among the arguments and the messages of argparse (the rest of it is modelled after CPython 3.12), the file system beyond readable regular files with one name each, the layout `rich`
gives to text (wrapping, tabs), sqlite itself (its statements are operations on a
table; failures of the database are left out, except that the process may stop between two transactions (C127); in C124 a call of a method of a store or the tree is not interrupted by other calls), the code under
`if __name__ == "__main__"` (`dot_dump.py` cannot be imported, since
`gaspra.revision_tree` is not in the package; its functions are modelled as written), `torture_test.get_usage`, the timing and printing in `difflib_benchmark.py`, `examples.py`,
the timing experiment in `src/deprecated`, and the unused method `_old_update_metrics` (its statement reads rows of the table it is updating, so that its effect depends on the order in which sqlite evaluates it).

## The properties

"False" means that the full statement is refuted in the model by a computed witness
(`_refuted`), next to the strongest true version that was found (`_partial`).

| id | how it is proved |
|---|---|
| C01-C05 | Invariant of the automaton under `extend`: the nodes are the left-maximal substrings read so far, with the mathematical links, transitions and first end positions. Induction over the tokens, then over the traversals. |
| C06 | A counted copy of the construction, shown equal to the model, and a potential argument for nodes, transitions and steps. |
| C07 | Invariant of the traversal with a stack: each computed set is the set of strings in which the node's substring occurs. |
| C08 | False: `Separator(i) == (i,)`. True when no token is such a tuple; by renaming tokens. |
| C09-C13 | Induction over the recursion of `find_changeset`, from the specification of `find_lcs` alone. |
| C67 | The recursion shown to follow an inductive definition of the diff, which is shown to be deterministic. |
| C68 | Counted copies of the functions; each followed link shortens the current match; induction over the recursion. Lower bounds too, so that a count that leaves something out is noticed; for a family of texts the recursion of C15 makes them quadratic. |
| C14 | Simulation along an injective renaming of tokens. |
| C15 | False: the depth of the recursion is unbounded. `min(len)+1` levels suffice. |
| C16 | False for bytes (`""` in merge.py). Total for str and tuples; for bytes the same result or that TypeError. `MergeBytes` says exactly when: the edits of the two diffs collide at some place and, with no token kept by both in between, one branch inserts something where the other inserts nothing (`SpecClash.clash_then_insertion`). The proof carries that condition through every round of the merge loop, for all inputs. |
| C17-C20, C22, C23 | Fragment streams as edits of the parent; invariant over the rounds of `_merge`; laws of `consolidate`. |
| C21 | False: the sides are swapped when an edit of the second branch reaches over one of the first. True outside two described situations. |
| C73 | A relation says what each part of a merge must be (`SpecThreeWay`); every round of `_merge` is one of its steps, every group of `consolidate` one of its regions. False in general: a merge can undo removals without a conflict. True outside the two situations of C21. |
| C74 | Diffs are expanded to marked characters (`SpecMarks`); each step of the line loop keeps the expansion and a tight last group, in which an unchanged line can only be blank. |
| C75 | The tokens of a text by a relation (`SpecTokens`), shown to have exactly one solution, the one the model computes; diffs and merges commute with replacing token numbers by their texts (as C48), so their pieces are concatenations of tokens. |
| C76 | The database maps folded names to tables and indexes. A call changes and reads only its names, so the answers to the calls on one set of names do not depend on the others (by induction on the calls). False in general: creating an object empties its table. |
| C77, C78 | A script of edits is given (`SpecEdits`) and the two texts are read off it; nothing in it is computed. False when tokens repeat. When kept tokens are distinct, inserted ones new and removed ones gone, every common substring lies inside one kept run, so the recursion of C67 can only return the script; the merge is then that of C20. For the converse a collision is followed through the merge loop to a conflict no later step removes. |
| C79 | A reference with parents and bases only (`SpecForest`); invariants relating it to the rows and to the nodes. Two refutations: circles (for every history the call runs out of every bound) and, for MemoryTree, an unknown new parent. |
| C80 | Induction over the stream; the classes of numbers the reader accepts, shortest form by comparing classes. |
| C81, C82 | The patch stored and the diff shown come from the same changeset and have the same pieces in the same order; the sizes follow from C26. C82 false for short versions: the factor is 2w+1 where a number up to the longest version takes w bytes, since data never follow data in a patch and every slice keeps a byte. |
| C83 | From the edits of two scripts with gaps between them a script is built that has exactly the edits of both and satisfies the conditions of C77 again; induction over the branches. A script is determined by the set of its edits. For texts: units that come to lie side by side in a merge are side by side in the parent or in a copy, so that the merged text splits into the merged units (`EditsOrderTexts`). False when edits touch. |
| C84, C85 | The conditions of C77 are symmetric; in general two different choices in one round give common parts that cross, so the diffs differ. Common subsequences cannot use removed tokens that are gone (C85). False in general; for C85 a family of texts, by C67, whose diffs keep two tokens of arbitrarily long common subsequences. |
| C86 | Invariant of C31 before and after; the recorded parents change for the old head and the split only, and a stored diff is determined by the two versions. |
| C87, C88 | The token texts of the encoding are the encodings of the token texts (lines: no byte of another character is a newline byte); renaming of tokens (C14) by an injection that agrees with UTF-8 on scalar values. C87 false without a tokenizer. |
| C89, C90 | Invariant of the deprecated tree: the rakes of C66, with every size and height equal to the number of versions below. `reevaluate`: a node whose leaves were all visited is right, by induction over the visited leaves and up each way. |
| C91 | False: both children's heights are added. |
| C93, C94 | The ways to write a command line by an inductive definition (`SpecCommandLine.spelled`), shown to have one solution at most and to be what the model of argparse accepts; the model follows `_parse_optional`, `_get_option_tuples`, `consume_optional` and `consume_positionals`. |
| C95, C97, C98 | C93 and C69. |
| C96 | False, by C57. |
| C99, C100 | The table of `find_longest_match` has the length of the longest run ending at each pair; invariant over the rows that the best so far is the first one in (row, column) order. The counts by Cauchy-Schwarz over the letters; C68. |
| C101 | Counted copies; every node that the reverse links reach is determined by the first place its word occurs at or by the first place it occurs at otherwise, so there are at most twice as many as occurrences. |
| C102 | Counted copies. A run of the while loop leaves a set of nodes closed under transitions, so it has visited them all; the upper bound is the fuel for which C07 was proved. False: `get_string_offsets` is quadratic in the number of strings. |
| C103, C104 | C98, C69 and C75 give the units; the markup written for a stream is computed piece by piece; on the console every printed piece is a run of texts and tags whose cells are computed exactly (`ProgramsConsole`). For diffs, and for merges of words and characters, the groups of lines are those of C74; a merge of lines can have an empty Change, so there only the texts are described. |
| C105 | False for words, lines and characters (three runs of the program with -g). For characters, before gathering into lines: the sides of a conflict of a merge share no token (C22). |
| C106 | A counted copy, shown equal to the model; slices, joins and copies of lists are not counted. The weight of the streams (tokens inserted and tokens of the parent covered) goes down in every round of `_merge`; conflicts are searched group by group and squares add up to at most the square of the sum. Slow cases: the quadratic diffs of C68, once in the parent and once in a conflict. |
| C107 | A simulation between the runs with the tokenizer and with `NullTokenizer`: equal heads and trees, diffs for the same tags, all of them readable. What an add retrieves is what `get` gives before it; it need not be right, only encodable, and every list of bytes can be encoded as lines. Its length has to stay below 2^63, as for the contents that are added; this is a hypothesis on the results of `get`. |
| C108 | Induction over the loop of `_retrieve_using_path`: it reads the head entry of the first tag of the path and the diffs of the others, in order, and stops at the first one that is missing. The state with damage is any state with the same tree. Damage to the tree itself is not covered. |
| C109 | False: every `+=` and every slice of the rest copies all of it. Counted copies of the functions (`SerializeCost`, `VersionsCost`): reading a number copies exactly as many bytes as are left, so both bounds follow by induction and are equal for patches of the smallest pieces. Retrieval: the same over the path, with C66 and C82. That slices and concatenations of bytes copy is a fact about CPython and part of the model; the work of the tokenizers is not counted. |
| C110 | False: for aaa and abaa the longest common run is aa, at the end of the second text, so what precedes it is an insertion and the third a of the first text a removal. By C67 a diff is a derivation of `lcs_diff`; if one text is a run of the other, the longest run is all of it, so the diff has at most three items. Without repeated tokens a longest run covers the place of the piece and has on both sides what is a beginning or an end of the other text. Both ends, and texts without repeated tokens, are proved. |
| C111 | The children of a node are made by `add` (the split and the old head go below the new version) and are otherwise kept, so by induction over the history every child is older than its parent in the same line: the split is below the old head. That a line has no branches and one head is about the history alone. |
| C112 | False with words as tokens. The stored diff is from a later version of the line (C111), which contains the old one as a run of bytes; for UTF-8 also as a run of characters, because a character begins with a byte that continues none. So the changeset has one slice and no data (C110), and its numbers are bounded as in C82. With words as tokens the same when no word is cut at the ends of the old text: the words of the parts are then the words of the whole. |
| C113 | The merge is the positional union (C19). With one edit in one of the lists the union is cut at the edit's place: before it and behind it the union is that of the other branch alone, which is the other branch (C17). `upto` computes from the diff of the other branch what it has in front of the place. |
| C114 | `_merge` is run on the two streams, which differ in one fragment: one conflict comes out between the copied parts. `consolidate_conflicts` replaces it by the diff of its sides, and `consolidate_all` joins the runs (induction on the list of items). |
| C115-C116 | In a table that represents a tree (C40) the rows with a given parent_rid are those in the slots of that row, and (height, rowid) has one maximum among them. C116 false for a table with a child in no slot. |
| C117-C118 | The traversals reach every node once; with the invariant of C01 the words read and accepted from a node are those that continue its substring in s. C118 false: the first transition of the node of a proper prefix of s is by the next token of s (an invariant of `extend`), so dump follows s to its end; a path for s takes all_suffixes as deep. |
| C119 | Both results are longest common words (C01, C07), so the lengths agree; if there is one such word, both give its first position in each string. False with several: 1 2 and 2 1. |
| C120 | The exact tree (C66) with the numbers of the versions: which version hangs from which is followed through the steps of a block of the rake. |
| C121 | A store that logs written keys; an add that succeeds writes the split version and the old head, which are the versions that hang from the new one (C120), and a version hangs from at most three in its life. |
| C122 | The line diff over streams of str or bytes pieces; on str it is the one of C52, on bytes every fragment that is not a Change is passed over, so the claim is refuted there and what remains is stated. |
| C123 | Edges of the deprecated tree (C89) go from a tag to one inserted before, by induction on the insertions; `sorted` keeps that direction when tags increase and is refuted otherwise. |
| C124 | `add` and `get` as programs that make one step for every call of a method of a store or the tree (`C124_alone`: run alone they are those of `Versions`). Each line of versions belongs to the call that works on it; the invariant says of each line which phase its call has reached, and a step of one call leaves the other lines alone. False when two calls work on one line. |
| C125 | The states between the updates of `add` (`add_trace`) satisfy the invariant of C31 with one version whose contents may be stored twice; the invariant is shown to be kept by every later add. `reached` says as which history the state counts. False after the third update of an add that splits. When the add is made again in memory, the node of the tag is replaced by one that lists no children although children point to it; the laws of a tree hold of such a tree too (`MemoryLoose`), so nothing is lost (`InterruptedAgain`). |
| C126 | Every function is shown to commute with a map of tokens that keeps `==` and its negation (`EqualMaps`); tokens are mapped to the numbers of their classes, where the theorems about real equality hold, and the results are carried back. Python's hash table is assumed to find a key by `==` (equal tokens have equal hashes). |
| C127 | `DbCommits` shows the table after every commit of `change_parent`, and `add` with those tables in its trace. The laws of a tree (`tree_law`) hold of a table whose heights may be too small (`DbLoose`), since `get_split` then stops early; a table with a height that is too large is not such a table. Every state between commits but two is of this kind, and agrees with a state of C125 but for the metrics. |
| C128 | By induction over the changeset that `find_changeset` returns: every slice lies within the text, so on another text it gives as many tokens. The carried diff is given by its two texts and its shape, not by positions. |
| C129 | C103, C104 and C78 together. New: a line diff has a Change exactly if the diff it is made of has one (invariant of the accumulator), which C104 now says too. |
| C130 | Counting copies of the loops of both trees (`TreeCost`), and a tree with a counter that obeys the same law as the tree it wraps, so that the invariant of histories applies to it. The ways up that do not pass the node moved are not changed by a move, which gives the exact count; the square root comes from C66, and the exact length of the path from the numbers of C120 (`WaysSplit`). |
| C131 | Tokenizers give tokens numbers, and a diff depends on which tokens are equal only (`EqualMaps`), so a stored changeset is determined by the texts of the tokens. Hence the invariant of histories for one tokenizer is that for another with the same tokens, and `add` makes the same updates with both. Wrong bytes for every other pair by computation. |
| C132 | A text is a list of pieces, kept or replaced by the first or the second person. The pieces give scripts with distinct edits, whose union is the script of both, so the merge is that of C78. Turning the pieces of one person round gives another list of pieces with the corners exchanged, which gives the other seven merges. |
| C133 | The exact shape of C120 depends on nothing but the line of a version, and the lines are determined by which version was made from which head. So two histories with the same lines have the same paths and splits, and the diffs, which are those between a version and its parent, are the same. For a line alone, the adds are filtered and the filtered history has the same line. |
| C134 | A simulation of [add] on two objects that agree outside of a set of versions: each step of the computation keeps the agreement if the tags it works on are outside. The paths of splits and retrievals stay in one line (C111), hence outside of a set of whole lines. For damage to the tree the agreement of the trees is row by row outside of the set, where the rows lead to rows outside only; adding, moving, paths and splits keep it, for any object. |
| C135 | At the points where C125 and C127 leave the line of the new version harmed, the object differs from one where the version was added without a base in entries and rows of that line only, so that the damage theorem of C134 applies; at all other points C125 and C127 give more. |
| C136 | The run of the program writes the text that `merge_result` gives when that has no conflict (from C104), and leaves files that can be read again; with C83 for texts, induction over the runs. What gaspra-diff then shows is C129_shown. |
| C137 | C136_one_run twice, with the merges of C132 for texts; that the merged text splits into the merged units is from C83 for texts. |
| C92 | Counted copies; a step of `update_states` for each node on the way up. The bound for `reevaluate` is false (sum over the leaves of the rake). |
| C24 | False in general (an edit reaching over the beginning of the other branch's edit puts a branch on the wrong side; ties between equal tokens are broken in favour of the first branch). True for compatible edits. For colliding edits none of which reaches over the beginning of one of the other branch: the round of the loop is symmetric (`MergeSwap.process_swap`), hence both orders succeed or fail alike, their two texts are exchanged and they have conflicts alike; with new and different insertions the items are the same with the sides swapped. |
| C26-C30 | Arithmetic on the classes of the encoding; induction over patches and streams. |
| C31-C33, C44 | Invariant relating heads, diffs and tree along all histories of adds, for any store and tree satisfying laws. |
| C34, C35 | Invariant of MemoryTree: heights and sizes are those of the represented forest. |
| C36 | False for the line tokenizer from four versions on. All others by C31. With the line tokenizer: branches of at most three versions; and branches of any length if no diff back to an older version inserts a piece that ends with a newline, by an invariant of replaying that lets the tokens differ by the empty token at the end (`LinePatch`, `VersionsLine`). Files that are only appended to, and files of different lines to which lines are only added, are of this kind. |
| C37-C39 | False in corners found by computation (self-base, re-adding, interruption between lines 47 and 52); true elsewhere. |
| C40-C43 | Refinement between the table of rows and the dict of nodes, between rows and a dict. C41 false for more than two children, for adding a tag twice, and in the exception for an unknown tag; C43 false for `version_info`. |
| C72 | Simulation: with the database classes only the texts of the tags matter. False for int tags with dicts, for tags with the same text, and for the reported base. |
| C46-C51 | Invariant of the tokenizer state (ids are positions in the list of texts); UTF-8 decode/encode inverse laws. C49 false across text types, C50 false (TypeError on every input). |
| C52-C55 | Invariant of the accumulator: what was emitted plus what is pending gives the two texts. C54 false for adjacent strings. |
| C56, C57, C62, C63 | A parser for conflict markers as the specification; end to end from texts to output. C57 and C62 false. |
| C69, C70 | Every character written comes from a text, a name or the markup, so it can be encoded and is no carriage return; the line separator is read back as a newline. C70 false for carriage returns and for ISO-8859-1. |
| C71 | The scanner of rich shown to give back an escaped text, by induction over the text with the pending backslashes as state. False for backslashes before brackets or before markup, emoji codes, control codes. |
| C66 | Invariant: a tree whose longest way has length H contains a comb of ceil(H/2) teeth of lengths ceil(H/2)-1, ..., 1, hence quadratically many nodes; an add cuts at the middle of a longest way, which keeps all teeth above the cut. Exactly: the tree of a head is a spine with one chain per version of the spine, the lengths of the chains are given by n (k^2+j: j chains of k and k-j of k-1; k^2+k+j: k chains of k and j empty ones), and an add leads from each of these shapes to the next; ties between equally high children are decided by the order numbers. `SpecLine` says which versions a head was made from, in terms of the adds only. |
| C58-C60, C64, C65 | Manifests as histories of adds; JSON reader inverts JSON writer on the documents written. C59, C60, C64 false in the cases described. |
| C61 | Induction. |

## Defects found in the code

Each of these is a theorem (`_refuted`) with a computed witness: C08, C15, C16, C21, C24,
C36, C37, C38, C39, C41, C43, C49, C50, C54, C57, C59, C60, C62, C64, C70, C71, C72, C73, C76,
C77, C78, C79, C82, C83, C84, C85, C87, C91, C92, C96, C99, C102, C105,
C109, C110, C112, C116, C118, C119 (some of these are limits rather than defects). The notes in
MANIFEST.json describe them.

## Incident note

While this model was being written, a helper script was once started with
/repo/src/gaspra as its working directory. Python then picked up
/repo/src/gaspra/types.py in place of the standard `types` module, began executing
it, and stopped with an ImportError. This was unintended: the task says the code is
to be read as text only. It left src/gaspra/__pycache__/types.cpython-311.pyc behind,
which was removed, so the source files are unchanged (only the modification time of
the directory differs). Nothing in the model or the proofs relies on that execution.
