{"id": "C01", "title": "Merging a mapping is a key-wise deep merge", "statement": "After the merge action applies a mapping value to a mapping, every key present only in the original keeps exactly the subtree it had, every key present only in the overlay is present with the overlay's subtree (format markers blanked), and every key present in both holds the merge of the two subtrees; nothing else appears.", "quantifier": "every original mapping, every overlay mapping whose keys are distinct and contain no format marker, every nesting depth, every key", "why_tests_cant": "Tests merge a handful of two-level maps; the law ranges over all trees, depths and key sets.", "anchors": ["internal/actions/merge.go: MergeNode, merge, mergeMap, addNode"]}
{"id": "C02", "title": "Merging never reorders or loses existing keys", "statement": "The key list of the merged mapping is the original key list, in the original order, followed by the overlay keys that were missing, in overlay order.", "quantifier": "every original mapping, every marker-free overlay mapping with distinct keys", "why_tests_cant": "Order and completeness must hold for every number and arrangement of keys.", "anchors": ["internal/actions/merge.go: mergeMap, addNode"]}
{"id": "C03", "title": "Merging a sequence appends", "statement": "Merging a sequence value into a sequence keeps every original element unchanged and in place and appends one marker-blanked copy of each overlay element, in order; merging a sequence into a non-sequence leaves exactly the overlay elements.", "quantifier": "every original node and every overlay sequence", "why_tests_cant": "Unbounded element counts and element shapes.", "anchors": ["internal/actions/merge.go: mergeArray, addNode"]}
{"id": "C04", "title": "Merging a scalar replaces value and type", "statement": "Merging a scalar into any node yields a childless scalar carrying the overlay's type tag and the overlay's text after marker substitution against the original value, comments and key; without markers it is exactly the overlay's text.", "quantifier": "every original node (scalar or not) and every scalar overlay", "why_tests_cant": "All node shapes and texts.", "anchors": ["internal/actions/merge.go: merge, mergeScalar", "internal/actions/format.go: format"]}
{"id": "C05", "title": "Merge is idempotent for sequence-free, comment-free, marker-free overlays", "statement": "Applying the same overlay value a second time by merge leaves the document exactly as after the first time, if the value contains no sequence, no comment and no format marker.", "quantifier": "every document subtree and every such overlay value", "why_tests_cant": "A relation between two runs, over all trees.", "anchors": ["internal/actions/merge.go: MergeNode"]}
{"id": "C06", "title": "Overlays are read-only and never alias documents", "statement": "No action changes any node of the overlay's value, and no node of the overlay's value (nor of any other document) becomes reachable from the edited document, so editing one document later cannot change the overlay or another document.", "quantifier": "every heap, every document, every overlay value disjoint from it, every action", "why_tests_cant": "Aliasing bugs only show under particular later edits; tests never look at pointer identity.", "anchors": ["internal/actions/merge.go: addNode", "internal/actions/replace.go: ReplaceNode", "internal/actions/combine.go: CombineNode", "internal/actions/delete.go: DeleteNode"]}
{"id": "C07", "title": "Merge succeeds unless the overlay contains an alias", "statement": "Merging a value that contains no YAML alias into any node of a document always succeeds: it returns no error and never crashes.", "quantifier": "every original tree and every alias-free, document-free overlay value", "why_tests_cant": "Totality over all inputs.", "anchors": ["internal/actions/merge.go: merge, mergeMap, mergeDocument"]}
{"id": "C08", "title": "A marker key edits every entry of the target map", "statement": "Merging a mapping with one key containing a marker into a non-empty mapping keeps its entries in order, merges the value into every entry's value, and makes each entry's key the expansion of the marker key, where %v is the entry's value before the merge, %k its key and %h, %l, %f its key's comments; with {\"%k\": v} the keys are kept. It adds no entry.", "quantifier": "every mapping with at least one entry whose keys contain no marker, every v", "why_tests_cant": "All map sizes; the empty map is an edge that tests omit (there a bogus entry is added).", "anchors": ["internal/actions/merge.go: mergeMap", "internal/actions/markers.go: checkForMarkers"]}
{"id": "C09", "title": "Marker substitution is simultaneous", "statement": "Expanding a format string replaces each marker (with its optional {sed} command) by the corresponding original text (after the command), each exactly once and left to right, and copies all other text verbatim, provided the original texts contain no marker and gluing the pieces together creates none. Outside that condition the expansion is sequential and inserted text can be expanded again (a defect: a counterexample is part of the property).", "quantifier": "every format string cut into literals and markers, every five original texts, every sed engine", "why_tests_cant": "The code substitutes by repeated first-occurrence replacement; agreement with simultaneous substitution must hold for every string, and fails on strings tests never try.", "anchors": ["internal/actions/format.go: format, doFormat, processSedCommand"]}
{"id": "C10", "title": "\"%v\" keeps the original value", "statement": "Merging the value \"%v\" leaves the original value text unchanged if and only if the original value text contains no marker itself; otherwise markers in the existing data are expanded (a defect).", "quantifier": "every original scalar text", "why_tests_cant": "Texts that themselves contain % sequences are needed to break it; the space is unbounded.", "anchors": ["internal/actions/format.go: sanitizeValues, doFormat", "internal/actions/merge.go: mergeScalar"]}
{"id": "C11", "title": "No marker text leaks into new content", "statement": "Content newly added by merge has all its markers removed at any depth (values, keys and comments) and text without markers is added verbatim, unless blanking a marker joins its neighbours into a new marker (e.g. \"%%vv\" leaves \"%v\": a defect, shown by counterexample).", "quantifier": "every overlay subtree", "why_tests_cant": "All strings and depths.", "anchors": ["internal/actions/format.go: sanitizeNode", "internal/actions/merge.go: addNode"]}
{"id": "C12", "title": "Existing comments survive unless the overlay supplies one", "statement": "For merge, replace and combine, head, line and foot comments: positions before the overlay's first non-empty comment keep the original comment, that position and all later ones become the overlay's comment (after marker expansion), even when the overlay has none there. So an existing comment survives when the overlay supplies none at all, but an existing line or foot comment is lost when the overlay supplies an earlier one (a defect against the documented per-position rule, shown by counterexample).", "quantifier": "every combination of present/absent comments on both sides, every text", "why_tests_cant": "Eight presence combinations times all texts; a switch with fallthrough decides.", "anchors": ["internal/actions/merge.go: mergeComments", "internal/actions/replace.go: ReplaceNode", "internal/actions/combine.go: CombineNode"]}
{"id": "C13", "title": "Delete removes exactly what was selected", "statement": "The delete action removes each selected sequence element, and for each selected key or value of a mapping exactly that key/value pair; every other node of the document is unchanged and keeps its order.", "quantifier": "every document tree, every list of selected nodes of it, at any depth", "why_tests_cant": "Index arithmetic over every position, length and depth.", "anchors": ["internal/actions/delete.go: DeleteNode", "internal/overlays/overlay.go: doAction"]}
{"id": "C14", "title": "Delete is idempotent and independent of selection order", "statement": "Deleting the same selected nodes again changes nothing, and any permutation or duplication of the selection gives the same document, including when one selected node lies inside another.", "quantifier": "every document, every selection, every permutation", "why_tests_cant": "Relates all orders of unbounded selections.", "anchors": ["internal/actions/delete.go: DeleteNode", "internal/overlays/overlay.go: doAction"]}
{"id": "C15", "title": "Delete never crashes and keeps mappings paired", "statement": "On a document whose mappings have a value for every key, delete never goes out of range and the result again has a value for every key.", "quantifier": "every such document, every selection", "why_tests_cant": "All positions including first, last and only entries.", "anchors": ["internal/actions/delete.go: DeleteNode"]}
{"id": "C16", "title": "Replace installs exactly the overlay value", "statement": "After replace, the selected node has the overlay value's kind, tag, text, style and children (an unshared copy), with comments per the comment rule, and every node outside the selected subtree is unchanged.", "quantifier": "every document, every selected node, every overlay value", "why_tests_cant": "Frame condition over the whole document.", "anchors": ["internal/actions/replace.go: ReplaceNode"]}
{"id": "C17", "title": "Combining integers adds them", "statement": "Combine on two decimal integer scalars gives the decimal text of their sum when the operands and the sum fit in 64 bits; an operand that is not a decimal integer is reported as an error.", "quantifier": "every pair of integers; every pair of texts for the error part", "why_tests_cant": "Overflow and parse boundaries over 2^128 pairs.", "anchors": ["internal/actions/combine.go: CombineNode"]}
{"id": "C18", "title": "Combining booleans", "statement": "Combine on two booleans gives their conjunction, written true or false; a text that is not a boolean is an error. (The documentation says boolean addition.)", "quantifier": "every pair of accepted boolean spellings; every other text for the error part", "why_tests_cant": "All spellings.", "anchors": ["internal/actions/combine.go: CombineNode"]}
{"id": "C19", "title": "Combine touches only the value and comments", "statement": "Combine on other scalars appends the overlay text; on a non-scalar on either side it reports an error and changes nothing; in no case does it change the node's kind, tag, style, anchor or children.", "quantifier": "every pair of nodes", "why_tests_cant": "All node shapes.", "anchors": ["internal/actions/combine.go: CombineNode"]}
{"id": "C20", "title": "documentQuery is an OR of AND groups", "statement": "An overlay is applied to a document iff it has no document queries or at least one group has all its conditions met; a condition is met iff its queries return at least one node and, when it has a value, every returned node equals that value up to comments, position and style. A condition's value has to be that of every result of its query (the documentation's \"one of the results\" is refuted).", "quantifier": "every list of groups and conditions, every document, every query engine", "why_tests_cant": "Arbitrary nesting of and/or with arbitrary results.", "anchors": ["internal/overlays/documentquery.go: checkQueries, checkQuery", "internal/overlays/query.go: Queries.Find"]}
{"id": "C21", "title": "documentIndex selects documents", "statement": "An overlay in a file's list reaches document i iff it has no documentIndex or i is listed; an overlay of a documents entry reaches exactly the document with that index, regardless of documentIndex.", "quantifier": "every file, every overlay list, every index", "why_tests_cant": "All index sets and document counts.", "anchors": ["internal/overlays/overlay.go: CheckDocumentIndex", "internal/instructions/document.go: checkDocumentIndex", "internal/instructions/yamlfile.go: queueOverlays"]}
{"id": "C22", "title": "Documents that do not qualify are untouched", "statement": "If the document query is not met, or the query finds nothing and the effective onMissing action is ignore, applying the overlay succeeds and changes nothing at all.", "quantifier": "every overlay, document, query engine and configuration", "why_tests_cant": "Frame condition on all state.", "anchors": ["internal/overlays/overlay.go: Apply", "internal/overlays/onmissing.go: onMissing"]}
{"id": "C23", "title": "onMissing precedence", "statement": "An explicit onMissing action wins over the configured default; the configured default is used only when the overlay gives none; with neither the missing query is ignored; and the outcome does not depend on how often or in which order the overlay was applied before.", "quantifier": "every overlay, configuration and history of earlier applications", "why_tests_cant": "The code rewrites the overlay's action in place, so history could matter.", "anchors": ["internal/overlays/onmissing.go: onMissing", "internal/actions/action.go: OnMissingAction.UnmarshalYAML"]}
{"id": "C24", "title": "Inject makes the missing path resolve to the value", "statement": "When the dotted query of an overlay with onMissing inject finds nothing, applying the overlay makes that path resolve in the document to exactly the overlay value; with several missing queries (or injectPaths) that part ways, each of them does, and paths that part from all of them resolve as before.", "quantifier": "every document, every list of diverging marker-free dotted paths, every value", "why_tests_cant": "All documents and path lengths, including partly existing paths.", "anchors": ["internal/overlays/onmissing.go: doInjectPath, handleInjectPath", "internal/builder/path.go: BuildPaths", "internal/actions/merge.go: MergeNode"]}
{"id": "C25", "title": "Inject leaves unrelated paths alone", "statement": "Injecting at a path changes nothing at any path that leaves the injected one at some key, and loses nothing as long as every existing node strictly above the target is a mapping.", "quantifier": "every document, path, value and unrelated path", "why_tests_cant": "Frame condition over all other paths.", "anchors": ["internal/overlays/onmissing.go: doInjectPath", "internal/actions/merge.go: mergeMap"]}
{"id": "C26", "title": "Dotted paths build exactly their keys", "statement": "A path of key names joined by dots (with or without leading $) builds nested single-key mappings with exactly those names, ending in an empty scalar.", "quantifier": "every non-empty list of non-empty names free of the path's special characters", "why_tests_cant": "All names (any Unicode) and all lengths.", "anchors": ["internal/builder/path.go: NewPath, newPath, childThen", "internal/builder/lexer.go: lexPath, lexSubPath, handleChild"]}
{"id": "C27", "title": "Bracketed names build exactly their keys", "statement": "['n1','n2',...] after a path builds one entry per name, in order, with exactly those names, even when names contain commas, dots, brackets, spaces, or quotes and backslashes written with a backslash before them, provided no name contains a quote of the kind it is not enclosed in and no name ends in a backslash (otherwise names can be glued together: a defect, shown by counterexamples).", "quantifier": "every non-empty list of such names, each with its own quotes and surrounding white space, after and before any dotted path", "why_tests_cant": "All names and counts.", "anchors": ["internal/builder/path.go: bracketChildNames, bracketChildThen, balanced", "internal/builder/lexer.go: handleBracket"]}
{"id": "C28", "title": "Path parsing always terminates with one error class", "statement": "Parsing any path string terminates, never blocks on the lexer's two-slot channel, never crashes, and every failure is the 'invalid path syntax' error.", "quantifier": "every string", "why_tests_cant": "Termination and deadlock freedom for every input.", "anchors": ["internal/builder/lexer.go: nextLexeme, lexSubPath, emit", "internal/builder/path.go: newPath"]}
{"id": "C29", "title": "Expression queries never become scaffolding", "statement": "A query using wildcards, recursive descent, filters, array subscripts or the key operator outside quotes is rejected by the builder, so the injectPath (or, without one, nothing) is used instead.", "quantifier": "every string containing such a construct after an ordinary dotted prefix", "why_tests_cant": "All strings.", "anchors": ["internal/builder/lexer.go: lexSubPath, handleChild", "internal/overlays/onmissing.go: handleInjectPath"]}
{"id": "C30", "title": "Overlays run in the documented order", "statement": "For each document of a file the overlays applied are: common overlays, then the file's overlays, then the overlays of matching documents entries, each in listed order; documents in file order.", "quantifier": "every instruction set", "why_tests_cant": "All counts of overlays, entries and documents.", "anchors": ["internal/instructions/yamlfile.go: queueOverlays", "internal/overlays/workstream.go: StartHandler, AddWorkload", "internal/instructions/instructions.go: addCommonOverlays"]}
{"id": "C31", "title": "Each file gets its own overlays after the common ones", "statement": "After preparation every file's overlay list is the common overlays followed by that file's own overlays, unaffected by any other file, whenever the common list has no spare capacity (it was decoded exactly full and no command-line overlay was appended). With spare capacity all files whose own overlays fit into it share one backing array: such a file gets, after the common overlays, its own ones with those of every later fitting file written over their front (a defect, shown by counterexample: the first file loses its overlay to the second).", "quantifier": "every list of common overlays and files, with and without a command-line overlay, every slice capacity", "why_tests_cant": "Depends on Go slice capacities: the failure needs at least three common overlays including the command-line one and two files.", "anchors": ["internal/instructions/instructions.go: addCommonOverlays", "internal/instructions/config.go: ReadAdHocOverlays"]}
{"id": "C32", "title": "Duplicate file entries are merged", "statement": "After merging duplicates each path occurs once, at its first position; its overlays and documents are the concatenation over its entries in order; its output path is the last non-empty one.", "quantifier": "every list of file entries", "why_tests_cant": "All multiplicities and interleavings.", "anchors": ["internal/instructions/yamlfile.go: mergeDuplicates"]}
{"id": "C33", "title": "Directory entries expand to their YAML files", "statement": "After expansion no entry is a directory, plain entries are kept in order, and every directory entry is replaced by one entry per YAML file below it carrying the same overlays, documents and output path.", "quantifier": "every list of entries and every file system", "why_tests_cant": "All mixtures of files and directories.", "anchors": ["internal/instructions/yamlfile.go: expandDirectories", "internal/instructions/utils.go: getFileNames, isDirectory"]}
{"id": "C34", "title": "Directory expansion terminates", "statement": "Expanding directory entries terminates if walking a directory yields only non-directories; otherwise (a symlink to a directory named *.yaml) there is a file system on which it runs forever.", "quantifier": "every list of entries, every file system", "why_tests_cant": "Termination over all file systems.", "anchors": ["internal/instructions/yamlfile.go: expandDirectories", "internal/instructions/utils.go: getFileNames, isDirectory"]}
{"id": "C35", "title": "The common prefix is the longest common directory", "statement": "For clean input paths that are absolute (and not all directly in the root) or share a leading directory, the prefix removed from input paths ends in the separator, is a prefix of every input path, and every directory prefix common to all inputs is a prefix of it. For relative paths with no shared directory it is not even a directory (a defect, shown by counterexample).", "quantifier": "every list of two or more clean paths, none an ancestor of another", "why_tests_cant": "All path sets.", "anchors": ["internal/instructions/utils.go: GetCommonPrefix"]}
{"id": "C36", "title": "Different inputs get different outputs", "statement": "Files without an explicit output path and with different clean input paths that share a directory are written to different output paths, which keep the directory structure below the common directory. For relative inputs with no shared directory two files can get the same output (a defect, shown by counterexample).", "quantifier": "every set of distinct input paths", "why_tests_cant": "All path sets; collisions lose data silently.", "anchors": ["internal/instructions/instructions.go: setOutputPath", "internal/instructions/utils.go: GetCommonPrefix"]}
{"id": "C37", "title": "Output stays inside the output directory", "statement": "A file without an explicit output path whose clean input path shares a directory with the others is written strictly inside the output directory; for a single file in the root directory or an unclean spelling it can leave it (a defect, shown by counterexample).", "quantifier": "every set of input paths and every output directory", "why_tests_cant": "All paths, including ones with .. and files at the root.", "anchors": ["internal/instructions/instructions.go: setOutputPath", "internal/instructions/config.go: openOutputFile", "internal/instructions/utils.go: GetCommonPrefix"]}
{"id": "C38", "title": "Output contains exactly the non-empty documents", "statement": "The rendered file consists of the encodings of exactly the documents that still have content, in order; a file whose documents are all empty is not written at all.", "quantifier": "every list of documents, every encoder", "why_tests_cant": "All patterns of emptied documents.", "anchors": ["internal/instructions/config.go: encodeNodes, doPostProcessing"]}
{"id": "C39", "title": "Output style is the union of the chosen styles on every node", "statement": "With distinct style names, every node of every written document carries exactly the selected styles and nothing else about the documents changes; naming the same style twice selects a different style (a defect, shown by counterexample).", "quantifier": "every document, every list of style names", "why_tests_cant": "All trees; repeated names break the arithmetic.", "anchors": ["internal/actions/style.go: GetStyle, SetStyle, GetStyleFromConfig", "internal/instructions/config.go: encodeNodes"]}
{"id": "C40", "title": "remove-comments removes all comments and nothing else", "statement": "With remove-comments no node strictly below the root of any loaded document has a comment, and nothing but comments changes; the comments attached to the document node itself stay (a defect, shown by counterexample), so all comments are gone exactly when the document node has none. In memory, the removal ends for any set of documents, and touches no node outside them (no overlay value).", "quantifier": "every document", "why_tests_cant": "All trees and comment placements.", "anchors": ["internal/instructions/yamlfile.go: removeCommentsFromNode", "internal/instructions/instructions.go: GetInstructions"]}
{"id": "C41", "title": "Concurrent processing is deterministic", "statement": "For every interleaving of the per-file workers' single memory operations, each file that is written has exactly the documents obtained by applying its overlays one after the other in order.", "quantifier": "every instruction set and every schedule", "why_tests_cant": "All interleavings.", "anchors": ["internal/instructions/execute.go: Execute", "internal/overlays/workstream.go", "internal/instructions/yamlfile.go: queueOverlays"]}
{"id": "C42", "title": "Failures are never silent", "statement": "If any overlay application or any write fails, Execute never returns success under any schedule, a file whose overlays failed is never written, and the error returned is one that an overlay or a write really produced. (Whether the other files get written on failure depends on the schedule: shown by example.)", "quantifier": "every instruction set, failure position and schedule", "why_tests_cant": "All failure points times all schedules.", "anchors": ["internal/instructions/execute.go: Execute, PostProcessHandler", "internal/overlays/workstream.go: StartHandler"]}
{"id": "C43", "title": "Processing never deadlocks", "statement": "Provided every single overlay application finishes when the file is processed on its own, Execute returns (or the process panics) under every schedule: no schedule is longer than a bound computed from the number of memory operations each file takes on its own, and no reachable unfinished state is stuck.", "quantifier": "every instruction set and schedule", "why_tests_cant": "Deadlock freedom over all interleavings.", "anchors": ["internal/instructions/execute.go: Execute, PostProcessHandler"]}
{"id": "C44", "title": "Success means every file was rendered exactly once", "statement": "If Execute returns no error then every file was post-processed exactly once, and renderings are emitted whole, one after another.", "quantifier": "every instruction set and schedule", "why_tests_cant": "All interleavings.", "anchors": ["internal/instructions/execute.go: Execute, PostProcessHandler", "internal/instructions/config.go: doPostProcessing"]}
{"id": "C45", "title": "Later values files win", "statement": "Values from several values files combine by merging each over the previous: a key whose last definition is a marker-free scalar has exactly that value, and a key defined in only one file keeps its definition.", "quantifier": "every number of values files and every key", "why_tests_cant": "All file counts and overlaps.", "anchors": ["internal/instructions/values.go: getValues", "internal/actions/merge.go: MergeNode"]}
{"id": "C46", "title": "Setting precedence", "statement": "A setting given on the command line wins over the configuration file, which wins over the default; the configuration file is the one given by --config, else by YOT_CONFIG_FILE, else the first in the search path, and a chosen file that cannot be read is fatal. The other documented environment variables have no effect at all (a defect: they should win over the configuration file; counterexample given).", "quantifier": "every setting and every combination of sources", "why_tests_cant": "All combinations; the binding call decides.", "anchors": ["internal/commands/root.go: initConfig", "internal/commands/env.go: envMap", "internal/commands/flags.go"]}
{"id": "C47", "title": "Action names round-trip and unknown actions are rejected", "statement": "An action is accepted iff its name is merge, replace, delete or combine in any letter case, printing an accepted action gives its lower-case name, and every other name is an error; an unknown onMissing action means the default.", "quantifier": "every string", "why_tests_cant": "All strings.", "anchors": ["internal/actions/action.go: UnmarshalYAML, String"]}
{"id": "C48", "title": "An omitted action means merge", "statement": "An overlay without an action behaves exactly as the same overlay with action merge, whether or not it has a name.", "quantifier": "every overlay and document", "why_tests_cant": "The defaulting code only runs for named overlays, so behaviour must agree on all.", "anchors": ["internal/overlays/overlay.go: UnmarshalYAML, doAction"]}
{"id": "C49", "title": "Actions keep documents well formed", "statement": "Every action (merge, replace, delete, combine, inject) turns a document whose mappings have a value for each key into one with the same property.", "quantifier": "every document, overlay, selection", "why_tests_cant": "Invariant over all histories of overlays.", "anchors": ["internal/actions/merge.go", "internal/actions/replace.go", "internal/actions/delete.go", "internal/actions/combine.go"]}
{"id": "C50", "title": "Output aliases keep their anchors", "statement": "If every alias (*name) of a document is preceded by its anchor (&name), it still is after a combine, whatever is selected; after a replace, if the overlay value's aliases have their anchors in the value and the aliases outside the selected nodes have their anchors outside them; after a merge, if the value has no alias and the document's aliases have their anchors outside the selected nodes; after a delete, if the aliases that remain have anchors that remain; after an injection, if the value's aliases have their anchors in the value and the existing nodes on the path are mappings. Without these conditions it fails: replacing or deleting an anchored node, or merging a scalar over a mapping that holds an anchor, leaves its aliases dangling, and merging a value does not bring its anchors along, so the output is not valid YAML.", "quantifier": "every document, overlay value and selection", "why_tests_cant": "All documents with anchors.", "anchors": ["internal/actions/replace.go", "internal/actions/delete.go", "internal/actions/merge.go", "internal/actions/combine.go"]}
{"id": "C51", "title": "Multi-file output goes only to planned locations", "statement": "The set of files written by a successful run is exactly the set of output locations computed from the entries with non-empty documents, each holding that entry's rendering when locations are distinct; if two entries share a location the winner depends on the schedule (shown by example).", "quantifier": "every instruction set and schedule", "why_tests_cant": "All interleavings and location assignments.", "anchors": ["internal/instructions/config.go: doPostProcessing, openOutputFile", "internal/instructions/execute.go"]}
{"id": "C52", "title": "Log level names", "statement": "Every level name accepted by --log-level, in any letter case, sets up logging without a crash; the short names in a configuration file crash the program (a defect, shown by counterexample).", "quantifier": "every text given to --log-level", "why_tests_cant": "All texts in all letter cases.", "anchors": ["internal/commands/flags.go: initializeCommonFlags", "internal/commands/root.go: SetupLogging"]}
{"id": "C53", "title": "The env command reports the values in force", "statement": "For every documented variable, `yot env NAME` prints NAME=\"value\" with the value of the setting actually used by the program.", "quantifier": "every variable, every configuration", "why_tests_cant": "All combinations of sources.", "anchors": ["internal/commands/env.go: env, envMap"]}
{"id": "C54", "title": "Merge and combine edit only the selected nodes", "statement": "Applying merge or combine to the nodes selected in a document changes exactly those nodes, each to the merge or combination of its old content with the overlay value; every node outside them, the overlay value and every other document keep their content. If a combination fails, the error reported is that of the first selected node that fails, and nodes after it are untouched.", "quantifier": "every document, overlay value and selection of independent nodes", "why_tests_cant": "Frame condition over whole documents in a shared heap of nodes.", "anchors": ["internal/overlays/overlay.go: doAction", "internal/actions/merge.go: MergeNode", "internal/actions/combine.go: CombineNode"]}
{"id": "C55", "title": "A directory stands for exactly the YAML files below it", "statement": "An input path that is a directory contributes exactly the files below it, at any depth, whose names end in .yaml or .yml, each once, in dictionary order; if anything below it cannot be examined the run ends with an error rather than skipping files. Symbolic links are not followed; a path that is itself a link to a directory contributes nothing.", "quantifier": "every file system tree, every path", "why_tests_cant": "Trees of unbounded depth and width; permissions and links at any place.", "anchors": ["internal/instructions/utils.go: getFileNames, isDirectory", "internal/instructions/yamlfile.go: expandDirectories"]}
{"id": "C56", "title": "Every named input is loaded exactly once", "statement": "The list of files of a run holds every input named in the instructions file or with -p (directories standing for their files, relative paths taken from the directory of the instructions file) exactly once, in order of first mention, with the documents stored in it and the documents entries of all its mentions; its output path is derived from the last output path given for it.", "quantifier": "every instructions file, command line and file system", "why_tests_cant": "Combinations of repeated mentions, directories, standard input and options.", "anchors": ["internal/instructions/instructions.go: GetInstructions, ReadInstructionFile", "internal/instructions/config.go: ReadAdHocPaths", "internal/instructions/yamlfile.go: UnmarshalYAML, readYamlFile, mergeDuplicates"]}
{"id": "C57", "title": "Every file gets the common, the command line and its own overlays, in this order", "statement": "After preparation each file's overlay list is: the common overlays, then the overlay given with -q, then the overlays of all its mentions in order. (Holds when the array behind the common list has no spare room, in particular always without -q; the exact result otherwise is characterised.)", "quantifier": "every instructions file and command line, every growth policy of the runtime", "why_tests_cant": "Aliasing of lists between files depends on lengths and on the allocator.", "anchors": ["internal/instructions/instructions.go: GetInstructions, addCommonOverlays", "internal/instructions/config.go: ReadAdHocOverlays", "internal/instructions/yamlfile.go: mergeDuplicates"]}
{"id": "C58", "title": "Preparation succeeds exactly when all inputs are usable", "statement": "Reading the instructions ends with a list of files exactly if every named input exists and can be read as YAML, no directory has a file as output path and the command line overlay is YAML; otherwise it ends with an error before anything is written. It always ends (given no YAML-named link to a directory) and does not crash.", "quantifier": "every instructions file, command line and file system", "why_tests_cant": "A single bad input anywhere among unboundedly many must be noticed.", "anchors": ["internal/instructions/instructions.go: GetInstructions", "internal/instructions/config.go: ReadAdHocPaths, ReadAdHocOverlays"]}
{"id": "C59", "title": "Documents of a file do not influence each other", "statement": "Processing a multi-document file gives every document the content it would have if it were processed alone with the overlays meant for it, and the file succeeds exactly if every document does; otherwise the reported failure is that of the first document that fails on its own.", "quantifier": "every file, number of documents, list of overlays and documents entries", "why_tests_cant": "Interference through shared nodes of overlay values could depend on any combination of overlays.", "anchors": ["internal/instructions/yamlfile.go: queueOverlays", "internal/overlays/overlay.go: Apply", "internal/overlays/workstream.go: StartStream"]}
{"id": "C60", "title": "A whole run: from the instructions to the written files", "statement": "If a run succeeds, then every input named by the instructions or the command line has been processed: its rendered documents are the ones stored in it, each with the common, the command line and its own overlays meant for it applied in order, and what has been written is exactly the texts of these documents, each input's once, at the output location that follows from the instructions (see C88). (The overlays meant are those in force for the input; C90 says when -q makes them differ from the ones written for it.)", "quantifier": "every instructions file, command line, file contents and schedule", "why_tests_cant": "Composition of all phases over unbounded inputs and all schedules.", "anchors": ["internal/instructions/instructions.go: GetInstructions", "internal/instructions/execute.go: Execute", "internal/instructions/config.go: doPostProcessing"]}
{"id": "C61", "title": "Which documents are instructions files, and what they mean", "statement": "Reading the instructions file accepts exactly the YAML documents of the documented format (records with the known fields, null standing for an omitted field, a query alone or in a list, action names in any case), yields exactly what they mean, and refuses every other document with an error; it never crashes. A document means at most one thing.", "quantifier": "every document tree, with aliases", "why_tests_cant": "The set of documents is infinite; tests can only sample it.", "anchors": ["internal/instructions/instructions.go: ReadInstructionFile", "internal/instructions/yamlfile.go: YamlFiles.UnmarshalYAML", "internal/overlays/overlay.go: Overlay.UnmarshalYAML", "internal/overlays/query.go: Query.UnmarshalYAML, Queries.UnmarshalYAML", "internal/actions/action.go", "internal/overlays/onmissing.go", "internal/overlays/documentquery.go"]}
{"id": "C62", "title": "A typo in an action or a query refuses the whole file", "statement": "If any overlay of the instructions file (common, of a file or of a documents entry) has an action that is none of merge, replace, delete, combine, or any of its queries (its own, its inject paths, those in its documentQuery conditions) is not a valid query, then the instructions are refused with an error and nothing is processed.", "quantifier": "every instructions file and every place in it", "why_tests_cant": "The place and the surrounding file are arbitrary.", "anchors": ["internal/actions/action.go: Action.UnmarshalYAML", "internal/overlays/query.go: Query.UnmarshalYAML"]}
{"id": "C63", "title": "The way instructions are written does not matter", "statement": "The order of keys, additional unknown keys, comments, styles, the use of aliases, and writing a single query alone or as a list of one make no difference to what an instructions file means.", "quantifier": "every pair of instructions files that say the same", "why_tests_cant": "Pairs of arbitrary documents.", "anchors": ["internal/overlays/query.go: Queries.UnmarshalYAML", "internal/overlays/overlay.go: Overlay.UnmarshalYAML"]}
{"id": "C64", "title": "The overlay on the command line is the one in the file", "statement": "-q, -a and -x give the same overlay (queries, action, value) as a common overlay in the instructions file with these texts; a flag that is not YAML, not a query or not an action is refused; without -q there is no such overlay.", "quantifier": "every list of -q and -a flags and value", "why_tests_cant": "Arbitrary texts and numbers of flags.", "anchors": ["internal/overlays/query.go: Queries.Set", "internal/actions/action.go: Action.Set", "internal/commands/flags.go", "internal/instructions/config.go"]}
{"id": "C65", "title": "Null entries in yamlFiles", "statement": "A null entry in the list yamlFiles makes the program crash as soon as the entry is reached; such a run never succeeds. Without null entries the list is expanded as in C32-C34.", "quantifier": "every list of entries, file system", "why_tests_cant": "Arbitrary lists and positions.", "anchors": ["internal/instructions/yamlfile.go: expandDirectories"]}
{"id": "C66", "title": "The instructions file is a template only with values", "statement": "Without -f the instructions file is used exactly as it is written. With values files it is rendered as a template on the values files' documents, merged deeply in the order of the command line. A template that calls a function the template language does not define itself, sprig's in particular, is always refused, so (as far as sprig redefines none of the language's own functions) adding sprig makes no difference.", "quantifier": "every instructions text, list of values files, template engine and set of functions", "why_tests_cant": "Arbitrary templates and values; the documented functions are refused for every template.", "anchors": ["internal/instructions/template.go: renderInstructionsTemplate", "internal/instructions/values.go: getValues", "internal/instructions/instructions.go: ReadInstructionFile"]}
{"id": "C67", "title": "A whole run, from texts to files", "statement": "If a run succeeds, then for every input file named by the instructions or the command line, each document of the file, taken alone from its contents as read (less its comments if --remove-comments is given), and changed by exactly the overlays the texts of the instructions file and flags ask for that file and document (common, command line, the file's, the document's, in this order, those whose document queries match), gives a text; and what has been written is exactly these texts, each once, at the file's output location (see C88). (The overlays meant are those in force for the input; C90 says when -q makes them differ from the ones written for it.)", "quantifier": "every instructions text, command line, file system, set of documents, and every schedule of the parallel work", "why_tests_cant": "All programs inputs and all interleavings.", "anchors": ["internal/instructions/instructions.go: GetInstructions", "internal/overlays/overlay.go: Apply", "internal/instructions/execute.go: Execute"]}
{"id": "C68", "title": "Explicit output paths are honoured", "statement": "A file entry with an output path whose last element has an extension is written to exactly that path; with any other output path it is written into that directory under the input file's own name; relative outputs are below the output directory, absolute ones are used as they are. The other entries do not matter.", "quantifier": "every list of entries, every input path and output path", "why_tests_cant": "All path texts.", "anchors": ["internal/instructions/instructions.go: setOutputPath", "internal/instructions/config.go: openOutputFile"]}
{"id": "C69", "title": "Overlays are functions on document trees", "statement": "What a list of overlays does to a document depends on nothing but the document's tree (kinds, tags, texts, anchors, comments, order) and the overlays' queries, values, actions, document queries and missing settings: it is a mathematical function on trees, built from 'positions the queries give', 'rewrite the nodes at these positions' (when replacing, not those inside a node replaced before), 'remove them' and 'scaffold the paths and rewrite'. Every run that ends agrees with this function: same resulting tree, same error, or a crash exactly if the function says so; nothing outside the document changes. Key paths are such queries.", "quantifier": "every document, list of overlays with every action, document query, missing setting and inject path, and storage layout; provided that no overlay merges into a node inside one it merged into before, and values compared by document queries meet no alias nodes", "why_tests_cant": "An equivalence between in-place editing of shared pointers and a pure function for all inputs.", "anchors": ["internal/overlays/overlay.go: Apply, CheckDocumentIndex, checkQueries, doAction, onMissing", "internal/actions/merge.go: MergeNode", "internal/actions/replace.go: ReplaceNode", "internal/actions/combine.go: CombineNode", "internal/actions/delete.go: DeleteNode", "internal/builder/path.go: BuildPaths"]}
{"id": "C70", "title": "The files written hold the meaning of the instructions", "statement": "If a run succeeds, then for every input file and each of its documents, the tree rendered is the value, on the tree of the document as read (less its comments if --remove-comments is given), of the function of C69 for the overlays the texts of instructions file and command line ask for this document; and what has been written is exactly the texts of these trees, each once, at the file's output location (see C88). (The overlays meant are those in force for the input; C90 says when -q makes them differ from the ones written for it.)", "quantifier": "every instructions text, command line, file system, set of documents, and every schedule of the parallel work", "why_tests_cant": "All inputs and all interleavings.", "anchors": ["internal/instructions/instructions.go: GetInstructions", "internal/instructions/execute.go: Execute", "internal/overlays/overlay.go: Apply"]}
{"id": "C71", "title": "Overlays on paths that part ways can be given in any order", "statement": "Overlays whose queries are key paths that part ways (none is a prefix of another), whose document queries look only at paths parting from the other overlays' paths, and which ignore missing paths, lead to the same document in every order: one order succeeds with a tree exactly if every other order succeeds with that tree; and each path ends up holding what its overlay alone would have put there.", "quantifier": "every document, every list of such overlays with any actions, every permutation", "why_tests_cant": "All documents, all numbers of overlays and all permutations of them.", "anchors": ["internal/overlays/overlay.go: Apply, doAction", "internal/overlays/workstream.go: StartHandler", "internal/actions/merge.go: MergeNode", "internal/actions/replace.go: ReplaceNode", "internal/actions/combine.go: CombineNode"]}
{"id": "C72", "title": "Applying the same overlays again changes nothing", "statement": "For overlays as in C71 that delete (a key present once), replace (by a value whose comments carry no marker) or merge (a sequence-free, comment-free and marker-free value), and whose document queries look at paths they do not edit, applying the whole list a second time to the resulting document succeeds and leaves the same document.", "quantifier": "every document, every list of such overlays", "why_tests_cant": "All documents and all lists of overlays.", "anchors": ["internal/overlays/overlay.go: Apply, doAction", "internal/actions/merge.go: MergeNode", "internal/actions/replace.go: ReplaceNode", "internal/actions/delete.go: DeleteNode"]}
{"id": "C73", "title": "Exit status 0 means everything was written, with the settings in force", "statement": "If the process exits with status 0, then the configuration file chosen was readable, the log level known, every input named was processed with the settings in force (flag, else configuration file, else default: output directory, stdout, style, indentation, comment removal, on-missing default) and what has been written is exactly the texts of these inputs, each at its output location (see C88). If something is wrong before the first overlay is applied (configuration, log level, -q/-a, instructions, an input that cannot be read) the status is not 0 and nothing has been written. A failing overlay makes the status non-zero under every schedule. A process whose overlays end has an exit status. A negative indentation crashes the process, nothing being written. (The overlays meant are those in force for the input; C90 says when -q makes them differ from the ones written for it.)", "quantifier": "every environment, command line, configuration file, file system, instructions text and schedule", "why_tests_cant": "All inputs, settings and interleavings.", "anchors": ["cmd/yot/main.go: main", "internal/commands/root.go: New, initConfig, SetupLogging, Execute, Run", "internal/commands/flags.go", "internal/instructions/config.go: doPostProcessing, openOutputFile, encodeNodes", "internal/instructions/execute.go: Execute"]}
{"id": "C74", "title": "--output-style reaches the encoder", "statement": "For every accepted use of --output-style (any number of occurrences, lists separated by commas, any letter case) the documents are written with exactly the styles named, in order, whatever the configuration file says; every spelling of the help text is accepted. (Refuted for the documented spelling singleQuote, which the flag refuses.)", "quantifier": "every list of occurrences of the flag, every configuration file", "why_tests_cant": "All combinations of spellings and occurrences: the style passes through a printed text that is parsed again by other code.", "anchors": ["internal/actions/style.go: FlagMap, GetStyleFromConfig", "internal/commands/flags.go: initializeFormatFlags", "internal/instructions/config.go: encodeNodes"]}
{"id": "C75", "title": "--default-on-missing-action decides for overlays that do not say", "statement": "An overlay without an onMissing action of its own is applied exactly as if it said inject, if the last --default-on-missing-action on the command line that says something says inject in any letter case; and exactly as if it said ignore, if it says anything else, whatever the configuration file says. Without the flag the configuration file decides in the same way, and without both it is ignore. The flag accepts every word, known or not: only a text that is not YAML, or that is a list or a mapping, is refused.", "quantifier": "every list of occurrences of the flag, configuration file, overlay and document", "why_tests_cant": "All spellings, occurrences, settings and documents: the flag passes through a printed text compared by other code.", "anchors": ["internal/actions/action.go: OnMissingAction.Set, OnMissingAction.String, OnMissingAction.UnmarshalYAML", "internal/commands/flags.go: initializeInstructionFlags", "internal/overlays/onmissing.go: onMissing"]}
{"id": "C76", "title": "Paths with wildcards, indices, filters and recursive descent", "statement": "What a query of names, wildcards, (negative) indices, filters on a key's text and recursive descent finds is a function of the document's tree. For an overlay with one such query without recursive descent, no node found lies inside another one, so what the overlay does to a document is always the function on trees of C69; and each node found, whichever and however many they are, is replaced by the result of the overlay's merge, replace or combine on it, once, while every other node keeps its text and number of children, and subtrees not containing or contained in a node found are untouched.", "quantifier": "every path of steps, document, overlay value and (non-delete) action", "why_tests_cant": "All documents, path shapes and numbers of matches; the nodes found are rewritten one after the other on the shared node graph, so that each rewriting could affect the next.", "anchors": ["internal/overlays/overlay.go: Overlay.Apply, Overlay.doAction", "internal/overlays/query.go: Queries.Find", "internal/actions/merge.go: MergeNode", "internal/actions/replace.go: ReplaceNode"]}
{"id": "C77", "title": "Command lines", "statement": "A command line made of the documented flags, each written in any form flags can be written in (--flag=value, --flag value, --flag, -f=value, -f value, -fvalue, -f), in any order, is understood as the values given to each flag: repeatable flags (-q, -a, -f) get all of them in order, the others the last one, and the process runs with these (as C73 says) or, if a flag refuses one of its values, ends with status 1 having written nothing. Neither the form nor the order of different flags matters; what follows -- is ignored. A word that is no flag's value ends the process with status 1 and nothing written (so that `-v debug` is refused). --help at the end prints the help text and writes no file. One word may follow --help or -h, and flags after that word are read too: a bad value among them is still refused. A long flag that does not exist is refused, wherever it stands, unless the name of a command follows it. Contrary to what one may expect, `-si file` and `--help -i file` are refused as unknown commands.", "quantifier": "every list of flags and values, every form and order of writing them, every value of each flag, every starting state", "why_tests_cant": "The forms and orders of flags combine without bound; two different scans of the arguments (one that looks for subcommands, one that parses flags) have to agree on all of them.", "anchors": ["internal/commands/flags.go: initializeCommonFlags, initializeOutputFlags, initializeFormatFlags, initializeTemplateFlags, initializeInstructionFlags, initializeStdInFlags", "internal/commands/root.go: NewCommand, AddFlags, AddCommands, Run", "cmd/yot/main.go: main"]}
{"id": "C78", "title": "Where a missing value goes", "statement": "When an overlay's queries find nothing in a document it applies to and the effective onMissing action is inject: if the queries are paths of keys, the injectPath is not looked at; if one of them is an expression (wildcard, recursive descent, filter, subscript, ...), the value goes where it would go if the injectPath were the (missing) query, or nowhere, without an error, if there is no injectPath; and if an injectPath is itself an expression, the overlay fails and nothing is changed. Refuted: the documentation's injectPath example (spec.template.spec.containers[0].image) always fails; inject also applies to delete and combine overlays, although the documentation restricts it to merge and replace; an empty list of queries or of injectPaths crashes.", "quantifier": "every overlay, document, query engine, configured default and list of injectPaths", "why_tests_cant": "All combinations of query texts, injectPaths, actions and documents; the claim that a setting is never looked at ranges over all its values.", "anchors": ["internal/overlays/onmissing.go: onMissing, handleInjectPath, doInjectPath", "internal/overlays/overlay.go: Overlay.Apply", "internal/builder/path.go: NewPaths, BuildPaths", "docs/sections/overlayActions.md", "docs/sections/instructionsFileSpec.md"]}
{"id": "C79", "title": "Every run ends", "statement": "Take input files whose documents are separate trees (aliases may point anywhere, their own ancestors included) and overlays whose values and condition values do not contain themselves and whose queries find nodes of the document they are run on. Then applying the overlays of each file ends, with success, an error or a crash, the documents can be read afterwards even if an overlay failed, Execute ends under every schedule (no execution is longer than a bound and none gets stuck), and the process has an exit status. Refuted without the assumption on values: replacing by a value that contains itself (value: &a [*a]) never ends.", "quantifier": "every set of files, documents, overlays, conditions, query engine, schedule, settings and output disk", "why_tests_cant": "Termination for all inputs and schedules; a test can only show that one run ended.", "anchors": ["internal/instructions/execute.go: Execute", "internal/overlays/overlay.go: Overlay.Apply", "internal/overlays/documentquery.go: checkQueries", "internal/overlays/onmissing.go: doInjectPath", "internal/actions/merge.go", "internal/actions/replace.go: ReplaceNode", "internal/actions/delete.go: DeleteNode", "internal/commands/root.go"]}
{"id": "C80", "title": "yot env shows the settings in force", "statement": "`yot env` prints, in some order, exactly one line NAME=\"value\" for each of the eight documented variables, where the value is the one a run without flags would use: the configuration file's, else the default (and for YOT_CONFIG_FILE the file in use); `yot env NAME` prints the line of that variable, or <nil> for a name that is none of them. It changes no file and always ends: with status 1 and no output if the configuration file cannot be read, by a crash if that file has a log level other than the six long names, with status 0 otherwise. More than one name is refused, and so is every flag of yot, wherever and however it is written. Refuted: after YOT_STDOUT=true, `yot env YOT_STDOUT` prints \"false\" (the variables other than YOT_CONFIG_FILE are never read).", "quantifier": "every environment, configuration file, search path, name, flags before and after the word, order of Go's map", "why_tests_cant": "All environments, files and command lines; Go's map order is random.", "anchors": ["internal/commands/env.go: EnvCommand, env, envMap", "internal/commands/root.go: initConfig, SetupLogging, AddCommands", "internal/commands/flags.go"]}
{"id": "C81", "title": "Subcommands write no file", "statement": "A command line on which env, completion or help stands where a flag is expected never changes a file, whatever else is on it. `yot completion SHELL` succeeds for bash, zsh, fish and powershell unless the configuration file cannot be read or has a bad log level; with any other list of words it ends with status 1 and prints nothing.", "quantifier": "every command line with flags before the word and anything after, every environment and configuration file", "why_tests_cant": "All command lines.", "anchors": ["internal/commands/completion.go: CompletionCommand, Completions", "internal/commands/env.go: EnvCommand", "internal/commands/root.go: AddCommands, initConfig, SetupLogging"]}
{"id": "C82", "title": "Merges act entry by entry and compose", "statement": "Merging a mapping is merging its entries one after the other: cut the mapping anywhere between two entries, and merging the two parts in turn gives exactly the same node (or the same failure), whatever markers, comments or repeated keys it has. Two marker-free values merged one after the other give the same value as merging the second into the first and then the result, provided the second never puts a mapping or a sequence where the first has something of another kind. Refuted without that proviso: {a: {y: 2}} after {a: 5} over {a: {x: 1}} gives {a: {y: 2}}, but their merge {a: {y: 2}} gives {a: {x: 1, y: 2}}.", "quantifier": "every node, every mapping and cut; every pair of overlay values", "why_tests_cant": "Algebraic laws over all trees of any depth.", "anchors": ["internal/actions/merge.go: MergeNode, merge, mergeMap, addNode"]}
{"id": "C83", "title": "Killed runs", "statement": "Whenever the process is killed, or one of its goroutines panics, at any step of a run and between any two system calls of writing a file, at most one output file is left with only a beginning of its text; every other file is either as before the run or holds the whole text of its document. Files that nothing is rendered to, such as inputs outside the output directory, are unchanged, and with --stdout no file changes at all. Repeating the run on the same inputs then leaves exactly the files an uninterrupted run leaves (when no two files share an output location). Refuted: the old content of an output file survives until the new one is complete (the file is truncated before anything is written, so every run has a moment at which a kill leaves it empty). Refuted: every write failure is reported (an error on closing the file is only logged and the run succeeds).", "quantifier": "every schedule, every kill point, every division of the text into writes, every set of files and overlays", "why_tests_cant": "All schedules and all kill points between system calls.", "anchors": ["internal/instructions/config.go: doPostProcessing, openOutputFile", "internal/instructions/execute.go: Execute, PostProcessHandler", "internal/instructions/utils.go: CloseFile"]}
{"id": "C84", "title": "Sane instructions never crash the program", "statement": "If every overlay has at least one query (and at least one injectPath where one is given), no path is the empty text, queries find nodes below the document node and inside it, values contain no document node and not themselves, every document has its top, and, if any overlay may inject, no overlay deletes the top of a document, then applying the overlays of a file never panics, whatever the sed rules, and under every schedule the run returns, with an error or without, if the indentation is not negative; the exit status is 0 or 1 unless the program already crashed while it read its settings and input. If a schedule does crash, then one of the files panics when processed alone or the rendering does: a crash is never due to the schedule. Refuted without the conditions: an overlay without queries that injects panics on every document, so does an empty list of injectPath, and so does injecting into a document whose top was deleted.", "quantifier": "every set of files and overlays, every schedule, every heap", "why_tests_cant": "A crash needs a combination of overlays and a document that no test may contain; the schedules are unbounded.", "anchors": ["internal/overlays/overlay.go: Overlay.Apply", "internal/overlays/onmissing.go: onMissing, handleInjectPath, injectPath", "internal/actions/merge.go: mergeDocument", "internal/builder/path.go: NewPaths, BuildPaths", "internal/instructions/execute.go: Execute"]}
{"id": "C85", "title": "No data races on document nodes", "statement": "Under every schedule, two workers are never about to access the same node when one of them writes it; the same holds for a worker and the main goroutine rendering a finished file. A worker never even reads a node of another file's documents (unless that file's worker has already failed), so what rendering writes to the nodes of a finished file cannot race either. Every node a worker accesses exists, so it is never one another worker is just allocating. The only shared thing workers write is the onMissing action of an overlay, only if the overlay gives none and the default is inject (in any case), and always the same value; so with any other default there is no data race. Refuted for that field: with default inject, two files that both miss the overlay's path reach a state in which both workers are about to write it.", "quantifier": "every set of files and overlays whose documents and values share no nodes, every schedule, every reachable state", "why_tests_cant": "The race detector only sees the schedules it happens to run; race freedom is a statement about all of them.", "anchors": ["internal/instructions/execute.go: Execute", "internal/overlays/workstream.go: StartHandler", "internal/overlays/onmissing.go: onMissing", "internal/overlays/overlay.go: Overlay.Apply", "internal/instructions/config.go: doPostProcessing", "internal/actions/style.go: SetStyle"]}
{"id": "C86", "title": "A failing run reports a first failure", "statement": "The error Execute returns is an error of writing, or it is the first failure of one of the files: the application of an overlay to the document with the reported number of this file, after everything listed before it for this file succeeded. Each file has at most one such place, so it does not depend on the schedule; if only one file fails and nothing goes wrong with writing, every schedule that returns reports exactly this failure.", "quantifier": "every set of files and overlays, every schedule, every failure", "why_tests_cant": "Which worker fails first is up to the scheduler; a test sees a few schedules, and the claim is about which failure may be reported under all of them.", "anchors": ["internal/overlays/workstream.go: StartHandler", "internal/instructions/execute.go: Execute", "internal/instructions/yamlfile.go: queueOverlays"]}
{"id": "C87", "title": "The guarantees hold for everything that can be read", "statement": "If the YAML parser makes new nodes for whatever it reads (no two inputs, documents, texts share a node), the path library only finds nodes that can be reached from where it starts, and file names are usable, then every run of the tool starts with documents separate from one another and from all overlay values. So: after a run that returned no error the files hold the meaning of the instructions; if what was read are trees and no value contains itself, reading ends and every process ends with an exit status; a status of 0 means that every input named was processed and its text is at its output location; and no process crashes if the log level is known, the indentation is not negative, no list in the instructions has a null, every -q says something, the values files hold documents, all overlays have paths that find nodes below the document, and no top of a document is deleted while something may be injected. (The overlays meant are those in force for the input; C90 says when -q makes them differ from the ones written for it.)", "quantifier": "every memory produced by the parser, every command line, instructions file, configuration, environment, file system and schedule", "why_tests_cant": "The separation of the documents and values is an invariant of everything that happens between parsing and the start of the workers, for every number of inputs, entries and overlays; and ending and not crashing are claims about all inputs at once.", "anchors": ["internal/instructions/instructions.go: GetInstructions, ReadInstructionFile", "internal/instructions/config.go: Config", "internal/instructions/yamlfile.go: mergeDuplicates, setYamlNodes", "internal/instructions/execute.go: Execute", "cmd/root.go: New, Run"]}
{"id": "C88", "title": "A successful run writes exactly the texts of its inputs, each once, at its place", "statement": "After a successful run the outside world is what it was before plus the texts of the inputs, each written once and whole, in some order, and nothing else. Every input has exactly one place: the output path given last for it if that looks like a file, the file of the same name in it if it does not; inputs without an output path (absolute, in normal form, none above another) have different places, inside the output directory. With output to files, a file that is no input's place is as it was, and any other holds the whole text of an input whose place it is; with output to standard output no file changes and the texts follow one another.", "quantifier": "every instructions file, command line, set of inputs, previous state of the disk and schedule", "why_tests_cant": "A claim about all files of a run at once, including those that must not change, for every number of inputs and every order in which workers finish.", "anchors": ["internal/instructions/instructions.go: setOutputPath", "internal/instructions/config.go: doPostProcessing, openOutputFile", "internal/instructions/execute.go: Execute"]}
{"id": "C89", "title": "The text written for an input depends on nothing but its documents and the overlays meant for it", "statement": "Take two successful runs that may differ in everything (other inputs and overlays, instructions file, command line, memory layout, file system, limits, schedule, what was on the disk) except the meaning of sed expressions, the default for missing paths, the encoder and the styles. If an input of one and an input of the other have the same documents and the overlays meant for them mean the same, or if only the trees these make of the documents are the same, then the same text is written for both. In particular, running again on what a run made, with overlays for which applying again changes nothing (C72), writes the same text. (The overlays meant are those in force for the input; C90 says when -q makes them differ from the ones written for it.)", "quantifier": "every two successful runs", "why_tests_cant": "A relation between any two runs with any other inputs around and under all schedules.", "anchors": ["internal/instructions/execute.go: Execute", "internal/instructions/instructions.go: GetInstructions", "internal/overlays/overlay.go: Apply"]}
{"id": "C90", "title": "A run applies to each input the overlays meant for it, except when -q leaves room behind the common ones", "statement": "What a successful run writes for an input is its documents with the common overlays, that of the command line, the input's own and those of its documents entries applied in this order, if no -q is given, or if appending its overlay leaves no room behind the list of common overlays (a runtime that doubles leaves room for one less than there are common overlays), or if the input has no overlays of its own or more than fit, or no later input has some that fit. In any other case as many of its own overlays are in force as were written, each being its own or that of a later input: in particular an input is processed with the overlays of the last one that has equally many, instead of with its own (a defect; a concrete run in which metadata is deleted from the wrong file is given).", "quantifier": "every instructions file, command line, set of inputs, growth policy of the runtime and schedule", "why_tests_cant": "Depends on the capacities chosen by the runtime and on the lists of all inputs together; shown for every number and length of lists.", "anchors": ["internal/instructions/instructions.go: GetInstructions, addCommonOverlays", "internal/instructions/execute.go: Execute"]}
{"id": "C91", "title": "A mapping is merged entry by entry, whatever its keys", "statement": "Merging a mapping with any keys (repeated ones, keys with markers among others) is merging its entries one after the other, each into the result so far. An entry whose key has no marker goes to the first entry of the target with that key (which keeps its place and key node, except that the overlay key's comments are taken over, and gets the merge of both values; nothing else changes) or is appended, with markers blanked. An entry whose key has a marker edits every entry of a non-empty target, each key becoming a scalar with its old tag, style and anchor and the expanded text; it is added with blanked markers to an empty one. What is not a mapping becomes one with just this entry, keeping comments, style and anchor. An empty mapping changes nothing, not even a target that is no mapping.", "quantifier": "every target node, every overlay mapping (any number of keys, repeated or with markers), every sed engine", "why_tests_cant": "Interactions of keys in one overlay (markers before and after plain keys, repeated keys) are unbounded in number.", "anchors": ["internal/actions/merge.go: mergeMap, mergeScalar, mergeComments, addNode"]}
{"id": "C92", "title": "What no overlay has anything to do in passes through unchanged", "statement": "After a successful run, a document for which every overlay in force either is ruled out by its document query or finds nothing and does not inject is written as it was read (less comments with --remove-comments), whatever happens to the other documents of the same input and to other inputs; the text of an input all of whose documents are like this (in particular one without overlays) is the encoding of its documents as read. An overlay with nothing to do may be left out of a list of overlays without changing the result.", "quantifier": "every successful run (any inputs, overlays, command line, schedule, path library, encoder, settings, earlier files), every input and every document of it", "why_tests_cant": "That nothing leaks from overlays or documents processed concurrently into a document they are not meant for is a claim about all inputs and schedules.", "anchors": ["internal/overlays/overlay.go", "internal/overlays/onmissing.go: onMissing", "internal/instructions/yamlfile.go: queueOverlays", "internal/instructions/config.go: doPostProcessing, encodeNodes"]}
{"id": "C93", "title": "What no overlay selects is written as it was read", "statement": "After a successful run, for every document of every input and the overlays in force for it: a node that is neither selected nor below a selected node, when no overlay deletes or injects, is written with the kind, tag, text, style, anchor, comments and number of children it was read with; if in addition no node below it is selected, it is written as read with everything below it. And if every overlay in force has one query, a path of keys, whatever its action and even if it injects, then whatever is found under a path of keys that parts ways with all of them is written as it was read, and so is the rest of the document node. (Less comments with --remove-comments.)", "quantifier": "every successful run (any inputs, overlays, command line, schedule, path library, encoder, settings, earlier files), every document, every position and every path of keys in it", "why_tests_cant": "That overlays have no effects at a distance ranges over all documents, all overlays and all orders in which workers process them.", "anchors": ["internal/overlays/overlay.go", "internal/overlays/onmissing.go: onMissing", "internal/actions/merge.go", "internal/actions/delete.go", "internal/actions/replace.go", "internal/actions/combine.go", "internal/instructions/config.go: doPostProcessing, encodeNodes"]}
