# Formal model of yaml-overlay-tool (yot) in Rocq/Coq

Status: plan, written before the proofs. The final section lists the trusted base.

## Layers

* **Strings** are lists of Unicode code points (`list N`). yaml.v3 rejects
  invalid UTF-8, so every string the tool handles is a code point sequence.
  `GoStrings.v` models the Go `strings`/`path` functions used.
* **Trees** (`Yaml.v`): a YAML node as an immutable tree (kind, style, tag,
  value, anchor, comments, position, and content, where Go's nil slice and
  empty slice are distinct: `option (list tree)`). `MergeTree.v` models the
  actions as functions on trees, function by function.
* **Heap** (`Heap.v`): nodes at addresses, as in the Go program, with in-place
  mutation, pointer identity and allocation. `HeapActions.v` models
  the actions as the Go code performs them (state passing over
  the heap, explicit panics). A refinement theorem ties both layers: when an
  address represents a tree, the heap program computes the tree function,
  changes only that tree's footprint and allocates fresh nodes for everything
  copied. Selection (`Find`) returns addresses, so delete and overlapping
  selections are modelled here.
* **Builder** (`Lexer.v`, `Builder.v`): state-function lexer and path builder.
* **Instructions** (`Files.v`, `Paths.v`, `Slices.v`): duplicate merging, directory expansion,
  prefix computation, output paths, common overlays with Go slice semantics
  (backing array, length, capacity).
* **Pipeline** (`Pipeline.v`): workers, producer goroutines, channels, the
  error group and the post-process loop as a nondeterministic step relation. The
  workers' code is `Fine.v`: the functions of HeapActions.v and Overlay.v again, as
  sequences of single heap operations, proved to do the same when uninterrupted
  (ProofFine.v) and, by a simulation with an ownership of nodes, when interleaved
  (ProofFineSame.v, ProofFineExecute.v).
* **Config** (`Config.v`): viper's lookup order and the tool's bindings.

External code appears as a parameter (a section variable, so each theorem is
quantified over it): the sed engine, the JSONPath finder, the YAML encoder, the file system.

## Plan per property

| id | model | proof |
|---|---|---|
| C01-C02 | tree merge | induction over overlay pairs; spec = association-list lookup |
| C03-C04 | tree merge | direct, with independent "blanked copy" spec |
| C05 | tree merge | induction on overlay |
| C06 | heap | refinement + frame theorem |
| C07 | tree + heap merge | induction on overlay |
| C08 | tree merge | induction on original pairs; refutation witness for the empty map |
| C09-C11 | format | induction over the literal/marker decomposition; refutation witnesses |
| C12 | mergeComments | case analysis; refutation witness for the fallthrough |
| C13-C15 | heap delete | refinement to a `prune` spec on trees labelled with addresses |
| C16 | heap replace | refinement + frame |
| C17-C19 | combine | decimal printing/parsing round trip, 64-bit wrap explicit |
| C20-C23 | heap overlays | parametric in the finder |
| C24-C25 | tree inject | induction on the path |
| C26-C29 | lexer/builder | simulation of the lexer on rendered paths; measure for termination |
| C30 | queueOverlays | list spec |
| C31 | slices | backing-array model; theorem under len=cap, refutation with reachable capacity |
| C32-C34 | files | induction; fuel for the index loop, refutation of termination |
| C35-C37 | paths | induction on paths; refutation witnesses |
| C38 | encodeNodes | induction, encoder as parameter |
| C39-C40 | tree | induction; refutation witnesses |
| C41-C44, C51 | pipeline | invariants over the step relation, decreasing measure |
| C45 | tree merge | fold induction |
| C46 | config | case analysis; refutation of the env binding |
| C47-C48 | actions | case analysis over strings |
| C49 | heap, histories of overlays | invariant over lists of overlay applications |
| C50 | heap, outlines of documents | order of anchors before aliases, per action; refutation witnesses |
| C52-C53 | config, log levels | case analysis over flag and level names |
| C54 | heap | refinement to `rewrite_at` on trees with addresses, frame |
| C55 | walk over an os oracle | induction on the depth; sorted ways as the order |
| C59-C60 | heap, pipeline, preparation | views of the heap per document; composition |
| C61-C63 | decoder on heap nodes | decoder equals a declarative format, by cases over node kinds; respects `alike` |
| C64 | flags | same decoder on the texts of flags |
| C65 | expandDirectories on pointers | induction on the loop |
| C66 | template.go around an arbitrary template engine | unfolding, with C45 |
| C67 | all phases composed: texts, decoding, preparation, pipeline | numbering of overlays related to the overlays themselves; C60, C61 |
| C68 | setOutputPath and openOutputFile on explicit output paths | characterisation of path.Ext and path.Base by last elements |
| C69 | apply on a heap refines a function on trees (SpecMeaning.v) | positions versus addresses; each action by a loop over positions, of which the later ones stay where they are (inner before outer) or no longer matter (inside a replaced node); induction over the overlays |
| C70 | C67 and C69 composed | the renderer reads the tree back |
| C71 | overlays as edits of one entry along a path (`on_path`) | such edits commute on paths that part; lifted to runs by C69; any permutation by induction on `Permutation` |
| C72 | as C71, the list applied twice | idempotence of one edit (C05 for merge) and C71 to bring each overlay next to its second application |
| C73 | root.go's process from start to exit status: flags, initConfig, SetupLogging, GetInstructions, Execute, os.Exit; viper's Get functions; the settings passed on | composition of C46, C56, C67, C41-C43; words of a text by induction |
| C74 | FlagMap, enumflag's parsing and printing, strings.Fields, GetStyleFromConfig | printing then parsing is the identity on lists of styles |
| C75 | OnMissingAction.Set and String, the setting in force (C73), Overlay.Apply | induction over the occurrences; C23 for the setting's text |
| C76 | names, wildcards, indices, filters and recursive descent of the path library (assumed behaviour), Overlay.Apply | evaluation on the heap against evaluation on the tree by induction on the path; positions of equal length are never nested; C69 |
| C77 | flags.go's table of flags, the Set methods of its flags, cobra's search for subcommands and pflag's parsing (assumed behaviour), main and Root.Execute | both scans step over each written flag (by cases on the form), induction on the command line; then the settings flag by flag |
| C78 | Overlay.Apply, onMissing, handleInjectPath, doInjectPath, the path builder | Apply comes down to handleInjectPath when nothing is found; C26, C28, C29 about the builder |
| C79 | all of Overlay.Apply, Execute and the process; the recursion budget of the model | each action maps owned documents to owned documents without running out of budget; budgets are monotone; induction over the workloads of a file; bounded comparison with a bounded value; for the refutation, a copy that ends bounds the depth of what was copied |
| C80 | env.go, the part of cobra that runs a subcommand (flags, OnInitialize, Args, PersistentPreRun, Run), startup of C46 | inversion of the process; the settings as in C46; both scans of the arguments reject flags of the root command |
| C81 | completion.go, cobra's dispatch as for C80 | inversion of the process, the words left by the parser of flags |
| C82 | merge.go as in C01 | induction on the pairs; associativity of the deep merge of C01 by induction on the value, and closure of simple marker-free values under merging |
| C83 | config.go:37-100 as a sequence of system calls (Calls.v), on top of the small-step model of Execute | prefixes of the calls of one file, on top of C41/C42/C51 for the files before it |
| C84 | Overlay.v, Pipeline.v, Execute.v, Main.v as they are | an invariant of the documents (the document node stays a document and keeps a child) through every action, merging of scaffolds is total, and a strengthened invariant of crashed states |
| C85 | Fine.v and Pipeline.v as they are; SpecRace.v says which node or field the next operation of a goroutine touches | the ownership invariant of ProofFineExecute.v (every node belongs to one worker, or to nobody and is never written) |
| C86 | Execute.v, Pipeline.v, Queue.v as for C41-C44 | from C42, C21 and an induction over the workloads of a file |
| C87 | Whole.v and Main.v as they are; SpecRead.v says what is relied on | provenance of every node, query and overlay index through decoding and preparation (ProofRead.v), trees and separation from it (ProofReadShape.v), outcome of every step (ProofReadEnds.v), then C70, C73, C79, C84 |
| C88 | Paths.v, Render.v, Execute.v; SpecOutcome.v is the specification | induction over the order in which files are written; C36, C37, C56, C68 for the places |
| C89 | as C87; two circumstances side by side (SpecTwoRuns.v) | C87_files_hold_the_meaning for both runs |
| C90 | Slices.v, Prepare.v, Whole.v; SpecWhole.v (meant_overlays, overlays_for, room_left), SpecPrepare.v (own_in_force) | C57_exact_overlays carried through C60 and C67; lists overwritten by later ones |
| C91 | MergeTree.v (refined by the heap model: C52, C69) | merge_pairs is a fold over the entries; the loop over the target's entries by induction |
| C92 | Whole.v, Execute.v, Overlay.v, Render.v | from C87/C89: the tree written is what the overlays in force make of the tree read; idle overlays make of a tree the same tree |
| C93 | Whole.v, Execute.v, Overlay.v, Render.v | from C87/C89 the tree written is what the overlays in force make of the tree read; update_each leaves apart positions alone; an overlay at a path of keys acts through on_path, whose other paths stay (C88); injection is merge with a scaffold (C24) |
| C56-C58 | composition of the preparation phase | refinement to `named_inputs`; slices related to lists |

## How to read the development

For a topic X: `X.v` is the model (every definition cites file and lines of
/repo), `SpecX.v` the vocabulary of the statements, `ProofX*.v` the lemmas and
`PropsX.v` the property theorems `Cnn_...`, each followed by an example that its
hypotheses can be met and by `Print Assumptions`. A suffix `_refuted` marks a
counterexample: the code does not satisfy the statement outside the conditions
of the other theorems of that property.

| topic | properties |
|---|---|
| Format | C09, C10 |
| MergeTree, Combine (trees) | C01-C08, C11, C12, C17-C19 |
| Heap, HeapActions (nodes with identity) | C06, C13-C16, C49, C50, C54 |
| Lexer, Builder | C26-C29 |
| ActionNames | C47, C48 |
| Overlay (queries, document queries, onMissing) | C20, C22-C25 |
| Queue | C21, C30 |
| Slices | C31 |
| Files, Paths, Walk | C32-C37, C55 |
| Prepare, SliceFiles (GetInstructions) | C56-C58 |
| Render | C38-C40 |
| Pipeline, Fine, Execute | C41-C44, C51 |
| Docs (one document alone; whole runs) | C59, C60 |
| Decode, Flags (format of the instructions file, -q/-a/-x) | C61-C65 |
| Template, Values | C45, C66 |
| Removing comments in memory (HeapComments, ProofUncomment, PropsUncomment) | C40 |
| Whole | C67 |
| Meaning (SpecMeaning, ProofMeaning, ProofMeaningApply, ProofMeaningKeys, ProofAliasFree, PropsMeaning) | C69, C70 |
| Injection at several paths (ProofSeveral, PropsSeveral) | C24 |
| Order and repetition (SpecCommute, ProofCommute, PropsCommute) | C71, C72 |
| The process (Main, SpecMain, PropsMain, PropsStyle, PropsMissing) | C73, C74, C75 |
| Paths of steps (Steps, SpecSteps, ProofSteps, PropsSteps) | C76 |
| Command lines (Argv, SpecArgv, ProofArgv, PropsArgv) | C77 |
| Where a missing value goes (PropsPlaces) | C78 |
| Every run ends (SpecEnds, ProofEnds, PropsEnds) | C79 |
| Subcommands (Argv, PropsEnvCommand) | C80, C81 |
| Composing merges (SpecCompose, ProofCompose, PropsCompose) | C82 |
| Killed runs (Calls, SpecCrash, PropsCrash) | C83 |
| No crash (SpecSane, ProofSane, PropsSane) | C84 |
| Data races (SpecRace, PropsRace) | C85 |
| Which error is reported (PropsErrors) | C86 |
| Conditions in terms of what is read (SpecRead, ProofRead, ProofReadShape, ProofReadEnds, PropsRead) | C87 |
| What a run leaves behind (SpecOutcome, PropsOutcome) | C88 |
| Two runs compared (SpecTwoRuns, PropsTwoRuns) | C89 |
| Overlays in force for an input of a run (PropsInForce) | C90 |
| Merging entry by entry (PropsEntries) | C91 |
| What no overlay applies to (PropsUnchanged, definitions in SpecTwoRuns) | C92 |
| What no overlay selects (SpecElsewhere, PropsElsewhere) | C93 |
| Blanks (SpecSpace, PropsSpace) | C27 |
| The project's own unit tests, run on the model (RepoTests): a check of the model's fidelity on literals, not a property | none |
| Config | C46, C52, C53 |

## Findings (theorems `_refuted` or exact conditions)

* merge: a head comment in the overlay erases the original's line and foot
  comments (C12); a marker key on an empty mapping adds a bogus entry (C08);
  markers in existing data are expanded (C10); substitution is sequential, so
  inserted text can be expanded again (C09); "%%vv" leaves "%v" behind (C11).
* replace, delete and merging a scalar over a mapping lose anchors that aliases
  elsewhere still need; merge does not bring the overlay's anchors along (C50).
* injection through an existing scalar or sequence destroys it (C25).
* common overlays share one backing array once a command line overlay was
  appended: files get each other's overlays (C31).
* a symbolic link named *.yaml to a directory makes the expansion loop for ever (C34).
* a path that is a symbolic link to a directory contributes no file and no error (C55);
  an entry without a path means the whole directory of the instructions file (C56, by
  C33's `resolve`); -p is relative to the instructions file when -i is given (C56).
* output paths: prefix cut in the middle of components, collisions, files outside
  the output directory (C36, C37).
* bracketed path names: a quote of the other kind or a final backslash glues
  names together; backslashes after a dot are dropped twice (C26, C27).
* BindEnv has its arguments swapped: no YOT_* variable but YOT_CONFIG_FILE has an
  effect (C46); short log level names in a config file crash the program (C53).
* duplicate styles add up to a different style (C39); comments of the document
  node survive removal (C40).
* the old output is truncated before the new text is written, so a kill can leave an empty
  file; an error on closing an output file is only logged (C83).
* an injecting overlay without queries, an empty `injectPath` list, and injecting into a
  document whose top was deleted crash the program (C84).
* with default onMissing inject, several files missing the same overlay's path write its
  field OnMissing.Action at the same time: a data race, though always the same value (C85).
* a null in `yamlFiles` crashes the program (C65); `-q ""` leaves a query without a path
  behind, which crashes on use (C64); `onMissing: inject` is refused, while an unknown
  onMissing action is silently taken as no action at all (C61).
* template.go parses the instructions before adding sprig's functions, so a template that
  calls one of them, as the documentation suggests, is refused (C66).
* after a failure it depends on the schedule which other files are written (C43).

## Trusted base

* Coq 8.16.1's kernel (including its virtual machine, used by `vm_compute` in
  witnesses and examples) and the standard library and std++ as compiled here.
* `Print Assumptions` says "Closed under the global context" for every property
  theorem: no axiom is used by any of them. Loading std++ makes seven constants
  of the standard library's `Coq.ssr.ssrunder` part of the environment
  (`Under_rel.Under_rel`, `Under_rel.Under_rel_from_rel`, `Under_rel.Under_relE`,
  `Under_rel.Over_rel`, `Under_rel.over_rel`, `Under_rel.over_rel_done`,
  `Under_rel.under_rel_done`: the opaque module behind the `under` tactic);
  no theorem depends on them.
* The reading of the Go code: nothing connects the model to /repo but the
  citations. The code was never run.

### External code, and what is assumed about it

Parameters of the theorems (arbitrary unless stated): the sed engine; the result
of a JSONPath query (only that it returns nodes reachable from the node asked,
where a theorem says so; `Finder.v` gives the concrete finder for key paths used
by the injection theorems); the YAML encoder; os.Lstat, os.Stat and directory
listings (`sane`: names are distinct and are single path elements, stat agrees with
lstat where there is no link); the parser of YAML texts (Decode.v models the decoding of
the parsed instructions); text/template (in Template.v: parsing refuses a call of a function
not defined yet; execution depends on the functions a template calls); the
growth policy of `append`; the scheduler.

Modelled from documentation, not from /repo: Go's `strings`, `path`, `strconv`
functions used (GoStrings.v, Paths.v, Combine.v: ParseBool, Atoi/Itoa with 64-bit
wrap-around), slices and append (Slices.v), channels, goroutines and errgroup
(Pipeline.v), `reprint.This` as a deep copy of Content and Alias without cycle
detection (HeapActions.v), `cmp.Equal` as structural equality up to the ignored
fields, yaml.v3's `Node`, its decoding into structs (Decode.v), its `IsZero`, and its order of documents, viper's lookup
order (Config.v), enumflag's and go-logging's level names.

### Simplifications

* The workers' operations on the shared heap interleave one read, write or
  allocation of a node at a time (Fine.v). A read or write moves a whole node, a call
  of the path library is one operation, and memory is sequentially consistent (which
  Go's memory model guarantees for programs without data races; C85 proves that there
  is none but the one named next, whose write is idempotent). The
  test, write and second read of `OnMissing.Action` (a data race in the Go code,
  with an idempotent write) are separate operations. The main goroutine reads all
  nodes of a file, one at a time, before it encodes and writes.
* A producer blocked for ever on its channel after a failure is dropped (a leak
  that only lasts until the program exits).
* `actions.SetStyle` is part of the text an encoder gives for a document.
* Log output is not modelled, except that warnings are not errors.
* Fuel: loops of the Go code that are not structural recursions take a bound;
  the theorems state that some bound suffices, or hold for all large enough ones.
* Strings are code points; Go's byte indices do not occur in observable results.

### Not modelled

Help texts (docs.go) and what cobra generates for completion and help (cobra's scan
of the arguments and how it runs a subcommand are modelled from its documentation in
Argv.v), cobra's hidden commands (__complete), the
template engine and sprig's functions themselves (template.go around them is, in
Template.v), the text of error messages, file
permissions, reading and writing bytes, yaml.v3's parser and emitter themselves.
The preparation and pipeline models (C31-C60) take the decoded instructions without nil
pointers; what null entries and `-q ""` do instead is in Decode.v, Flags.v (C65).
