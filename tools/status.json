{
 "C01": [
  "proved",
  "deep merge on abstract values for marker-free overlays; key-by-key effect on full nodes, overlay values may contain markers"
 ],
 "C02": [
  "proved",
  "overlay keys distinct and marker-free"
 ],
 "C03": [
  "proved",
  ""
 ],
 "C04": [
  "proved",
  "text after substitution is stated with SpecFormat.expected, under C09's side conditions"
 ],
 "C05": [
  "proved",
  ""
 ],
 "C07": [
  "proved",
  "also shown: merging a document node into an emptied document crashes"
 ],
 "C08": [
  "proved",
  "non-empty mappings; for empty mappings a bogus entry appears (refuted theorem)"
 ],
 "C09": [
  "proved",
  "exact boundary in the statement; refuted theorem shows the defect outside it"
 ],
 "C10": [
  "proved",
  "both directions"
 ],
 "C11": [
  "proved",
  "exact boundary; refuted theorem for %%vv"
 ],
 "C12": [
  "proved",
  "exact rule, with the counterexample to the documented rule"
 ],
 "C17": [
  "proved",
  "sum in range; wrap-around outside (refuted theorem)"
 ],
 "C18": [
  "proved",
  ""
 ],
 "C19": [
  "proved",
  ""
 ],
 "C49": [
  "proved",
  "whole histories of overlays"
 ],
 "C26": [
  "proved",
  ""
 ],
 "C27": [
  "proved",
  ""
 ],
 "C28": [
  "proved",
  ""
 ],
 "C29": [
  "proved",
  ""
 ],
 "C06": [
  "proved",
  "path queries are assumed to return nodes reachable from the document they are asked about"
 ],
 "C13": [
  "proved",
  "documents whose mappings pair every key with a value and whose inner nodes are mappings/sequences"
 ],
 "C14": [
  "proved",
  "same document hypotheses as C13"
 ],
 "C15": [
  "proved",
  "same document hypotheses as C13"
 ],
 "C20": [
  "proved",
  "path finder abstract; condition values are finite trees"
 ],
 "C22": [
  "proved",
  "path finder abstract"
 ],
 "C23": [
  "proved",
  ""
 ],
 "C47": [
  "proved",
  "letter case is Go's ToLower: two non-ASCII capitals (U+0130, U+212A) also fold to ASCII letters and are accepted (stated)"
 ],
 "C48": [
  "proved",
  ""
 ],
 "C21": [
  "proved",
  ""
 ],
 "C30": [
  "proved",
  ""
 ],
 "C32": [
  "proved",
  ""
 ],
 "C33": [
  "proved",
  ""
 ],
 "C38": [
  "proved",
  ""
 ],
 "C31": [
  "proved",
  "full when the shared list has no spare capacity; C31_exact_list says what happens in general; counterexample to the unrestricted claim"
 ],
 "C34": [
  "proved",
  ""
 ],
 "C35": [
  "proved",
  "with counterexamples at the boundary"
 ],
 "C36": [
  "proved",
  "with counterexample"
 ],
 "C37": [
  "proved",
  "with counterexamples"
 ],
 "C39": [
  "proved",
  "with counterexample"
 ],
 "C40": [
  "proved",
  "with counterexample; also on the heap the program works on (C40_in_memory), used by C67 and C70"
 ],
 "C45": [
  "proved",
  "marker-free and alias-free values"
 ],
 "C41": [
  "proved",
  "workers interleave at single heap operations (Fine.v); documents of different files and overlay values share no node initially (set_up); path library assumed well-behaved (good_finder)"
 ],
 "C42": [
  "proved",
  "workers interleave at single heap operations (Fine.v); documents of different files and overlay values share no node initially (set_up); path library assumed well-behaved (good_finder)"
 ],
 "C43": [
  "proved",
  "workers interleave at single heap operations (Fine.v); documents of different files and overlay values share no node initially (set_up); path library assumed well-behaved (good_finder)"
 ],
 "C44": [
  "proved",
  "workers interleave at single heap operations (Fine.v); documents of different files and overlay values share no node initially (set_up); path library assumed well-behaved (good_finder)"
 ],
 "C51": [
  "proved",
  "workers interleave at single heap operations (Fine.v); documents of different files and overlay values share no node initially (set_up); path library assumed well-behaved (good_finder)"
 ],
 "C46": [
  "proved",
  "viper's lookup order is an assumption of the model (documented behaviour of the library); values are texts"
 ],
 "C52": [
  "proved",
  ""
 ],
 "C53": [
  "proved",
  ""
 ],
 "C16": [
  "proved",
  "selected nodes independent of each other; the value and the document do not share nodes"
 ],
 "C24": [
  "proved",
  "names free of format markers (refuted theorem without); both the missing query and injectPath; C24_several_paths_resolve and C24_several_inject_paths_resolve: any number of queries or injectPaths, pairwise parting ways."
 ],
 "C25": [
  "proved",
  "same setting as C24; exact result also given; a sequence or scalar on the way is lost (example)"
 ],
 "C54": [
  "proved",
  ""
 ],
 "C50": [
  "proved",
  "Five positive theorems with the exact condition per action; two refutations of the unconditional statement."
 ],
 "C55": [
  "proved",
  "filepath.Walk over an oracle of lstat, stat and directory listings. Links: a linked directory is silently ignored."
 ],
 "C56": [
  "proved",
  "Composition of decoding (parameter), expansion, duplicate merging, reading, -p and output paths."
 ],
 "C57": [
  "proved",
  "In order when no room is left behind the common list; exact result in general; refuted with two common overlays and -q (same defect as C31). The slices of the code are shown to have the modelled contents."
 ],
 "C58": [
  "proved",
  "Both directions, under the same assumptions on the surroundings as C33/C34; C58_on_a_file_system derives them from the os oracle."
 ],
 "C59": [
  "proved",
  "Assumes that the decoder gives documents nodes of their own (docs_apart) and set_up as in C41."
 ],
 "C60": [
  "proved",
  "Composition of C56, C57, C42, C51 and C59; the overlays in force are those meant unless -q leaves room behind the common ones (C57, C90)."
 ],
 "C61": [
  "proved",
  "Decoder of yaml.v3 into structs modelled from its source (see DESIGN); merge keys and the key nodes count as unknown."
 ],
 "C62": [
  "proved",
  "For every place an overlay or query can stand in the file."
 ],
 "C63": [
  "proved",
  "Overlay values are the same nodes in both documents; `alike` is the independent notion of saying the same."
 ],
 "C64": [
  "proved",
  "An omitted action stays omitted on the command line (treated as merge, C48); the name is used in messages only."
 ],
 "C65": [
  "proved",
  "A finding: null entries crash. The crash theorem assumes earlier entries expand without error."
 ],
 "C66": [
  "proved",
  "text/template is a parameter; template.go's order of calls makes sprig unusable (finding)."
 ],
 "C67": [
  "proved",
  "Composition of C45, C55-C66 and C41-C44. Conditions: no null entries; documents apart; directories walkable."
 ],
 "C68": [
  "proved",
  "together with C36 and C37 this covers every entry"
 ],
 "C69": [
  "proved",
  "apply_each (the program) refined by t_apply_each (SpecMeaning.v), a function on trees. Two side conditions: a merging overlay that finds a node and one around it finds the inner one first (all_plainly; nothing is asked of replace, combine, delete and inject), and document queries with values only in heaps without Alias pointers."
 ],
 "C70": [
  "proved",
  "C67 with C69: the rendered trees are the function's values. The assumptions of C67 (documents of different files and overlay values apart) and of C69."
 ],
 "C71": [
  "proved",
  "key paths (dot notation); refuted theorem when one path lies inside the other; inject excluded: the order of two injections is the order of the new keys"
 ],
 "C72": [
  "proved",
  "refuted theorem for a key present twice; sequences and combine excluded (C05)"
 ],
 "C73": [
  "proved",
  "Composition of C46, C67, C41-C43 and the process (Main.v). cobra's and viper's behaviour are part of the model (order of calls, precedence, casts); instructions with nil pointers are refused at once (in Go a nil overlay crashes a worker later)."
 ],
 "C74": [
  "proved",
  "enumflag's parsing and printing are modelled after its documentation (external). Refuted theorem for the documented spelling singleQuote."
 ],
 "C75": [
  "proved",
  "yaml.v3's parsing of the flag's text is a parameter (sr_parse), as in C64."
 ],
 "C76": [
  "proved",
  "The path language's evaluation (github.com/vmware-labs/yaml-jsonpath) is not in /repo: its behaviour on these steps is assumed as written in Steps.v; filters compare texts."
 ],
 "C77": [
  "proved",
  "How cobra v1.1.3 and pflag scan arguments is not in /repo: modelled from their documentation and source in Argv.v. Refuted expectations: `-si file`, `--help -i file`."
 ],
 "C78": [
  "proved",
  "Three documented or natural expectations are refuted by general theorems."
 ],
 "C79": [
  "proved",
  "The budget ('fuel') of the heap model is discharged: from some budget on nothing depends on it. Preparing the instructions (symbolic links in a circle) is the remaining source of runs that do not end, C34."
 ],
 "C80": [
  "proved",
  "With refuted theorem for the documented effect of the environment variables. How cobra dispatches is modelled from its documentation."
 ],
 "C81": [
  "proved",
  "The texts completion and help print (cobra's) are arbitrary in the model."
 ],
 "C82": [
  "proved",
  "Keys of the two values must be distinct within each mapping for the second part; first part exact on nodes, second on values."
 ],
 "C83": [
  "proved",
  "A kill is between system calls; a write is applied in order (no reordering of disk blocks by a power failure). Creating the output directory is not modelled."
 ],
 "C84": [
  "proved",
  "Set up and tidy as in C41 and C79. Panics inside the libraries (yaml.v3 encoder, yaml-jsonpath) are outside the model, except SetIndent on a negative number."
 ],
 "C85": [
  "proved",
  "A race is stated on the next operations of two goroutines: node accesses are whole nodes; the path library may read anything reachable from the node it is given. Accesses to the logger, the errgroup and the channels (synchronised libraries) are not modelled."
 ],
 "C86": [
  "proved",
  "The text of the message is not modelled: the document number is that of the failing workload (workstream.go:49 prints it with the path of the file the workload belongs to). Set up as in C41."
 ],
 "C87": [
  "proved",
  "The conditions on yaml.v3 and yaml-jsonpath (SpecRead.v: fresh_nodes, well_formed, finds_reachable, finds_in_document) are assumptions about external code, stated as hypotheses; RepoTests.v and the examples show that they can be met. The overlays in force with -q are those of C90."
 ],
 "C88": [
  "proved",
  "texts_written is the conclusion of C60, C67, C70, C73 and C87 (which say what the texts are); the theorems here say what it means for single files and for standard output."
 ],
 "C89": [
  "proved",
  "For documents and overlays in the scope of C69/C70 (situated, all_plainly)."
 ],
 "C90": [
  "proved",
  "The end-to-end theorems C60, C67, C70, C73, C87 and C89 say what is written in terms of the overlays in force (overlays_for), with no condition on the runtime; C90 relates these to the ones meant."
 ],
 "C91": [
  "proved",
  "Generalises C01, C02 and C08, which are about overlays with distinct plain keys and with one marker key."
 ],
 "C92": [
  "proved",
  ""
 ],
 "C93": [
  "proved",
  ""
 ]
}