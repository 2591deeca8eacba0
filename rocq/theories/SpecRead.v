(** What the YAML library and the path library are relied on for: the conditions on the
    world outside under which the theorems about whole runs apply. *)
From Verif Require SpecFiles.
From Verif Require Import Prelude GoStrings Yaml Heap SpecMerge SpecHeap SpecDelete Overlay SpecReach SpecOverlay SpecSame SpecQuery Execute SpecExecute
  Files Paths Prepare Queue Decode SpecDecode Whole SpecWhole.

(** The documents of an input. *)
Definition documents (s : surroundings) (p : list N) : option (list loc) :=
  if seq_eqb p (lit "-") then sr_stdin s else sr_docs s p.

(** The parser (yaml.v3) makes new nodes for whatever it reads: no pointer dangles, and
    what is read from one input, from another input, from the instructions or from a flag,
    and the documents of one input, have no node in common.  [z] is the zero node, which
    stands for omitted values. *)
Record fresh_nodes (s : surroundings) (h : heap) (z : loc) : Prop := mkFresh {
  fn_closed : closed h;
  fn_zero : exists n, h !! z = Some n /\ forall x, ~ points_to n x;
  fn_docs : forall p ds d, documents s p = Some ds -> In d ds -> d < length h;
  fn_texts : forall t l, sr_parse s t = Some (Some l) -> l < length h;
  fn_inputs_apart : forall p q ds es d e x, documents s p = Some ds -> documents s q = Some es -> p <> q ->
    In d ds -> In e es -> reach h d x -> reach h e x -> False;
  fn_docs_apart : forall p ds i j d e x, documents s p = Some ds -> ds !! i = Some d -> ds !! j = Some e -> i <> j ->
    reach h d x -> reach h e x -> False;
  fn_texts_apart : forall p ds d t l x, documents s p = Some ds -> In d ds -> sr_parse s t = Some (Some l) ->
    reach h d x -> reach h l x -> False;
  fn_zero_apart : forall p ds d, documents s p = Some ds -> In d ds -> ~ reach h d z }.

(** The path library finds nodes that can be reached from where it starts, and looks at
    nothing else. *)
Definition finds_reachable (compile : list N -> option (heap -> loc -> list loc)) : Prop :=
  forall t f, compile t = Some f -> good_finder (mkQuery t f).
(** On a document it finds nodes of this document (it does not follow aliases). *)
Definition finds_in_document (compile : list N -> option (heap -> loc -> list loc)) : Prop :=
  forall t f, compile t = Some f -> finds_inside (mkQuery t f).

(** What is to be said about file names: the working directory is absolute; a directory
    yields files (C55: for every file system); and without -i, -p does not name a file
    called "-" in the working directory (which the program takes for standard input). *)
Definition paths_usable (s : surroundings) (cl : command_line) : Prop :=
  is_abs (sr_cwd s) = true /\
  SpecFiles.walks_files (sr_fs s) match cl_instructions cl with [] => [] | p => path_dir (path_abs (sr_cwd s) p) end /\
  (cl_instructions cl = [] -> cl_path cl = lit "-" \/ resolve [] (cl_path cl) <> lit "-").

(** The nodes the parser makes for an input: a document node with something below it for
    each document, and below it a tree in which mappings have a value for each key and only
    documents, sequences and mappings have children. *)
Definition tree_shaped (h : heap) (ds : list loc) : Prop := exists docs, map label docs = ds /\ own h docs /\
  Forall (fun d => well_paired (erase d) /\ branching (erase d) /\ i_kind (l_info d) = KDocument /\ l_content d <> Some []) docs.

Definition nodes_below (n : hnode) : list loc := match n_content n with Some ls => ls | None => [] end.
(** The same for an instructions file or the text of a flag, at [l].  In addition, no alias
    is used inside the node it stands for, so that reading everything ends. *)
Record readable (h : heap) (l : loc) : Prop := mkReadable {
  rd_ends : exists d, bounded d h l;
  rd_paired : forall x n, reach h l x -> h !! x = Some n -> i_kind (n_info n) = KMapping -> Nat.even (length (nodes_below n)) = true;
  rd_branching : forall x n, reach h l x -> h !! x = Some n -> nodes_below n <> [] ->
    i_kind (n_info n) = KDocument \/ i_kind (n_info n) = KSequence \/ i_kind (n_info n) = KMapping;
  rd_one_document : forall x n, reach h l x -> x <> l -> h !! x = Some n -> i_kind (n_info n) <> KDocument }.

Record well_formed (s : surroundings) (h : heap) (z : loc) : Prop := mkWellFormed {
  wf_docs : forall p ds, documents s p = Some ds -> tree_shaped h ds;
  wf_texts : forall t l, sr_parse s t = Some (Some l) -> readable h l;
  wf_zero : forall n, h !! z = Some n -> n_content n = None /\ n_alias n = None /\ i_kind (n_info n) <> KMapping /\ i_kind (n_info n) <> KDocument }.

(** *** What the user has to get right for a run not to crash while it reads *)
(** No list of pointers in the instructions has a null. *)
Definition no_nulls (i : raw_overlays * list (option raw_entry)) : Prop :=
  let good o := Forall (fun g => exists cs, g = Some cs /\ Forall (fun c => c <> None) cs) (ro_docqueries o) in
  let fine l := Forall (fun x => exists o, x = Some o /\ good o) l in
  fine (fst i) /\ Forall (fun x => exists e, x = Some e /\ fine (e_overlays e) /\ Forall (fun y => exists d, y = Some d /\ fine (d_overlays d)) (e_documents e)) (snd i).
(** Every -q says something. *)
Definition queries_said (s : surroundings) (h : heap) (cl : command_line) : Prop :=
  forall t, In t (cl_queries cl) -> ~ flag_empty h s t /\ forall c, flag_holds h s t c -> ~ is_null h c.
(** The first document of a text (a values file): a document node above a tree of other
    nodes. *)
Definition first_documents (s : surroundings) : Prop := forall text d, sr_first s text = Some d ->
  t_kind d = KDocument /\ exists top rest, t_content d = Some (top :: rest) /\ everywhere (fun t => t_kind t <> KDocument) top.
