(** Model of GetInstructions (instructions.go:27-67): from the command line and the
    instructions file to the list of files with their documents and overlays. *)
From Verif Require Import Prelude GoStrings Paths Files Slices.

Section prepare.
Context {Ov Dc Nd : Type}.
Notation entry := (entry Ov Dc Nd).

(** What the program reads (external).  [in_read] and [in_stdin] are the
    documents yaml.v3 decodes from a file or from standard input (None: it cannot
    be opened or is not YAML); [in_decode] is the instructions file after
    templating, as decoded before YamlFiles.UnmarshalYAML runs (None: any error).
    The instructions file itself is assumed not to be standard input. *)
Record inputs := mkInputs {
  in_fs : fs; in_cwd : list N;
  in_read : list N -> option (list Nd); in_stdin : option (list Nd);
  in_decode : list N -> option (list Ov * list entry) }.

(** config.go:21-34  the options used: -i, -p and the overlay of -q/-x/-a.
    [op_overlay]: None without -q; Some None if the text given with -x is not
    YAML (config.go:173-175). *)
Record options := mkOptions { op_instructions : list N; op_path : list N; op_overlay : option (option Ov) }.

(** Go filepath.Abs *)
Definition path_abs (cwd p : list N) : list N := if is_abs p then clean p else path_join [cwd; p].

(** yamlfile.go:84-109  readYamlFile.  [used]: standard input has been read to its
    end; reading it again yields no document.  The documents are appended to
    Nodes, which an instructions file can already have filled (key "nodes"). *)
Definition add_docs (ds : list Nd) (e : entry) : entry :=
  mkEntry _ _ _ (e_name e) (e_overlays e) (e_documents e) (e_nodes e ++ ds) (e_path e) (e_output e).
Definition read_entry (w : inputs) (used : bool) (e : entry) : res (entry * bool) :=
  if seq_eqb (e_path e) (lit "-") then
    if used then Ok (e, true)
    else match in_stdin w with Some ds => Ok (add_docs ds e, true) | None => Err EDecode end
  else match in_read w (e_path e) with Some ds => Ok (add_docs ds e, used) | None => Err EDecode end.
(** yamlfile.go:73-77, config.go:158-162  the loops reading every file *)
Fixpoint read_all (w : inputs) (used : bool) (y : list entry) : res (list entry * bool) :=
  match y with
  | [] => Ok ([], used)
  | e :: r =>
      let! x := read_entry w used e in
      let! y := read_all w (snd x) r in
      Ok (fst x :: fst y, snd y)
  end.

(** yamlfile.go:59-82  YamlFiles.UnmarshalYAML after decoding *)
Definition load_files (fuel : nat) (w : inputs) (instdir : list N) (y : list entry) : res (list entry * bool) :=
  let! y1 := expand_directories fuel (in_fs w) instdir y in
  let! y2 := merge_duplicates y1 in
  read_all w false y2.

(** instructions.go:32-45, 70-110  with an instructions file: its directory, the
    common overlays, the loaded files, and whether standard input is used up.
    Without one there are none, and "instructionsDir" is not set (line 43 sets
    another key). *)
Definition instructions_dir (w : inputs) (op : options) : list N :=
  match op_instructions op with [] => [] | p => path_dir (path_abs (in_cwd w) p) end.
Definition read_instructions (fuel : nat) (w : inputs) (op : options) : res (list Ov * list entry * bool) :=
  match op_instructions op with
  | [] => Ok ([], [], false)
  | p =>
      match in_decode w p with
      | None => Err EDecode
      | Some (common, y) =>
          let! x := load_files fuel w (instructions_dir w op) y in
          Ok (common, fst x, snd x)
      end
  end.

(** config.go:143-169, 187-193  ReadAdHocPaths and determinePath *)
Definition adhoc_entry (p : list N) : entry :=
  mkEntry _ _ _ (lit "StdIn") [] [] [] p (if seq_eqb p (lit "-") then lit "stdin.yaml" else []).
Definition read_adhoc_path (fuel : nat) (w : inputs) (op : options) (files : list entry) (used : bool) : res (list entry) :=
  match op_path op with
  | [] => Ok files
  | p =>
      let! y := expand_directories fuel (in_fs w) (instructions_dir w op) [adhoc_entry p] in
      let! x := read_all w used y in
      merge_duplicates (files ++ fst x)
  end.

(** config.go:171-185, instructions.go:113-117  the overlay lists, as slices.  After
    decoding, every list fills its array.  Simplification: every file is given an
    array of its own here, although the files of a directory share one; that this
    gives the same lists is C57_slices_faithful (SliceFiles.v has the slices). *)
Definition final_overlays (grow : nat -> nat -> nat) (common : list Ov) (adhoc : option Ov) (own : list (list Ov)) : list (list Ov) :=
  let m0 := map Some common :: map (map Some) own in
  let c0 := mkSlice 0 (length common) in
  let mc := match adhoc with Some o => add_adhoc grow m0 c0 o | None => (m0, c0) end in
  let mo := add_common grow (fst mc) (snd mc) (imap (fun i l => mkSlice (S i) (length l)) own) in
  map (fun s => omap id (contents (fst mo) s)) (snd mo).

Definition set_final (os : list Ov) (out : list N) (e : entry) : entry :=
  mkEntry _ _ _ (e_name e) os (e_documents e) (e_nodes e) (e_path e) out.

(** instructions.go:27-67  GetInstructions.  Removing comments (lines 57-64) works on
    the nodes in place: HeapComments.v, and get_ready of Whole.v. *)
Definition get_instructions (fuel : nat) (grow : nat -> nat -> nat) (w : inputs) (op : options) : res (list entry) :=
  let! i := read_instructions fuel w op in
  let '(common, files, used) := i in
  let! files := read_adhoc_path fuel w op files used in
  let! adhoc := match op_overlay op with
                | None => Ok None
                | Some None => Err EDecode
                | Some (Some o) => Ok (Some o)
                end in
  let outs := set_output_paths (map (fun e => (e_path e, e_output e)) files) in
  let lists := final_overlays grow common adhoc (map e_overlays files) in
  Ok (zip_with (fun e x => set_final (fst x) (snd x) e) files (zip lists outs)).
End prepare.
Arguments inputs : clear implicits.
Arguments options : clear implicits.
