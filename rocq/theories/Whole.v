(** The whole preparation phase, from the texts the program reads: the instructions file
    (rendered, parsed, decoded), the command line overlay and the input files. *)
From Verif Require Import Prelude GoStrings Format Yaml Heap ActionNames Overlay Queue Paths Files Slices Prepare
  Decode Flags Template HeapComments.

(** *** From decoded instructions to the overlays that are applied *)
Section plain.
(** The address of a zero yaml.Node, which stands for all omitted values.  (In Go every
    omitted value is a zero Node of its own; values are only read.) *)
Context (z : loc).
(** The list without pointers; None if one of them is nil. *)
(* dereferencing the pointers of []*Overlay, []*Document ... (instructions.go:19-25) *)
Fixpoint all_some {A B} (f : A -> option B) (l : list (option A)) : option (list B) :=
  match l with
  | [] => Some []
  | None :: _ => None
  | Some a :: r => match f a, all_some f r with Some b, Some bs => Some (b :: bs) | _, _ => None end
  end.
(* documentquery.go:16-19 *)
Definition plain_condition (c : raw_condition) : option condition :=
  Some (mkCondition (rc_query c) (match rc_value c with Some v => v | None => z end)).
(* overlay.go:16-24 *)
Definition plain_overlay (o : raw_overlay) : option overlay :=
  match all_some (all_some plain_condition) (ro_docqueries o) with
  | Some dq =>
      Some (mkOverlay (match ro_query o with Some q => q | None => [] end) (match ro_value o with Some v => v | None => z end)
              (ro_action o) dq (ro_missing o) (ro_inject o) (ro_index o))
  | None => None
  end.
(* document.go:9-13 *)
Definition plain_document (d : document (option raw_overlay)) : option (document overlay) :=
  match all_some plain_overlay (d_overlays d) with Some os => Some (mkDocument (d_path d) os) | None => None end.
(* yamlfile.go:21-34 *)
Definition plain_entry (e : entry (option raw_overlay) (option (document (option raw_overlay))) loc) : option (entry overlay (document overlay) loc) :=
  match all_some plain_overlay (e_overlays e), all_some plain_document (e_documents e) with
  | Some os, Some ds => Some (mkEntry _ _ _ (e_name e) os ds (e_nodes e) (e_path e) (e_output e))
  | _, _ => None
  end.
(** None if the instructions contain a nil pointer.  Simplification: the program crashes
    when it reaches one (C65); here such instructions are refused. *)
(* instructions.go:19-25 *)
Definition plain_instructions (i : raw_overlays * list (option raw_entry)) : option (list overlay * list (entry overlay (document overlay) loc)) :=
  match all_some plain_overlay (fst i), all_some plain_entry (snd i) with
  | Some os, Some y => Some (os, y)
  | _, _ => None
  end.
(* config.go:171-185 *)
Definition plain_flags (f : flag_overlay) : option overlay :=
  match all_some (fun q => Some q) (fo_query f) with
  | Some q => Some (mkOverlay q (match fo_value f with Some v => v | None => z end) (fo_action f) [] MDefault None None)
  | None => None
  end.
End plain.

(** *** Pointers to overlays: their positions in a table *)
(** The overlays of an entry, in the order of the table. *)
(* yamlfile.go:21-34: the pointers in Overlays and Documents *)
Definition entry_overlays (e : entry overlay (document overlay) loc) : list overlay :=
  e_overlays e ++ concat (map d_overlays (e_documents e)).
(* document.go:9-13: the pointers in Overlays *)
Fixpoint number_documents (n : nat) (ds : list (document overlay)) : list (document nat) :=
  match ds with
  | [] => []
  | d :: r => mkDocument (d_path d) (seq n (length (d_overlays d))) :: number_documents (n + length (d_overlays d)) r
  end.
(* yamlfile.go:21-34: the pointers in Overlays and Documents *)
Definition number_entry (n : nat) (e : entry overlay (document overlay) loc) : entry nat (document nat) loc :=
  mkEntry _ _ _ (e_name e) (seq n (length (e_overlays e))) (number_documents (n + length (e_overlays e)) (e_documents e))
    (e_nodes e) (e_path e) (e_output e).
(* yamlfile.go:36: the pointers of all files *)
Fixpoint number_entries (n : nat) (y : list (entry overlay (document overlay) loc)) : list (entry nat (document nat) loc) :=
  match y with
  | [] => []
  | e :: r => number_entry n e :: number_entries (n + length (entry_overlays e)) r
  end.

Section tool.
Context {F P : Type} (e : engine F P) (builtin sprig : list N -> option F) (sed : sed_engine).
Context (compile : list N -> option (heap -> loc -> list loc)) (to_int : info -> option Z).
(** The memory after all texts were parsed, and a zero node in it. *)
Context (h : heap) (z : loc).

(** The world outside, as far as it is read.  [sr_text] is the content of a file;
    [sr_parse] the first document node of a text (None: not YAML; Some None: no
    document); [sr_docs], [sr_stdin] are the documents of an input.  Simplification: the
    parser is deterministic on texts, so each text is parsed once into [h]. *)
(* what utils.go:15-26, config.go:143-185 and yamlfile.go:84-109 read (external) *)
Record surroundings := mkSurroundings {
  sr_fs : fs; sr_cwd : list N; sr_text : list N -> option (list N); sr_first : list N -> option tree;
  sr_parse : list N -> option (option loc);
  sr_docs : list N -> option (list loc); sr_stdin : option (list loc) }.

(** config.go:21-34, flags.go:93-99, 115-131, 149-176  the command line: -i, -p, -f, -q, -a, -x,
    --remove-comments *)
Record command_line := mkCommandLine {
  cl_instructions : list N; cl_path : list N; cl_values : option (list (list N));
  cl_queries : list (list N); cl_actions : list (list N); cl_value : list N; cl_uncomment : bool }.

(** The content of a parsed document, for flags. *)
(* config.go:177-179 *)
Definition content_of (l : loc) : option loc :=
  match h !! l with Some n => match n_content n with Some (c :: _) => Some c | _ => None end | None => None end.
(* config.go:173-179, and yaml.Unmarshal in action.go:77-83 and query.go:102-111 *)
Definition parse_flag (s : surroundings) (text : list N) : option (option loc) :=
  match sr_parse s text with None => None | Some None => Some None | Some (Some l) => Some (content_of l) end.

(** instructions.go:32-45, 70-110 *)
Definition read_instructions_file (s : surroundings) (cl : command_line) : res (raw_overlays * list (option raw_entry)) :=
  match cl_instructions cl with
  | [] => Ok ([], [])
  | p =>
      let! text := instructions_text e builtin sprig (sr_text s) (sr_first s) sed p (cl_values cl) in
      match sr_parse s text with
      | None => Err EDecode
      | Some d => decode_instructions compile to_int h d
      end
  end.
(** instructions.go:27-67  GetInstructions on texts, followed by Execute's input: the table
    of overlays and the files. *)
Definition prepare (fuel : nat) (grow : nat -> nat -> nat) (s : surroundings) (cl : command_line) : res (list overlay * list (entry nat (document nat) loc)) :=
  let! fl := read_flags compile h (parse_flag s) (cl_queries cl) (cl_actions cl) (cl_value cl) in
  let! i := read_instructions_file s cl in
  match plain_instructions z i, match fl with None => Some None | Some f => match plain_flags z f with Some o => Some (Some o) | None => None end end with
  | Some (common, y), Some adhoc =>
      let n := length common + length (concat (map entry_overlays y)) in
      let os := common ++ concat (map entry_overlays y) ++ match adhoc with Some o => [o] | None => [] end in
      let w := mkInputs (sr_fs s) (sr_cwd s) (sr_docs s) (sr_stdin s) (fun _ => Some (seq 0 (length common), number_entries (length common) y)) in
      let op := mkOptions (cl_instructions cl) (cl_path cl) (match adhoc with Some _ => Some (Some n) | None => None end) in
      let! R := get_instructions fuel grow w op in
      Ok (os, R)
  | _, _ => Panic
  end.

(** instructions.go:27-67  the same, with the nodes in memory: the last thing before the
    overlays are applied is the removal of the comments (lines 57-66). *)
Definition get_ready (fuel : nat) (grow : nat -> nat -> nat) (s : surroundings) (cl : command_line) : heap * res (list overlay * list (entry nat (document nat) loc)) :=
  match prepare fuel grow s cl with
  | Ok (os, R) => (do! _ := if cl_uncomment cl then h_uncomment_all fuel (map e_nodes R) else ret tt in ret (os, R)) h
  | Err x => (h, Err x)
  | Panic => (h, Panic)
  | Fuel => (h, Fuel)
  end.
End tool.
