(** Specification of the preparation phase: which inputs a run is about and what
    each one gets. *)
From Verif Require Import Prelude GoStrings Paths Files SpecFiles SpecSlices Prepare.

Section specprepare.
Context {Ov Dc Nd : Type}.
Notation entry := (entry Ov Dc Nd).
Notation inputs := (inputs Ov Dc Nd).
Notation options := (options Ov).

(** The entries with directories replaced by their files: first what is not a
    directory, then the files of the directories (C33). *)
Definition expanded (f : fs) (instdir : list N) (y : list entry) : list entry :=
  let L := map (located instdir) y in
  List.filter (fun e => negb (is_dir_entry f e)) L ++ concat (map (files_of f) (List.filter (is_dir_entry f) L)).

(** What the instructions file says: common overlays and entries. *)
Definition instructions_say (w : inputs) (op : options) : option (list Ov * list entry) :=
  match op_instructions op with [] => Some ([], []) | p => in_decode w p end.

(** Paths are relative to the directory of the instructions file; without one,
    to the working directory. *)
Definition base_of (w : inputs) (op : options) : list N :=
  match op_instructions op with [] => [] | p => path_dir (path_abs (in_cwd w) p) end.

(** The entry that the option -p stands for. *)
Definition path_option (op : options) : list entry :=
  match op_path op with
  | [] => []
  | p => [mkEntry _ _ _ (lit "StdIn") [] [] [] p (if seq_eqb p (lit "-") then lit "stdin.yaml" else [])]
  end.

(** All inputs of the run, in order: those of the instructions file, then -p. *)
Definition named_inputs (w : inputs) (op : options) (y : list entry) : list entry :=
  expanded (in_fs w) (base_of w op) y ++ expanded (in_fs w) (base_of w op) (path_option op).

(** The documents in a file or on standard input. *)
Definition documents_in (w : inputs) (p : list N) : option (list Nd) :=
  if seq_eqb p (lit "-") then in_stdin w else in_read w p.

(** The overlays written for a path, wherever it is mentioned. *)
Definition own_overlays (all : list entry) (p : list N) : list Ov := concat (map e_overlays (entries_for p all)).

(** The common overlays, that of the command line last. *)
Definition common_overlays (common : list Ov) (op : options) : list Ov :=
  common ++ match op_overlay op with Some (Some o) => [o] | _ => [] end.

(** The place for the result of [p]: inputs are numbered in the order of first mention, and
    their places follow from their paths and from the last place written for each (C35-C37,
    C68). *)
Definition place_of (all : list entry) (p o : list N) : Prop :=
  let inputs := dedup [] (map e_path all) in
  exists k, inputs !! k = Some p /\
    set_output_paths (map (fun q => (q, last_nonempty (map e_output (entries_for q all)))) inputs) !! k = Some o.

(** How many overlays the array behind the common list can take in addition: none
    unless an overlay from the command line made the runtime choose a bigger one. *)
Definition spare_room (grow : nat -> nat -> nat) (common : list Ov) (op : options) : nat :=
  match op_overlay op with
  | Some (Some _) => grow (length common) (length common + 1) - (length common + 1)
  | _ => 0
  end%nat.

(** What becomes of the files' own lists when [room] elements fit behind the common
    list: a list that fits is overwritten by those of later files that fit. *)
Definition after_sharing (room : nat) (owns : list (list Ov)) : list (list Ov) :=
  imap (fun i own =>
    if Nat.leb (length own) room
    then overwritten own (List.filter (fun l => Nat.leb (length l) room) (drop (S i) owns))
    else own) owns.

(** The overlays of its own that [p] ends up with. *)
Definition own_in_force (room : nat) (all : list entry) (p : list N) : list Ov :=
  let inputs := dedup [] (map e_path all) in
  match list_find (fun q => q = p) inputs with
  | Some (k, _) => match after_sharing room (map (own_overlays all) inputs) !! k with Some own => own | None => [] end
  | None => []
  end.

(** Nothing stands in the way of the run. *)
Definition all_inputs_good (w : inputs) (op : options) : Prop :=
  exists common y, instructions_say w op = Some (common, y) /\
    Forall (expandable (in_fs w)) (map (located (base_of w op)) (y ++ path_option op)) /\
    (forall p, In p (map e_path (named_inputs w op y)) -> documents_in w p <> None) /\
    op_overlay op <> Some None.

(** Assumptions on the surroundings (as in C33). *)
Definition usable (w : inputs) (op : options) : Prop :=
  walks_files (in_fs w) (base_of w op) /\
  forall common y, instructions_say w op = Some (common, y) -> Forall (dash_is_stdin (base_of w op)) (y ++ path_option op).
End specprepare.
