(** Specification vocabulary for the list of input files. *)
From Verif Require Import Prelude GoStrings Paths Files.

Section specfiles.
Context {Ov Dc Nd : Type}.
Notation entry := (entry Ov Dc Nd).

(** All entries for one path. *)
Definition entries_for (p : list N) (y : list entry) : list entry :=
  List.filter (fun e => seq_eqb (e_path e) p) y.

(** The list without repetitions, keeping first occurrences. *)
Fixpoint dedup (seen l : list (list N)) : list (list N) :=
  match l with
  | [] => []
  | p :: r => if existsb (seq_eqb p) seen then dedup seen r else p :: dedup (p :: seen) r
  end.

(** The last non-empty string of a list; empty if there is none. *)
Fixpoint last_nonempty (l : list (list N)) : list N :=
  match l with
  | [] => []
  | s :: r => match last_nonempty r with [] => s | t => t end
  end.

(** Every entry of [y], with relative paths taken from [instdir]; standard input stays. *)
Definition located (instdir : list N) (e : entry) : entry :=
  if seq_eqb (e_path e) (lit "-") then e else with_path (resolve instdir (e_path e)) e.

(** Standard input or not a directory / a directory. *)
Definition is_dir_entry (f : fs) (e : entry) : bool :=
  negb (seq_eqb (e_path e) (lit "-")) &&
  match fs_stat f (e_path e) with Some b => b | None => false end.

(** The files of a directory entry, each as an entry of its own. *)
Definition files_of (f : fs) (e : entry) : list entry :=
  match fs_walk f (e_path e) with
  | Some ps => map (fun p => mkEntry _ _ _ (e_name e) (e_overlays e) (e_documents e) [] p (e_output e)) ps
  | None => []
  end.

(** Walking the path of an entry yields regular files only, by paths that are not
    resolved any further. *)
Definition walks_files (f : fs) (instdir : list N) : Prop :=
  forall d ps p, fs_walk f (resolve instdir d) = Some ps -> In p ps ->
    p <> lit "-" /\ resolve instdir p = p /\ fs_stat f p = Some false.

(** An entry whose expansion meets no error: standard input, a plain file, or a
    readable directory whose output path does not look like a file. *)
Definition expandable (f : fs) (e : entry) : Prop :=
  e_path e = lit "-" \/
  fs_stat f (e_path e) = Some false \/
  fs_stat f (e_path e) = Some true /\ path_ext (e_output e) = [] /\ exists ps, fs_walk f (e_path e) = Some ps.

(** Only an entry written "-" means standard input. *)
Definition dash_is_stdin (instdir : list N) (e : entry) : Prop :=
  e_path e = lit "-" \/ resolve instdir (e_path e) <> lit "-".
End specfiles.
