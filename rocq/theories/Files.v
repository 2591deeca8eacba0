(** Model of the yamlFiles list of internal/instructions: directory expansion
    and duplicate merging. *)
From Verif Require Import Prelude GoStrings Paths.

(** yamlfile.go:21-34  YamlFile.  [Ov] and [Dc] stand for pointers to overlays and
    documents entries; [e_nodes] holds pointers to the loaded documents. *)
Record entry {Ov Dc Nd : Type} := mkEntry {
  e_name : list N; e_overlays : list Ov; e_documents : list Dc;
  e_nodes : list Nd; e_path : list N; e_output : list N }.
Arguments entry : clear implicits.

Section files.
Context {Ov Dc Nd : Type}.
Notation entry := (entry Ov Dc Nd).

Definition with_path (p : list N) (e : entry) : entry :=
  mkEntry _ _ _ (e_name e) (e_overlays e) (e_documents e) (e_nodes e) p (e_output e).

(** The file system, as far as it is observed (external):
    [fs_stat] is os.Stat (None: error; Some b: is it a directory, following
    symbolic links), [fs_walk] is getFileNames (utils.go:84-108): the files
    ending in .yaml or .yml met by filepath.Walk (None: error). *)
Record fs := mkFs { fs_stat : list N -> option bool; fs_walk : list N -> option (list (list N)) }.

(** yamlfile.go:121-123  relative paths are relative to the instructions file *)
Definition resolve (instdir p : list N) : list N :=
  if is_abs p then p else path_join [instdir; p].

(** yamlfile.go:137-143  the entry made for a file of a directory entry *)
Definition sub_entry (e : entry) (p : list N) : entry :=
  mkEntry _ _ _ (e_name e) (e_overlays e) (e_documents e) [] p (e_output e).

(** yamlfile.go:111-156  expandDirectories: the index loop.  [y] is the slice,
    [i] the index; a directory entry is removed after its files have been
    appended, and the index is not advanced.  The pointed-to entries are
    private to the list and are modelled by value. *)
Fixpoint expand_loop (fuel : nat) (f : fs) (instdir : list N) (y : list entry) (i : nat) : res (list entry) :=
  match y !! i with
  | None => Ok y
  | Some e =>
      match fuel with
      | O => Fuel
      | S k =>
          if seq_eqb (e_path e) (lit "-") then expand_loop k f instdir y (S i) else
          let e' := with_path (resolve instdir (e_path e)) e in
          let y' := <[ i := e' ]> y in
          match fs_stat f (e_path e') with
          | None => Err EFs
          | Some false => expand_loop k f instdir y' (S i)
          | Some true =>
              if negb (seq_eqb (path_ext (e_output e')) []) then Err EDirWithFileOutput else
              match fs_walk f (e_path e') with
              | None => Err EFs
              | Some ps =>
                  let y2 := y' ++ map (sub_entry e') ps in
                  expand_loop k f instdir (take i y2 ++ drop (S i) y2) i
              end
          end
      end
  end.
Definition expand_directories (fuel : nat) (f : fs) (instdir : list N) (y : list entry) : res (list entry) :=
  expand_loop fuel f instdir y 0.

(** yamlfile.go:166-171  what the first entry for a path takes over from a later one *)
Definition absorb (e d : entry) : entry :=
  mkEntry _ _ _ (e_name e) (e_overlays e ++ e_overlays d) (e_documents e ++ e_documents d) (e_nodes e) (e_path e)
    (if seq_eqb (e_output d) [] then e_output e else e_output d).

(** yamlfile.go:158-179  mergeDuplicates.  The slice holds pointers ([ys], indices
    into the array [store] of entries); [search] is the Go map from path to
    pointer.  The loop index is not advanced after a removal. *)
Definition search_get (search : list (list N * nat)) (p : list N) : option nat :=
  match List.find (fun x => seq_eqb (fst x) p) search with Some x => Some (snd x) | None => None end.

Fixpoint dup_loop (fuel : nat) (store : list entry) (ys : list nat) (i : nat) (search : list (list N * nat))
    : res (list entry * list nat) :=
  match ys !! i with
  | None => Ok (store, ys)
  | Some p =>
      match fuel with
      | O => Fuel
      | S k =>
          match store !! p with
          | None => Panic
          | Some e =>
              match search_get search (e_path e) with
              | None => dup_loop k store ys (S i) ((e_path e, p) :: search)
              | Some q =>
                  match store !! q with
                  | None => Panic
                  | Some first =>
                      dup_loop k (<[ q := absorb first e ]> store) (take i ys ++ drop (S i) ys) i search
                  end
              end
          end
      end
  end.
(** The entries in order, each with its own pointer. *)
(* yamlfile.go:158-179  the whole of it *)
Definition merge_duplicates (y : list entry) : res (list entry) :=
  let! r := dup_loop (length y) y (seq 0 (length y)) 0 [] in
  match mapM (fun p => fst r !! p) (snd r) with Some l => Ok l | None => Panic end.
End files.

