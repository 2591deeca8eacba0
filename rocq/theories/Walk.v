(** Model of getFileNames (utils.go:83-108) and of the standard library's
    filepath.Walk that it calls, over the file system calls Walk makes. *)
From Verif Require Import Prelude GoStrings Paths Files.

(** What os.Lstat says about a name: a directory, a symbolic link, anything else. *)
(* os.FileMode.Type (external), for utils.go:94 and filepath.walk *)
Inductive kind := KFile | KDir | KLink.

(** The file system calls (external), by the path string passed to them:
    os.Lstat (None: error), os.Stat(..).IsDir() (follows links; None: error)
    and File.Readdirnames (None: error; the order is arbitrary). *)
Record os := mkOs { os_lstat : list N -> option kind;
                    os_stat : list N -> option bool;
                    os_list : list N -> option (list (list N)) }.

(** Go's string comparison [a <= b] (bytewise; on valid UTF-8 this is the order
    of the code points). *)
(* part of sort.Strings in filepath.readDirNames (standard library), called from utils.go:87 *)
Fixpoint str_leb (a b : list N) : bool :=
  match a, b with
  | [], _ => true
  | _ :: _, [] => false
  | x :: a', y :: b' => if N.ltb x y then true else if ceq x y then str_leb a' b' else false
  end.
(** sort.Strings, as insertion sort (the result of sorting is unique). *)
(* part of sort.Strings (standard library) *)
Fixpoint insert_sorted (x : list N) (l : list (list N)) : list (list N) :=
  match l with
  | [] => [x]
  | y :: r => if str_leb x y then x :: l else y :: insert_sorted x r
  end.
(* filepath.readDirNames (standard library), called from utils.go:87 *)
Definition sort_strings (l : list (list N)) : list (list N) := fold_right insert_sorted [] l.

(** utils.go:97  filepath.Ext(path) == ".yaml" || filepath.Ext(path) == ".yml" *)
Definition yaml_ext (p : list N) : bool :=
  seq_eqb (path_ext p) (lit ".yaml") || seq_eqb (path_ext p) (lit ".yml").

(** Go path/filepath.walk with the callback of utils.go:88-102.  The callback
    returns every error it is given, so the first error ends the walk
    (SkipDir is never returned).  A non-directory is collected if it has the
    extension; a directory is read, its names are sorted, and each is examined
    with Lstat under filepath.Join(path, name).  [fuel] bounds the depth. *)
Fixpoint walk (fuel : nat) (o : os) (p : list N) (k : kind) : res (list (list N)) :=
  match k with
  | KFile | KLink => Ok (if yaml_ext p then [p] else [])
  | KDir =>
      match fuel with
      | O => Fuel
      | S fuel' =>
          match os_list o p with
          | None => Err EFs
          | Some ns =>
              (fix each (ns : list (list N)) : res (list (list N)) :=
                 match ns with
                 | [] => Ok []
                 | n :: r =>
                     let q := path_join [p; n] in
                     match os_lstat o q with
                     | None => Err EFs
                     | Some kq =>
                         let! here := walk fuel' o q kq in
                         let! rest := each r in
                         Ok (here ++ rest)
                     end
                 end) (sort_strings ns)
          end
      end
  end.

(** utils.go:84-108  getFileNames; filepath.Walk starts with Lstat on the root. *)
Definition get_file_names (fuel : nat) (o : os) (p : list N) : res (list (list N)) :=
  match os_lstat o p with
  | None => Err EFs
  | Some k => walk fuel o p k
  end.

(** The file system as expandDirectories (Files.v) sees it. *)
(* utils.go:74-108  isDirectory and getFileNames, as called from yamlfile.go:111-156 *)
Definition fs_of (depth : nat) (o : os) : fs :=
  mkFs (os_stat o) (fun p => match get_file_names depth o p with Ok l => Some l | _ => None end).
