(** Model of the path arithmetic in internal/instructions: GetCommonPrefix,
    setOutputPath, openOutputFile's file name, and the functions of Go's
    standard package [path] they use. *)
From Verif Require Import Prelude GoStrings.

Definition slash : N := 47%N.
Definition dot : list N := lit ".".
Definition dotdot : list N := lit "..".

(** Go path.IsAbs *)
(* used at yamlfile.go:121 and config.go:80 *)
Definition is_abs (p : list N) : bool :=
  match p with c :: _ => ceq c slash | [] => false end.

(** Go path.Clean, by path elements: empty elements and "." vanish, ".."
    removes the element before it (at the root of an absolute path it
    vanishes, at the front of a relative one it stays).  [acc] holds the
    elements kept so far, last first. *)
(* part of path.Clean, used at utils.go:41, 44, 47 *)
Definition clean_step (rooted : bool) (acc : list (list N)) (e : list N) : list (list N) :=
  if seq_eqb e [] || seq_eqb e dot then acc
  else if seq_eqb e dotdot then
    match acc with
    | top :: rest => if seq_eqb top dotdot then e :: acc else rest
    | [] => if rooted then [] else [e]
    end
  else e :: acc.
(* used at utils.go:41, 44, 47 *)
Definition clean (p : list N) : list N :=
  let rooted := is_abs p in
  let es := rev (fold_left (clean_step rooted) (split_on slash p) []) in
  let body := join_with [slash] es in
  if rooted then slash :: body
  else match body with [] => dot | _ => body end.

(** What precedes (and includes) the last separator; the first result of Go's
    path.Split. *)
(* part of path.Split *)
Fixpoint up_to_last (sep : N) (s : list N) : option (list N) :=
  match s with
  | [] => None
  | c :: r =>
      match up_to_last sep r with
      | Some w => Some (c :: w)
      | None => if ceq c sep then Some [c] else None
      end
  end.
(* path.Split, part of path.Dir, used at config.go:84 *)
Definition split_dir (p : list N) : list N :=
  match up_to_last slash p with Some d => d | None => [] end.
(* path.Split, part of path.Base, used at instructions.go:134 *)
Definition split_file (p : list N) : list N := drop (length (split_dir p)) p.

(** Go path.Dir *)
(* used at utils.go:41, config.go:84 and instructions.go:85 *)
Definition path_dir (p : list N) : list N := clean (split_dir p).

(** Go path.Base *)
(* used at instructions.go:134 *)
Definition path_base (p : list N) : list N :=
  match p with
  | [] => dot
  | _ =>
      let p' := rev (trim_left (ceq slash) (rev p)) in
      match split_file p' with [] => [slash] | b => b end
  end.

(** Go path.Ext: the suffix from the last dot of the last element; empty if
    there is none. *)
(* used at instructions.go:133, yamlfile.go:128 and utils.go:97 *)
Definition path_ext (p : list N) : list N :=
  let f := split_file p in
  match up_to_last 46%N f with
  | None => []
  | Some d => drop (length d - 1) f
  end.

(** Go path.Join *)
(* used at instructions.go:134, yamlfile.go:122 and config.go:81 *)
Definition path_join (es : list (list N)) : list N :=
  match List.filter (fun e => negb (seq_eqb e [])) es with
  | [] => []
  | es' => clean (join_with [slash] es')
  end.

(** utils.go:46-60  the loop body: [c] shortened to its common prefix with [v]. *)
Fixpoint common (v c : list N) : list N :=
  match v, c with
  | x :: v', y :: c' => if ceq x y then y :: common v' c' else []
  | _, _ => []
  end.

(** utils.go:62-68  cut at the last separator; unchanged when there is none. *)
Definition cut_last (sep : N) (c : list N) : list N :=
  match up_to_last sep c with
  | Some w => take (length w - 1) c
  | None => c
  end.

(** utils.go:36-71  GetCommonPrefix, called with sep = '/' (os.PathSeparator on
    the modelled platform). *)
Definition common_prefix (sep : N) (paths : list (list N)) : list N :=
  match paths with
  | [] => []
  | [p] => path_dir (clean p) ++ [slash]
  | p :: rest =>
      cut_last sep (fold_left (fun c v => common (clean v ++ [sep]) c) rest (clean p ++ [sep])) ++ [slash]
  end.

(** instructions.go:130-136  the output path of one entry *)
Definition output_path (prefix path output : list N) : list N :=
  if seq_eqb output [] then trim_prefix path prefix
  else if seq_eqb (path_ext output) [] then path_join [output; path_base path]
  else output.

(** instructions.go:119-137  setOutputPath, on (Path, OutputPath) pairs. *)
Definition set_output_paths (files : list (list N * list N)) : list (list N) :=
  let ps := List.filter (fun p => negb (seq_eqb p (lit "-"))) (map fst files) in
  let prefix := common_prefix slash ps in
  map (fun f => output_path prefix (fst f) (snd f)) files.

(** config.go:79-82  the file written for an entry *)
Definition output_file (outdir output : list N) : list N :=
  if is_abs output then output else path_join [outdir; output].
