(** Model of what happens to a file's documents on the way out: comment removal,
    output style, encoding, writing. *)
From Verif Require Import Prelude GoStrings Yaml Paths.

(** yamlfile.go:182-194  removeCommentsFromNode: every node below the given one
    loses its comments. *)
Definition clear_comments (t : tree) : tree := match t with T i c => T (set_comments [] [] [] i) c end.
Fixpoint remove_comments (t : tree) : tree :=
  match t with
  | T i None => T i None
  | T i (Some l) => T i (Some (map (fun c => clear_comments (remove_comments c)) l))
  end.

(** style.go:16-31  the style constants *)
Definition tagged_style : N := 1.
Definition double_quoted_style : N := 2.
Definition single_quoted_style : N := 4.
Definition literal_style : N := 8.
Definition folded_style : N := 16.
Definition flow_style : N := 32.
Definition normal_style : N := 64.

(** style.go:92-107  one style name (already in lower case) *)
Definition style_of_name (s : list N) : list N :=
  let is_one_of (l : list string) := existsb (fun x => seq_eqb s (lit x)) l in
  if is_one_of ["normal"; "n"]%string then [normal_style]
  else if is_one_of ["tagged"; "tag"; "t"]%string then [tagged_style]
  else if is_one_of ["doublequoted"; "doublequote"; "double"; "dq"]%string then [double_quoted_style]
  else if is_one_of ["singlequoted"; "singlequote"; "single"; "sq"]%string then [single_quoted_style]
  else if is_one_of ["literal"; "l"]%string then [literal_style]
  else if is_one_of ["folded"; "fold"; "fo"]%string then [folded_style]
  else if is_one_of ["flow"; "fl"]%string then [flow_style]
  else [].

(** style.go:86-112  GetStyleFromConfig *)
Definition styles_from_config (v : list (list N)) : list N :=
  concat (map (fun ss => concat (map style_of_name (split_on 44%N (trim_cutset (lit "[]") (to_lower ss))))) v).

(** style.go:59-66  GetStyle: the sum.  Simplification: unbounded, Go's uint wraps. *)
Definition get_style (ss : list N) : N := fold_left (fun s v => (s + v)%N) ss 0%N.

(** style.go:73-84  setStyle *)
Fixpoint set_style (s : N) (t : tree) : tree :=
  match t with
  | T i c =>
      match i_kind i with
      | KDocument | KMapping | KSequence | KAlias =>
          T (set_style_i s i) (match c with Some l => Some (map (set_style s) l) | None => None end)
      | KScalar => T (set_style_i s i) c
      | KZero => T i c
      end
  end.

Section render.
(** The YAML encoder (external): what Encode appends for a document when it has
    already emitted [k] documents (a separator before all but the first); None
    is an error. *)
Context (enc : nat -> tree -> option (list N)).

(** config.go:120-138  the loop of encodeNodes.  [i] is the loop index, [k] the
    number of documents encoded so far. *)
Fixpoint encode_loop (styles : list (list N)) (i k : nat) (nodes : list tree) (out : list N) : res (list N) :=
  match nodes with
  | [] => Ok out
  | n :: rest =>
      match children n with
      | [] => encode_loop styles (S i) k rest out
      | _ =>
          let out1 := if Nat.eqb i 0 then out ++ lit "---" ++ [10%N] else out in
          match enc k (set_style (get_style (styles_from_config styles)) n) with
          | None => Err EEncode
          | Some s => encode_loop styles (S i) (S k) rest (out1 ++ s)
          end
      end
  end.
(** config.go:103-141  encodeNodes.  Simplification: the bytes Close adds at the
    end of the stream (none) are left to [enc], which also knows the indentation. *)
Definition encode_nodes (styles : list (list N)) (nodes : list tree) : res (list N) :=
  encode_loop styles 0 0 nodes [].

(** The outside world as far as output goes: what was printed, and the files
    written (last write first). *)
(* config.go:37-100 writes to it; the operating system (external) *)
Record world := mkWorld { w_stdout : list (list N); w_files : list (list N * list N) }.

(** Which files can be created and written (external). *)
Record disk := mkDisk { can_open : list N -> bool; can_write : list N -> bool; stdout_ok : bool }.

Record out_config := mkOut { oc_stdout : bool; oc_dir : list N; oc_styles : list (list N); oc_indent : Z }.

(** config.go:37-72 doPostProcessing with 75-100 openOutputFile.  Opening creates
    or truncates the file and prints its name.  A failed write leaves the
    truncated file (Go may leave part of the data).  config.go:118: SetIndent
    (external) panics on a negative number, before anything is encoded. *)
Definition post_process (d : disk) (cfg : out_config) (nodes : list tree) (output : list N) (w : world) : world * res unit :=
  if (oc_indent cfg <? 0)%Z then (w, Panic) else
  match encode_nodes (oc_styles cfg) nodes with
  | Ok [] => (w, Ok tt)
  | Ok text =>
      if oc_stdout cfg then
        if stdout_ok d then (mkWorld (w_stdout w ++ [text]) (w_files w), Ok tt) else (w, Err EFs)
      else
        let name := output_file (oc_dir cfg) output in
        if can_open d name then
          let w1 := mkWorld (w_stdout w ++ [name ++ [10%N]]) ((name, []) :: w_files w) in
          if can_write d name then (mkWorld (w_stdout w1) ((name, text) :: w_files w), Ok tt)
          else (w1, Err EFs)
        else (w, Err EFs)
  | Err e => (w, Err e)
  | Panic => (w, Panic)
  | Fuel => (w, Fuel)
  end.
End render.
