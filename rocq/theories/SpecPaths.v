(** Specification vocabulary for paths; independent of how the tool computes
    prefixes. *)
From Verif Require Import Prelude GoStrings Paths.

(** [d] is a textual prefix of [p]. *)
Definition starts (d p : list N) : Prop := exists r, p = d ++ r.

(** [d] names a directory: it ends in the separator. *)
Definition ends_in_slash (d : list N) : Prop := exists r, d = r ++ [slash].

(** [q] lies below [p] as a file lies below a directory. *)
Definition below (p q : list N) : Prop := exists r, q = p ++ slash :: r.

(** The path of a file, already in the shortest form (Go's path.Clean). *)
Definition file_path (p : list N) : Prop := clean p = p /\ ~ ends_in_slash p.

(** Files: no two entries are the same, none is a directory above another. *)
Definition distinct_files (ps : list (list N)) : Prop :=
  NoDup ps /\ forall p q, In p ps -> In q ps -> ~ below p q.

(** Some directory contains all of them ([d] is empty for absolute paths). *)
Definition share_directory (ps : list (list N)) : Prop :=
  exists d, forall p, In p ps -> starts (d ++ [slash]) p.

(** A plain path element. *)
Definition name_ok (e : list N) : Prop := e <> [] /\ e <> dot /\ e <> dotdot /\ ~ In slash e.

(** The absolute path with the given elements: /e1/e2/... *)
Definition abs_path (es : list (list N)) : list N := concat (map (fun e => slash :: e) es).
Definition abs_file (p : list N) : Prop := exists es, es <> [] /\ Forall name_ok es /\ p = abs_path es.

(** The path reached from the cleaned directory path [d] by descending through
    the named elements: "." and "/" need no (further) separator. *)
Definition descend (d : list N) (es : list (list N)) : list N :=
  match es with
  | [] => d
  | _ => if seq_eqb d dot then join_with [slash] es
         else if seq_eqb d [slash] then slash :: join_with [slash] es
         else d ++ slash :: join_with [slash] es
  end.
(** The file [f] is inside the directory [d]. *)
Definition inside (d f : list N) : Prop :=
  exists es, es <> [] /\ Forall name_ok es /\ f = descend (clean d) es.

(** The last element of the path has a dot: it looks like a file name. *)
Definition looks_like_file (o : list N) : Prop := exists a b, o = a ++ 46%N :: b /\ ~ In slash b.

(** [b] is the last element of [p]. *)
Definition last_element (b p : list N) : Prop := name_ok b /\ (p = b \/ exists d, p = d ++ slash :: b).
