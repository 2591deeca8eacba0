(** A concrete finder: how the external library
    github.com/vmware-labs/yaml-jsonpath v0.3.2 evaluates a dotted child path
    [$.n1.n2...] (assumed behaviour; the library is not part of /repo).

    "$" on a document node is its first child and any other node itself; a
    dotted child of a mapping is the value of the first entry whose key text is
    the name; other nodes have no children in this sense. *)
From Verif Require Import Prelude Yaml Heap Builder Overlay.

(** The value of the first entry with key [k] among the content addresses [ls]. *)
(* external: yaml-jsonpath v0.3.2, called from query.go:28 and 44 *)
Fixpoint f_child (h : heap) (k : list N) (ls : list loc) : option loc :=
  match ls with
  | a :: b :: r =>
      match h !! a with
      | Some n => if seq_eqb (i_value (n_info n)) k then Some b else f_child h k r
      | None => f_child h k r
      end
  | _ => None
  end.

(* external: yaml-jsonpath v0.3.2, called from query.go:28 and 44 *)
Fixpoint f_path (h : heap) (names : list (list N)) (l : loc) : list loc :=
  match names with
  | [] => match h !! l with Some _ => [l] | None => [] end
  | k :: r =>
      match h !! l with
      | Some n =>
          if kind_eqb (i_kind (n_info n)) KMapping then
            match n_content n with
            | Some ls => match f_child h k ls with Some v => f_path h r v | None => [] end
            | None => []
            end
          else []
      | None => []
      end
  end.

(* external: yaml-jsonpath v0.3.2, called from query.go:28 and 44 *)
Definition f_root (h : heap) (l : loc) : option loc :=
  match h !! l with
  | Some n =>
      if kind_eqb (i_kind (n_info n)) KDocument
      then match n_content n with Some (c :: _) => Some c | _ => None end
      else Some l
  | None => None
  end.

(** The query [$.n1.n2...]. *)
(* external: yaml-jsonpath v0.3.2, called from query.go:28 and 44 *)
Definition dotted (text : list N) (names : list (list N)) : query :=
  mkQuery text (fun h l => match f_root h l with Some r => f_path h names r | None => [] end).
