(** How the external library github.com/vmware-labs/yaml-jsonpath v0.3.2 evaluates paths of
    names, keys, wildcards, indices, filters and recursive descent, as in
    [$.items[*].spec], [$.labels.app~], [$.list[-1]], [$.containers[?(@.name=='x')].image], [$..name]
    (assumed behaviour; the library is not part of /repo).

    Each step goes from a node to some nodes below it, in document order; the next step is
    taken from each of them in turn. *)
From Verif Require Import Prelude Yaml Heap Builder Overlay Finder.

(* external: yaml-jsonpath v0.3.2, called from query.go:28 and 44 *)
Inductive step :=
  | Name (k : list N)                                   (* .k: the first entry of a mapping with this key *)
  | KeyOf (k : list N)                                  (* .k~: the key node of that entry *)
  | Every                                               (* .* or [*]: all values of a mapping, elements of a sequence *)
  | Index (z : Z)                                       (* [z]: an element of a sequence, from its end if negative *)
  | Where (names : list (list N)) (text : list N)       (* [?(@.n1.n2=='text')]: those of Every with this text there *)
  | Deep.                                               (* ..: the node and all nodes below it *)

(** The first key node with text [k]. *)
(* external: yaml-jsonpath v0.3.2, called from query.go:28 and 44 *)
Fixpoint f_key (h : heap) (k : list N) (ls : list loc) : option loc :=
  match ls with
  | a :: _ :: r =>
      match h !! a with
      | Some n => if seq_eqb (i_value (n_info n)) k then Some a else f_key h k r
      | None => f_key h k r
      end
  | _ => None
  end.
(** Every second element: the values of a mapping's content. *)
(* external: yaml-jsonpath v0.3.2, called from query.go:28 and 44 *)
Fixpoint values {A} (l : list A) : list A :=
  match l with _ :: b :: r => b :: values r | _ => [] end.
(* external: yaml-jsonpath v0.3.2, called from query.go:28 and 44 *)
Definition members {A} (k : kind) (l : list A) : list A :=
  match k with KSequence => l | KMapping => values l | _ => [] end.
(* external: yaml-jsonpath v0.3.2, called from query.go:28 and 44 *)
Definition at_index {A} (z : Z) (l : list A) : list A :=
  let i := if (z <? 0)%Z then (Z.of_nat (length l) + z)%Z else z in
  if (i <? 0)%Z then [] else match l !! Z.to_nat i with Some x => [x] | None => [] end.

(** The text of the scalar at a path of keys below a node.  Simplification: comparisons in
    filters are comparisons of texts. *)
(* external: yaml-jsonpath v0.3.2, called from query.go:28 and 44 *)
Definition f_shows (h : heap) (names : list (list N)) (text : list N) (l : loc) : bool :=
  existsb (fun x => match h !! x with
                    | Some n => kind_eqb (i_kind (n_info n)) KScalar && seq_eqb (i_value (n_info n)) text
                    | None => false end) (f_path h names l).

(** A node and the nodes below it, in document order.  ([seen] are the nodes above; they are
    never met again in a document.  [fuel] bounds the depth, by the number of all nodes.) *)
(* external: yaml-jsonpath v0.3.2, called from query.go:28 and 44 *)
Fixpoint f_below (fuel : nat) (h : heap) (seen : list loc) (l : loc) : list loc :=
  match fuel with
  | O => []
  | S f =>
      if existsb (Nat.eqb l) seen then [] else
      match h !! l with
      | None => []
      | Some n => l :: concat (map (f_below f h (l :: seen)) (match n_content n with Some cs => cs | None => [] end))
      end
  end.

(* external: yaml-jsonpath v0.3.2, called from query.go:28 and 44 *)
Definition f_step (h : heap) (s : step) (l : loc) : list loc :=
  match h !! l with
  | None => []
  | Some n =>
      let k := i_kind (n_info n) in
      let cs := match n_content n with Some cs => cs | None => [] end in
      match s with
      | Name key => if kind_eqb k KMapping then match f_child h key cs with Some v => [v] | None => [] end else []
      | KeyOf key => if kind_eqb k KMapping then match f_key h key cs with Some v => [v] | None => [] end else []
      | Every => members k cs
      | Index z => if kind_eqb k KSequence then at_index z cs else []
      | Where names text => List.filter (f_shows h names text) (members k cs)
      | Deep => f_below (S (length h)) h [] l
      end
  end.
(* external: yaml-jsonpath v0.3.2, called from query.go:28 and 44 *)
Fixpoint f_steps (h : heap) (ss : list step) (l : loc) : list loc :=
  match ss with
  | [] => [l]
  | s :: r => concat (map (f_steps h r) (f_step h s l))
  end.
(** The query written with these steps. *)
(* external: yaml-jsonpath v0.3.2, called from query.go:28 and 44 *)
Definition stepped (text : list N) (ss : list step) : query :=
  mkQuery text (fun h l => match f_root h l with Some r => f_steps h ss r | None => [] end).
