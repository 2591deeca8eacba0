(** Specification of deletion on documents with node identities. *)
From Verif Require Import Prelude Yaml Heap SpecMerge SpecHeap.

(** Dropping every key/value pair one of whose halves is hit. *)
Fixpoint drop_pairs {A} (hit : A -> bool) (l : list A) : list A :=
  match l with
  | k :: v :: r => if hit k || hit v then drop_pairs hit r else k :: v :: drop_pairs hit r
  | _ => l
  end.

Definition elements (k : kind) : bool := kind_eqb k KSequence || kind_eqb k KDocument.

(** The document without the selected nodes: selected elements of sequences
    (and the root content of a document) disappear, and so does every pair of a
    mapping whose key or value is selected.  Everything else stays, with its
    identity and its place in the order. *)
Fixpoint prune (sel : loc -> bool) (t : ltree) : ltree :=
  match t with
  | L l i c =>
      L l i (match c with
             | None => None
             | Some ts =>
                 let ts' := map (prune sel) ts in
                 Some (if elements (i_kind i) then base.filter (fun t => sel (label t) = false) ts'
                       else drop_pairs (fun t => sel (label t)) ts')
             end)
  end.

(** Only documents, sequences and mappings have children (true of every
    decoded document and kept by every action). *)
Definition node_branching (t : tree) : Prop :=
  children t <> [] -> t_kind t = KDocument \/ t_kind t = KSequence \/ t_kind t = KMapping.
Definition branching (t : tree) : Prop := everywhere node_branching t.

(** The documents considered: every address of [doc] is used once and holds what
    [doc] says; every mapping has a value for each key, and only documents,
    sequences and mappings have children. *)
Definition proper (h : heap) (doc : ltree) : Prop :=
  own h [doc] /\ well_paired (erase doc) /\ branching (erase doc).

Definition mem (l : list loc) (x : loc) : bool := existsb (Nat.eqb x) l.
