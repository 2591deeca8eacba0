(** Specification vocabulary for overlays acting on documents with node
    identities. *)
From Verif Require Import Prelude GoStrings Yaml Heap MergeTree SpecMerge SpecHeap ActionNames Overlay.

(** [s] is the document [t] or one of the subtrees below it. *)
Inductive subtree (s : ltree) : ltree -> Prop :=
  | st_here : subtree s s
  | st_below l i ts t : In t ts -> subtree s t -> subtree s (L l i (Some ts)).

(** The document with [s'] put in place of the node with address [x]. *)
Fixpoint put_sub (x : loc) (s' : ltree) (t : ltree) : ltree :=
  if Nat.eqb (label t) x then s' else
  match t with
  | L l i None => L l i None
  | L l i (Some ts) => L l i (Some (map (put_sub x s') ts))
  end.

(** The (identity-free) document in which every topmost selected node [t] has
    become [f t], and everything else is as it was. *)
Fixpoint rewrite_at (sel : loc -> bool) (f : tree -> tree) (t : ltree) : tree :=
  if sel (label t) then f (erase t) else
  match t with
  | L _ i None => T i None
  | L _ i (Some ts) => T i (Some (map (rewrite_at sel f) ts))
  end.

(** No selected node lies inside another one. *)
Definition independent (sel : list loc) (t : ltree) : Prop :=
  forall s x, subtree s t -> In (label s) sel -> In x sel -> x <> label s -> x ∉ locs s.

(** A finder that returns nodes of the document it is run on. *)
Definition finds_inside (q : query) : Prop :=
  forall h t x, reads h t -> In x (q_find q h (label t)) -> x ∈ locs t.

Definition with_missing (m : missing_action) (o : overlay) : overlay :=
  mkOverlay (o_queries o) (o_value o) (o_action o) (o_docqueries o) m (o_inject o) (o_index o).
Definition with_action (a : action) (o : overlay) : overlay :=
  mkOverlay (o_queries o) (o_value o) a (o_docqueries o) (o_missing o) (o_inject o) (o_index o).
Definition with_docqueries (dq : list (list condition)) (o : overlay) : overlay :=
  mkOverlay (o_queries o) (o_value o) (o_action o) dq (o_missing o) (o_inject o) (o_index o).
