(** Specification of anchors and aliases.

    In the output an alias node is written *name, where name is its Value, and a
    node with a non-empty Anchor is written &name.  YAML requires every alias to
    come after a node that carries its name as an anchor. *)
From Verif Require Import Prelude Yaml Heap SpecMerge SpecHeap SpecOverlay.

(** The nodes of a document in the order in which they are written. *)
Fixpoint outline (t : tree) : list info :=
  match t with
  | T i None => [i]
  | T i (Some ts) => i :: concat (map outline ts)
  end.

(** The node [j] defines the anchor [name]. *)
Definition defines (j : info) (name : list N) : Prop := i_anchor j = name /\ name <> [].

(** Every alias is preceded by its anchor. *)
Definition linked (t : tree) : Prop :=
  forall before i after, outline t = before ++ i :: after -> i_kind i = KAlias ->
  exists j, j ∈ before /\ defines j (i_value i).

(** The same with node identities. *)
Fixpoint nodes (t : ltree) : list (loc * info) :=
  match t with
  | L l i None => [(l, i)]
  | L l i (Some ts) => (l, i) :: concat (map nodes ts)
  end.

(** Every alias among the nodes [used] is preceded by its anchor, on one of the
    nodes [kept]. *)
Definition linked_within (used kept : loc -> Prop) (doc : ltree) : Prop :=
  forall before x i after, nodes doc = before ++ (x, i) :: after -> i_kind i = KAlias -> used x ->
  exists y j, (y, j) ∈ before /\ kept y /\ defines j (i_value i).

(** The nodes inside the selected ones. *)
Definition inside (sel : list loc) (doc : ltree) (x : loc) : Prop :=
  exists s, subtree s doc /\ In (label s) sel /\ x ∈ locs s.
Definition outside (sel : list loc) (doc : ltree) (x : loc) : Prop := ~ inside sel doc x.

(** A value without aliases. *)
Definition no_alias (t : tree) : Prop := everywhere (fun t => t_kind t <> KAlias) t.
