(** Overlays at key paths that part ways. *)
From Verif Require Import Prelude GoStrings Format SpecFormat Yaml Heap ActionNames Overlay SpecMerge SpecHeap SpecDelete SpecQuery SpecInject SpecMeaning Finder.

(** Every two members of the list are related. *)
Fixpoint all_pairs {A} (R : A -> A -> Prop) (l : list A) : Prop :=
  match l with [] => True | x :: r => Forall (R x) r /\ all_pairs R r end.

(** How often [k] is a key among the children of a mapping. *)
Fixpoint times (k : list N) (ts : list tree) : nat :=
  match ts with a :: _ :: r => (if decide (t_value a = k) then 1 else 0) + times k r | _ => 0 end.
(** The mapping holding the node at the path has its last key once only. *)
Fixpoint once (names : list (list N)) (t : tree) : Prop :=
  match names with
  | [] => True
  | [k] => times k (children t) <= 1
  | k :: r => match lookup_key k (children t) with Some v => once r v | None => True end
  end.

(** An overlay, the tree of its value, the path of keys it edits and the paths its
    document queries look at. *)
Record aimed_overlay := mkAimed {
  ao_overlay : overlay; ao_value : tree; ao_path : list (list N); ao_looks : list (list (list N)) }.
(** It has one query, a key path below the root; it does nothing where the path is
    missing; its document queries are about key paths. *)
Record aimed (dflt : list N) (d : nat) (ro : loc -> Prop) (h : heap) (x : aimed_overlay) : Prop := mkAimedOk {
  ai_query : exists text, o_queries (ao_overlay x) = [Finder.dotted text (ao_path x)];
  ai_below : ao_path x <> [];
  ai_value : value_at d ro h (o_value (ao_overlay x)) (ao_value x) /\ well_paired (ao_value x) /\ branching (ao_value x);
  ai_missing : o_missing (ao_overlay x) = MIgnore \/ (o_missing (ao_overlay x) = MDefault /\ equal_fold dflt (lit "inject") = false);
  ai_inject : o_inject (ao_overlay x) = None;
  ai_looks : Forall (Forall (fun c =>
      Forall (fun q => exists text n, q = Finder.dotted text n /\ In n (ao_looks x)) (c_queries c) /\
      ro (c_value c) /\ (no_value h c \/ (~ no_value h c /\ exists v, value_at d ro h (c_value c) v))))
    (o_docqueries (ao_overlay x)) }.
(** Neither edits a path the other edits or looks at, nor above or below one. *)
Definition independent_aims (x y : aimed_overlay) : Prop :=
  diverge (ao_path x) (ao_path y) /\ Forall (fun l => diverge l (ao_path y)) (ao_looks x) /\ Forall (fun l => diverge l (ao_path x)) (ao_looks y).
(** Document queries compare no values, or no node has an Alias pointer. *)
Definition no_alias_trouble (h : heap) (xs : list aimed_overlay) : Prop :=
  Forall (fun x => Forall (Forall (no_value h)) (o_docqueries (ao_overlay x))) xs \/ alias_free h.

(** Editing twice is editing once: delete when the key is there once; replace by a value
    whose comments carry no marker; merge of a value that merging is idempotent for (C05). *)
Definition settles (x : aimed_overlay) (root : tree) : Prop :=
  match o_action (ao_overlay x) with
  | ADelete => once (ao_path x) root
  | AReplace => ~ marker_in (i_head (t_info (ao_value x))) /\ ~ marker_in (i_linec (t_info (ao_value x))) /\ ~ marker_in (i_foot (t_info (ao_value x)))
  | AMerge | AInvalid => everywhere node_idem (ao_value x)
  | ACombine => False
  end /\ Forall (fun l => diverge l (ao_path x)) (ao_looks x).
