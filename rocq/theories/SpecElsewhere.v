(** Places in a document that overlays do not select. *)
From Verif Require Import Prelude GoStrings Format SpecFormat Yaml Heap ActionNames Overlay SpecMerge SpecHeap SpecDelete SpecQuery SpecInject SpecMeaning.

(** The node itself: its kind, tag, text, style, anchor, comments, and the number of its children. *)
Definition seen_alone (t : tree) : info * option nat := (t_info t, length <$> t_content t).

(** No overlay in turn deletes, injects, or selects a node at which [out] holds. *)
Fixpoint leaves_alone (sed : sed_engine) (dflt : list N) (out : position -> Prop) (os : list toverlay) (t : tree) : Prop :=
  match os with
  | [] => True
  | o :: r =>
      (tqualifies (to_docqueries o) t = true ->
         match found (to_queries o) t with
         | [] => injects dflt o = false
         | ps => to_action o <> ADelete /\ forall p, In p ps -> ~ out p
         end) /\
      forall t', t_apply sed dflt o t = Ok t' -> leaves_alone sed dflt out r t'
  end.
(** The node at [q] is the one at [p] or lies below it; or the other way round. *)
Definition covers (q p : position) : Prop := p `prefix_of` q.
Definition related (q p : position) : Prop := p `prefix_of` q \/ q `prefix_of` p.

(** An overlay with one query, a path of keys that parts ways with the path [m], and for
    which, if it injects, the text of the query says which keys (C26). *)
Definition parts_ways (dflt : list N) (m : list (list N)) (o : toverlay) : Prop :=
  exists text n, to_queries o = [key_query text n] /\ diverge m n /\
    (injects dflt o = true -> denotes text n /\ Forall (fun k => ~ marker_in k) n).
