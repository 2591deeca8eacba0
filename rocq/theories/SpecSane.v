(** Instructions that make sense: what keeps a run from crashing. *)
From Verif Require Import Prelude GoStrings Yaml Heap SpecHeap SpecReach SpecActions ActionNames Overlay Execute.

(** On a document (read as the tree [t], which has each node once), the query finds
    nodes other than the document node itself. *)
Definition below_document (q : query) : Prop := forall h t x,
  own h [t] -> i_kind (l_info t) = KDocument -> In x (q_find q h (label t)) -> x <> label t.
(** On a document, the query finds none of the nodes right below the document
    node (a YAML document has one: its top). *)
Definition below_top (q : query) : Prop := forall h t x,
  own h [t] -> i_kind (l_info t) = KDocument -> In x (q_find q h (label t)) -> x ∉ map label (kids (l_content t)).

(** Some path is given, none is the empty text, and all of them find nodes below
    the document node. *)
Definition sane_paths (qs : list query) : Prop :=
  qs <> [] /\ Forall (fun q => q_text q <> [] /\ below_document q) qs.

Record sane_overlay (h : heap) (o : overlay) : Prop := mkSane {
  sn_queries : sane_paths (o_queries o);
  sn_inject : forall ip, o_inject o = Some ip -> sane_paths ip;
  sn_value : forall x n, reach h (o_value o) x -> h !! x = Some n -> i_kind (n_info n) <> KDocument;
  sn_conditions : forall g c q, In g (o_docqueries o) -> In c g -> In q (c_queries c) -> finder_ok q }.

(** The decoder makes a document node for every document, with the top below it. *)
Definition sane_file (h : heap) (f : yfile) : Prop := forall d, In d (yf_nodes f) ->
  exists n, h !! d = Some n /\ i_kind (n_info n) = KDocument /\ n_content n <> Some [].

(** The overlay injects when it finds nothing. *)
Definition may_inject (dflt : list N) (o : overlay) : Prop :=
  o_missing o = MInject \/ (o_missing o = MDefault /\ Forall2 cased dflt (lit "inject")).

(** If anything may inject, no overlay deletes the top of a document. *)
Definition tops_kept (dflt : list N) (os : list overlay) : Prop := forall o o' q,
  In o os -> may_inject dflt o -> In o' os -> o_action o' = ADelete -> In q (o_queries o') -> below_top q.

Definition sane (dflt : list N) (files : list yfile) (os : list overlay) (h : heap) : Prop :=
  Forall (sane_file h) files /\ Forall (sane_overlay h) os /\ tops_kept dflt os.
