(** What the input of a run has to look like for the run to end. *)
From Verif Require Import Prelude Yaml Heap SpecMerge SpecHeap SpecDelete Overlay SpecReach SpecOverlay SpecQuery Execute SpecExecute.

(** The document nodes of a file are those of [docs]: separate trees in which
    every mapping has a value for each key, and only documents, sequences and
    mappings have children.  Alias nodes may point anywhere, their own ancestors
    included. *)
Definition tidy_file (h : heap) (f : yfile) : Prop := exists docs,
  map label docs = yf_nodes f /\ own h docs /\ Forall (fun d => well_paired (erase d) /\ branching (erase d)) docs.

(** What an overlay refers to can be read to the end (it does not contain
    itself), its value pairs each key with a value, and its queries find nodes of
    the document they are run on. *)
Record tidy_overlay (h : heap) (o : overlay) : Prop := mkTidy {
  ti_queries : Forall finds_inside (o_queries o);
  ti_inject : forall ip, o_inject o = Some ip -> Forall finds_inside ip;
  ti_value : exists d t, value_at d (reach h (o_value o)) h (o_value o) t /\ well_paired t /\ branching t;
  ti_conditions : forall g c, In g (o_docqueries o) -> In c g -> exists d, bounded d h (c_value c) }.

Definition tidy (files : list yfile) (os : list overlay) (h : heap) : Prop :=
  Forall (tidy_file h) files /\ Forall (tidy_overlay h) os.

(** A value that contains itself: reading it never ends. *)
Definition contains_itself (h : heap) (v : loc) : Prop :=
  exists w x n, reach h v w /\ h !! w = Some n /\ points_to n x /\ reach h x w.
