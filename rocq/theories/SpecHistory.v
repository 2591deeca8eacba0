(** Specification vocabulary: a list of overlays applied successfully, one after
    the other, to one document. *)
From Verif Require Import Prelude Yaml Heap SpecMerge SpecHeap SpecDelete Overlay SpecOverlay.

Inductive applied (dflt : list N) (node : loc) : heap -> list overlay -> heap -> Prop :=
  | applied_none h : applied dflt node h [] h
  | applied_one h fuel sed o h1 o' os h2 :
      apply fuel sed dflt o node h = (h1, o', Ok tt) -> applied dflt node h1 os h2 -> applied dflt node h (o :: os) h2.

(** The queries find nodes of the document they are run on, and the value of the
    overlay, read in the region [ro], pairs every key with a value. *)
Definition fit (ro : loc -> Prop) (h : heap) (o : overlay) : Prop :=
  Forall finds_inside (o_queries o) /\ (forall ip, o_inject o = Some ip -> Forall finds_inside ip) /\
  exists d t, value_at d ro h (o_value o) t /\ well_paired t /\ branching t.
