(** Reachability between nodes, for stating that an edit stays inside the
    edited document. *)
From Verif Require Import Prelude Yaml Heap Overlay.

(** The nodes a node points to: its children and its alias target. *)
Definition points_to (n : hnode) (x : loc) : Prop :=
  n_alias n = Some x \/ exists ls, n_content n = Some ls /\ In x ls.

(** [y] can be reached from [x] by following children and alias pointers. *)
Inductive reach (h : heap) (x : loc) : loc -> Prop :=
  | reach_refl : reach h x x
  | reach_step y n z : reach h x y -> h !! y = Some n -> points_to n z -> reach h x z.

(** A finder that finds nodes reachable from where it starts: the assumption on
    the external path library used by the locality theorems. *)
Definition finder_ok (q : query) : Prop := forall h l x, In x (q_find q h l) -> reach h l x.

(** No dangling pointer. *)
Definition closed (h : heap) : Prop := forall l n x, h !! l = Some n -> points_to n x -> x < length h.

(** Any number of overlays, of any kind, applied one after the other to some of
    the documents [docs], whatever each application returns. *)
Inductive history (dflt : list N) (docs : list loc) : heap -> heap -> Prop :=
  | hist_none h : history dflt docs h h
  | hist_apply h fuel sed o doc h1 o' r h2 :
      In doc docs -> Forall finder_ok (o_queries o) -> (forall ip, o_inject o = Some ip -> Forall finder_ok ip) ->
      apply fuel sed dflt o doc h = (h1, o', r) -> history dflt docs h1 h2 -> history dflt docs h h2.
