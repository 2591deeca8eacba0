(** What a goroutine is about to do to the nodes shared by all goroutines, for stating
    that there are no data races on them. *)
From Verif Require Import Prelude Yaml Heap Overlay SpecReach Fine.

(** The next operation writes the existing node [x]. *)
Definition writes_node {A} (p : prog A) (x : loc) : Prop := exists n k, p = Put x n k.
(** The next operation reads node [x]; the path library may read any node that can be
    reached from the node it is given. *)
Definition reads_node {A} (h : heap) (p : prog A) (x : loc) : Prop :=
  (exists k, p = Get x k) \/ exists q l k, p = Look q l k /\ reach h l x.
Definition touches_node {A} (h : heap) (p : prog A) (x : loc) : Prop := writes_node p x \/ reads_node h p x.

(** The next operation writes, or accesses, the field OnMissing.Action of overlay [k]. *)
Definition writes_field {A} (p : prog A) (k : nat) : Prop := exists a r, p = Write k a r.
Definition touches_field {A} (p : prog A) (k : nat) : Prop :=
  writes_field p k \/ (exists r, p = Read k r) \/ exists b r, p = Settle b k r.
