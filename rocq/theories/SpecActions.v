(** Specification vocabulary for action names. *)
From Verif Require Import Prelude.

(** [c] is the lower-case letter [l], or its capital. *)
Definition cased (c l : N) : Prop := c = l \/ (65 <= c <= 90 /\ l = c + 32)%N.
(** The same, with the two non-ASCII capitals of ASCII letters known to
    Unicode: dotted capital I and the Kelvin sign. *)
Definition lowers (c l : N) : Prop := cased c l \/ (c = 304 /\ l = 105)%N \/ (c = 8490 /\ l = 107)%N.

(** [s] is the lower-case word [w] written in any letter case. *)
Definition spells (s : list N) (w : string) : Prop := Forall2 lowers s (lit w).
