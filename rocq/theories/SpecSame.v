(** Two heaps that look the same from corresponding places. *)
From Verif Require Import Prelude Yaml Heap Overlay.

Definition opt_rel {A B} (P : A -> B -> Prop) (x : option A) (y : option B) : Prop :=
  match x, y with Some a, Some b => P a b | None, None => True | _, _ => False end.

Definition node_rel (R : loc -> loc -> Prop) (n1 n2 : hnode) : Prop :=
  n_info n1 = n_info n2 /\ opt_rel R (n_alias n1) (n_alias n2) /\ opt_rel (Forall2 R) (n_content n1) (n_content n2).

(** [R] is a one-to-one correspondence between some nodes of [h1] and some nodes
    of [h2], which have the same fields up to that correspondence. *)
Record same (R : loc -> loc -> Prop) (h1 h2 : heap) : Prop := mkSame {
  same_fun : forall a b b', R a b -> R a b' -> b = b';
  same_inj : forall a a' b, R a b -> R a' b -> a = a';
  same_node : forall a b, R a b -> exists n1 n2, h1 !! a = Some n1 /\ h2 !! b = Some n2 /\ node_rel R n1 n2 }.

(** A finder whose answer depends only on what can be seen from the start node,
    not on the addresses nodes happen to have: the assumption on the external
    path library used by the determinism theorem. *)
Definition finder_blind (q : query) : Prop := forall R h1 h2 a b,
  same R h1 h2 -> R a b -> Forall2 R (q_find q h1 a) (q_find q h2 b).
