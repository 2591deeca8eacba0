(** Specification vocabulary for directory walks; independent of how the walk
    is programmed. *)
From Verif Require Import Prelude GoStrings Paths SpecPaths Walk.

(** The path of what the names [es] lead to, starting at [d]. *)
Definition at_path (d : list N) (es : list (list N)) : list N :=
  match es with [] => d | _ => descend (clean d) es end.

(** Going down from [d] by [es], every step opens a real directory (not a
    link to one) that lists the next name. *)
Definition listed (o : os) (d : list N) (es : list (list N)) : Prop :=
  forall above n below, es = above ++ n :: below ->
    os_lstat o (at_path d above) = Some KDir /\
    exists ns, os_list o (at_path d above) = Some ns /\ In n ns.

(** The file name ends in .yaml or .yml. *)
Definition yaml_name (n : list N) : Prop := exists w, n = w ++ lit ".yaml" \/ n = w ++ lit ".yml".

(** Below [d], the names [es] lead to something other than a directory whose name
    is that of a YAML file. *)
Definition yaml_at (o : os) (d : list N) (es : list (list N)) : Prop :=
  listed o d es /\
  (exists dirs n, es = dirs ++ [n] /\ yaml_name n) /\
  (os_lstat o (at_path d es) = Some KFile \/ os_lstat o (at_path d es) = Some KLink).

(** Something below [d] that cannot be examined: a listed name without
    attributes, or a directory that cannot be read. *)
Definition broken_at (o : os) (d : list N) (es : list (list N)) : Prop :=
  listed o d es /\
  (os_lstat o (at_path d es) = None \/
   os_lstat o (at_path d es) = Some KDir /\ os_list o (at_path d es) = None).

(** Directories list plain names, each once; they are not nested for ever; and
    the two ways to ask about a name agree where there is no link. *)
Definition sane (o : os) : Prop :=
  (forall p ns, os_list o p = Some ns -> Forall name_ok ns /\ NoDup ns) /\
  (forall p, os_lstat o p = Some KFile -> os_stat o p = Some false) /\
  (forall p, os_lstat o p = Some KDir -> os_stat o p = Some true).
Definition depth_below (o : os) (d : list N) (n : nat) : Prop :=
  forall es, listed o d es -> (length es <= n)%nat.

(** Dictionary order: of names by their characters, of ways down by their names. *)
Inductive name_lt : list N -> list N -> Prop :=
  | nl_end c w : name_lt [] (c :: w)
  | nl_less x y v w : (x < y)%N -> name_lt (x :: v) (y :: w)
  | nl_same x v w : name_lt v w -> name_lt (x :: v) (x :: w).
Inductive way_lt : list (list N) -> list (list N) -> Prop :=
  | wl_end n w : way_lt [] (n :: w)
  | wl_less m n v w : name_lt m n -> way_lt (m :: v) (n :: w)
  | wl_same n v w : way_lt v w -> way_lt (n :: v) (n :: w).
Fixpoint increasing (l : list (list (list N))) : Prop :=
  match l with
  | [] => True
  | x :: r => (forall y, In y r -> way_lt x y) /\ increasing r
  end.
