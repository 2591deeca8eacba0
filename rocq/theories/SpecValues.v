(** Specification vocabulary for values: looking up a path of keys in an
    abstract value. *)
From Verif Require Import Prelude Yaml SpecMerge.

Fixpoint assoc (k : list N) (l : list (list N * val)) : option val :=
  match l with
  | [] => None
  | (k', v) :: r => if decide (k' = k) then Some v else assoc k r
  end.

(** The value at a path of keys ($.k1.k2...). *)
Fixpoint vget (ks : list (list N)) (v : val) : option val :=
  match ks with
  | [] => Some v
  | k :: r => match v with
              | VMap _ l => match assoc k l with Some x => vget r x | None => None end
              | _ => None
              end
  end.

(** The value says nothing about the path: it is a mapping at every step until a
    key is missing. *)
Fixpoint silent (ks : list (list N)) (v : val) : Prop :=
  match ks with
  | [] => False
  | k :: r => match v with
              | VMap _ l => match assoc k l with Some x => silent r x | None => True end
              | _ => False
              end
  end.

(** No mapping on the way down the path has a key twice. *)
Fixpoint distinct_keys (ks : list (list N)) (v : val) : Prop :=
  match ks with
  | [] => True
  | k :: r => match v with
              | VMap _ l => NoDup (map fst l) /\ match assoc k l with Some x => distinct_keys r x | None => True end
              | _ => True
              end
  end.

(** A values file's document: a document node with one body, alias-free,
    marker-free, made of mappings, sequences and scalars. *)
Definition values_doc (d : tree) (body : tree) : Prop :=
  t_kind d = KDocument /\ t_content d = Some [body] /\ simple_value body /\ plain body.
