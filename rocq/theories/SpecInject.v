(** Specification of injecting a value at a path of keys. *)
From Verif Require Import Prelude Yaml SpecMerge SpecBuilder.

(** The node a path of keys leads to. *)
Fixpoint tree_at (names : list (list N)) (t : tree) : option tree :=
  match names with
  | [] => Some t
  | k :: r =>
      match t_kind t with
      | KMapping => match lookup_key k (children t) with Some v => tree_at r v | None => None end
      | _ => None
      end
  end.

(** [injected here value names old new]: [new] is [old] with [value] put at the
    path [names].  A mapping on the way keeps all its entries in order: either
    the entry of the next key is descended into, or a new entry is added at its
    end holding nested mappings down to [value].  A node on the way which is not
    a mapping becomes a mapping with just the new entry.  If the whole path
    exists, the node there is related to its successor by [here]. *)
Inductive injected (here : tree -> tree -> Prop) (value : tree) : list (list N) -> tree -> tree -> Prop :=
  | inj_here old new : here old new -> injected here value [] old new
  | inj_in k r i l1 kn ov ov' l2 :
      i_kind i = KMapping -> is_paired l1 -> k ∉ keys l1 -> t_value kn = k -> injected here value r ov ov' ->
      injected here value (k :: r) (T i (Some (l1 ++ kn :: ov :: l2))) (T i (Some (l1 ++ kn :: ov' :: l2)))
  | inj_new k r i c :
      i_kind i = KMapping -> is_paired (children (T i c)) -> k ∉ keys (children (T i c)) ->
      injected here value (k :: r) (T i c) (T i (Some (children (T i c) ++ entry k (nested r value))))
  | inj_convert k r i c :
      i_kind i <> KMapping ->
      injected here value (k :: r) (T i c)
        (T (set_value [] (set_tag (lit "!!map") (set_kind KMapping i))) (Some (entry k (nested r value)))).

(** Every existing node strictly above the target is a mapping. *)
Fixpoint mappings_above (names : list (list N)) (t : tree) : Prop :=
  match names with
  | [] => True
  | k :: r => t_kind t = KMapping /\
              match lookup_key k (children t) with Some v => mappings_above r v | None => True end
  end.

(** Nothing of [t] is lost in [t']: every node of [t] is still in its place with
    all its fields; some nodes may have more children at the end. *)
Inductive kept : tree -> tree -> Prop :=
  | kept_same t : kept t t
  | kept_more i l l' extra : Forall2 kept l l' -> kept (T i (Some l)) (T i (Some (l' ++ extra)))
  | kept_first i extra : kept (T i None) (T i (Some extra)).

(** The paths [p] and [q] part ways at some key. *)
Definition diverge (p q : list (list N)) : Prop :=
  exists c a b p' q', p = c ++ a :: p' /\ q = c ++ b :: q' /\ a <> b.

(** The texts that denote the path [names] (C26). *)
Definition denotes (text : list N) (names : list (list N)) : Prop :=
  Forall plain_name names /\
  (text = ch "$" :: dotted names \/ (names <> [] /\ text = dotted names) \/
   (exists n r, names = n :: r /\ bare_name n /\ text = joined names)).

(** Every two of the paths part ways. *)
Fixpoint all_diverge (ns : list (list (list N))) : Prop :=
  match ns with [] => True | p :: r => Forall (diverge p) r /\ all_diverge r end.
