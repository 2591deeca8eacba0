(** Specification of replacement. *)
From Verif Require Import Prelude GoStrings Format Yaml Heap MergeTree SpecMerge SpecHeap.

(** [r] is [value] put in place of [old]: everything is [value]'s except the
    comments, which follow the comment rule of the code (C12), formatted with
    [old]'s text and comments. *)
Definition installed (sed : sed_engine) (value old r : tree) : Prop :=
  t_kind r = t_kind value /\ t_tag r = t_tag value /\ t_value r = t_value value /\
  i_style (t_info r) = i_style (t_info value) /\ i_anchor (t_info r) = i_anchor (t_info value) /\
  t_content r = t_content value /\
  comments_from_first (fun s => format sed s (texts (t_value old) [] (t_info old))) (t_info old) (t_info value) (t_info r).

(** The settings: the document [doc] owns its nodes, the overlay value [t] is
    read at [v] in the region [ro], which is not part of the document. *)
Definition setting (ro : loc -> Prop) (d : nat) (h : heap) (doc : ltree) (v : loc) (t : tree) (sel : list loc) : Prop :=
  own h [doc] /\ apart ro h [doc] /\ value_at d ro h v t /\ NoDup sel /\ forall x, In x sel -> x ∈ locs doc.

(** How the document [doc] of [h] became [doc'] in [h']: same root; own nodes
    only, none shared with the values; the value is still there; nothing outside
    the document changed. *)
Definition edited (ro : loc -> Prop) (d : nat) (h : heap) (doc : ltree) (v : loc) (t : tree) (h' : heap) (doc' : ltree) : Prop :=
  label doc' = label doc /\ own h' [doc'] /\ apart ro h' [doc'] /\ value_at d ro h' v t /\
  forall x, x < length h -> x ∉ locs doc -> h' !! x = h !! x.
