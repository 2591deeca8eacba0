(** Specification vocabulary for the heap: documents as trees whose nodes carry
    their addresses, and values read from the heap. *)
From Verif Require Import Prelude Yaml Heap.

(** A document with node identities. *)
Inductive ltree := L (l : loc) (i : info) (c : option (list ltree)).

Definition label (t : ltree) : loc := match t with L l _ _ => l end.
Definition l_info (t : ltree) : info := match t with L _ i _ => i end.
Definition l_content (t : ltree) : option (list ltree) := match t with L _ _ c => c end.
Definition kids (c : option (list ltree)) : list ltree := match c with Some l => l | None => [] end.

(** Forgetting the identities. *)
Fixpoint erase (t : ltree) : tree :=
  match t with
  | L _ i c => T i (match c with None => None | Some l => Some (map erase l) end)
  end.

(** All the addresses of the document, in document order. *)
Fixpoint locs (t : ltree) : list loc :=
  match t with
  | L l _ c => l :: match c with None => [] | Some ts => concat (map locs ts) end
  end.
Definition flat (ts : list ltree) : list loc := concat (map locs ts).

(** The heap holds exactly this document at these addresses (whatever its
    Alias pointers are). *)
Fixpoint reads (h : heap) (t : ltree) : Prop :=
  match t with
  | L l i c =>
      (exists al, h !! l = Some (mkNode i al (match c with None => None | Some ts => Some (map label ts) end))) /\
      match c with None => True | Some ts => fold_right (fun t P => reads h t /\ P) True ts end
  end.

(** A document proper: no address occurs twice, so that nothing is shared. *)
Definition own (h : heap) (ts : list ltree) : Prop := Forall (reads h) ts /\ NoDup (flat ts).

(** The value read at an address, for overlay values: every address read
    (following Content and Alias) is in the region [ro], and reading ends after
    at most [d] levels.  Sharing inside the value is allowed. *)
Fixpoint value_at (d : nat) (ro : loc -> Prop) (h : heap) (l : loc) (t : tree) : Prop :=
  match d with
  | O => False
  | S d =>
      ro l /\
      exists n, h !! l = Some n /\ n_info n = t_info t /\
        (match n_alias n with None => True | Some a => exists t', value_at d ro h a t' end) /\
        match n_content n, t_content t with
        | None, None => True
        | Some ls, Some ts => Forall2 (value_at d ro h) ls ts
        | _, _ => False
        end
  end.

(** The region [ro] exists in the heap and is disjoint from the documents. *)
Definition apart (ro : loc -> Prop) (h : heap) (ts : list ltree) : Prop :=
  forall l, ro l -> l < length h /\ l ∉ flat ts.
