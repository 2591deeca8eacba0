(** Specification vocabulary for trees and for the merge action, independent of
    the model of merge.go. *)
From Verif Require Import Prelude Format SpecFormat Yaml.

(** ** Mappings as association lists *)

(** The key/value pairs of a mapping's content. *)
Fixpoint pairs (l : list tree) : list (tree * tree) :=
  match l with
  | k :: v :: r => (k, v) :: pairs r
  | _ => []
  end.

(** The key texts, in order. *)
Definition keys (l : list tree) : list (list N) := map (fun p => t_value (fst p)) (pairs l).

(** The value of the first entry whose key text is [k]. *)
Fixpoint lookup_pairs (k : list N) (ps : list (tree * tree)) : option tree :=
  match ps with
  | [] => None
  | (kn, v) :: r => if decide (t_value kn = k) then Some v else lookup_pairs k r
  end.
Definition lookup_key (k : list N) (l : list tree) : option tree := lookup_pairs k (pairs l).

(** The content has a value for every key. *)
Definition is_paired (l : list tree) : Prop := exists ps : list (tree * tree),
  l = concat (map (fun p => [fst p; snd p]) ps).

(** ** Predicates over whole trees *)

(** [P] holds at every node of the tree. *)
Fixpoint everywhere (P : tree -> Prop) (t : tree) : Prop :=
  P t /\
  match t with
  | T _ None => True
  | T _ (Some l) => fold_right (fun t r => everywhere P t /\ r) True l
  end.

(** No text of the node contains a format marker. *)
Definition node_plain (t : tree) : Prop :=
  ~ marker_in (i_value (t_info t)) /\ ~ marker_in (i_head (t_info t)) /\
  ~ marker_in (i_linec (t_info t)) /\ ~ marker_in (i_foot (t_info t)).
Definition plain (t : tree) : Prop := everywhere node_plain t.

Definition no_comments (t : tree) : Prop :=
  i_head (t_info t) = [] /\ i_linec (t_info t) = [] /\ i_foot (t_info t) = [].

(** Every mapping of the tree has a value for every key. *)
Definition node_paired (t : tree) : Prop := t_kind t = KMapping -> is_paired (children t).
Definition well_paired (t : tree) : Prop := everywhere node_paired t.

(** What a decoded overlay value looks like: mappings, sequences and childless
    scalars, no alias. *)
Definition node_simple (t : tree) : Prop :=
  match t_kind t with
  | KMapping => is_paired (children t)
  | KSequence => True
  | KScalar => t_content t = None
  | _ => False
  end.
Definition simple_value (t : tree) : Prop := everywhere node_simple t.

(** A node that is no alias and no document. *)
Definition no_alias_no_doc (t : tree) : Prop := t_kind t <> KAlias /\ t_kind t <> KDocument.

(** A node that is no document. *)
Definition no_doc (t : tree) : Prop := t_kind t <> KDocument.

(** ** Abstract values: what is left of a document when comments, positions,
    styles and anchors are forgotten *)
Inductive val :=
  | VScalar (tag text : list N)
  | VSeq (tag : list N) (l : list val)
  | VMap (tag : list N) (l : list (list N * val))
  | VAlias (name : list N)
  | VNone.

Fixpoint abs (t : tree) : val :=
  match t with
  | T i c =>
      match i_kind i with
      | KScalar => VScalar (i_tag i) (i_value i)
      | KSequence =>
          VSeq (i_tag i) (match c with Some l => map abs l | None => [] end)
      | KMapping =>
          VMap (i_tag i)
            (match c with
             | None => []
             | Some l =>
                 (fix go (l : list tree) : list (list N * val) :=
                    match l with
                    | k :: v :: r => (t_value k, abs v) :: go r
                    | _ => []
                    end) l
             end)
      | KAlias => VAlias (i_value i)
      | KDocument | KZero => VNone
      end
  end.

(** The deep merge a user of overlays has in mind: scalars win, sequences
    append, mappings merge key by key keeping the order of the original and
    adding new keys at the end.  An empty mapping contributes nothing. *)
Fixpoint update_first (k : list N) (f : val -> val) (new : val) (l : list (list N * val))
    : list (list N * val) :=
  match l with
  | [] => [(k, new)]
  | (k', v) :: r => if decide (k' = k) then (k', f v) :: r else (k', v) :: update_first k f new r
  end.

Fixpoint deep_merge (o n : val) {struct n} : val :=
  match n with
  | VScalar _ _ => n
  | VSeq _ l => match o with VSeq t l0 => VSeq t (l0 ++ l) | _ => VSeq (lit "!!seq") l end
  | VMap _ l =>
      let start := match o with VMap t l0 => (t, l0) | _ => (lit "!!map", []) end in
      match l with
      | [] => o
      | _ =>
          VMap (fst start)
            ((fix go (l : list (list N * val)) (acc : list (list N * val)) :=
                match l with
                | [] => acc
                | (k, v) :: r => go r (update_first k (fun old => deep_merge old v) v acc)
                end) l (snd start))
      end
  | VAlias _ | VNone => o
  end.

(** ** Copies with format markers blanked *)

(** [s'] is [s] with each marker replaced by what its command makes of the
    empty text; for any cutting of [s] into pieces whose result holds no marker. *)
Definition blanked_text (sed : sed_engine) (s s' : list N) : Prop :=
  forall ps, pieces_ok ps -> src ps = s ->
    ~ marker_in (expected sed (fun _ => []) ps) -> s' = expected sed (fun _ => []) ps.

Definition blanked_info (sed : sed_engine) (i i' : info) : Prop :=
  i_kind i' = i_kind i /\ i_style i' = i_style i /\ i_tag i' = i_tag i /\ i_anchor i' = i_anchor i /\
  blanked_text sed (i_value i) (i_value i') /\ blanked_text sed (i_head i) (i_head i') /\
  blanked_text sed (i_linec i) (i_linec i') /\ blanked_text sed (i_foot i) (i_foot i').

(** Some cutting of [s] into pieces blanks to a text without a marker. *)
Definition blanks_cleanly (sed : sed_engine) (s : list N) : Prop :=
  exists ps, pieces_ok ps /\ src ps = s /\ ~ marker_in (expected sed (fun _ => []) ps).
Definition node_blanks_cleanly (sed : sed_engine) (t : tree) : Prop :=
  blanks_cleanly sed (i_value (t_info t)) /\ blanks_cleanly sed (i_head (t_info t)) /\
  blanks_cleanly sed (i_linec (t_info t)) /\ blanks_cleanly sed (i_foot (t_info t)).

Inductive blank_copy (sed : sed_engine) : tree -> tree -> Prop :=
  | blank_leaf i i' : blanked_info sed i i' -> blank_copy sed (T i None) (T i' None)
  | blank_branch i i' l l' :
      blanked_info sed i i' -> Forall2 (blank_copy sed) l l' ->
      blank_copy sed (T i (Some l)) (T i' (Some l')).

(** Scalars have no children (true of every decoded YAML document). *)
Definition node_shape (t : tree) : Prop :=
  match t_kind t with KScalar | KZero => t_content t = None | _ => True end.
Definition good_shape (t : tree) : Prop := everywhere node_shape t.

(** ** Comments *)

(** The original texts that format markers stand for: [value] for %v, [key] for
    %k, and the comments of [i], each without a leading "#", for %l, %h and %f. *)
Definition bare_comment (s : list N) : list N := match s with 35%N :: r => r | _ => s end.
Definition texts (value key : list N) (i : info) : fvals :=
  mkFvals value (bare_comment (i_linec i)) (bare_comment (i_head i)) (bare_comment (i_foot i)) key.

(** The original texts a marker stands for when a value is merged into node
    [o] found under key [k] ("" for a node that is not a mapping value). *)
Definition originals (o : tree) (k : list N) (m : marker) : list N :=
  match m with
  | MValue => t_value o
  | MLine => bare_comment (i_linec (t_info o))
  | MHead => bare_comment (i_head (t_info o))
  | MFoot => bare_comment (i_foot (t_info o))
  | MKey => k
  end.

(** The rule users expect at one comment position: the overlay's comment if it
    has one, otherwise the original's. *)
Definition comment_rule (fmt : list N -> list N) (old new result : list N) : Prop :=
  (new = [] -> result = old) /\ (new <> [] -> result = fmt new).
Definition comments_kept (fmt : list N -> list N) (o n r : info) : Prop :=
  comment_rule fmt (i_head o) (i_head n) (i_head r) /\
  comment_rule fmt (i_linec o) (i_linec n) (i_linec r) /\
  comment_rule fmt (i_foot o) (i_foot n) (i_foot r).

(** What the code guarantees: the overlay's comments are used from the first
    position (head, line, foot) at which it has one, including empty ones. *)
Definition comments_from_first (fmt : list N -> list N) (o n r : info) : Prop :=
  (i_head n <> [] -> i_head r = fmt (i_head n) /\ i_linec r = fmt (i_linec n) /\ i_foot r = fmt (i_foot n)) /\
  (i_head n = [] -> i_linec n <> [] ->
     i_head r = i_head o /\ i_linec r = fmt (i_linec n) /\ i_foot r = fmt (i_foot n)) /\
  (i_head n = [] -> i_linec n = [] ->
     i_head r = i_head o /\ i_linec r = i_linec o /\ comment_rule fmt (i_foot o) (i_foot n) (i_foot r)).

(** No gap: once the overlay has a comment at a position it has one at every
    later position where the original has one. *)
Definition no_comment_gap (o n : info) : Prop :=
  (i_head n <> [] -> (i_linec n = [] -> i_linec o = []) /\ (i_foot n = [] -> i_foot o = [])) /\
  (i_linec n <> [] -> i_foot n = [] -> i_foot o = []).

(** A node of a value to which idempotence applies. *)
Definition node_idem (t : tree) : Prop :=
  no_comments t /\ node_plain t /\
  match t_kind t with
  | KMapping => is_paired (children t) /\ NoDup (keys (children t))
  | KScalar => t_content t = None
  | _ => False
  end.
