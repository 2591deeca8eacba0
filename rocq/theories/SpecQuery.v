(** Specification of document queries and of onMissing. *)
From Verif Require Import Prelude Yaml Heap ActionNames Overlay SpecReach SpecActions SpecOverlay.

(** Two nodes are equal up to comments, position and style: same kind, tag,
    text and anchor, alias targets alike, children alike one by one. *)
Inductive alike (h : heap) : loc -> loc -> Prop :=
  | alike_nodes a b na nb :
      h !! a = Some na -> h !! b = Some nb ->
      i_kind (n_info na) = i_kind (n_info nb) -> i_tag (n_info na) = i_tag (n_info nb) ->
      i_value (n_info na) = i_value (n_info nb) -> i_anchor (n_info na) = i_anchor (n_info nb) ->
      alike_alias h (n_alias na) (n_alias nb) -> alike_content h (n_content na) (n_content nb) -> alike h a b
with alike_alias (h : heap) : option loc -> option loc -> Prop :=
  | alias_none : alike_alias h None None
  | alias_some x y : alike h x y -> alike_alias h (Some x) (Some y)
with alike_content (h : heap) : option (list loc) -> option (list loc) -> Prop :=
  | content_none : alike_content h None None
  | content_some l m : alike_list h l m -> alike_content h (Some l) (Some m)
with alike_list (h : heap) : list loc -> list loc -> Prop :=
  | list_nil : alike_list h [] []
  | list_cons x y l m : alike h x y -> alike_list h l m -> alike_list h (x :: l) (y :: m).

(** A document node without content: nothing can be found in it. *)
Definition empty_document (h : heap) (node : loc) : Prop :=
  exists n, h !! node = Some n /\ i_kind (n_info n) = KDocument /\ (n_content n = None \/ n_content n = Some []).

(** [x] is returned by one of the queries. *)
Definition finds (h : heap) (qs : list query) (node x : loc) : Prop :=
  ~ empty_document h node /\ exists q, In q qs /\ In x (q_find q h node).

(** The condition gives no value. *)
Definition no_value (h : heap) (c : condition) : Prop :=
  h !! c_value c = Some (mkNode (mkInfo KZero 0 [] [] [] [] [] [] 0 0) None None).

Definition condition_met (h : heap) (node : loc) (c : condition) : Prop :=
  (exists x, finds h (c_queries c) node x) /\
  (no_value h c \/ forall x, finds h (c_queries c) node x -> alike h x (c_value c)).

(** An OR of AND groups. *)
Definition qualifies (h : heap) (node : loc) (dq : list (list condition)) : Prop :=
  dq = [] \/ exists g, In g dq /\ forall c, In c g -> condition_met h node c.

(** Reading everything below [l] (children and alias targets) ends after at
    most [d] levels. *)
Fixpoint bounded (d : nat) (h : heap) (l : loc) : Prop :=
  match d with
  | O => False
  | S d => exists n, h !! l = Some n /\ forall x, points_to n x -> bounded d h x
  end.

Definition conditions_ok (d : nat) (h : heap) (node : loc) (dq : list (list condition)) : Prop :=
  forall g c, In g dq -> In c g ->
    bounded d h (c_value c) /\ forall q x, In q (c_queries c) -> In x (q_find q h node) -> x < length h.

(** The outcome of applying an overlay, apart from the overlay record itself. *)
Definition outcome (r : heap * overlay * res unit) : heap * res unit := (fst (fst r), snd r).

(** [o'] is what the overlay record [o] may have become after it was applied
    any number of times, to any documents, with the default [dflt]. *)
Inductive after (dflt : list N) (o : overlay) : overlay -> Prop :=
  | after_nothing : after dflt o o
  | after_apply o1 fuel sed node h h' o' r : after dflt o o1 ->
      apply fuel sed dflt o1 node h = (h', o', r) -> after dflt o o'.
