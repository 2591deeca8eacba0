(** What an overlay means: a function from document trees to document trees.

    The tool edits nodes in place on a heap.  This file says what the edit of a
    whole document amounts to without mentioning addresses: queries give
    positions in a tree, actions rewrite the nodes at those positions.  The
    operations on single nodes ([merge], [replace_node], [combine_node]) and the
    scaffolds of key paths ([build_all], [build_paths]) are those of MergeTree.v,
    Combine.v and Builder.v, characterised by C01-C18 and C26-C29. *)
From Verif Require Import Prelude GoStrings Format Yaml Heap MergeTree Combine Builder ActionNames Overlay
  SpecHeap SpecDelete SpecQuery.

(** ** Positions *)
(** A position is the way down from the root: which child, then which child of
    that one, and so on. *)
Notation position := (list nat) (only parsing).

Fixpoint node_at (p : position) (t : tree) : option tree :=
  match p with
  | [] => Some t
  | k :: r => match children t !! k with Some c => node_at r c | None => None end
  end.

(** The tree with the node at [p] rewritten by [f]. *)
Fixpoint update_at (p : position) (f : tree -> res tree) (t : tree) : res tree :=
  match p with
  | [] => f t
  | k :: r =>
      match t with
      | T i (Some ts) =>
          match ts !! k with
          | Some c => let! c' := update_at r f c in Ok (T i (Some (<[k := c']> ts)))
          | None => Ok t
          end
      | T i None => Ok t
      end
  end.

(** One position after the other, stopping at the first failure. *)
Fixpoint update_each (ps : list position) (f : tree -> res tree) (t : tree) : res tree :=
  match ps with
  | [] => Ok t
  | p :: r => let! t' := update_at p f t in update_each r f t'
  end.

(** The tree without the nodes at the positions satisfying [gone]: elements of
    sequences (and the content of a document) disappear one by one, entries of
    mappings as a key/value pair. *)
Fixpoint without (gone : position -> bool) (t : tree) : tree :=
  match t with
  | T i None => T i None
  | T i (Some ts) =>
      let marked := (fix go (k : nat) (ts : list tree) : list (bool * tree) :=
                       match ts with
                       | [] => []
                       | c :: r => (gone [k], without (fun p => gone (k :: p)) c) :: go (S k) r
                       end) 0 ts in
      T i (Some (map snd (if elements (i_kind i) then base.filter (fun m => fst m = false) marked
                          else drop_pairs fst marked)))
  end.
Definition among (ps : list position) (p : position) : bool := existsb (fun q => bool_decide (p = q)) ps.

(** [p] lies inside the node at [a]. *)
Fixpoint below (a p : position) : bool :=
  match a, p with
  | [], _ :: _ => true
  | x :: a', y :: p' => Nat.eqb x y && below a' p'
  | _, _ => false
  end.
(** The positions but those inside one that comes earlier: a node that is replaced gets new
    nodes below it, and what is done to the old ones later has no effect on the document. *)
Fixpoint remaining (earlier ps : list position) : list position :=
  match ps with
  | [] => []
  | p :: r => if existsb (fun a => below a p) earlier then remaining earlier r else p :: remaining (p :: earlier) r
  end.
(** No position comes after one it lies inside of. *)
Fixpoint inside_out (ps : list position) : Prop :=
  match ps with
  | [] => True
  | p :: r => (forall q, In q r -> below p q = false) /\ inside_out r
  end.
(** None of the positions lies inside the node at another one. *)
Definition not_nested (ps : list position) : Prop :=
  forall p q, In p ps -> In q ps -> p `prefix_of` q -> p = q.

(** ** Queries *)
Record tquery := mkTQuery { tq_text : list N; tq_find : tree -> list position }.

Definition empty_doc (t : tree) : bool :=
  kind_eqb (t_kind t) KDocument && match children t with [] => true | _ => false end.
Definition found (qs : list tquery) (t : tree) : list position :=
  if empty_doc t then [] else concat (map (fun q => tq_find q t) qs).

(** The address of the node at a position of a document with node identities. *)
Fixpoint place (p : position) (doc : ltree) : option loc :=
  match p with
  | [] => Some (label doc)
  | k :: r => match kids (l_content doc) !! k with Some c => place r c | None => None end
  end.

(** The query [q] of the program finds, in every document, the nodes at the
    positions [tq] gives for its tree, in that order. *)
Definition computes (q : query) (tq : tquery) : Prop :=
  q_text q = tq_text tq /\
  forall h doc, own h [doc] -> empty_doc (erase doc) = false ->
    map Some (q_find q h (label doc)) = map (fun p => place p doc) (tq_find tq (erase doc)).

(** ** Document queries *)
(** Same kind, tag, text and anchor, and children alike one by one. *)
Fixpoint same_look (a b : tree) : bool :=
  match a, b with
  | T i c, T j d =>
      info_eqb i j &&
      match c, d with
      | None, None => true
      | Some ts, Some us =>
          (fix go (ts us : list tree) : bool :=
             match ts, us with
             | [], [] => true
             | t :: ts', u :: us' => same_look t u && go ts' us'
             | _, _ => false
             end) ts us
      | _, _ => false
      end
  end.

Record tcondition := mkTCondition { tc_queries : list tquery; tc_value : option tree }.
Definition tmet (t : tree) (c : tcondition) : bool :=
  match found (tc_queries c) t with
  | [] => false
  | ps =>
      match tc_value c with
      | None => true
      | Some v => forallb (fun p => match node_at p t with Some s => same_look s v | None => false end) ps
      end
  end.
(** An OR of AND groups; no group at all admits every document. *)
Definition tqualifies (dq : list (list tcondition)) (t : tree) : bool :=
  match dq with [] => true | _ => existsb (forallb (tmet t)) dq end.

(** ** Overlays *)
Record toverlay := mkTOverlay {
  to_queries : list tquery; to_value : tree; to_action : action;
  to_docqueries : list (list tcondition); to_missing : missing_action; to_inject : option (list tquery) }.

(** The action at the positions found. *)
Definition t_act (sed : sed_engine) (a : action) (v : tree) (ps : list position) (t : tree) : res tree :=
  match a with
  | ADelete => Ok (without (among ps) t)
  | AReplace => update_each (remaining [] ps) (fun old => Ok (replace_node sed old v)) t
  | ACombine => update_each ps (fun old => match combine_node sed old v with (t', None) => Ok t' | (_, Some e) => Err e end) t
  | AMerge | AInvalid => update_each ps (fun old => merge sed old v []) t
  end.

(** Nothing found: does the overlay ask for an injection? *)
Definition injects (dflt : list N) (o : toverlay) : bool :=
  match to_missing o with
  | MInject => true
  | MDefault => equal_fold dflt (lit "inject")
  | _ => false
  end.
(** ... and at which paths: the queries if each denotes a path of keys, else the
    injectPath, if any. *)
Definition inject_paths (o : toverlay) : option (list tquery) :=
  match build_all (map tq_text (to_queries o)) with
  | Ok _ => Some (to_queries o)
  | _ => to_inject o
  end.
(** The document with the paths made to exist.  (An empty list of paths has no
    scaffold: the program crashes.) *)
Definition scaffolded (sed : sed_engine) (ip : list tquery) (t : tree) : res tree :=
  match build_all (map tq_text ip) with
  | Ok ts => match build_paths sed ts with Ok y => merge sed t y [] | _ => Panic end
  | bad => let! _ := bad in Panic
  end.
Definition t_inject (sed : sed_engine) (ip : list tquery) (v : tree) (t : tree) : res tree :=
  let! t1 := scaffolded sed ip t in
  update_each (remaining [] (found ip t1)) (fun old => Ok (replace_node sed old v)) t1.

(** The meaning of an overlay. *)
Definition t_apply (sed : sed_engine) (dflt : list N) (o : toverlay) (t : tree) : res tree :=
  if tqualifies (to_docqueries o) t then
    match found (to_queries o) t with
    | [] =>
        if injects dflt o then
          match inject_paths o with Some ip => t_inject sed ip (to_value o) t | None => Ok t end
        else Ok t
    | ps => t_act sed (to_action o) (to_value o) ps t
    end
  else Ok t.
(** ... and of a list of overlays. *)
Fixpoint t_apply_each (sed : sed_engine) (dflt : list N) (os : list toverlay) (t : tree) : res tree :=
  match os with
  | [] => Ok t
  | o :: r => let! t' := t_apply sed dflt o t in t_apply_each sed dflt r t'
  end.

(** If [o] merges into several nodes of [t], no node comes after one it lies inside of. *)
Definition plainly (o : toverlay) (t : tree) : Prop :=
  tqualifies (to_docqueries o) t = true ->
  match to_action o with AMerge | AInvalid => inside_out (found (to_queries o) t) | _ => True end.
Fixpoint all_plainly (sed : sed_engine) (dflt : list N) (os : list toverlay) (t : tree) : Prop :=
  match os with
  | [] => True
  | o :: r => plainly o t /\ forall t', t_apply sed dflt o t = Ok t' -> all_plainly sed dflt r t'
  end.

(** ** The overlay of the program and its meaning *)
Definition means_condition (d : nat) (ro : loc -> Prop) (h : heap) (c : condition) (tc : tcondition) : Prop :=
  Forall2 computes (c_queries c) (tc_queries tc) /\ ro (c_value c) /\
  match tc_value tc with
  | None => no_value h c
  | Some v => value_at d ro h (c_value c) v /\ ~ no_value h c
  end.
(** [o], whose values are held by the heap [h] in the region [ro], is the overlay [t]. *)
Definition means (d : nat) (ro : loc -> Prop) (h : heap) (o : overlay) (t : toverlay) : Prop :=
  Forall2 computes (o_queries o) (to_queries t) /\ value_at d ro h (o_value o) (to_value t) /\
  o_action o = to_action t /\ Forall2 (Forall2 (means_condition d ro h)) (o_docqueries o) (to_docqueries t) /\
  o_missing o = to_missing t /\
  match o_inject o, to_inject t with
  | None, None => True
  | Some q, Some tq => Forall2 computes q tq
  | _, _ => False
  end.

(** No node has an Alias pointer. *)
Definition alias_free (h : heap) : Prop := forall l n, h !! l = Some n -> n_alias n = None.
Definition without_values (t : toverlay) : Prop := Forall (Forall (fun c => tc_value c = None)) (to_docqueries t).

(** ** Key paths *)
(** Where the value of the first entry with key [k] stands among the children of a mapping. *)
Fixpoint key_index (k : list N) (ts : list tree) : option nat :=
  match ts with
  | a :: _ :: r => if decide (t_value a = k) then Some 1 else (fun j => S (S j)) <$> key_index k r
  | _ => None
  end.
Fixpoint key_position (names : list (list N)) (t : tree) : option position :=
  match names with
  | [] => Some []
  | k :: r =>
      match t_kind t, key_index k (children t) with
      | KMapping, Some j =>
          match children t !! j with Some v => cons j <$> key_position r v | None => None end
      | _, _ => None
      end
  end.
(** The query [$.n1.n2...]: in a document, below its content. *)
Definition key_query (text : list N) (names : list (list N)) : tquery :=
  mkTQuery text (fun t =>
    match t_kind t, children t with
    | KDocument, c :: _ => match key_position names c with Some p => [0 :: p] | None => [] end
    | KDocument, [] => []
    | _, _ => match key_position names t with Some p => [p] | None => [] end
    end).
