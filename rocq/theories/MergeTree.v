(** Model of the actions of internal/actions on immutable trees.

    A Go function mutating *o becomes a function returning the new o.  On an
    error the Go code leaves o partially edited; the tree model returns just
    the error (the heap model, HeapActions.v, keeps the partial state). *)
From Verif Require Import Prelude GoStrings Format Yaml.

(** The optional variadic arguments [values] of merge.go:136,168, resolved as
    in the switches of merge.go:147-157 and 177-187 (same code): the value and
    the key name handed to format. *)
Definition variadic (o : info) (values : list (list N)) : list N * list N :=
  match values with
  | [] => (i_value o, [])
  | [k] => (i_value o, k)
  | v :: k :: _ => (v, k)
  end.

(** merge.go:141-143,173-175  the original comment texts without leading "#". *)
Definition uncomment (s : list N) : list N := trim_prefix s (lit "#").

(** The arguments of the calls format(x, value, lc, hc, fc, keyName) at
    merge.go:165,191,195,199 (format's order is value, line, head, foot, key). *)
Definition fvals_of (o : info) (values : list (list N)) : fvals :=
  let '(v, k) := variadic o values in
  mkFvals v (uncomment (i_linec o)) (uncomment (i_head o)) (uncomment (i_foot o)) k.

Definition nonempty (s : list N) : bool := match s with [] => false | _ => true end.

(** merge.go:168-201  mergeComments.  The Go switch falls through: a non-empty
    head comment also assigns the line and foot comments, a non-empty line
    comment also assigns the foot comment. *)
Definition merge_comments (sed : sed_engine) (o n : info) (values : list (list N)) : info :=
  let v := fvals_of o values in
  let fmt s := format sed s v in
  if nonempty (i_head n) then
    set_comments (fmt (i_head n)) (fmt (i_linec n)) (fmt (i_foot n)) o
  else if nonempty (i_linec n) then
    set_comments (i_head o) (fmt (i_linec n)) (fmt (i_foot n)) o
  else if nonempty (i_foot n) then
    set_comments (i_head o) (i_linec o) (fmt (i_foot n)) o
  else o.

(** merge.go:136-166  mergeScalar *)
Definition merge_scalar (sed : sed_engine) (o : tree) (n : info) (values : list (list N)) : tree :=
  let v := fvals_of (t_info o) values in
  let i := merge_comments sed (t_info o) n values in
  let val := format sed (i_value n) v in
  if kind_eqb (t_kind o) KScalar then T (set_value val i) (t_content o)
  else T (set_value val (set_kind KScalar i)) None.

(** format.go:21-38  sanitizeNode: every string field formatted with five empty
    values, children first for the kinds that recurse. *)
Definition blank : fvals := mkFvals [] [] [] [] [].
Definition sanitize_info (sed : sed_engine) (i : info) : info :=
  let fmt s := format sed s blank in
  set_comments (fmt (i_head i)) (fmt (i_linec i)) (fmt (i_foot i)) (set_value (fmt (i_value i)) i).
Fixpoint sanitize (sed : sed_engine) (t : tree) : tree :=
  match t with
  | T i c =>
      T (sanitize_info sed i)
        (match i_kind i with
         | KDocument | KMapping | KSequence | KAlias =>
             match c with Some l => Some (map (sanitize sed) l) | None => None end
         | KScalar | KZero => c
         end)
  end.

(** append(o.Content, temp...): appending nothing to nil gives nil. *)
(* merge.go:212 *)
Definition append_content (c : option (list tree)) (l : list tree) : option (list tree) :=
  match c, l with
  | None, [] => None
  | None, _ => Some l
  | Some c', _ => Some (c' ++ l)
  end.

(** merge.go:203-215  addNode (the deep copy of a tree is the tree itself). *)
Definition add_node (sed : sed_engine) (o : tree) (nv : list tree) : tree :=
  match o with T i c => T i (append_content c (map (sanitize sed) nv)) end.

(** merge.go:73-78 and 118-123  conversion of the target to an empty mapping
    or sequence. *)
Definition to_map (o : tree) : tree :=
  if kind_eqb (t_kind o) KMapping then o
  else T (set_value [] (set_tag (lit "!!map") (set_kind KMapping (t_info o)))) (Some []).
Definition to_seq (o : tree) : tree :=
  if kind_eqb (t_kind o) KSequence then o
  else T (set_value [] (set_tag (lit "!!seq") (set_kind KSequence (t_info o)))) (Some []).

(** merge.go:117-134  mergeArray *)
Definition merge_array (sed : sed_engine) (o n : tree) : tree :=
  let o1 := to_seq o in
  match t_content n with
  | None => o1
  | Some l =>
      add_node sed (T (merge_comments sed (t_info o1) (t_info n) [t_value o1]) (t_content o1)) l
  end.

(** merge.go:80-105  the loop over the pairs of the target for one overlay key
    node [nk]; [f] merges the overlay value into the value of an entry, given
    the key name.  Returns the new content and resultFound. *)
Fixpoint merge_entries (sed : sed_engine) (f : tree -> list N -> res tree)
    (nk : info) (oc : list tree) : res (list tree * bool) :=
  match oc with
  | ok :: ov :: rest =>
      let marker := check_for_markers (i_value nk) in
      if marker || seq_eqb (t_value ok) (i_value nk) then
        let key := t_value ok in
        let value := t_value ov in
        let ok1 := T (merge_comments sed (t_info ok) nk [value; key]) (t_content ok) in
        let! ov1 := f ov key in
        if marker then
          let ok2 := merge_scalar sed ok1 nk [value; key] in
          let! (rest', _) := merge_entries sed f nk rest in
          Ok (ok2 :: ov1 :: rest', true)
        else Ok (ok1 :: ov1 :: rest, true)
      else
        let! (rest', found) := merge_entries sed f nk rest in
        Ok (ok :: ov :: rest', found)
  | _ => Ok (oc, false)
  end.

(** merge.go:71-111  one iteration of the outer loop of mergeMap. *)
Definition merge_pair (sed : sed_engine) (f : tree -> list N -> res tree)
    (nk nv o : tree) : res tree :=
  let o1 := to_map o in
  match t_content o1 with
  | None => Ok (add_node sed o1 [nk; nv])
  | Some oc =>
      let! (oc', found) := merge_entries sed f (t_info nk) oc in
      if (found : bool) then Ok (T (t_info o1) (Some oc'))
      else Ok (add_node sed o1 [nk; nv])
  end.

(** merge.go:38-115  merge, mergeDocument and mergeMap (mutually recursive in
    Go; here one recursion on the overlay tree [n]). *)
Fixpoint merge (sed : sed_engine) (o n : tree) (keys : list (list N)) {struct n} : res tree :=
  match n with
  | T ni nc =>
      match i_kind ni with
      | KDocument =>                                           (* merge.go:57-67 *)
          match t_content o, nc with
          | Some oc, Some nl =>
              let oi := merge_comments sed (t_info o) ni [t_value o] in
              match oc, nl with
              | o0 :: orest, n0 :: _ =>
                  let! r := merge sed o0 n0 [t_value o] in
                  Ok (T oi (Some (r :: orest)))
              | _, _ => Panic                                  (* Content[0] of an empty slice *)
              end
          | _, _ => Ok o
          end
      | KMapping =>                                            (* merge.go:69-115 *)
          match nc with
          | None => Ok o
          | Some nl =>
              (fix pairs (ps : list tree) (o : tree) {struct ps} : res tree :=
                 match ps with
                 | nk :: nv :: rest =>
                     let! o' := merge_pair sed (fun ov key => merge sed ov nv [key]) nk nv o in
                     pairs rest o'
                 | _ => Ok o
                 end) nl o
          end
      | KSequence => Ok (merge_array sed o n)
      | KScalar =>
          match merge_scalar sed o ni keys with T i c => Ok (T (set_tag (i_tag ni) i) c) end
      | KAlias => Err EMergeUnsupported
      | KZero => Ok (T (set_tag (i_tag ni) (t_info o)) (t_content o))
      end
  end.

(** The outer loop of mergeMap on its own, for stating lemmas. *)
(* merge.go:70-112 *)
Fixpoint merge_pairs (sed : sed_engine) (ps : list tree) (o : tree) {struct ps} : res tree :=
  match ps with
  | nk :: nv :: rest =>
      let! o' := merge_pair sed (fun ov key => merge sed ov nv [key]) nk nv o in
      merge_pairs sed rest o'
  | _ => Ok o
  end.

(** merge.go:22-36  MergeNode(nodes...): the first node absorbs the others. *)
Definition merge_node (sed : sed_engine) (o : tree) (ns : list tree) : res tree :=
  fold_left (fun acc n => let! x := acc in merge sed x n []) ns (Ok o).

(** replace.go:13-26  ReplaceNode.  After the deep copy only the comments of
    the old node matter. *)
Definition replace_node (sed : sed_engine) (o n : tree) : tree :=
  let ov := merge_comments sed (t_info o) (t_info n) [] in
  T (set_comments (i_head ov) (i_linec ov) (i_foot ov) (t_info n)) (t_content n).
