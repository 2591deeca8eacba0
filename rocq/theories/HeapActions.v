(** The actions of internal/actions as the Go code performs them: reading and
    writing nodes in place.  Recursion takes a budget ([fuel]); [Fuel] is
    returned when it runs out, and the theorems show for which inputs it cannot. *)
From Verif Require Import Prelude GoStrings Format Yaml Heap MergeTree Combine.

(** merge.go:168-201  mergeComments on *o and *n. *)
Definition h_merge_comments (sed : sed_engine) (o n : loc) (values : list (list N)) : M unit :=
  do! no := get o in
  do! nn := get n in
  put_info o (merge_comments sed (n_info no) (n_info nn) values).

(** merge.go:136-166  mergeScalar: the original comments are read before
    mergeComments overwrites them; the variadic values are resolved after. *)
Definition h_merge_scalar (sed : sed_engine) (o n : loc) (values : list (list N)) : M unit :=
  do! before := get o in
  do! _ := h_merge_comments sed o n values in
  do! no := get o in
  do! nn := get n in
  let v := fvals_of (n_info before) values in
  let val := format sed (i_value (n_info nn)) v in
  if kind_eqb (i_kind (n_info no)) KScalar then
    put_info o (set_value val (n_info no))
  else
    put o (mkNode (set_value val (set_kind KScalar (n_info no))) (n_alias no) None).

(** External library github.com/qdm12/reprint, FromTo: a deep copy following
    every pointer (Content elements and Alias) without cycle detection; nil
    slices and nil pointers stay nil.  Assumed behaviour. *)
Fixpoint h_copy_fields (fuel : nat) (l : loc) {struct fuel} : M hnode :=
  match fuel with
  | O => stuck
  | S f =>
      do! n := get l in
      do! al := match n_alias n with
                | None => ret None
                | Some a => do! x := h_copy_fields f a in do! a' := alloc x in ret (Some a')
                end in
      do! c := match n_content n with
               | None => ret None
               | Some ls => do! ls' := each (fun k => do! x := h_copy_fields f k in alloc x) ls in ret (Some ls')
               end in
      ret (mkNode (n_info n) al c)
  end.
Definition h_copy (fuel : nat) (l : loc) : M loc := do! x := h_copy_fields fuel l in alloc x.

(** format.go:21-38  sanitizeNode on one node: children first, then the four
    texts.  The Alias pointer is not followed. *)
Fixpoint h_sanitize (fuel : nat) (sed : sed_engine) (l : loc) {struct fuel} : M unit :=
  match fuel with
  | O => stuck
  | S f =>
      do! n := get l in
      do! _ := match i_kind (n_info n) with
               | KDocument | KMapping | KSequence | KAlias =>
                   match n_content n with None => ret tt | Some ls => loop (h_sanitize f sed) ls end
               | KScalar | KZero => ret tt
               end in
      do! n' := get l in
      put_info l (sanitize_info sed (n_info n'))
  end.

(** append(c, l...) on a slice: appending nothing to nil gives nil. *)
(* merge.go:212 *)
Definition append_slice (c : option (list loc)) (l : list loc) : option (list loc) :=
  match c, l with
  | None, [] => None
  | None, _ => Some l
  | Some c', _ => Some (c' ++ l)
  end.

(** merge.go:203-215  addNode *)
Definition h_add_node (fuel : nat) (sed : sed_engine) (o : loc) (nv : list loc) : M unit :=
  do! temp := each (h_copy fuel) nv in
  do! _ := loop (h_sanitize fuel sed) temp in
  do! no := get o in
  put_content o (append_slice (n_content no) temp).

(** merge.go:73-78, 118-123  *)
Definition h_to_kind (k : kind) (tag : list N) (o : loc) : M unit :=
  do! no := get o in
  if kind_eqb (i_kind (n_info no)) k then ret tt
  else put o (mkNode (set_value [] (set_tag tag (set_kind k (n_info no)))) (n_alias no) (Some [])).

(** merge.go:117-134  mergeArray *)
Definition h_merge_array (fuel : nat) (sed : sed_engine) (o n : loc) : M unit :=
  do! _ := h_to_kind KSequence (lit "!!seq") o in
  do! nn := get n in
  match n_content nn with
  | None => ret tt
  | Some l =>
      do! no := get o in
      do! _ := h_merge_comments sed o n [i_value (n_info no)] in
      h_add_node fuel sed o l
  end.

(** merge.go:80-105  the inner loop of mergeMap over the pairs [oc] of the
    target, for the overlay key [nk]; [f] is merge(o.Content[oi+1], nv, key).
    Returns resultFound.  Simplification: the Go loop re-reads o.Content on
    every iteration; here it is read once by the caller (the body writes to the
    children of o, never to o itself). *)
Fixpoint h_merge_entries (sed : sed_engine) (f : loc -> list N -> M unit)
    (nk : loc) (oc : list loc) : M bool :=
  match oc with
  | ok :: ov :: rest =>
      do! nnk := get nk in
      do! nok := get ok in
      let marker := check_for_markers (i_value (n_info nnk)) in
      if marker || seq_eqb (i_value (n_info nok)) (i_value (n_info nnk)) then
        do! nov := get ov in
        let key := i_value (n_info nok) in
        let value := i_value (n_info nov) in
        do! _ := h_merge_comments sed ok nk [value; key] in
        do! _ := f ov key in
        if marker then
          do! _ := h_merge_scalar sed ok nk [value; key] in
          do! _ := h_merge_entries sed f nk rest in
          ret true
        else ret true
      else h_merge_entries sed f nk rest
  | _ => ret false
  end.

(** merge.go:71-111  one iteration of the outer loop of mergeMap. *)
Definition h_merge_pair (fuel : nat) (sed : sed_engine) (f : loc -> list N -> M unit)
    (nk nv o : loc) : M unit :=
  do! _ := h_to_kind KMapping (lit "!!map") o in
  do! no := get o in
  do! found := match n_content no with
               | None => ret false
               | Some oc => h_merge_entries sed f nk oc
               end in
  if found : bool then ret tt else h_add_node fuel sed o [nk; nv].

Fixpoint h_merge_pairs (fuel : nat) (sed : sed_engine) (m : loc -> loc -> list N -> M unit)
    (o : loc) (ps : list loc) : M unit :=
  match ps with
  | nk :: nv :: rest =>
      do! _ := h_merge_pair fuel sed (fun ov key => m ov nv key) nk nv o in
      h_merge_pairs fuel sed m o rest
  | _ => ret tt
  end.

(** merge.go:38-115  merge, mergeDocument, mergeMap.  *)
Fixpoint h_merge (fuel : nat) (sed : sed_engine) (o n : loc) (keys : list (list N)) {struct fuel} : M unit :=
  match fuel with
  | O => stuck
  | S f =>
      do! nn := get n in
      let ni := n_info nn in
      match i_kind ni with
      | KDocument =>
          do! no := get o in
          match n_content no, n_content nn with
          | Some oc, Some nl =>
              do! _ := h_merge_comments sed o n [i_value (n_info no)] in
              match oc, nl with
              | o0 :: _, n0 :: _ => h_merge f sed o0 n0 [i_value (n_info no)]
              | _, _ => crash
              end
          | _, _ => ret tt
          end
      | KMapping =>
          match n_content nn with
          | None => ret tt
          | Some nl => h_merge_pairs f sed (fun ov nv key => h_merge f sed ov nv [key]) o nl
          end
      | KSequence => h_merge_array f sed o n
      | KScalar =>
          do! _ := h_merge_scalar sed o n keys in
          do! no := get o in
          put_info o (set_tag (i_tag ni) (n_info no))
      | KAlias => fail EMergeUnsupported
      | KZero =>
          do! no := get o in
          put_info o (set_tag (i_tag ni) (n_info no))
      end
  end.

(** merge.go:22-36  MergeNode *)
Definition h_merge_node (fuel : nat) (sed : sed_engine) (o : loc) (ns : list loc) : M unit :=
  loop (fun n => h_merge fuel sed o n []) ns.

(** replace.go:13-26  ReplaceNode.  reprint.FromTo(replace, original) overwrites
    *original with the deep-copied fields of *replace. *)
Definition h_replace_node (fuel : nat) (sed : sed_engine) (o n : loc) : M unit :=
  do! ov := get o in
  do! nc := h_copy_fields fuel n in
  do! _ := put o nc in
  let i := merge_comments sed (n_info ov) (n_info nc) [] in
  put_info o (set_comments (i_head i) (i_linec i) (i_foot i) (n_info nc)).

(** combine.go:17-59  CombineNode; on a conversion error the comments have
    already been merged. *)
Definition h_combine_node (sed : sed_engine) (o n : loc) : M unit :=
  do! no := get o in
  do! nn := get n in
  if negb (kind_eqb (i_kind (n_info no)) KScalar) || negb (kind_eqb (i_kind (n_info nn)) KScalar)
  then fail ECombineOnlyScalars
  else
    do! _ := h_merge_comments sed o n [] in
    do! no := get o in
    let i := n_info no in
    if seq_eqb (i_tag i) (lit "!!int") then
      match atoi (i_value i) with
      | None => fail EAtoi
      | Some x => match atoi (i_value (n_info nn)) with
                  | None => fail EAtoi
                  | Some y => put_info o (set_value (itoa (wrap (x + y))) i)
                  end
      end
    else if seq_eqb (i_tag i) (lit "!!bool") then
      match parse_bool (i_value i) with
      | None => fail EParseBool
      | Some x => match parse_bool (i_value (n_info nn)) with
                  | None => fail EParseBool
                  | Some y => put_info o (set_value (format_bool (x && y)) i)
                  end
      end
    else put_info o (set_value (i_value i ++ i_value (n_info nn)) i).

(** delete.go:22-54  removing the element at index [i] of [content]:
    copy(pn.Content[i-start:], pn.Content[i+end:]) then truncation by
    nodesToDelete.  [None] is a slice bounds crash. *)
Definition cut (k : kind) (content : list loc) (i : nat) : option (list loc) :=
  let single := kind_eqb k KSequence || kind_eqb k KDocument in
  let start := if single || Nat.even i then 0 else 1 in
  let till := if negb single && Nat.even i then 2 else 1 in
  if Nat.ltb (length content) (i + till) then None
  else Some (take (i - start) content ++ drop (i + till) content).

(** delete.go:11-20  the range loop of DeleteNode over the content [content] of
    [pn] (a Go range loop fixes the slice at the start); [rec] is the recursive
    call on a child. *)
Fixpoint h_scan (rec : loc -> M unit) (pn child : loc) (k : kind) (content : list loc)
    (i : nat) (cs : list loc) : M unit :=
  match cs with
  | [] => ret tt
  | c :: rest =>
      if Nat.eqb c child then
        match cut k content i with
        | None => crash
        | Some content' => put_content pn (Some content')
        end
      else
        do! nc := get c in
        do! _ := match n_content nc with None => ret tt | Some _ => rec c end in
        h_scan rec pn child k content (S i) rest
  end.

(** delete.go:10-56  DeleteNode *)
Fixpoint h_delete (fuel : nat) (pn child : loc) {struct fuel} : M unit :=
  match fuel with
  | O => stuck
  | S f =>
      do! n := get pn in
      match n_content n with
      | None => ret tt
      | Some content => h_scan (fun c => h_delete f c child) pn child (i_kind (n_info n)) content 0 content
      end
  end.
