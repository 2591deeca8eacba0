(** The same code as HeapActions.v and Overlay.v, as sequences of operations on
    the memory shared by the workers of Execute: each operation is one read or one
    write of a node, one allocation, one answer of the path library, or one access
    to the field OnMissing.Action of an overlay.  ProofFine.v proves that, run
    without interruption, each of these sequences does what the function of the
    same name in HeapActions.v or Overlay.v does; Execute.v lets the operations of
    different workers interleave. *)
From Verif Require Import Prelude GoStrings Format Yaml Heap MergeTree Combine HeapActions Builder ActionNames Overlay.

(** The memory shared by the workers: the nodes, and the overlays, which are
    shared between files through pointers. *)
Notation shared := (list hnode * list overlay)%type (only parsing).

(** A piece of Go code: [Done r] has ended with result [r]; every other form
    says what it does next and how it goes on. *)
(* the operations of /repo/internal/actions/*.go and overlays/*.go on shared memory *)
Inductive prog (A : Type) : Type :=
  | Done (r : res A)
  | Get (l : loc) (k : hnode -> prog A)
  | Put (l : loc) (n : hnode) (k : prog A)
  | Alloc (n : hnode) (k : loc -> prog A)
  | Look (q : query) (l : loc) (k : list loc -> prog A)
  | Read (i : nat) (k : overlay -> prog A)
  | Settle (inject : bool) (i : nat) (k : prog A)
  | Write (i : nat) (a : missing_action) (k : prog A).
Arguments Done {A}. Arguments Get {A}. Arguments Put {A}. Arguments Alloc {A}. Arguments Look {A}.
Arguments Read {A}. Arguments Settle {A}. Arguments Write {A}.

(** o.OnMissing.Action = a *)
(* onmissing.go:33 *)
Definition set_missing (a : missing_action) (o : overlay) : overlay :=
  mkOverlay (o_queries o) (o_value o) (o_action o) (o_docqueries o) a (o_inject o) (o_index o).
(* onmissing.go:33 *)
Definition write_missing (i : nat) (a : missing_action) (t : list overlay) : list overlay :=
  match t !! i with Some o => <[i := set_missing a o]> t | None => t end.

(** One operation: the memory after it, and what is left to do or the result.
    [Settle] is the test of onmissing.go:31-32, which leads to the write of
    onmissing.go:33 if it succeeds.  Dereferencing an invalid address is a crash.
    Simplification: a read or write moves a whole node, and one call of the path
    library is one operation. *)
Definition tick {A} (p : prog A) (m : shared) : shared * (prog A + res A) :=
  match p with
  | Done r => (m, inr r)
  | Get l k => match fst m !! l with Some n => (m, inl (k n)) | None => (m, inr Panic) end
  | Put l n k => ((<[l := n]> (fst m), snd m), inl k)
  | Alloc n k => ((fst m ++ [n], snd m), inl (k (length (fst m))))
  | Look q l k => (m, inl (k (q_find q (fst m) l)))
  | Read i k => match snd m !! i with Some o => (m, inl (k o)) | None => (m, inr Panic) end
  | Settle inject i k =>
      match snd m !! i with
      | Some o => (m, inl (match o_missing o with MDefault => if inject then Write i MInject k else k | _ => k end))
      | None => (m, inr Panic)
      end
  | Write i a k => ((fst m, write_missing i a (snd m)), inl k)
  end.

(** Running to the end without interruption. *)
(* (models Go itself: one goroutine on its own) *)
Fixpoint finish {A} (p : prog A) (m : shared) : shared * res A :=
  match p with
  | Done r => (m, r)
  | Get l k => match fst m !! l with Some n => finish (k n) m | None => (m, Panic) end
  | Put l n k => finish k (<[l := n]> (fst m), snd m)
  | Alloc n k => finish (k (length (fst m))) (fst m ++ [n], snd m)
  | Look q l k => finish (k (q_find q (fst m) l)) m
  | Read i k => match snd m !! i with Some o => finish (k o) m | None => (m, Panic) end
  | Settle inject i k =>
      match snd m !! i with
      | Some o => match o_missing o with
                  | MDefault => if inject then finish k (fst m, write_missing i MInject (snd m)) else finish k m
                  | _ => finish k m
                  end
      | None => (m, Panic)
      end
  | Write i a k => finish k (fst m, write_missing i a (snd m))
  end.

(** The number of operations this takes (counting two for every [Settle], and
    the one that delivers the result). *)
(* A measure for proofs (models no function of /repo). *)
Fixpoint operations {A} (p : prog A) (m : shared) : nat :=
  match p with
  | Done r => 1
  | Get l k => S (match fst m !! l with Some n => operations (k n) m | None => 0 end)
  | Put l n k => S (operations k (<[l := n]> (fst m), snd m))
  | Alloc n k => S (operations (k (length (fst m))) (fst m ++ [n], snd m))
  | Look q l k => S (operations (k (q_find q (fst m) l)) m)
  | Read i k => S (match snd m !! i with Some o => operations (k o) m | None => 0 end)
  | Settle inject i k =>
      S (S (match snd m !! i with
            | Some o => match o_missing o with
                        | MDefault => if inject then operations k (fst m, write_missing i MInject (snd m)) else operations k m
                        | _ => operations k m
                        end
            | None => 0
            end))
  | Write i a k => S (operations k (fst m, write_missing i a (snd m)))
  end.

(** Doing one thing after the other, stopping at the first failure. *)
(* if err != nil { return err }, as in overlay.go:66-68 *)
Fixpoint pbind {A B} (p : prog A) (f : A -> prog B) : prog B :=
  match p with
  | Done (Ok a) => f a
  | Done (Err e) => Done (Err e)
  | Done Panic => Done Panic
  | Done Fuel => Done Fuel
  | Get l k => Get l (fun n => pbind (k n) f)
  | Put l n k => Put l n (pbind k f)
  | Alloc n k => Alloc n (fun l => pbind (k l) f)
  | Look q l k => Look q l (fun ls => pbind (k ls) f)
  | Read i k => Read i (fun o => pbind (k o) f)
  | Settle inject i k => Settle inject i (pbind k f)
  | Write i a k => Write i a (pbind k f)
  end.
Notation "'do?' x := m 'in' k" := (pbind m (fun x => k))
  (at level 200, x pattern, m at level 100, k at level 200, right associativity).

(* return value, nil *)
Definition pret {A} (a : A) : prog A := Done (Ok a).
(* return err, as in merge.go:49 *)
Definition pfail {A} (e : err) : prog A := Done (Err e).
(* a panic (models Go itself) *)
Definition pcrash {A} : prog A := Done Panic.
(* an endless recursion (models Go itself) *)
Definition pstuck {A} : prog A := Done Fuel.
(* as Heap.get, for all of actions/*.go *)
Definition pget (l : loc) : prog hnode := Get l pret.
(* as Heap.put, for all of actions/*.go *)
Definition pput (l : loc) (n : hnode) : prog unit := Put l n (pret tt).
(* as Heap.alloc, for all of actions/*.go *)
Definition palloc (n : hnode) : prog loc := Alloc n pret.
(* as Heap.put_info, for all of actions/*.go *)
Definition pput_info (l : loc) (i : info) : prog unit :=
  do? n := pget l in pput l (mkNode i (n_alias n) (n_content n)).
(* as Heap.put_content, for all of actions/*.go *)
Definition pput_content (l : loc) (c : option (list loc)) : prog unit :=
  do? n := pget l in pput l (mkNode (n_info n) (n_alias n) c).
(* a range loop, as in merge.go:206 (models Go itself) *)
Fixpoint peach {A B} (f : A -> prog B) (l : list A) : prog (list B) :=
  match l with
  | [] => pret []
  | a :: r => do? b := f a in do? bs := peach f r in pret (b :: bs)
  end.
(* a range loop, as in overlay.go:59 (models Go itself) *)
Fixpoint ploop {A} (f : A -> prog unit) (l : list A) : prog unit :=
  match l with
  | [] => pret tt
  | a :: r => do? _ := f a in ploop f r
  end.

(** merge.go:168-201  mergeComments on *o and *n. *)
Definition p_merge_comments (sed : sed_engine) (o n : loc) (values : list (list N)) : prog unit :=
  do? no := pget o in
  do? nn := pget n in
  pput_info o (merge_comments sed (n_info no) (n_info nn) values).

(** merge.go:136-166  mergeScalar: the original comments are read before
    mergeComments overwrites them; the variadic values are resolved after. *)
Definition p_merge_scalar (sed : sed_engine) (o n : loc) (values : list (list N)) : prog unit :=
  do? before := pget o in
  do? _ := p_merge_comments sed o n values in
  do? no := pget o in
  do? nn := pget n in
  let v := fvals_of (n_info before) values in
  let val := format sed (i_value (n_info nn)) v in
  if kind_eqb (i_kind (n_info no)) KScalar then
    pput_info o (set_value val (n_info no))
  else
    pput o (mkNode (set_value val (set_kind KScalar (n_info no))) (n_alias no) None).

(** External library github.com/qdm12/reprint, FromTo: a deep copy following
    every pointer (Content elements and Alias) without cycle detection; nil
    slices and nil pointers stay nil.  Assumed behaviour. *)
Fixpoint p_copy_fields (fuel : nat) (l : loc) {struct fuel} : prog hnode :=
  match fuel with
  | O => pstuck
  | S f =>
      do? n := pget l in
      do? al := match n_alias n with
                | None => pret None
                | Some a => do? x := p_copy_fields f a in do? a' := palloc x in pret (Some a')
                end in
      do? c := match n_content n with
               | None => pret None
               | Some ls => do? ls' := peach (fun k => do? x := p_copy_fields f k in palloc x) ls in pret (Some ls')
               end in
      pret (mkNode (n_info n) al c)
  end.
Definition p_copy (fuel : nat) (l : loc) : prog loc := do? x := p_copy_fields fuel l in palloc x.

(** format.go:21-38  sanitizeNode on one node: children first, then the four
    texts.  The Alias pointer is not followed. *)
Fixpoint p_sanitize (fuel : nat) (sed : sed_engine) (l : loc) {struct fuel} : prog unit :=
  match fuel with
  | O => pstuck
  | S f =>
      do? n := pget l in
      do? _ := match i_kind (n_info n) with
               | KDocument | KMapping | KSequence | KAlias =>
                   match n_content n with None => pret tt | Some ls => ploop (p_sanitize f sed) ls end
               | KScalar | KZero => pret tt
               end in
      do? n' := pget l in
      pput_info l (sanitize_info sed (n_info n'))
  end.

(** merge.go:203-215  addNode *)
Definition p_add_node (fuel : nat) (sed : sed_engine) (o : loc) (nv : list loc) : prog unit :=
  do? temp := peach (p_copy fuel) nv in
  do? _ := ploop (p_sanitize fuel sed) temp in
  do? no := pget o in
  pput_content o (append_slice (n_content no) temp).

(** merge.go:73-78, 118-123  *)
Definition p_to_kind (k : kind) (tag : list N) (o : loc) : prog unit :=
  do? no := pget o in
  if kind_eqb (i_kind (n_info no)) k then pret tt
  else pput o (mkNode (set_value [] (set_tag tag (set_kind k (n_info no)))) (n_alias no) (Some [])).

(** merge.go:117-134  mergeArray *)
Definition p_merge_array (fuel : nat) (sed : sed_engine) (o n : loc) : prog unit :=
  do? _ := p_to_kind KSequence (lit "!!seq") o in
  do? nn := pget n in
  match n_content nn with
  | None => pret tt
  | Some l =>
      do? no := pget o in
      do? _ := p_merge_comments sed o n [i_value (n_info no)] in
      p_add_node fuel sed o l
  end.

(** merge.go:80-105  the inner loop of mergeMap over the pairs [oc] of the
    target, for the overlay key [nk]; [f] is merge(o.Content[oi+1], nv, key).
    Returns resultFound.  Simplification: the Go loop re-reads o.Content on
    every iteration; here it is read once by the caller (the body writes to the
    children of o, never to o itself). *)
Fixpoint p_merge_entries (sed : sed_engine) (f : loc -> list N -> prog unit)
    (nk : loc) (oc : list loc) : prog bool :=
  match oc with
  | ok :: ov :: rest =>
      do? nnk := pget nk in
      do? nok := pget ok in
      let marker := check_for_markers (i_value (n_info nnk)) in
      if marker || seq_eqb (i_value (n_info nok)) (i_value (n_info nnk)) then
        do? nov := pget ov in
        let key := i_value (n_info nok) in
        let value := i_value (n_info nov) in
        do? _ := p_merge_comments sed ok nk [value; key] in
        do? _ := f ov key in
        if marker then
          do? _ := p_merge_scalar sed ok nk [value; key] in
          do? _ := p_merge_entries sed f nk rest in
          pret true
        else pret true
      else p_merge_entries sed f nk rest
  | _ => pret false
  end.

(** merge.go:71-111  one iteration of the outer loop of mergeMap. *)
Definition p_merge_pair (fuel : nat) (sed : sed_engine) (f : loc -> list N -> prog unit)
    (nk nv o : loc) : prog unit :=
  do? _ := p_to_kind KMapping (lit "!!map") o in
  do? no := pget o in
  do? found := match n_content no with
               | None => pret false
               | Some oc => p_merge_entries sed f nk oc
               end in
  if found : bool then pret tt else p_add_node fuel sed o [nk; nv].

Fixpoint p_merge_pairs (fuel : nat) (sed : sed_engine) (m : loc -> loc -> list N -> prog unit)
    (o : loc) (ps : list loc) : prog unit :=
  match ps with
  | nk :: nv :: rest =>
      do? _ := p_merge_pair fuel sed (fun ov key => m ov nv key) nk nv o in
      p_merge_pairs fuel sed m o rest
  | _ => pret tt
  end.

(** merge.go:38-115  merge, mergeDocument, mergeMap.  *)
Fixpoint p_merge (fuel : nat) (sed : sed_engine) (o n : loc) (keys : list (list N)) {struct fuel} : prog unit :=
  match fuel with
  | O => pstuck
  | S f =>
      do? nn := pget n in
      let ni := n_info nn in
      match i_kind ni with
      | KDocument =>
          do? no := pget o in
          match n_content no, n_content nn with
          | Some oc, Some nl =>
              do? _ := p_merge_comments sed o n [i_value (n_info no)] in
              match oc, nl with
              | o0 :: _, n0 :: _ => p_merge f sed o0 n0 [i_value (n_info no)]
              | _, _ => pcrash
              end
          | _, _ => pret tt
          end
      | KMapping =>
          match n_content nn with
          | None => pret tt
          | Some nl => p_merge_pairs f sed (fun ov nv key => p_merge f sed ov nv [key]) o nl
          end
      | KSequence => p_merge_array f sed o n
      | KScalar =>
          do? _ := p_merge_scalar sed o n keys in
          do? no := pget o in
          pput_info o (set_tag (i_tag ni) (n_info no))
      | KAlias => pfail EMergeUnsupported
      | KZero =>
          do? no := pget o in
          pput_info o (set_tag (i_tag ni) (n_info no))
      end
  end.

(** merge.go:22-36  MergeNode *)
Definition p_merge_node (fuel : nat) (sed : sed_engine) (o : loc) (ns : list loc) : prog unit :=
  ploop (fun n => p_merge fuel sed o n []) ns.

(** replace.go:13-26  ReplaceNode.  reprint.FromTo(replace, original) overwrites
    *original with the deep-copied fields of *replace. *)
Definition p_replace_node (fuel : nat) (sed : sed_engine) (o n : loc) : prog unit :=
  do? ov := pget o in
  do? nc := p_copy_fields fuel n in
  do? _ := pput o nc in
  let i := merge_comments sed (n_info ov) (n_info nc) [] in
  pput_info o (set_comments (i_head i) (i_linec i) (i_foot i) (n_info nc)).

(** combine.go:17-59  CombineNode; on a conversion error the comments have
    already been merged. *)
Definition p_combine_node (sed : sed_engine) (o n : loc) : prog unit :=
  do? no := pget o in
  do? nn := pget n in
  if negb (kind_eqb (i_kind (n_info no)) KScalar) || negb (kind_eqb (i_kind (n_info nn)) KScalar)
  then pfail ECombineOnlyScalars
  else
    do? _ := p_merge_comments sed o n [] in
    do? no := pget o in
    let i := n_info no in
    if seq_eqb (i_tag i) (lit "!!int") then
      match atoi (i_value i) with
      | None => pfail EAtoi
      | Some x => match atoi (i_value (n_info nn)) with
                  | None => pfail EAtoi
                  | Some y => pput_info o (set_value (itoa (wrap (x + y))) i)
                  end
      end
    else if seq_eqb (i_tag i) (lit "!!bool") then
      match parse_bool (i_value i) with
      | None => pfail EParseBool
      | Some x => match parse_bool (i_value (n_info nn)) with
                  | None => pfail EParseBool
                  | Some y => pput_info o (set_value (format_bool (x && y)) i)
                  end
      end
    else pput_info o (set_value (i_value i ++ i_value (n_info nn)) i).

(** delete.go:11-20  the range loop of DeleteNode over the content [content] of
    [pn] (a Go range loop fixes the slice at the start); [rec] is the recursive
    call on a child. *)
Fixpoint p_scan (rec : loc -> prog unit) (pn child : loc) (k : kind) (content : list loc)
    (i : nat) (cs : list loc) : prog unit :=
  match cs with
  | [] => pret tt
  | c :: rest =>
      if Nat.eqb c child then
        match cut k content i with
        | None => pcrash
        | Some content' => pput_content pn (Some content')
        end
      else
        do? nc := pget c in
        do? _ := match n_content nc with None => pret tt | Some _ => rec c end in
        p_scan rec pn child k content (S i) rest
  end.

(** delete.go:10-56  DeleteNode *)
Fixpoint p_delete (fuel : nat) (pn child : loc) {struct fuel} : prog unit :=
  match fuel with
  | O => pstuck
  | S f =>
      do? n := pget pn in
      match n_content n with
      | None => pret tt
      | Some content => p_scan (fun c => p_delete f c child) pn child (i_kind (n_info n)) content 0 content
      end
  end.
(** query.go:84-100  Queries.Find: the queries are asked one after the other. *)
Definition p_find (qs : list query) (node : loc) : prog (list loc) :=
  do? n := pget node in
  if kind_eqb (i_kind (n_info n)) KDocument &&
     match n_content n with None | Some [] => true | _ => false end
  then pret []
  else do? rs := peach (fun q => Look q node pret) qs in pret (concat rs).

(** documentquery.go:44, 57-61  cmp.Equal (external library go-cmp) on two nodes
    ignoring comments, position and style: pointers are followed, nil and empty
    slices differ.  Simplification: no cycle detection (budget instead). *)
Fixpoint p_equal (fuel : nat) (a b : loc) {struct fuel} : prog bool :=
  match fuel with
  | O => pstuck
  | S f =>
      do? na := pget a in
      do? nb := pget b in
      if negb (info_eqb (n_info na) (n_info nb)) then pret false else
      do? al := match n_alias na, n_alias nb with
                | None, None => pret true
                | Some x, Some y => p_equal f x y
                | _, _ => pret false
                end in
      if negb al then pret false else
      match n_content na, n_content nb with
      | None, None => pret true
      | Some la, Some lb =>
          (fix go (la lb : list loc) : prog bool :=
             match la, lb with
             | [], [] => pret true
             | x :: la', y :: lb' => do? e := p_equal f x y in if e : bool then go la' lb' else pret false
             | _, _ => pret false
             end) la lb
      | _, _ => pret false
      end
  end.

(** documentquery.go:57-61  all results must equal the value *)
Fixpoint p_all_equal (fuel : nat) (rs : list loc) (v : loc) : prog bool :=
  match rs with
  | [] => pret true
  | r :: rest => do? e := p_equal fuel r v in if e : bool then p_all_equal fuel rest v else pret false
  end.

(** documentquery.go:50-62  one condition *)
Definition p_condition (fuel : nat) (c : condition) (node : loc) : prog bool :=
  do? rs := p_find (c_queries c) node in
  match rs with
  | [] => pret false
  | _ => do? v := pget (c_value c) in
         if node_is_zero v then pret true else p_all_equal fuel rs (c_value c)
  end.

(** documentquery.go:43-66  checkQuery *)
Fixpoint p_check_query (fuel : nat) (cs : list condition) (node : loc) : prog bool :=
  match cs with
  | [] => pret true
  | c :: r => do? ok := p_condition fuel c node in if ok : bool then p_check_query fuel r node else pret false
  end.

(** documentquery.go:23-41  checkQueries *)
Fixpoint p_check_any (fuel : nat) (dq : list (list condition)) (node : loc) : prog bool :=
  match dq with
  | [] => pret false
  | g :: r => do? ok := p_check_query fuel g node in if ok : bool then pret true else p_check_any fuel r node
  end.
Definition p_check_queries (fuel : nat) (dq : list (list condition)) (node : loc) : prog bool :=
  match dq with [] => pret true | _ => p_check_any fuel dq node end.

(** overlay.go:59-78  the body of doAction's loop *)
Definition p_act (fuel : nat) (sed : sed_engine) (a : action) (value root n : loc) : prog unit :=
  match a with
  | ADelete => p_delete fuel root n
  | AReplace => p_replace_node fuel sed n value
  | ACombine => p_combine_node sed n value
  | AMerge | AInvalid => p_merge_node fuel sed n [value]
  end.

(** overlay.go:58-81  doAction.  Simplification: the log message reads n.Line and
    n.Column; results are never nil. *)
Definition p_do_action (fuel : nat) (sed : sed_engine) (a : action) (value root : loc) (nodes : list loc) : prog unit :=
  ploop (p_act fuel sed a value root) nodes.

(** Go literal nodes: the builder allocates a fresh tree.  The order of
    allocation (children first) is not observable. *)
(* path.go:79-94, 144-159, 173-204, 284-323 through Builder.v *)
Fixpoint p_alloc (t : tree) : prog loc :=
  match t with
  | T i None => palloc (mkNode i None None)
  | T i (Some ts) =>
      do? ls := (fix go (ts : list tree) : prog (list loc) :=
                   match ts with
                   | [] => pret []
                   | t :: r => do? l := p_alloc t in do? ls := go r in pret (l :: ls)
                   end) ts in
      palloc (mkNode i None (Some ls))
  end.

(** onmissing.go:52-74  doInjectPath.  The error of BuildPaths is ignored: the
    nil node is then dereferenced by MergeNode (a crash).  Simplification: the
    scaffolds of several paths are merged as trees (build_paths) before being
    put on the heap; they are private to this call. *)
Definition p_inject (fuel : nat) (sed : sed_engine) (ip : list query) (value node : loc) : prog unit :=
  match build_all (map q_text ip) with
  | Err e => pfail e
  | Panic => pcrash
  | Fuel => pstuck
  | Ok ts =>
      match build_paths sed ts with
      | Ok y =>
          do? ly := p_alloc y in
          do? _ := p_merge_node fuel sed node [ly] in
          do? rs := p_find ip node in
          ploop (fun r => p_replace_node fuel sed r value) rs
      | Err _ | Panic => pcrash
      | Fuel => pstuck
      end
  end.

(** onmissing.go:76-93  handleInjectPath *)
Definition p_handle_inject (fuel : nat) (sed : sed_engine) (o : overlay) (node : loc) : prog unit :=
  match build_all (map q_text (o_queries o)) with
  | Ok _ => p_inject fuel sed (o_queries o) (o_value o) node
  | Err EInvalidPath =>
      match o_inject o with
      | None => pret tt
      | Some ip => p_inject fuel sed ip (o_value o) node
      end
  | Err e => pfail e
  | Panic => pcrash
  | Fuel => pstuck
  end.

(** onmissing.go:30-50  onMissing of overlay number [k]: the field is tested,
    perhaps written, and read again by the switch. *)
Definition p_on_missing (fuel : nat) (sed : sed_engine) (dflt : list N) (k : nat) (node : loc) : prog unit :=
  Settle (equal_fold dflt (lit "inject")) k
    (Read k (fun o => match o_missing o with MInject => p_handle_inject fuel sed o node | _ => pret tt end)).

(** overlay.go:26-42  Apply of overlay number [k].  Simplification: the fields of
    the overlay other than OnMissing.Action, which nobody writes, are read at the
    start. *)
Definition p_apply (fuel : nat) (sed : sed_engine) (dflt : list N) (k : nat) (node : loc) : prog unit :=
  Read k (fun o =>
    do? ok := p_check_queries fuel (o_docqueries o) node in
    if ok : bool then
      do? ns := p_find (o_queries o) node in
      match ns with
      | [] => p_on_missing fuel sed dflt k node
      | _ => p_do_action fuel sed (o_action o) (o_value o) node ns
      end
    else pret tt).
