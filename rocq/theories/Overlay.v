(** Model of internal/overlays: queries, document queries, onMissing, Apply. *)
From Verif Require Import Prelude GoStrings Format Yaml Heap MergeTree HeapActions Builder ActionNames.

(** query.go:14-19  Query.  The compiled yamlpath (external library
    github.com/vmware-labs/yaml-jsonpath) is a function from the heap and the
    start node to the nodes found. *)
Record query := mkQuery { q_text : list N; q_find : heap -> loc -> list loc }.

(** documentquery.go:16-19  Condition; [c_value] is the address of its Value. *)
Record condition := mkCondition { c_queries : list query; c_value : loc }.

(** overlay.go:16-24, onmissing.go:25-28.  The name is used in messages only;
    [o_value] is the address of Value.  A nil and an empty DocumentQuery or
    Conditions list behave alike and are not distinguished; InjectPath is. *)
Record overlay := mkOverlay {
  o_queries : list query; o_value : loc; o_action : action;
  o_docqueries : list (list condition);
  o_missing : missing_action; o_inject : option (list query);
  o_index : option (list Z) }.

(** query.go:84-100  Queries.Find.  The result is nil in Go iff it is empty. *)
Definition h_find (qs : list query) (node : loc) : M (list loc) :=
  do! n := get node in
  if kind_eqb (i_kind (n_info n)) KDocument &&
     match n_content n with None | Some [] => true | _ => false end
  then ret []
  else fun h => (h, Ok (concat (map (fun q => q_find q h node) qs))).

(** yaml.v3 Node.IsZero (external) *)
Definition node_is_zero (n : hnode) : bool :=
  let i := n_info n in
  let none (s : list N) := match s with [] => true | _ => false end in
  kind_eqb (i_kind i) KZero && N.eqb (i_style i) 0 && none (i_tag i) && none (i_value i) && none (i_anchor i) &&
  none (i_head i) && none (i_linec i) && none (i_foot i) && N.eqb (i_row i) 0 && N.eqb (i_col i) 0 &&
  match n_alias n with None => true | _ => false end && match n_content n with None => true | _ => false end.

Definition info_eqb (a b : info) : bool :=
  kind_eqb (i_kind a) (i_kind b) && seq_eqb (i_tag a) (i_tag b) && seq_eqb (i_value a) (i_value b) &&
  seq_eqb (i_anchor a) (i_anchor b).

(** documentquery.go:44, 57-61  cmp.Equal (external library go-cmp) on two nodes
    ignoring comments, position and style: pointers are followed, nil and empty
    slices differ.  Simplification: no cycle detection (budget instead). *)
Fixpoint h_equal (fuel : nat) (a b : loc) {struct fuel} : M bool :=
  match fuel with
  | O => stuck
  | S f =>
      do! na := get a in
      do! nb := get b in
      if negb (info_eqb (n_info na) (n_info nb)) then ret false else
      do! al := match n_alias na, n_alias nb with
                | None, None => ret true
                | Some x, Some y => h_equal f x y
                | _, _ => ret false
                end in
      if negb al then ret false else
      match n_content na, n_content nb with
      | None, None => ret true
      | Some la, Some lb =>
          (fix go (la lb : list loc) : M bool :=
             match la, lb with
             | [], [] => ret true
             | x :: la', y :: lb' => do! e := h_equal f x y in if e : bool then go la' lb' else ret false
             | _, _ => ret false
             end) la lb
      | _, _ => ret false
      end
  end.

(** documentquery.go:57-61  all results must equal the value *)
Fixpoint h_all_equal (fuel : nat) (rs : list loc) (v : loc) : M bool :=
  match rs with
  | [] => ret true
  | r :: rest => do! e := h_equal fuel r v in if e : bool then h_all_equal fuel rest v else ret false
  end.

(** documentquery.go:50-62  one condition *)
Definition h_condition (fuel : nat) (c : condition) (node : loc) : M bool :=
  do! rs := h_find (c_queries c) node in
  match rs with
  | [] => ret false
  | _ => do! v := get (c_value c) in
         if node_is_zero v then ret true else h_all_equal fuel rs (c_value c)
  end.

(** documentquery.go:43-66  checkQuery *)
Fixpoint h_check_query (fuel : nat) (cs : list condition) (node : loc) : M bool :=
  match cs with
  | [] => ret true
  | c :: r => do! ok := h_condition fuel c node in if ok : bool then h_check_query fuel r node else ret false
  end.

(** documentquery.go:23-41  checkQueries *)
Fixpoint h_check_any (fuel : nat) (dq : list (list condition)) (node : loc) : M bool :=
  match dq with
  | [] => ret false
  | g :: r => do! ok := h_check_query fuel g node in if ok : bool then ret true else h_check_any fuel r node
  end.
Definition h_check_queries (fuel : nat) (dq : list (list condition)) (node : loc) : M bool :=
  match dq with [] => ret true | _ => h_check_any fuel dq node end.

(** overlay.go:59-78  the body of doAction's loop *)
Definition h_act (fuel : nat) (sed : sed_engine) (a : action) (value root n : loc) : M unit :=
  match a with
  | ADelete => h_delete fuel root n
  | AReplace => h_replace_node fuel sed n value
  | ACombine => h_combine_node sed n value
  | AMerge | AInvalid => h_merge_node fuel sed n [value]
  end.

(** overlay.go:58-81  doAction.  Simplification: the log message reads n.Line and
    n.Column; results are never nil. *)
Definition h_do_action (fuel : nat) (sed : sed_engine) (a : action) (value root : loc) (nodes : list loc) : M unit :=
  loop (h_act fuel sed a value root) nodes.

(** Go literal nodes: the builder allocates a fresh tree.  The order of
    allocation (children first) is not observable. *)
Fixpoint h_alloc (t : tree) : M loc :=
  match t with
  | T i None => alloc (mkNode i None None)
  | T i (Some ts) =>
      do! ls := (fix go (ts : list tree) : M (list loc) :=
                   match ts with
                   | [] => ret []
                   | t :: r => do! l := h_alloc t in do! ls := go r in ret (l :: ls)
                   end) ts in
      alloc (mkNode i None (Some ls))
  end.

(** onmissing.go:52-74  doInjectPath.  The error of BuildPaths is ignored: the
    nil node is then dereferenced by MergeNode (a crash).  Simplification: the
    scaffolds of several paths are merged as trees (build_paths) before being
    put on the heap; they are private to this call. *)
Definition h_inject (fuel : nat) (sed : sed_engine) (ip : list query) (value node : loc) : M unit :=
  match build_all (map q_text ip) with
  | Err e => fail e
  | Panic => crash
  | Fuel => stuck
  | Ok ts =>
      match build_paths sed ts with
      | Ok y =>
          do! ly := h_alloc y in
          do! _ := h_merge_node fuel sed node [ly] in
          do! rs := h_find ip node in
          loop (fun r => h_replace_node fuel sed r value) rs
      | Err _ | Panic => crash
      | Fuel => stuck
      end
  end.

(** onmissing.go:76-93  handleInjectPath *)
Definition h_handle_inject (fuel : nat) (sed : sed_engine) (o : overlay) (node : loc) : M unit :=
  match build_all (map q_text (o_queries o)) with
  | Ok _ => h_inject fuel sed (o_queries o) (o_value o) node
  | Err EInvalidPath =>
      match o_inject o with
      | None => ret tt
      | Some ip => h_inject fuel sed ip (o_value o) node
      end
  | Err e => fail e
  | Panic => crash
  | Fuel => stuck
  end.

(** onmissing.go:31-35  the persistent write of the resolved action; [dflt] is
    viper.GetString("defaultOnMissingAction"). *)
Definition resolve_missing (dflt : list N) (o : overlay) : overlay :=
  match o_missing o with
  | MDefault =>
      if equal_fold dflt (lit "inject")
      then mkOverlay (o_queries o) (o_value o) (o_action o) (o_docqueries o) MInject (o_inject o) (o_index o)
      else o
  | _ => o
  end.

(** onmissing.go:42-50  the switch of onMissing, after the write *)
Definition h_on_missing (fuel : nat) (sed : sed_engine) (o : overlay) (node : loc) : M unit :=
  match o_missing o with
  | MInject => h_handle_inject fuel sed o node
  | _ => ret tt
  end.

(** overlay.go:26-42  Apply.  Besides the heap it may change the overlay itself. *)
Definition apply (fuel : nat) (sed : sed_engine) (dflt : list N) (o : overlay) (node : loc) (h : heap)
    : heap * overlay * res unit :=
  match h_check_queries fuel (o_docqueries o) node h with
  | (h1, Ok false) => (h1, o, Ok tt)
  | (h1, Ok true) =>
      match h_find (o_queries o) node h1 with
      | (h2, Ok []) =>
          let o' := resolve_missing dflt o in
          let (h3, r) := h_on_missing fuel sed o' node h2 in (h3, o', r)
      | (h2, Ok nodes) =>
          let (h3, r) := h_do_action fuel sed (o_action o) (o_value o) node nodes h2 in (h3, o, r)
      | (h2, Err e) => (h2, o, Err e)
      | (h2, Panic) => (h2, o, Panic)
      | (h2, Fuel) => (h2, o, Fuel)
      end
  | (h1, Err e) => (h1, o, Err e)
  | (h1, Panic) => (h1, o, Panic)
  | (h1, Fuel) => (h1, o, Fuel)
  end.


