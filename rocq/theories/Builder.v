(** Model of internal/builder/path.go on trees. *)
From Verif Require Import Prelude GoStrings Format Yaml MergeTree Lexer.

(** path.go:144-159 (identity), 79-94, 173-204, 284-321: the literal nodes the
    builder makes have only a kind, a value and content. *)
Definition bare (k : kind) (v : list N) : info := mkInfo k 0 [] v [] [] [] [] 0 0.
Definition b_identity : tree := T (bare KScalar []) None.
Definition b_key (name : list N) : tree := T (bare KScalar name) None.
Definition b_map (c : list tree) : tree := T (bare KMapping []) (Some c).
Definition b_doc (sub : tree) : tree := T (bare KDocument []) (Some [sub]).

(** path.go:326-349  unescape *)
Fixpoint unescape_from (escaped : bool) (s : list N) : list N :=
  match s with
  | [] => []
  | c :: r =>
      if ceq c (ch "\") then
        if escaped then c :: unescape_from false r else unescape_from true r
      else c :: unescape_from false r
  end.
Definition unescape (s : list N) : list N := unescape_from false s.

(** path.go:252-274  balanced: an even number of quotes [q] not preceded by a
    backslash.  [prev] is the previous rune (eof at the start). *)
Fixpoint balanced_from (bal : bool) (prev : option N) (q : N) (s : list N) : bool :=
  match s with
  | [] => bal
  | c :: r =>
      if ceq c q then
        match prev with
        | Some p => if ceq p (ch "\") then balanced_from bal (Some c) q r
                    else balanced_from (negb bal) (Some c) q r
        | None => balanced_from (negb bal) (Some c) q r
        end
      else balanced_from bal (Some c) q r
  end.
Definition balanced (s : list N) (q : N) : bool := balanced_from true None q s.

(** path.go:208-233  the loop of bracketChildNames rejoining names split at
    embedded commas. *)
Fixpoint rejoin (name : list N) (pieces : list (list N)) : list (list N) :=
  match pieces with
  | [] => match name with [] => [] | _ => [name] end
  | c :: r =>
      if balanced c (ch "'") && balanced c 34%N then
        match name with
        | [] => c :: rejoin [] r
        | _ => rejoin (name ++ lit "," ++ c) r
        end
      else
        match name with
        | [] => rejoin c r
        | _ => (name ++ lit "," ++ c) :: rejoin [] r
        end
  end.

(** path.go:235-247  unquoting one name *)
Definition unquote (c0 : list N) : list N :=
  let c := trim_space c0 in
  let c := if has_prefix (lit "'") c then trim_suffix (trim_prefix c (lit "'")) (lit "'")
           else trim_suffix (trim_prefix c [34%N]) [34%N] in
  unescape c.

(** path.go:207-250  bracketChildNames *)
Definition bracket_child_names (s : list N) : list (list N) :=
  map unquote (rejoin [] (split_on (ch ",") s)).

(** path.go:63-118, 161-205, 276-324  newPath, childThen, bracketChildThen.  Go
    builds a closure returning the tree; here the tree itself. *)
Fixpoint new_path (fuel : nat) (l : lexer) : res tree :=
  match fuel with
  | O => Fuel
  | S f =>
      let! (lx, l1) := next_lexeme 4 l in
      let child_then (name : list N) : res tree :=
        if seq_eqb name (lit "*") then Err EWildcard
        else let! sub := new_path f l1 in Ok (b_map [b_key (unescape name); sub]) in
      match lm_typ lx with
      | LError => Err EInvalidPath
      | LIdentity | LEOF => Ok b_identity
      | LRoot => let! sub := new_path f l1 in Ok (b_doc sub)
      | LDotChild =>
          let name := trim_prefix (lm_val lx) (lit ".") in
          if seq_eqb name (lit "*") then Err EInvalidPath else child_then (unescape name)
      | LUndottedChild => child_then (lm_val lx)
      | LBracketChild =>
          let s := trim_space (trim_suffix (trim_prefix (trim_space (lm_val lx)) (lit "[")) (lit "]")) in
          let names := bracket_child_names s in
          let! sub := new_path f l1 in
          Ok (b_map (concat (map (fun n => [b_key n; sub]) names)))
      end
  end.

(** path.go:36-46, 139-142  NewPath and BuildPath.  Each lexeme but the last
    consumes input, so this fuel is enough (proved: it never runs out). *)
Definition build (path : list N) : res tree := new_path (4 + length path) (lex_new path).

(** path.go:48-61  NewPaths followed by BuildPaths' loop (path.go:121-130). *)
Fixpoint build_all (paths : list (list N)) : res (list tree) :=
  match paths with
  | [] => Ok []
  | p :: r => let! t := build p in let! ts := build_all r in Ok (t :: ts)
  end.

(** path.go:120-137  BuildPaths: the first tree absorbs the others.  The caller
    ignores the error, and then uses the nil node: see Overlay.v. *)
Definition build_paths (sed : sed_engine) (ts : list tree) : res tree :=
  match ts with
  | [] => Panic                                    (* yamlNodes[0] of an empty slice *)
  | t :: r => merge_node sed t r
  end.
