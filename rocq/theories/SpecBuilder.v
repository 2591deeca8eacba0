(** What path strings mean, stated without the lexer.

    A path is an optional "$" followed by segments.  A segment is a dot and a
    name, or (only first) a bare name, or a bracket holding quoted names. *)
From Verif Require Import Prelude GoStrings Yaml.

(** The characters at which an unquoted name ends. *)
Definition special (c : N) : Prop := In c (lit ".[) &|=!><~*").
Definition backslash : N := ch "\".
Definition single_quote : N := ch "'".
Definition double_quote : N := 34%N.
Definition space_char (c : N) : Prop := is_space c = true.

(** A name that can be written unquoted. *)
Definition name_ok (n : list N) : Prop := n <> [] /\ Forall (fun c => ~ special c) n.
(** ... and that means itself. *)
Definition plain_name (n : list N) : Prop := name_ok n /\ ~ In backslash n.
(** ... also at the very start of a path. *)
Definition bare_name (n : list N) : Prop :=
  plain_name n /\ forall c r, n = c :: r -> c <> ch "$" /\ ~ space_char c.
(** How a name is written between quotes [q]: a backslash before every [q] and
    every backslash. *)
Fixpoint escape (q : N) (n : list N) : list N :=
  match n with
  | [] => []
  | c :: r => (if N.eqb c q || N.eqb c backslash then [backslash; c] else [c]) ++ escape q r
  end.
(** A name that can be written between quotes [q]: it has no quote of the other
    kind and does not end in a backslash. *)
Definition quotable (q : N) (n : list N) : Prop :=
  (forall c, c = single_quote \/ c = double_quote -> In c n -> c = q) /\
  (forall r, n <> r ++ [backslash]).

(** The nodes of a scaffold: nothing but kind, value and children. *)
Definition empty_info (k : kind) (v : list N) : info := mkInfo k 0 [] v [] [] [] [] 0 0.
Definition empty_scalar : tree := T (empty_info KScalar []) None.
Definition entry (name : list N) (sub : tree) : list tree := [T (empty_info KScalar name) None; sub].
Definition mapping_of (c : list tree) : tree := T (empty_info KMapping []) (Some c).
Definition document_of (t : tree) : tree := T (empty_info KDocument []) (Some [t]).

(** Nested single-key mappings ending in an empty scalar. *)
Fixpoint nested (names : list (list N)) (leaf : tree) : tree :=
  match names with
  | [] => leaf
  | n :: r => mapping_of (entry n (nested r leaf))
  end.

(** One mapping with an entry per name, every value being [leaf]. *)
Definition fan (names : list (list N)) (leaf : tree) : tree :=
  mapping_of (concat (map (fun n => entry n leaf) names)).

(** ".a.b.c" *)
Definition dotted (names : list (list N)) : list N := concat (map (fun n => ch "." :: n) names).
(** "a.b.c" *)
Definition joined (names : list (list N)) : list N := join_with [ch "."] names.
(** Text between quotes. *)
Definition quoted (q : N) (n : list N) : list N := q :: n ++ [q].

(** "['a', \"b\" ,'c']": every name with its own quotes and optional white
    space around it. *)
Record item := mkItem { it_lead : list N; it_quote : N; it_name : list N; it_trail : list N }.
Definition item_text (i : item) : list N := it_lead i ++ quoted (it_quote i) (escape (it_quote i) (it_name i)) ++ it_trail i.
Definition bracketed (items : list item) : list N :=
  ch "[" :: join_with [ch ","] (map item_text items) ++ [ch "]"].

(** Text between two quotes [q]: any characters, with [q] and the backslash
    written after a backslash. *)
Inductive escaped_text (q : N) : list N -> Prop :=
  | et_nil : escaped_text q []
  | et_quote r : escaped_text q r -> escaped_text q (backslash :: q :: r)
  | et_backslash r : escaped_text q r -> escaped_text q (backslash :: backslash :: r)
  | et_other c r : c <> q -> c <> backslash -> escaped_text q r -> escaped_text q (c :: r).

Definition blanks (s : list N) : Prop := Forall space_char s.

Definition item_ok (i : item) : Prop :=
  blanks (it_lead i) /\ blanks (it_trail i) /\ quotable (it_quote i) (it_name i) /\
  (it_quote i = single_quote \/ it_quote i = double_quote).

Inductive quoted_list : list N -> Prop :=
  | ql_one w q body :
      blanks w -> q = single_quote \/ q = double_quote -> escaped_text q body ->
      quoted_list (w ++ quoted q body)
  | ql_more w q body w' r :
      blanks w -> q = single_quote \/ q = double_quote -> escaped_text q body ->
      blanks w' -> quoted_list r ->
      quoted_list (w ++ quoted q body ++ w' ++ ch "," :: r).

Inductive segment : list N -> Prop :=
  | seg_dot n : name_ok n -> segment (ch "." :: n)
  | seg_bracket w l w' : blanks w -> quoted_list l -> blanks w' ->
      segment (w ++ ch "[" :: l ++ w' ++ [ch "]"]).

Inductive segments : list N -> Prop :=
  | segs_nil : segments []
  | segs_cons a b : segment a -> segments b -> segments (a ++ b).

Inductive path_text : list N -> Prop :=
  | pt_empty : path_text []
  | pt_root r : segments r -> path_text (ch "$" :: r)
  | pt_segments r : segments r -> path_text r
  | pt_bare n r : name_ok n -> segments r -> path_text (n ++ r).

(** Query texts that start with ordinary keys. *)
Inductive dotted_start : list N -> Prop :=
  | ds_root names : Forall plain_name names -> dotted_start (ch "$" :: dotted names)
  | ds_dot names : Forall plain_name names -> dotted_start (dotted names)
  | ds_bare n names : bare_name n -> Forall plain_name names -> dotted_start (joined (n :: names)).

(** Tails that are expressions rather than keys: an operator or wildcard
    character; a dot not followed by a name (".*", "..", ".["); a bracket not
    followed by a quote (subscripts, slices, wildcards, filters). *)
Inductive expression_tail : list N -> Prop :=
  | et_operator c r : In c (lit ")&|=!><~*") -> expression_tail (c :: r)
  | et_dot_end : expression_tail [ch "."]
  | et_dot c r : special c -> expression_tail (ch "." :: c :: r)
  | et_subscript w r : blanks w ->
      (forall c r', r = c :: r' -> ~ space_char c /\ c <> single_quote /\ c <> double_quote) ->
      expression_tail (ch "[" :: w ++ r).
