(** yaml.v3 nodes as immutable trees.

    External library gopkg.in/yaml.v3, type Node.  The field Alias (a pointer
    used only by alias nodes) is not part of a tree: the encoder prints an
    alias from Value alone, and no action of the tool reads Alias except the
    deep copy; the heap model (Heap.v) has the field.  Style, Line and Column
    are unbounded numbers. *)
From Verif Require Import Prelude.

(** yaml.v3 Kind; KZero is the zero value (an unset node). *)
Inductive kind := KZero | KDocument | KSequence | KMapping | KScalar | KAlias.

Definition kind_eqb (a b : kind) : bool :=
  match a, b with
  | KZero, KZero | KDocument, KDocument | KSequence, KSequence
  | KMapping, KMapping | KScalar, KScalar | KAlias, KAlias => true
  | _, _ => false
  end.
Lemma kind_eqb_spec a b : reflect (a = b) (kind_eqb a b).
Proof. destruct a, b; simpl; constructor; congruence. Qed.

Global Instance kind_eq_dec : EqDecision kind.
Proof. solve_decision. Defined.

(** The fields of a node other than Content and Alias. *)
(* yaml.v3 yaml.go, type Node (external) *)
Record info := mkInfo {
  i_kind : kind; i_style : N; i_tag : list N; i_value : list N; i_anchor : list N;
  i_head : list N; i_linec : list N; i_foot : list N; i_row : N; i_col : N }.

(** Content: Go distinguishes a nil slice ([None]) from an empty one
    ([Some []]); the tool tests Content against nil at merge.go:58,125 and
    delete.go:15. *)
Inductive tree := T (i : info) (c : option (list tree)).

Definition t_info (t : tree) : info := match t with T i _ => i end.
Definition t_content (t : tree) : option (list tree) := match t with T _ c => c end.
(** The elements of Content as seen by a range loop or len(). *)
(* as in merge.go:80 *)
Definition children (t : tree) : list tree :=
  match t_content t with Some l => l | None => [] end.
(* yaml.v3 Node.Kind (external) *)
Definition t_kind (t : tree) : kind := i_kind (t_info t).
(* yaml.v3 Node.Value (external) *)
Definition t_value (t : tree) : list N := i_value (t_info t).
(* yaml.v3 Node.Tag (external) *)
Definition t_tag (t : tree) : list N := i_tag (t_info t).

(** Field updates. *)
(* an assignment such as merge.go:74 *)
Definition set_kind (k : kind) (i : info) : info :=
  mkInfo k (i_style i) (i_tag i) (i_value i) (i_anchor i) (i_head i) (i_linec i) (i_foot i) (i_row i) (i_col i).
(* an assignment such as style.go:77 *)
Definition set_style_i (s : N) (i : info) : info :=
  mkInfo (i_kind i) s (i_tag i) (i_value i) (i_anchor i) (i_head i) (i_linec i) (i_foot i) (i_row i) (i_col i).
(* an assignment such as merge.go:52 *)
Definition set_tag (t : list N) (i : info) : info :=
  mkInfo (i_kind i) (i_style i) t (i_value i) (i_anchor i) (i_head i) (i_linec i) (i_foot i) (i_row i) (i_col i).
(* an assignment such as combine.go:36 *)
Definition set_value (v : list N) (i : info) : info :=
  mkInfo (i_kind i) (i_style i) (i_tag i) v (i_anchor i) (i_head i) (i_linec i) (i_foot i) (i_row i) (i_col i).
(* assignments such as yamlfile.go:188-190 *)
Definition set_comments (h l f : list N) (i : info) : info :=
  mkInfo (i_kind i) (i_style i) (i_tag i) (i_value i) (i_anchor i) h l f (i_row i) (i_col i).

(** Induction principle reaching the children. *)
Section tree_ind.
  Context (P : tree -> Prop).
  Context (Hnone : forall i, P (T i None)).
  Context (Hsome : forall i l, Forall P l -> P (T i (Some l))).
  Fixpoint tree_ind' (t : tree) : P t :=
    match t with
    | T i None => Hnone i
    | T i (Some l) =>
        Hsome i l ((fix go (l : list tree) : Forall P l :=
                      match l with
                      | [] => @List.Forall_nil tree P
                      | t :: r => @List.Forall_cons tree P t r (tree_ind' t) (go r)
                      end) l)
    end.
End tree_ind.

(* A measure for statements and proofs (models no function of /repo). *)
Fixpoint tree_size (t : tree) : nat :=
  match t with
  | T _ None => 1
  | T _ (Some l) => S (fold_right (fun t n => tree_size t + n) 0 l)
  end.
