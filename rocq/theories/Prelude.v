(** Basic vocabulary shared by the whole development.

    Strings.  A Go string handled by the tool is modelled by the list of its
    Unicode code points.  Simplification: Go strings are byte sequences; every
    string the tool handles has been produced by yaml.v3 (which rejects
    invalid UTF-8) or comes from the file system/command line.  All the
    functions modelled here look only at ASCII characters (and at Unicode
    white space in the lexer), so byte and code point positions agree up to
    renumbering. *)
From Coq Require Export NArith ZArith Ascii Bool Lia.
From stdpp Require Export base list option strings.

Global Open Scope list_scope.

Notation char := N (only parsing).
Notation str := (list N) (only parsing).

(** A Coq string literal as a list of code points (ASCII only). *)
Fixpoint lit (s : string) : list N :=
  match s with
  | EmptyString => []
  | String c r => N_of_ascii c :: lit r
  end.

(** A single ASCII character literal. *)
(* Notation for Go character literals such as the "%" of markers.go:10-21 (models no function of /repo). *)
Definition ch (c : ascii) : N := N_of_ascii c.

(** Boolean equality of characters and strings (Go's [==]). *)
(* Comparison of two characters, as in path.go:260 (models Go itself). *)
Definition ceq (a b : N) : bool := N.eqb a b.
(* Comparison of two strings, as in merge.go:84 (models Go itself). *)
Fixpoint seq_eqb (a b : list N) : bool :=
  match a, b with
  | [], [] => true
  | x :: a', y :: b' => ceq x y && seq_eqb a' b'
  | _, _ => false
  end.

Lemma ceq_spec a b : reflect (a = b) (ceq a b).
Proof. apply N.eqb_spec. Qed.

Lemma seq_eqb_spec a b : reflect (a = b) (seq_eqb a b).
Proof.
  revert b; induction a as [|x a IH]; intros [|y b]; simpl; try (constructor; congruence).
  destruct (ceq_spec x y) as [->|Hn]; simpl.
  - destruct (IH b) as [->|Hn]; constructor; congruence.
  - constructor; congruence.
Qed.

Lemma seq_eqb_refl a : seq_eqb a a = true.
Proof. destruct (seq_eqb_spec a a); congruence. Qed.

(** Outcome of a Go function that may return an error or panic.  [Fuel] is
    the outcome of a model function whose recursion budget ran out; it does
    not correspond to any Go behaviour except non-termination, and theorems
    exclude it explicitly. *)
(* (the errors /repo can return; the line of each is beside it: merge.go, combine.go, path.go, action.go, yamlfile.go) *)
Inductive err :=
  | EMergeUnsupported    (* actions.ErrMergeUnsupportedType, merge.go:19 *)
  | ECombineOnlyScalars  (* actions.ErrCombineOnlyForScalars, combine.go:15 *)
  | EAtoi                (* strconv.Atoi failure, combine.go:28,33 *)
  | EParseBool           (* strconv.ParseBool failure, combine.go:43,48 *)
  | EInvalidPath         (* builder.ErrInvalidPathSyntax, path.go:18 *)
  | EWildcard            (* builder.ErrWildCardNotAllowed, path.go:20 *)
  | EInvalidAction       (* actions.ErrInvalidAction, action.go:18 *)
  | EDirWithFileOutput   (* instructions.ErrFoundDirectoryWithPathOutput, yamlfile.go:18 *)
  | EFs                  (* any file system error *)
  | EEncode              (* yaml encoder error *)
  | EDecode              (* yaml decoder error *)
  | ECanceled.           (* context.Canceled *)

Global Instance err_eq_dec : EqDecision err.
Proof. solve_decision. Defined.

(* The result types (T, error) of /repo, and panics, as in execute.go:18-71. *)
Inductive res (A : Type) :=
  | Ok (a : A)
  | Err (e : err)
  | Panic
  | Fuel.
Arguments Ok {_} _. Arguments Err {_} _. Arguments Panic {_}. Arguments Fuel {_}.

(* if err != nil { return err }, as in merge.go:61-63. *)
Definition rbind {A B} (r : res A) (f : A -> res B) : res B :=
  match r with Ok a => f a | Err e => Err e | Panic => Panic | Fuel => Fuel end.
Notation "'let!' x := r 'in' f" := (rbind r (fun x => f))
  (at level 200, x pattern, r at level 100, f at level 200, right associativity).
