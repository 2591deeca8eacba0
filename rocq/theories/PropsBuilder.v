(** Properties of the path builder: C26, C27, C28, C29. *)
From Verif Require Import Prelude GoStrings Yaml MergeTree Builder SpecBuilder.
From Verif Require Import ProofBuilder ProofBuilderPaths ProofBuilderBrackets.

(** *** C26: dotted paths build exactly their keys *)
Theorem C26_dotted_path_builds_its_keys (names : list (list N)) :
  Forall plain_name names ->
  build (ch "$" :: dotted names) = Ok (document_of (nested names empty_scalar)) /\
  (names <> [] -> build (dotted names) = Ok (document_of (nested names empty_scalar))) /\
  (forall n r, names = n :: r -> bare_name n -> build (joined names) = Ok (document_of (nested names empty_scalar))).
Proof.
  intros F. split; [|split].
  - rewrite <- (app_nil_r (dotted names)). rewrite build_root by (done || by left). reflexivity.
  - intros NE. destruct names as [|n names]; [done|].
    rewrite <- (app_nil_r (dotted (n :: names))). rewrite build_dot by (done || by left). reflexivity.
  - intros n r -> B. rewrite <- (app_nil_r (joined (n :: r))). inversion F; subst.
    rewrite build_bare by (done || by left). reflexivity.
Qed.

Definition plainb (n : list N) : bool :=
  negb (match n with [] => true | _ => false end) &&
  forallb (fun c => negb (existsb (ceq c) (lit ".[) &|=!><~*")) && negb (ceq c (ch "\"))) n.

Lemma plainb_spec n : plainb n = true -> plain_name n.
Proof.
  unfold plainb. rewrite andb_true_iff, forallb_forall. intros [NE F]. split; [split|].
  - by destruct n.
  - rewrite List.Forall_forall. intros c C S. specialize (F c C). apply andb_true_iff in F as [F _].
    rewrite negb_true_iff, <- not_true_iff_false in F. apply F, existsb_exists. exists c. split; [exact S|apply N.eqb_refl].
  - intros C. specialize (F _ C). apply andb_true_iff in F as [_ F]. discriminate.
Qed.

Example C26_applies :
  Forall plain_name [lit "metadata"; lit "app-kubernetes@x"; lit "it's"] /\ bare_name (lit "metadata") /\
  ch "$" :: dotted [lit "metadata"; lit "app-kubernetes@x"; lit "it's"] = lit "$.metadata.app-kubernetes@x.it's".
Proof.
  split; [repeat (apply Forall_cons; split; [apply plainb_spec; vm_compute; reflexivity|]); constructor|].
  split; [|reflexivity]. split; [apply plainb_spec; vm_compute; reflexivity|].
  intros c r [= <- _]. split; discriminate.
Qed.

(** Outside the property: the empty path builds a bare scalar without a
    document, and a backslash does not protect a dot. *)
Theorem C26_empty_path_has_no_document : build [] = Ok empty_scalar.
Proof. reflexivity. Qed.
Theorem C26_escaped_dot_splits_the_key :
  build (lit "$.a\.b") = Ok (document_of (nested [lit "a"; lit "b"] empty_scalar)).
Proof. vm_compute. reflexivity. Qed.

(** A backslash is dropped twice after a dot, but only once at the start. *)
Theorem C26_backslash_lost_refuted :
  build (lit "$.a\\b") = Ok (document_of (nested [lit "ab"] empty_scalar)) /\
  build (lit "a\\b") = Ok (document_of (nested [lit "a\b"] empty_scalar)).
Proof. split; vm_compute; reflexivity. Qed.

(** *** C27: bracketed names build exactly their keys *)
Theorem C27_bracketed_names_build_their_keys (pre post : list (list N)) (items : list item) :
  Forall plain_name pre -> Forall plain_name post -> Forall item_ok items -> items <> [] ->
  build (ch "$" :: dotted pre ++ bracketed items ++ dotted post) =
  Ok (document_of (nested pre (fan (map it_name items) (nested post empty_scalar)))).
Proof.
  intros F1 F2 FI NE. rewrite build_root; [|done|].
  - rewrite parse_bracket by done. rewrite <- (app_nil_r (dotted post)).
    rewrite parse_dotted by (done || by left). destruct post; reflexivity.
  - right. eexists _, _. split; [reflexivity|apply special_bracket].
Qed.

(** Also without "$", right at the start. *)
Theorem C27_bracketed_names_at_the_start (post : list (list N)) (items : list item) :
  Forall plain_name post -> Forall item_ok items -> items <> [] ->
  build (bracketed items ++ dotted post) =
  Ok (document_of (fan (map it_name items) (nested post empty_scalar))).
Proof.
  intros F2 FI NE. rewrite build_parse'.
  change (bracketed items ++ dotted post) with
    (ch "[" :: (join_with [ch ","] (map item_text items) ++ [ch "]"]) ++ dotted post) at 1.
  cbv iota. change (ceq (ch "[") (ch "$")) with false. cbv iota.
  rewrite parse_bracket by done. rewrite <- (app_nil_r (dotted post)).
  rewrite parse_dotted by (done || by left). destruct post; reflexivity.
Qed.

Example C27_applies :
  let items := [mkItem [] single_quote (lit "a,b.c") (lit " "); mkItem (lit " ") double_quote (lit "x [y], z") [];
                mkItem [] single_quote (lit "it's, a\b") []] in
  Forall item_ok items /\ bracketed items = lit "['a,b.c' , " ++ [34%N] ++ lit "x [y], z" ++ [34%N] ++ lit ",'it\'s, a\\b']".
Proof.
  split; [|reflexivity].
  assert (Q : forall q n, forallb (fun c => implb (ceq c single_quote || ceq c double_quote) (ceq c q)) n = true ->
    last n <> Some backslash -> quotable q n).
  { intros q n F L. rewrite forallb_forall in F. split.
    - intros c C I. specialize (F c I). destruct (ceq_spec c q); [done|]. destruct C as [->| ->]; discriminate F.
    - intros r ->. rewrite last_snoc in L. done. }
  assert (B : forall n, forallb is_space n = true -> blanks n).
  { intros n F. unfold blanks, space_char. rewrite List.Forall_forall. rewrite forallb_forall in F. exact F. }
  repeat (apply Forall_cons; split; [split; [apply B; reflexivity|split; [apply B; reflexivity|split; [apply Q; [reflexivity|discriminate]|]]]|]);
    [by left|by right|by left|constructor].
Qed.

(** A quote of the other kind inside a name, or a backslash at its end, confuses
    the splitting: the two names below become a single, different key. *)
Theorem C27_embedded_quote_refuted :
  build (lit "$['it" ++ [34%N] ++ lit "s','b']") =
  Ok (document_of (fan [lit "it" ++ [34%N] ++ lit "s','b"] empty_scalar)).
Proof. vm_compute. reflexivity. Qed.
Theorem C27_final_backslash_refuted :
  bracketed [mkItem [] single_quote (lit "a\") []; mkItem [] single_quote (lit "b") []] = lit "['a\\','b']" /\
  build (lit "$['a\\','b']") = Ok (document_of (fan [lit "a\','b"] empty_scalar)).
Proof. split; vm_compute; reflexivity. Qed.

(** *** C28: path parsing always terminates with one error class *)
Theorem C28_path_parsing_total (s : list N) :
  (exists t, build s = Ok t) \/ build s = Err EInvalidPath.
Proof. exact (build_safe s). Qed.

Theorem C28_path_lists_total (paths : list (list N)) :
  (exists ts, build_all paths = Ok ts /\ Forall2 (fun p t => build p = Ok t) paths ts) \/
  (build_all paths = Err EInvalidPath /\ exists p, In p paths /\ build p = Err EInvalidPath).
Proof.
  induction paths as [|p r IH]; [left; exists []; split; [done|constructor]|].
  cbn [build_all]. destruct (build_safe p) as [[t H]|H]; rewrite H; cbn [rbind].
  - destruct IH as [(ts & E & F)|(E & q & I & Q)]; rewrite E; cbn [rbind].
    + left. eexists. split; [reflexivity|]. constructor; done.
    + right. split; [done|]. exists q. split; [by right|done].
  - right. split; [done|]. exists p. split; [by left|done].
Qed.

Example C28_both_happen : (exists t, build (lit "a.b") = Ok t) /\ build (lit "a[0]") = Err EInvalidPath.
Proof. split; [eexists|]; vm_compute; reflexivity. Qed.

(** *** C29: expression queries never become scaffolding *)
(** Everything accepted consists of plain keys and quoted keys. *)
Theorem C29_accepted_paths_are_keys (s : list N) (t : tree) : build s = Ok t -> path_text s.
Proof. exact (build_inv s t). Qed.

(** Wildcards, recursive descent, filters, subscripts, slices and the key
    operator after an ordinary start are rejected. *)
Theorem C29_expressions_rejected (p r : list N) :
  dotted_start p -> expression_tail r -> build (p ++ r) = Err EInvalidPath.
Proof. exact (dotted_start_rejected p r). Qed.

Example C29_applies :
  dotted_start (lit "$.a.b") /\
  Forall (fun r => expression_tail (lit r)) [".*"; "..c"; "~"; "[0]"; "[*]"; "[1:2]"; "[ ?(@.x==1)]"; ".*.d"; "*"]%string.
Proof.
  split.
  - apply (ds_root [lit "a"; lit "b"]).
    repeat (apply Forall_cons; split; [apply plainb_spec; vm_compute; reflexivity|]); constructor.
  - repeat (apply Forall_cons; split).
    + apply et_dot. unfold special; cbn; auto 20.
    + apply et_dot. unfold special; cbn; auto 20.
    + apply et_operator. cbn; auto 20.
    + apply (et_subscript [] (lit "0]")); [constructor|]. intros c r [= <- _]. repeat split; discriminate.
    + apply (et_subscript [] (lit "*]")); [constructor|]. intros c r [= <- _]. repeat split; discriminate.
    + apply (et_subscript [] (lit "1:2]")); [constructor|]. intros c r [= <- _]. repeat split; discriminate.
    + apply (et_subscript (lit " ") (lit "?(@.x==1)]")); [repeat constructor|]. intros c r [= <- _]. repeat split; discriminate.
    + apply et_dot. unfold special; cbn; auto 20.
    + apply et_operator. cbn; auto 20.
    + constructor.
Qed.

Print Assumptions C26_dotted_path_builds_its_keys.
Print Assumptions C27_bracketed_names_build_their_keys.
Print Assumptions C27_bracketed_names_at_the_start.
Print Assumptions C26_backslash_lost_refuted.
Print Assumptions C27_embedded_quote_refuted.
Print Assumptions C27_final_backslash_refuted.
Print Assumptions C28_path_parsing_total.
Print Assumptions C28_path_lists_total.
Print Assumptions C29_accepted_paths_are_keys.
Print Assumptions C29_expressions_rejected.
