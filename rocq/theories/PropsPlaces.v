(** C78: where the value goes when the query finds nothing. *)
From Verif Require Import Prelude GoStrings Yaml Format MergeTree Heap HeapActions ActionNames Builder SpecBuilder ProofBuilder PropsBuilder Overlay Finder SpecReach SpecActions SpecOverlay SpecQuery
  ProofQuery ProofActions Examples ExamplesHeap PropsLocal PropsQuery.

(** The effective onMissing action is inject. *)
Definition injects (dflt : list N) (o : overlay) : Prop :=
  o_missing o = MInject \/ (o_missing o = MDefault /\ Forall2 cased dflt (lit "inject")).
(** A path that is not just a path of keys: after an ordinary start comes a wildcard, recursive
    descent, a filter, a subscript, a slice or the key operator (C29). *)
Definition expression (s : list N) : Prop := exists p r, s = p ++ r /\ dotted_start p /\ expression_tail r.
(** The same overlay with another injectPath or other queries. *)
Definition with_inject (i : option (list query)) (o : overlay) : overlay :=
  mkOverlay (o_queries o) (o_value o) (o_action o) (o_docqueries o) (o_missing o) i (o_index o).
Definition with_queries (qs : list query) (o : overlay) : overlay :=
  mkOverlay qs (o_value o) (o_action o) (o_docqueries o) (o_missing o) (o_inject o) (o_index o).

Lemma expression_rejected s : expression s -> build s = Err EInvalidPath.
Proof. intros (p & r & -> & D & E). by apply C29_expressions_rejected. Qed.
Lemma some_rejected qs : (exists q, In q qs /\ expression (q_text q)) -> build_all (map q_text qs) = Err EInvalidPath.
Proof.
  intros (q & I & E). destruct (C28_path_lists_total (map q_text qs)) as [(ts & _ & F)|[X _]]; [|done]. exfalso.
  apply expression_rejected in E. assert (J : In (q_text q) (map q_text qs)) by (by apply in_map).
  revert J E. generalize (q_text q). clear I. induction F as [|s t ss ts B _ IH]; intros s0 J E; [done|]. destruct J as [->|J]; [congruence|eauto].
Qed.
Lemma all_keys qs : Forall dotted_start (map q_text qs) -> exists ts, build_all (map q_text qs) = Ok ts.
Proof.
  intros K. destruct (C28_path_lists_total (map q_text qs)) as [(ts & X & F)|[X (p & I & E)]]; [eauto|]. exfalso.
  rewrite Forall_forall in K. apply elem_of_list_In in I. specialize (K p I). revert E. clear -K. destruct K as [names PN|names PN|n names BN PN].
  - destruct (C26_dotted_path_builds_its_keys names PN) as [B _]. congruence.
  - destruct names as [|n names]; [done|]. destruct (C26_dotted_path_builds_its_keys (n :: names) PN) as (_ & B & _). rewrite B by done. done.
  - assert (PN' : Forall plain_name (n :: names)) by (constructor; [apply BN|done]).
    destruct (C26_dotted_path_builds_its_keys (n :: names) PN') as (_ & _ & B). by rewrite (B n names).
Qed.

(** When nothing is found, Apply comes down to handleInjectPath. *)
Lemma apply_missing_run h d fuel sed dflt o node :
  closed h -> d <= fuel -> node < length h -> conditions_ok d h node (o_docqueries o) -> qualifies h node (o_docqueries o) ->
  (forall x, ~ finds h (o_queries o) node x) -> injects dflt o ->
  outcome (apply fuel sed dflt o node h) = h_handle_inject fuel sed o node h.
Proof.
  intros C L N V Q NF IJ. destruct (check_spec h d fuel node (o_docqueries o) C L N V) as (e & E1 & E2).
  unfold apply. rewrite E1. apply E2 in Q as ->.
  destruct (find_result h (o_queries o) node N) as ([|x rs] & F & Hrs).
  2:{ exfalso. apply (NF x). apply Hrs. by left. }
  rewrite F.
  assert (RM : h_on_missing fuel sed (resolve_missing dflt o) node h = h_handle_inject fuel sed o node h).
  { unfold resolve_missing. destruct IJ as [M|[M D]]; rewrite M.
    - unfold h_on_missing. by rewrite M.
    - rewrite <- inject_spelled in D. rewrite D. reflexivity. }
  rewrite RM. by destruct (h_handle_inject fuel sed o node h).
Qed.

Section missing.
Context (h : heap) (d fuel : nat) (sed : sed_engine) (dflt : list N) (o : overlay) (node : loc).
(** A document the overlay applies to and in which its queries find nothing. *)
Context (C : closed h) (L : d <= fuel) (N : node < length h) (V : conditions_ok d h node (o_docqueries o)) (Q : qualifies h node (o_docqueries o)).
Context (NF : forall x, ~ finds h (o_queries o) node x) (IJ : injects dflt o).

(** *** C78: an expression without injectPath is ignored *)
Theorem C78_expression_without_inject_path :
  (exists q, In q (o_queries o) /\ expression (q_text q)) -> o_inject o = None ->
  outcome (apply fuel sed dflt o node h) = (h, Ok tt).
Proof.
  intros E I. rewrite (apply_missing_run h d) by done. unfold h_handle_inject. by rewrite (some_rejected _ E), I.
Qed.

(** *** C78: an injectPath that is not a path of keys is an error, and nothing is changed *)
Theorem C78_inject_path_must_be_keys ips :
  (exists q, In q (o_queries o) /\ expression (q_text q)) -> o_inject o = Some ips ->
  (exists q, In q ips /\ expression (q_text q)) ->
  outcome (apply fuel sed dflt o node h) = (h, Err EInvalidPath).
Proof.
  intros E I E'. rewrite (apply_missing_run h d) by done. unfold h_handle_inject. rewrite (some_rejected _ E), I.
  unfold h_inject. by rewrite (some_rejected _ E').
Qed.

(** *** C78: ... so that the documentation's example of an injectPath fails *)
Theorem C78_refuted_documented_inject_path ips :
  (exists q, In q (o_queries o) /\ q_text q = lit "..image") -> o_inject o = Some ips ->
  (exists q, In q ips /\ q_text q = lit "spec.template.spec.containers[0].image") ->
  outcome (apply fuel sed dflt o node h) = (h, Err EInvalidPath).
Proof.
  intros (q & I & E) J (q' & I' & E'). rewrite (apply_missing_run h d) by done. unfold h_handle_inject.
  assert (X : forall qs q, In q qs -> build (q_text q) = Err EInvalidPath -> build_all (map q_text qs) = Err EInvalidPath).
  { clear. intros qs q I E. destruct (C28_path_lists_total (map q_text qs)) as [(ts & _ & F)|[X _]]; [|done]. exfalso.
    assert (J : In (q_text q) (map q_text qs)) by (by apply in_map).
    revert J E. generalize (q_text q). clear I. induction F as [|s t ss ts B _ IH]; intros s0 J E; [done|]. destruct J as [->|J]; [congruence|eauto]. }
  rewrite (X _ _ I) by (rewrite E; by vm_compute). rewrite J. unfold h_inject. rewrite (X _ _ I'); [done|]. rewrite E'. by vm_compute.
Qed.

(** *** C78: a path of keys is its own inject path: injectPath is not looked at *)
Theorem C78_keys_need_no_inject_path i :
  Forall dotted_start (map q_text (o_queries o)) ->
  outcome (apply fuel sed dflt (with_inject i o) node h) = outcome (apply fuel sed dflt o node h).
Proof.
  intros K. rewrite !(apply_missing_run h d) by done. unfold h_handle_inject. cbn [with_inject o_queries o_value].
  by destruct (all_keys _ K) as [ts ->].
Qed.

(** *** C78: with an expression, the value goes where it would go if the injectPath were the
    query (and not found either) *)
Theorem C78_inject_path_instead_of_query ips :
  (exists q, In q (o_queries o) /\ expression (q_text q)) -> o_inject o = Some ips ->
  Forall dotted_start (map q_text ips) -> (forall x, ~ finds h ips node x) ->
  outcome (apply fuel sed dflt o node h) = outcome (apply fuel sed dflt (with_queries ips o) node h).
Proof.
  intros E I K NF'. rewrite !(apply_missing_run h d) by done. unfold h_handle_inject. cbn [with_queries o_queries o_value].
  rewrite (some_rejected _ E), I. by destruct (all_keys _ K) as [ts ->].
Qed.

(** *** C78: the action does not matter: contrary to the documentation, inject also applies to
    delete and combine *)
Theorem C78_refuted_action_matters a :
  outcome (apply fuel sed dflt (with_action a o) node h) = outcome (apply fuel sed dflt o node h).
Proof. by rewrite !(apply_missing_run h d). Qed.

(** *** C78: an empty list of paths to inject at crashes *)
Theorem C78_refuted_empty_lists :
  (o_queries o = [] -> snd (apply fuel sed dflt o node h) = Panic) /\
  ((exists q, In q (o_queries o) /\ expression (q_text q)) -> o_inject o = Some [] -> snd (apply fuel sed dflt o node h) = Panic).
Proof.
  assert (X : snd (apply fuel sed dflt o node h) = snd (outcome (apply fuel sed dflt o node h))) by (by destruct (apply fuel sed dflt o node h) as [[? ?] ?]).
  rewrite X, (apply_missing_run h d) by done. unfold h_handle_inject. split.
  - by intros ->.
  - intros E ->. by rewrite (some_rejected _ E).
Qed.
End missing.

(** *** Concrete cases: ..image is not in the document *)
Definition q_deep_image : query := mkQuery (lit "..image") (fun _ _ => []).
Definition q_first_image : query := mkQuery (lit "spec.template.spec.containers[0].image") (fun _ _ => []).
Definition ex_inject (a : action) (q : query) (i : option (list query)) : overlay := mkOverlay [q] ex_x a [] MInject i None.
Example C78_applies :
  closed ex_heap /\ ex_doc < length ex_heap /\
  (forall a i, conditions_ok 20 ex_heap ex_doc (o_docqueries (ex_inject a q_deep_image i)) /\ qualifies ex_heap ex_doc (o_docqueries (ex_inject a q_deep_image i)) /\
     (forall x, ~ finds ex_heap (o_queries (ex_inject a q_deep_image i)) ex_doc x) /\ injects [] (ex_inject a q_deep_image i)) /\
  expression (lit "..image") /\ expression (lit "spec.template.spec.containers[0].image") /\ dotted_start (lit "metadata.labels") /\
  (forall x, ~ finds ex_heap [q_missing] ex_doc x) /\
  fst (outcome (apply 20 no_sed [] (ex_inject ADelete q_missing None) ex_doc ex_heap)) <> ex_heap /\
  snd (outcome (apply 20 no_sed [] (ex_inject ADelete q_missing None) ex_doc ex_heap)) = Ok tt.
Proof.
  split; [apply closedb_spec; by vm_compute|]. split; [apply Nat.ltb_lt; by vm_compute|]. split.
  { intros a i. cbn. split; [intros g c []|]. split; [by left|]. split; [|by left]. intros x [_ (q & [<-|[]] & [])]. }
  split; [exists [], (lit "..image"); split; [done|]; split; [apply (ds_dot []); constructor|apply (et_dot (ch ".") (lit "image")); cbn; tauto]|].
  split.
  { exists (lit "spec.template.spec.containers"), (lit "[0].image"). split; [done|]. split.
    - apply (ds_bare (lit "spec") [lit "template"; lit "spec"; lit "containers"]); [split; [apply plainb_spec; vm_compute; reflexivity|intros c r [= <- _]; split; discriminate]|repeat (apply Forall_cons; split; [apply plainb_spec; vm_compute; reflexivity|]); constructor].
    - apply (et_subscript [] (lit "0].image")); [constructor|]. intros c r [= <- _]. repeat split; discriminate. }
  split; [apply (ds_bare (lit "metadata") [lit "labels"]); [split; [apply plainb_spec; vm_compute; reflexivity|intros c r [= <- _]; split; discriminate]|repeat (apply Forall_cons; split; [apply plainb_spec; vm_compute; reflexivity|]); constructor]|].
  split; [intros x [_ (q & [<-|[]] & I)]; by vm_compute in I|].
  split; [vm_compute; discriminate|by vm_compute].
Qed.

Print Assumptions C78_expression_without_inject_path.
Print Assumptions C78_inject_path_must_be_keys.
Print Assumptions C78_refuted_documented_inject_path.
Print Assumptions C78_keys_need_no_inject_path.
Print Assumptions C78_inject_path_instead_of_query.
Print Assumptions C78_refuted_action_matters.
Print Assumptions C78_refuted_empty_lists.
