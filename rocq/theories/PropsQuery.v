(** C20, C22, C23: document queries and onMissing. *)
From Verif Require Import Prelude GoStrings Yaml Heap ActionNames Overlay Finder SpecReach SpecActions SpecOverlay SpecQuery
  ProofQuery ProofActions Examples ExamplesHeap PropsLocal.

(** *** C20: documentQuery is an OR of AND groups *)
(** The overlay acts as one without document queries when the document
    qualifies, and does nothing at all otherwise. *)
Theorem C20_applied_iff_document_qualifies h d fuel sed dflt o node :
  closed h -> d <= fuel -> node < length h -> conditions_ok d h node (o_docqueries o) ->
  (qualifies h node (o_docqueries o) ->
     outcome (apply fuel sed dflt o node h) = outcome (apply fuel sed dflt (with_docqueries [] o) node h)) /\
  (~ qualifies h node (o_docqueries o) -> apply fuel sed dflt o node h = (h, o, Ok tt)).
Proof.
  intros C L N V. split; intros Q.
  - by eapply apply_qualified.
  - by eapply apply_disqualified.
Qed.

(** Whether it qualifies is decided, so one of the two always holds. *)
Theorem C20_qualification_decided h d node dq :
  closed h -> node < length h -> conditions_ok d h node dq -> qualifies h node dq \/ ~ qualifies h node dq.
Proof.
  intros C N V. destruct (check_spec h d d node dq C (le_n _) N V) as ([] & _ & E); [left; by apply E|].
  right. intros Q. apply E in Q. discriminate.
Qed.

(** The documentation wants the value from one of the results of the query; one that differs
    is enough to keep the overlay from being applied. *)
Theorem C20_refuted_one_result_suffices h d fuel sed dflt o node c x y :
  closed h -> d <= fuel -> node < length h -> conditions_ok d h node (o_docqueries o) ->
  o_docqueries o = [[c]] -> ~ no_value h c ->
  finds h (c_queries c) node x -> alike h x (c_value c) ->
  finds h (c_queries c) node y -> ~ alike h y (c_value c) ->
  apply fuel sed dflt o node h = (h, o, Ok tt).
Proof.
  intros C L N V E NV FX AX FY AY. eapply apply_disqualified; try done. rewrite E. intros [Q|(g & [<-|[]] & Q)]; [discriminate|].
  destruct (Q c (or_introl eq_refl)) as [_ [Z|Z]]; [done|]. by apply AY, Z.
Qed.

(** *** C22: documents that do not qualify are untouched *)
Theorem C22_disqualified_document_untouched h d fuel sed dflt o node :
  closed h -> d <= fuel -> node < length h -> conditions_ok d h node (o_docqueries o) ->
  ~ qualifies h node (o_docqueries o) ->
  apply fuel sed dflt o node h = (h, o, Ok tt).
Proof. exact (apply_disqualified h d fuel sed dflt o node). Qed.

Theorem C22_nothing_found_and_ignored h d fuel sed dflt o node :
  closed h -> d <= fuel -> node < length h -> conditions_ok d h node (o_docqueries o) ->
  (forall x, ~ finds h (o_queries o) node x) ->
  o_missing o = MIgnore \/ (o_missing o = MDefault /\ ~ Forall2 cased dflt (lit "inject")) ->
  apply fuel sed dflt o node h = (h, o, Ok tt).
Proof. exact (apply_ignored h d fuel sed dflt o node). Qed.

(** *** C23: onMissing precedence *)
(** An explicit action wins, whatever the configured default. *)
Theorem C23_explicit_action_wins fuel sed dflt dflt' o node h :
  o_missing o <> MDefault ->
  outcome (apply fuel sed dflt o node h) = outcome (apply fuel sed dflt' o node h).
Proof.
  intros E. unfold apply. assert (R : forall d, resolve_missing d o = o).
  { intros d. unfold resolve_missing. by destruct (o_missing o). }
  rewrite !R. reflexivity.
Qed.
(** Without one, the configured default decides; without either: ignore. *)
Theorem C23_default_used_only_without_action fuel sed dflt o node h :
  o_missing o = MDefault ->
  (Forall2 cased dflt (lit "inject") ->
     outcome (apply fuel sed dflt o node h) = outcome (apply fuel sed dflt (with_missing MInject o) node h)) /\
  (~ Forall2 cased dflt (lit "inject") ->
     outcome (apply fuel sed dflt o node h) = outcome (apply fuel sed dflt (with_missing MIgnore o) node h)).
Proof.
  intros E. rewrite <- inject_spelled. split; intros D; apply apply_missing.
  - left. unfold resolve_missing. rewrite E, D. reflexivity.
  - right. split; [|done]. unfold resolve_missing. rewrite E. destruct (equal_fold _ _); [done|exact E].
Qed.
(** Earlier applications of the same overlay, in any number, to any documents,
    never change the outcome of the next one. *)
Theorem C23_history_irrelevant dflt o o' fuel sed node h :
  after dflt o o' -> outcome (apply fuel sed dflt o' node h) = outcome (apply fuel sed dflt o node h).
Proof. exact (after_same dflt o o' fuel sed node h). Qed.

(** *** Concrete cases *)
Definition closedb (h : heap) : bool :=
  forallb (fun n => (match n_alias n with Some a => Nat.ltb a (length h) | None => true end) &&
                    match n_content n with Some ls => forallb (fun x => Nat.ltb x (length h)) ls | None => true end) h.
Lemma closedb_spec h : closedb h = true -> closed h.
Proof.
  intros F l n x E P. unfold closedb in F. rewrite forallb_forall in F.
  specialize (F n (proj1 (elem_of_list_In _ _) (elem_of_list_lookup_2 _ _ _ E))). apply andb_true_iff in F as [F1 F2].
  destruct P as [P|(ls & P & Q)]; rewrite P in *; [by apply Nat.ltb_lt|].
  rewrite forallb_forall in F2. by apply Nat.ltb_lt, F2.
Qed.
Lemma complete_bounded f h : forall l, complete f h l = true -> bounded f h l.
Proof.
  induction f as [|f IH]; intros l C; [discriminate|]. cbn [complete bounded] in *.
  destruct (h !! l) as [n|]; [|discriminate]. apply andb_true_iff in C as [C1 C2]. exists n. split; [done|].
  intros x [P|(ls & P & Q)]; rewrite P in *; [auto|]. rewrite forallb_forall in C2. auto.
Qed.

(** apiVersion must be v1 (it is) or metadata.name must be "x" (it is not). *)
Definition ex_v1 : loc := 1.
Definition cond (q : query) (v : loc) : condition := mkCondition [q] v.
Definition q_api : query := dotted (lit "$.apiVersion") [lit "apiVersion"].
Definition ex_dq : list (list condition) := [[cond q_name ex_x]; [cond q_api ex_zero; cond q_name ex_zero]].
Example C20_applies :
  closed ex_heap /\ ex_doc < length ex_heap /\ conditions_ok 20 ex_heap ex_doc ex_dq /\
  qualifies ex_heap ex_doc ex_dq /\ ~ qualifies ex_heap ex_doc [[cond q_name ex_x]; [cond q_missing ex_zero]].
Proof.
  assert (C : closed ex_heap) by (apply closedb_spec; vm_compute; reflexivity).
  assert (N : ex_doc < length ex_heap) by (apply Nat.ltb_lt; vm_compute; reflexivity).
  assert (V : forall dq, forallb (fun g => forallb (fun c => complete 20 ex_heap (c_value c) &&
       forallb (fun q => forallb (fun x => Nat.ltb x (length ex_heap)) (q_find q ex_heap ex_doc)) (c_queries c)) g) dq = true ->
     conditions_ok 20 ex_heap ex_doc dq).
  { intros dq F g c G I. rewrite forallb_forall in F. specialize (F g G). rewrite forallb_forall in F. specialize (F c I).
    apply andb_true_iff in F as [F1 F2]. split; [by apply complete_bounded|]. intros q x Q X.
    rewrite forallb_forall in F2. specialize (F2 q Q). rewrite forallb_forall in F2. by apply Nat.ltb_lt, F2. }
  assert (V1 : conditions_ok 20 ex_heap ex_doc ex_dq) by (apply V; vm_compute; reflexivity).
  assert (V2 : conditions_ok 20 ex_heap ex_doc [[cond q_name ex_x]; [cond q_missing ex_zero]]) by (apply V; vm_compute; reflexivity).
  split; [done|]. split; [done|]. split; [done|]. split.
  - destruct (check_spec ex_heap 20 20 ex_doc ex_dq C (le_n _) N V1) as (e & E & Q). apply Q.
    assert (X : h_check_queries 20 ex_dq ex_doc ex_heap = (ex_heap, Ok true)) by (vm_compute; reflexivity).
    rewrite X in E. by injection E as <-.
  - destruct (check_spec ex_heap 20 20 ex_doc _ C (le_n _) N V2) as (e & E & Q). intros H. apply Q in H. subst e.
    assert (X : h_check_queries 20 [[cond q_name ex_x]; [cond q_missing ex_zero]] ex_doc ex_heap = (ex_heap, Ok false)) by (vm_compute; reflexivity).
    rewrite X in E. discriminate.
Qed.

(** apiVersion or metadata.name is v1: one is, the other is not. *)
Example C20_applies_one_result :
  let c := mkCondition [q_api; q_name] ex_v1 in
  conditions_ok 20 ex_heap ex_doc [[c]] /\ ~ no_value ex_heap c /\
  exists x y, finds ex_heap (c_queries c) ex_doc x /\ alike ex_heap x (c_value c) /\ finds ex_heap (c_queries c) ex_doc y /\ ~ alike ex_heap y (c_value c).
Proof.
  assert (NE : ~ empty_document ex_heap ex_doc) by (intros (n & E & X); vm_compute in E; injection E as <-; vm_compute in X; intuition discriminate).
  assert (QA : q_find q_api ex_heap ex_doc = [ex_v1]) by (vm_compute; reflexivity).
  destruct (q_find q_name ex_heap ex_doc) as [|y l] eqn:QN; [vm_compute in QN; discriminate|].
  split.
  { intros g c [<-|[]] [<-|[]]. split; [apply complete_bounded; vm_compute; reflexivity|]. intros q x [<-|[<-|[]]] I.
    - rewrite QA in I. destruct I as [<-|[]]. apply Nat.ltb_lt. vm_compute. reflexivity.
    - rewrite QN in I. assert (forallb (fun x => Nat.ltb x (length ex_heap)) (y :: l) = true) as F by (rewrite <- QN; vm_compute; reflexivity).
      rewrite forallb_forall in F. by apply Nat.ltb_lt, F. }
  split; [intros Z; vm_compute in Z; discriminate|].
  exists ex_v1, y. split; [split; [done|]; exists q_api; split; [by left|]; rewrite QA; by left|]. split.
  { cbn [c_value]. eapply alike_nodes; try (vm_compute; reflexivity); vm_compute; constructor. }
  split; [split; [done|]; exists q_name; split; [by right; left|]; rewrite QN; by left|].
  intros A. cbn [c_value] in A.
  assert (X : forall a b, alike ex_heap a b -> option_map (fun n => i_value (n_info n)) (ex_heap !! a) = option_map (fun n => i_value (n_info n)) (ex_heap !! b)).
  { intros a b []. rewrite H, H0. cbn. by f_equal. }
  apply X in A. vm_compute in QN. injection QN as <- <-. vm_compute in A. discriminate.
Qed.

(** A merge of x into metadata.name, if metadata.name is "x" (it is not): the document does not
    qualify.  The merge into a missing path without conditions finds nothing. *)
Example C22_applies :
  let o := with_docqueries [[cond q_name ex_x]; [cond q_missing ex_zero]] (ex_overlay AMerge q_name ex_x) in
  let o' := ex_overlay AMerge q_missing ex_x in
  (closed ex_heap /\ ex_doc < length ex_heap /\ conditions_ok 20 ex_heap ex_doc (o_docqueries o) /\ ~ qualifies ex_heap ex_doc (o_docqueries o)) /\
  (apply 20 no_sed [] (with_docqueries [] o) ex_doc ex_heap <> (ex_heap, with_docqueries [] o, Ok tt)) /\
  conditions_ok 20 ex_heap ex_doc (o_docqueries o') /\ (forall x, ~ finds ex_heap (o_queries o') ex_doc x) /\
  o_missing o' = MDefault /\ ~ Forall2 cased (lit "other") (lit "inject").
Proof.
  cbv zeta. destruct C20_applies as (C & N & _ & _ & NQ). split; [|split; [|split; [|split; [|split; [done|]]]]].
  - split; [done|]. split; [done|]. split; [|exact NQ].
    intros g c G I. cbn [o_docqueries with_docqueries ex_overlay] in G. destruct G as [<-|[<-|[]]], I as [<-|[]]; (split; [apply complete_bounded; vm_compute; reflexivity|]).
    + intros q x [<-|[]] X. assert (F : forallb (fun x => Nat.ltb x (length ex_heap)) (q_find q_name ex_heap ex_doc) = true) by (vm_compute; reflexivity).
      rewrite forallb_forall in F. by apply Nat.ltb_lt, F.
    + intros q x [<-|[]] X. assert (F : forallb (fun x => Nat.ltb x (length ex_heap)) (q_find q_missing ex_heap ex_doc) = true) by (vm_compute; reflexivity).
      rewrite forallb_forall in F. by apply Nat.ltb_lt, F.
  - vm_compute. discriminate.
  - intros g c [].
  - intros x (_ & q & [<-|[]] & X). vm_compute in X. exact X.
  - intros F. apply Forall2_length in F. vm_compute in F. discriminate.
Qed.

(** The same missing query is ignored or injected depending on the default. *)
Example C23_applies :
  let o := ex_overlay AMerge q_missing ex_x in
  outcome (apply 20 no_sed (lit "Inject") o ex_doc ex_heap) <> outcome (apply 20 no_sed [] o ex_doc ex_heap) /\
  outcome (apply 20 no_sed [] o ex_doc ex_heap) = (ex_heap, Ok tt).
Proof. split; [vm_compute; discriminate|vm_compute; reflexivity]. Qed.

Print Assumptions C20_applied_iff_document_qualifies.
Print Assumptions C20_qualification_decided.
Print Assumptions C20_refuted_one_result_suffices.
Print Assumptions C22_disqualified_document_untouched.
Print Assumptions C22_nothing_found_and_ignored.
Print Assumptions C23_explicit_action_wins.
Print Assumptions C23_default_used_only_without_action.
Print Assumptions C23_history_irrelevant.
