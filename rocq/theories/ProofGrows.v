(** No action ever frees or renumbers a node: the heap only grows. *)
From Verif Require Import Prelude GoStrings Format Yaml Heap MergeTree Combine HeapActions Builder ActionNames Overlay.

Definition grows {A} (m : M A) : Prop := forall h, length h <= length (fst (m h)).
Existing Class grows.
Global Hint Mode grows - ! : typeclass_instances.

Global Instance grows_ret {A} (a : A) : grows (ret a). Proof. intros h. done. Qed.
Global Instance grows_fail {A} e : grows (@fail A e). Proof. intros h. done. Qed.
Global Instance grows_crash {A} : grows (@crash A). Proof. intros h. done. Qed.
Global Instance grows_stuck {A} : grows (@stuck A). Proof. intros h. done. Qed.
Global Instance grows_get l : grows (get l). Proof. intros h. done. Qed.
Global Instance grows_put l n : grows (put l n). Proof. intros h. cbn. by rewrite insert_length. Qed.
Global Instance grows_alloc n : grows (alloc n). Proof. intros h. cbn. rewrite app_length. lia. Qed.
Global Instance grows_bind {A B} (m : M A) (f : A -> M B) : grows m -> (forall a, grows (f a)) -> grows (bind m f).
Proof.
  intros G K h. specialize (G h). unfold bind. destruct (m h) as [h1 [a|e| |]]; cbn in *; try done.
  specialize (K a h1). lia.
Qed.
Ltac grow := repeat match goal with
  | |- grows (bind _ _) => apply grows_bind; [|intros ?]
  | |- grows (match ?x with _ => _ end) => destruct x
  | |- grows _ => solve [typeclasses eauto | auto]
  end.
Global Hint Extern 5 (grows (match ?x with _ => _ end)) => destruct x : typeclass_instances.
Global Instance grows_put_info l i : grows (put_info l i). Proof. unfold put_info. grow. Qed.
Global Instance grows_put_content l i : grows (put_content l i). Proof. unfold put_content. grow. Qed.
Global Instance grows_each {A B} (f : A -> M B) l : (forall a, grows (f a)) -> grows (each f l).
Proof. intros G. induction l; cbn [each]; grow. Qed.
Global Instance grows_loop {A} (f : A -> M unit) l : (forall a, grows (f a)) -> grows (loop f l).
Proof. intros G. induction l; cbn [loop]; grow. Qed.
Global Instance grows_comments sed o n v : grows (h_merge_comments sed o n v). Proof. unfold h_merge_comments. grow. Qed.
Global Instance grows_scalar sed o n v : grows (h_merge_scalar sed o n v). Proof. unfold h_merge_scalar. cbv zeta. grow. Qed.
Global Instance grows_copy_fields f l : grows (h_copy_fields f l).
Proof. revert l. induction f as [|f IH]; intros l; cbn [h_copy_fields]; grow. Qed.
Global Instance grows_copy f l : grows (h_copy f l). Proof. unfold h_copy. grow. Qed.
Global Instance grows_sanitize f sed l : grows (h_sanitize f sed l).
Proof. revert l. induction f as [|f IH]; intros l; cbn [h_sanitize]; grow. Qed.
Global Instance grows_add_node f sed o l : grows (h_add_node f sed o l). Proof. unfold h_add_node. grow. Qed.
Global Instance grows_to_kind k t o : grows (h_to_kind k t o). Proof. unfold h_to_kind. grow. Qed.
Global Instance grows_array f sed o n : grows (h_merge_array f sed o n). Proof. unfold h_merge_array. grow. Qed.
Global Instance grows_entries sed f nk oc : (forall o k, grows (f o k)) -> grows (h_merge_entries sed f nk oc).
Proof.
  intros G. enough (H : forall n oc, length oc <= n -> grows (h_merge_entries sed f nk oc)) by eauto.
  clear oc. induction n as [|n IH]; intros [|a [|b r]] L; cbn [h_merge_entries] in *; cbn in L; try lia; cbv zeta;
    try (assert (R : grows (h_merge_entries sed f nk r)) by (apply IH; lia)); grow.
Qed.
Global Instance grows_pair fu sed f nk nv o : (forall o k, grows (f o k)) -> grows (h_merge_pair fu sed f nk nv o).
Proof. intros G. unfold h_merge_pair. grow. Qed.
Global Instance grows_pairs fu sed m o ps : (forall o n k, grows (m o n k)) -> grows (h_merge_pairs fu sed m o ps).
Proof.
  intros G. enough (H : forall n ps, length ps <= n -> grows (h_merge_pairs fu sed m o ps)) by eauto.
  clear ps. induction n as [|n IH]; intros [|a [|b r]] L; cbn [h_merge_pairs] in *; cbn in L; try lia;
    try (assert (R : grows (h_merge_pairs fu sed m o r)) by (apply IH; lia)); grow.
Qed.
Global Instance grows_merge fuel sed o n ks : grows (h_merge fuel sed o n ks).
Proof. revert o n ks. induction fuel as [|f IH]; intros o n ks; cbn [h_merge]; cbv zeta; grow. Qed.
Global Instance grows_merge_node fuel sed o ns : grows (h_merge_node fuel sed o ns).
Proof. unfold h_merge_node. grow. Qed.
Global Instance grows_replace fuel sed o n : grows (h_replace_node fuel sed o n).
Proof. unfold h_replace_node. cbv zeta. grow. Qed.
Global Instance grows_combine sed o n : grows (h_combine_node sed o n).
Proof. unfold h_combine_node. cbv zeta. grow. Qed.
Global Instance grows_scan r pn c k content i cs : (forall c, grows (r c)) -> grows (h_scan r pn c k content i cs).
Proof. intros G. revert i. induction cs as [|x cs IH]; intros i; cbn [h_scan]; grow. Qed.
Global Instance grows_delete fuel pn c : grows (h_delete fuel pn c).
Proof. revert pn. induction fuel as [|f IH]; intros pn; cbn [h_delete]; grow. Qed.
Global Instance grows_halloc t : grows (h_alloc t).
Proof.
  induction t as [i|i l IH] using tree_ind'; cbn [h_alloc]; grow. induction IH as [|t l It _ IH]; grow.
Qed.
Global Instance grows_find qs l : grows (h_find qs l).
Proof. unfold h_find. grow. intros h. done. Qed.
Global Instance grows_equal fuel a b : grows (h_equal fuel a b).
Proof.
  revert a b. induction fuel as [|f IH]; intros a b; cbn [h_equal]; grow.
  revert l0. induction l as [|x l IHl]; intros [|y m]; grow.
Qed.
Global Instance grows_all_equal fuel rs v : grows (h_all_equal fuel rs v).
Proof. induction rs as [|r rs IH]; cbn [h_all_equal]; grow. Qed.
Global Instance grows_condition fuel c n : grows (h_condition fuel c n). Proof. unfold h_condition. grow. Qed.
Global Instance grows_check_query fuel c n : grows (h_check_query fuel c n).
Proof. induction c; cbn [h_check_query]; grow. Qed.
Global Instance grows_check_any fuel c n : grows (h_check_any fuel c n).
Proof. induction c; cbn [h_check_any]; grow. Qed.
Global Instance grows_check fuel c n : grows (h_check_queries fuel c n). Proof. unfold h_check_queries. grow. Qed.
Global Instance grows_act fuel sed a v r n : grows (h_act fuel sed a v r n). Proof. unfold h_act. grow. Qed.
Global Instance grows_do_action fuel sed a v r n : grows (h_do_action fuel sed a v r n). Proof. unfold h_do_action. grow. Qed.
Global Instance grows_inject fuel sed ip v n : grows (h_inject fuel sed ip v n). Proof. unfold h_inject. grow. Qed.
Global Instance grows_handle fuel sed o n : grows (h_handle_inject fuel sed o n). Proof. unfold h_handle_inject. grow. Qed.
Global Instance grows_missing fuel sed o n : grows (h_on_missing fuel sed o n). Proof. unfold h_on_missing. grow. Qed.

Lemma apply_grows fuel sed dflt o node h : length h <= length (fst (fst (apply fuel sed dflt o node h))).
Proof.
  unfold apply. pose proof (grows_check fuel (o_docqueries o) node h) as G1.
  destruct (h_check_queries fuel (o_docqueries o) node h) as [h1 [[]|e| |]]; cbn [fst snd] in *; auto.
  pose proof (grows_find (o_queries o) node h1) as G2.
  destruct (h_find (o_queries o) node h1) as [h2 [[|n ns]|e| |]]; cbn [fst snd] in *; try lia.
  - pose proof (grows_missing fuel sed (resolve_missing dflt o) node h2) as G3. destruct (h_on_missing _ _ _ _ h2). cbn in *. lia.
  - pose proof (grows_do_action fuel sed (o_action o) (o_value o) node (n :: ns) h2) as G3. destruct (h_do_action _ _ _ _ _ _ h2). cbn in *. lia.
Qed.
