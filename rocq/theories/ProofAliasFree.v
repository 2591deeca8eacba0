(** Applying overlays makes no Alias pointer where there was none. *)
From Verif Require Import Prelude GoStrings Format Yaml Heap MergeTree Combine HeapActions Builder ActionNames Overlay ProofMerge ProofMergeMap ProofMergeAbs ProofLocal ProofKeeps SpecMeaning.

Definition tame {A} (Q : A -> Prop) (m : M A) : Prop :=
  forall h, alias_free h -> alias_free (fst (m h)) /\ forall a, snd (m h) = Ok a -> Q a.
Notation any := (fun _ => True) (only parsing).
Lemma tame_ret {A} (Q : A -> Prop) (a : A) : Q a -> tame Q (ret a).
Proof. intros H h AF. split; [done|]. by intros ? [= <-]. Qed.
Lemma tame_fail {A} (Q : A -> Prop) e : tame Q (fail e). Proof. intros h AF. split; [done|]. discriminate. Qed.
Lemma tame_crash {A} (Q : A -> Prop) : tame Q crash. Proof. intros h AF. split; [done|]. discriminate. Qed.
Lemma tame_stuck {A} (Q : A -> Prop) : tame Q stuck. Proof. intros h AF. split; [done|]. discriminate. Qed.
Lemma tame_bind {A B} (P : A -> Prop) (Q : B -> Prop) (m : M A) (f : A -> M B) :
  tame P m -> (forall a, P a -> tame Q (f a)) -> tame Q (bind m f).
Proof.
  intros Hm Hf h AF. destruct (Hm h AF) as [A1 A2]. unfold bind. destruct (m h) as [h1 [a|e| |]]; cbn [fst snd] in *.
  - exact (Hf a (A2 a eq_refl) h1 A1).
  - split; [done|discriminate].
  - split; [done|discriminate].
  - split; [done|discriminate].
Qed.
Lemma tame_any {A} (Q : A -> Prop) m : tame Q m -> tame any m.
Proof. intros H h AF. split; [by apply H|done]. Qed.
Lemma tame_get l : tame (fun n => n_alias n = None) (get l).
Proof. intros h AF. split; [done|]. cbn. destruct (h !! l) eqn:E; [|discriminate]. intros a [= <-]. by eapply AF. Qed.
Lemma tame_put l n : n_alias n = None -> tame any (put l n).
Proof.
  intros N h AF. split; [|done]. cbn [put fst]. intros x m E. apply list_lookup_insert_Some in E as [(_ & <- & _)|[_ E]]; [done|by eapply AF].
Qed.
Lemma tame_alloc n : n_alias n = None -> tame any (alloc n).
Proof.
  intros N h AF. split; [|done]. cbn [alloc fst]. intros x m E. apply lookup_app_Some in E as [E|[_ E]]; [by eapply AF|].
  apply list_lookup_singleton_Some in E as [_ <-]. done.
Qed.
Ltac tm := repeat match goal with
  | |- tame _ (bind (get _) _) => eapply tame_bind; [apply tame_get|intros ? ?]
  | |- tame _ (ret _) => apply tame_ret; done
  | |- tame _ (fail _) => apply tame_fail
  | |- tame _ crash => apply tame_crash
  | |- tame _ stuck => apply tame_stuck
  | |- tame _ (put _ _) => apply tame_put; done
  | |- tame _ (alloc _) => apply tame_alloc; done
  | H : _ |- tame _ _ => solve [apply H; auto]
  | |- tame _ (bind _ _) => eapply (tame_bind any); [|intros ? _]
  | |- tame _ (match ?x with _ => _ end) => destruct x
  end; try (solve [eauto with tame]).
Lemma tame_put_info l i : tame any (put_info l i). Proof. unfold put_info. tm. Qed.
Lemma tame_put_content l c : tame any (put_content l c). Proof. unfold put_content. tm. Qed.
Global Hint Resolve tame_put_info tame_put_content : tame.
Lemma tame_each {A B} (f : A -> M B) l : (forall a, tame any (f a)) -> tame any (each f l).
Proof. intros H. induction l; cbn [each]; tm. Qed.
Lemma tame_loop {A} (f : A -> M unit) l : (forall a, tame any (f a)) -> tame any (loop f l).
Proof. intros H. induction l; cbn [loop]; tm. Qed.
Lemma tame_comments sed o n v : tame any (h_merge_comments sed o n v). Proof. unfold h_merge_comments. tm. Qed.
Global Hint Resolve tame_comments : tame.
Lemma tame_scalar sed o n v : tame any (h_merge_scalar sed o n v). Proof. unfold h_merge_scalar. cbv zeta. tm. Qed.
Lemma tame_copy_fields f : forall l, tame (fun n => n_alias n = None) (h_copy_fields f l).
Proof.
  induction f as [|f IH]; intros l; cbn [h_copy_fields]; [apply tame_stuck|].
  eapply tame_bind; [apply tame_get|]. intros n ->.
  eapply (tame_bind (fun al => al = None)); [by apply tame_ret|]. intros al ->.
  eapply (tame_bind any); [|intros c _; by apply tame_ret].
  destruct (n_content n); [|by apply tame_ret]. eapply (tame_bind any); [|intros; by apply tame_ret].
  apply tame_each. intros k. eapply tame_bind; [apply IH|]. intros x E. by apply tame_alloc.
Qed.
Lemma tame_copy f l : tame any (h_copy f l).
Proof. unfold h_copy. eapply tame_bind; [apply tame_copy_fields|]. intros x E. by apply tame_alloc. Qed.
Lemma tame_sanitize f sed : forall l, tame any (h_sanitize f sed l).
Proof. induction f as [|f IH]; intros l; cbn [h_sanitize]; tm; by apply tame_loop. Qed.
Global Hint Resolve tame_scalar tame_copy tame_sanitize tame_each tame_loop : tame.
Lemma tame_add_node f sed o l : tame any (h_add_node f sed o l). Proof. unfold h_add_node. tm. Qed.
Lemma tame_to_kind k t o : tame any (h_to_kind k t o). Proof. unfold h_to_kind. tm. Qed.
Global Hint Resolve tame_add_node tame_to_kind : tame.
Lemma tame_array f sed o n : tame any (h_merge_array f sed o n). Proof. unfold h_merge_array. tm. Qed.
Lemma tame_entries sed f nk oc : (forall o k, tame any (f o k)) -> tame any (h_merge_entries sed f nk oc).
Proof.
  intros G. induction oc as [|x|x y oc IH] using list_ind2; cbn [h_merge_entries]; cbv zeta; tm.
Qed.
Global Hint Resolve tame_array tame_entries : tame.
Lemma tame_pair fu sed f nk nv o : (forall o k, tame any (f o k)) -> tame any (h_merge_pair fu sed f nk nv o).
Proof. intros G. unfold h_merge_pair. tm. Qed.
Global Hint Resolve tame_pair : tame.
Lemma tame_pairs fu sed m o ps : (forall o n k, tame any (m o n k)) -> tame any (h_merge_pairs fu sed m o ps).
Proof. intros G. induction ps as [|x|x y ps IH] using list_ind2; cbn [h_merge_pairs]; tm. Qed.
Global Hint Resolve tame_pairs : tame.
Lemma tame_merge sed f : forall o n ks, tame any (h_merge f sed o n ks).
Proof. induction f as [|f IH]; intros o n ks; cbn [h_merge]; cbv zeta; tm. Qed.
Lemma tame_merge_node f sed o ns : tame any (h_merge_node f sed o ns).
Proof. unfold h_merge_node. apply tame_loop. intros; apply tame_merge. Qed.
Lemma tame_replace f sed o n : tame any (h_replace_node f sed o n).
Proof.
  unfold h_replace_node. eapply tame_bind; [apply tame_get|]. intros ov _. eapply tame_bind; [apply tame_copy_fields|]. intros nc E. cbv zeta. tm.
Qed.
Lemma tame_combine sed o n : tame any (h_combine_node sed o n). Proof. unfold h_combine_node. cbv zeta. tm. Qed.
Lemma tame_scan rec pn child k content i cs : (forall c, tame any (rec c)) -> tame any (h_scan rec pn child k content i cs).
Proof. intros G. revert i. induction cs as [|c cs IH]; intros i; cbn [h_scan]; tm. Qed.
Global Hint Resolve tame_scan : tame.
Lemma tame_delete f : forall pn child, tame any (h_delete f pn child).
Proof. induction f as [|f IH]; intros pn child; cbn [h_delete]; tm. Qed.
Lemma tame_halloc t : tame any (h_alloc t).
Proof.
  induction t as [i|i l IH] using tree_ind'; cbn [h_alloc]; [tm|]. eapply (tame_bind any); [|intros; tm].
  induction IH as [|t l Ht _ IHl]; tm.
Qed.
Lemma tame_find qs node : tame any (h_find qs node).
Proof. intros h AF. split; [|done]. by rewrite find_pure. Qed.
Global Hint Resolve tame_merge tame_merge_node tame_replace tame_combine tame_delete tame_halloc tame_find : tame.
Lemma tame_act f sed a v root n : tame any (h_act f sed a v root n). Proof. unfold h_act. tm. Qed.
Global Hint Resolve tame_act : tame.
Lemma tame_inject f sed ip v node : tame any (h_inject f sed ip v node).
Proof. unfold h_inject. tm. Qed.
Global Hint Resolve tame_inject : tame.
Lemma tame_missing f sed o node : tame any (h_on_missing f sed o node).
Proof. unfold h_on_missing, h_handle_inject. tm. Qed.
Lemma apply_alias_free fuel sed dflt o node h : alias_free h -> alias_free (fst (fst (apply fuel sed dflt o node h))).
Proof.
  intros AF. unfold apply. pose proof (check_pure fuel (o_docqueries o) node h) as P.
  destruct (h_check_queries _ _ _ h) as [h1 [[]|e| |]]; cbn [fst] in P; subst h1; try done.
  pose proof (find_pure (o_queries o) node h) as P.
  destruct (h_find _ _ h) as [h1 [[|x xs]|e| |]]; cbn [fst] in P; subst h1; try done.
  - pose proof (tame_missing fuel sed (resolve_missing dflt o) node h AF) as [X _]. by destruct (h_on_missing _ _ _ _ h).
  - assert (X : alias_free (fst (h_do_action fuel sed (o_action o) (o_value o) node (x :: xs) h))).
    { unfold h_do_action. apply tame_loop; [|done]. intros; apply tame_act. }
    by destruct (h_do_action _ _ _ _ _ _ h).
Qed.
