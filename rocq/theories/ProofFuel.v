(** A larger recursion budget never changes an outcome that is not [Fuel]. *)
From Verif Require Import Prelude GoStrings Format Yaml Heap MergeTree Combine HeapActions Builder ActionNames Overlay.

Definition below {A} (m1 m2 : M A) : Prop := forall h h' r, m1 h = (h', r) -> r <> Fuel -> m2 h = (h', r).

Lemma below_refl {A} (m : M A) : below m m.
Proof. by intros h h' r. Qed.
Lemma below_stuck {A} (m : M A) : below stuck m.
Proof. intros h h' r [= <- <-]. done. Qed.
Lemma below_bind {A B} (m1 m2 : M A) (f1 f2 : A -> M B) : below m1 m2 -> (forall a, below (f1 a) (f2 a)) -> below (bind m1 f1) (bind m2 f2).
Proof.
  intros Hm Hf h h' r. unfold bind. destruct (m1 h) as [h1 r1] eqn:E.
  destruct r1 as [a|e| |].
  - rewrite (Hm _ _ _ E) by done. apply Hf.
  - rewrite (Hm _ _ _ E) by done. done.
  - rewrite (Hm _ _ _ E) by done. done.
  - intros [= <- <-]. done.
Qed.
Lemma below_each {A B} (f1 f2 : A -> M B) l : (forall a, below (f1 a) (f2 a)) -> below (each f1 l) (each f2 l).
Proof.
  intros H. induction l as [|a l IH]; [apply below_refl|]. cbn [each]. apply below_bind; [apply H|]. intros b.
  apply below_bind; [apply IH|]. intros. apply below_refl.
Qed.
Lemma below_loop {A} (f1 f2 : A -> M unit) l : (forall a, below (f1 a) (f2 a)) -> below (loop f1 l) (loop f2 l).
Proof.
  intros H. induction l as [|a l IH]; [apply below_refl|]. cbn [loop]. apply below_bind; [apply H|]. intros b. apply IH.
Qed.
Ltac below := first [apply below_refl | apply below_bind; [|intros] | apply below_each; intros | apply below_loop; intros].

Lemma below_copy_fields f f' l : f <= f' -> below (h_copy_fields f l) (h_copy_fields f' l).
Proof.
  revert f' l. induction f as [|f IH]; intros f' l L; [apply below_stuck|]. destruct f' as [|f']; [lia|].
  cbn [h_copy_fields]. apply below_bind; [below|]. intros n. apply below_bind.
  - destruct (n_alias n); [|below]. apply below_bind; [apply IH; lia|]. intros. below.
  - intros al. apply below_bind; [|intros; below]. destruct (n_content n); [|below].
    apply below_bind; [|intros; below]. apply below_each. intros k. apply below_bind; [apply IH; lia|intros; below].
Qed.
Lemma below_copy f f' l : f <= f' -> below (h_copy f l) (h_copy f' l).
Proof. intros L. unfold h_copy. apply below_bind; [by apply below_copy_fields|intros; below]. Qed.
Lemma below_sanitize f f' sed l : f <= f' -> below (h_sanitize f sed l) (h_sanitize f' sed l).
Proof.
  revert f' l. induction f as [|f IH]; intros f' l L; [apply below_stuck|]. destruct f' as [|f']; [lia|].
  cbn [h_sanitize]. apply below_bind; [below|]. intros n. apply below_bind; [|intros; below].
  destruct (i_kind (n_info n)), (n_content n); try below; apply IH; lia.
Qed.
Lemma below_add_node f f' sed o nv : f <= f' -> below (h_add_node f sed o nv) (h_add_node f' sed o nv).
Proof.
  intros L. unfold h_add_node. apply below_bind; [apply below_each; intros; by apply below_copy|]. intros t.
  apply below_bind; [apply below_loop; intros; by apply below_sanitize|intros; below].
Qed.
Lemma below_merge_array f f' sed o n : f <= f' -> below (h_merge_array f sed o n) (h_merge_array f' sed o n).
Proof.
  intros L. unfold h_merge_array. apply below_bind; [below|]. intros. apply below_bind; [below|]. intros nn.
  destruct (n_content nn); [|below]. apply below_bind; [below|]. intros. apply below_bind; [below|]. intros. by apply below_add_node.
Qed.
Lemma below_merge_entries sed g g' nk oc : (forall ov k, below (g ov k) (g' ov k)) -> below (h_merge_entries sed g nk oc) (h_merge_entries sed g' nk oc).
Proof.
  intros H. enough (X : forall n oc, length oc <= n -> below (h_merge_entries sed g nk oc) (h_merge_entries sed g' nk oc)) by eauto.
  clear oc. induction n as [|n IH]; intros [|ok [|ov rest]] L; try apply below_refl; [cbn in L; lia|].
  cbn [h_merge_entries]. apply below_bind; [below|]. intros nnk. apply below_bind; [below|]. intros nok.
  destruct (_ || _); [|apply IH; cbn in L; lia].
  apply below_bind; [below|]. intros nov. apply below_bind; [below|]. intros. apply below_bind; [apply H|]. intros.
  destruct (check_for_markers _); [|below]. apply below_bind; [below|]. intros. apply below_bind; [apply IH; cbn in L; lia|]. intros. below.
Qed.
Lemma below_merge f f' sed o n ks : f <= f' -> below (h_merge f sed o n ks) (h_merge f' sed o n ks).
Proof.
  revert f' o n ks. induction f as [|f IH]; intros f' o n ks L; [apply below_stuck|]. destruct f' as [|f']; [lia|].
  cbn [h_merge]. apply below_bind; [below|]. intros nn. destruct (i_kind (n_info nn)); try apply below_refl.
  - apply below_bind; [apply below_refl|]. intros no.
    destruct (n_content no) as [l|], (n_content nn) as [l0|]; try apply below_refl. apply below_bind; [apply below_refl|]. intros _.
    destruct l as [|o0 ?], l0 as [|n0 ?]; try apply below_refl. apply IH; lia.
  - apply below_merge_array; lia.
  - destruct (n_content nn) as [nl|]; [|below]. revert nl.
    enough (X : forall m nl, length nl <= m -> below (h_merge_pairs f sed (fun ov nv key => h_merge f sed ov nv [key]) o nl)
      (h_merge_pairs f' sed (fun ov nv key => h_merge f' sed ov nv [key]) o nl)) by eauto.
    induction m as [|m IHm]; intros [|nk [|nv rest]] LL; try apply below_refl; [cbn in LL; lia|].
    cbn [h_merge_pairs]. apply below_bind; [|intros; apply IHm; cbn in LL; lia].
    unfold h_merge_pair. apply below_bind; [below|]. intros. apply below_bind; [below|]. intros no. apply below_bind.
    + destruct (n_content no); [|below]. apply below_merge_entries. intros. apply IH; lia.
    + intros [|]; [below|]. apply below_add_node; lia.
Qed.
Lemma below_merge_node f f' sed o ns : f <= f' -> below (h_merge_node f sed o ns) (h_merge_node f' sed o ns).
Proof. intros L. unfold h_merge_node. apply below_loop. intros. by apply below_merge. Qed.
Lemma below_replace f f' sed o n : f <= f' -> below (h_replace_node f sed o n) (h_replace_node f' sed o n).
Proof. intros L. unfold h_replace_node. apply below_bind; [below|]. intros. apply below_bind; [by apply below_copy_fields|]. intros. below. Qed.
Lemma below_delete f f' pn c : f <= f' -> below (h_delete f pn c) (h_delete f' pn c).
Proof.
  revert f' pn. induction f as [|f IH]; intros f' pn L; [apply below_stuck|]. destruct f' as [|f']; [lia|].
  cbn [h_delete]. apply below_bind; [below|]. intros n. destruct (n_content n) as [ct|]; [|below].
  generalize 0. generalize ct at 2 4 as cs. induction cs as [|x cs IHc]; intros i; [below|]. cbn [h_scan].
  destruct (Nat.eqb x c); [below|]. apply below_bind; [below|]. intros nc. apply below_bind; [|intros; apply IHc].
  destruct (n_content nc); [apply IH; lia|below].
Qed.
Lemma below_equal f f' a b : f <= f' -> below (h_equal f a b) (h_equal f' a b).
Proof.
  revert f' a b. induction f as [|f IH]; intros f' a b L; [apply below_stuck|]. destruct f' as [|f']; [lia|].
  cbn [h_equal]. apply below_bind; [below|]. intros na. apply below_bind; [below|]. intros nb.
  destruct (negb _); [below|]. apply below_bind.
  - destruct (n_alias na), (n_alias nb); try below. apply IH; lia.
  - intros e. destruct e; [|below]. destruct (n_content na) as [la|], (n_content nb) as [lb|]; try below.
    revert lb. induction la as [|x la IHl]; intros [|y lb]; try below; [apply IH; lia|].
    match goal with |- below (if ?b then _ else _) _ => destruct b; [|below] end. apply IHl.
Qed.
Lemma below_check f f' dq node : f <= f' -> below (h_check_queries f dq node) (h_check_queries f' dq node).
Proof.
  intros L. unfold h_check_queries. destruct dq as [|g dq]; [below|]. generalize (g :: dq). clear g dq.
  induction l as [|g l IH]; [below|]. cbn [h_check_any]. apply below_bind; [|intros [|]; [below|apply IH]].
  clear IH. induction g as [|c g IHg]; [below|]. cbn [h_check_query]. apply below_bind; [|intros [|]; [apply IHg|below]].
  unfold h_condition. apply below_bind; [below|]. intros [|x rs]; [below|]. apply below_bind; [below|]. intros v.
  destruct (node_is_zero v); [below|]. generalize (x :: rs). clear x rs. induction l0 as [|x rs IHr]; [below|].
  cbn [h_all_equal]. apply below_bind; [by apply below_equal|]. intros [|]; [apply IHr|below].
Qed.
Lemma below_do_action f f' sed a v root ns : f <= f' -> below (h_do_action f sed a v root ns) (h_do_action f' sed a v root ns).
Proof.
  intros L. unfold h_do_action. apply below_loop. intros n. destruct a; cbn [h_act]; [by apply below_merge_node..|by apply below_replace|by apply below_delete|below].
Qed.
Lemma below_inject f f' sed ip v node : f <= f' -> below (h_inject f sed ip v node) (h_inject f' sed ip v node).
Proof.
  intros L. unfold h_inject. destruct (build_all _); try apply below_refl. destruct (build_paths _ _); try apply below_refl.
  apply below_bind; [apply below_refl|]. intros. apply below_bind; [by apply below_merge_node|]. intros. apply below_bind; [below|]. intros. apply below_loop. intros. by apply below_replace.
Qed.
Lemma below_on_missing f f' sed o node : f <= f' -> below (h_on_missing f sed o node) (h_on_missing f' sed o node).
Proof.
  intros L. unfold h_on_missing. destruct (o_missing o); try apply below_refl. unfold h_handle_inject.
  destruct (build_all _) as [|[]| |]; try apply below_refl; [by apply below_inject|]. destruct (o_inject o); [|below]. by apply below_inject.
Qed.

(** More budget, same outcome. *)
Lemma apply_more_fuel f f' sed dflt o node h h' o' r :
  f <= f' -> apply f sed dflt o node h = (h', o', r) -> r <> Fuel -> apply f' sed dflt o node h = (h', o', r).
Proof.
  intros L. unfold apply. destruct (h_check_queries f (o_docqueries o) node h) as [h1 r1] eqn:E1.
  assert (r1 = Fuel \/ r1 <> Fuel) as [->|N1] by (destruct r1; [by right..|by left]); [by intros [= <- <- <-]|].
  rewrite (below_check f f' _ _ L _ _ _ E1 N1). destruct r1 as [[]| | |]; try done.
  destruct (h_find (o_queries o) node h1) as [h2 r2] eqn:E2. destruct r2 as [[|x rs]| | |]; try done.
  - destruct (h_on_missing f sed (resolve_missing dflt o) node h2) as [h3 r3] eqn:E3. intros [= <- <- <-] N.
    by rewrite (below_on_missing f f' _ _ _ L _ _ _ E3 N).
  - destruct (h_do_action f sed (o_action o) (o_value o) node (x :: rs) h2) as [h3 r3] eqn:E3. intros [= <- <- <-] N.
    by rewrite (below_do_action f f' _ _ _ _ _ L _ _ _ E3 N).
Qed.
