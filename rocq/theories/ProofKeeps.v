(** What any finished application of an overlay does to the document it is
    applied to, whatever the recursion budget. *)
From Verif Require Import Prelude GoStrings Format Yaml Heap MergeTree HeapActions SpecMerge SpecHeap SpecDelete Builder ActionNames
  Overlay SpecOverlay ProofHeap ProofHeapActions ProofSound ProofForest ProofFuel Finder ProofFinder.

(** Checking document queries reads only. *)
Definition reader {A} (m : M A) : Prop := forall h h' r, m h = (h', r) -> h' = h.
Lemma reader_ret {A} (a : A) : reader (ret a).
Proof. by intros h h' r [= <- <-]. Qed.
Lemma reader_stuck {A} : reader (@stuck A).
Proof. by intros h h' r [= <- <-]. Qed.
Lemma reader_get l : reader (get l).
Proof. by intros h h' r [= <- <-]. Qed.
Lemma reader_bind {A B} (m : M A) (f : A -> M B) : reader m -> (forall a, reader (f a)) -> reader (bind m f).
Proof.
  intros Hm Hf h h' r. unfold bind. destruct (m h) as [h1 r1] eqn:E. apply Hm in E as ->.
  destruct r1; [apply Hf|by intros [= <- <-]..].
Qed.
Lemma reader_find qs node : reader (h_find qs node).
Proof.
  apply reader_bind; [apply reader_get|]. intros n. destruct (_ && _); [apply reader_ret|]. by intros h h' r [= <- <-].
Qed.
Lemma reader_equal f : forall a b, reader (h_equal f a b).
Proof.
  induction f as [|f IH]; intros a b; [apply reader_stuck|]. cbn [h_equal].
  apply reader_bind; [apply reader_get|]. intros na. apply reader_bind; [apply reader_get|]. intros nb.
  destruct (negb _); [apply reader_ret|]. apply reader_bind.
  - destruct (n_alias na), (n_alias nb); try apply reader_ret. apply IH.
  - intros e. destruct (negb e); [apply reader_ret|]. destruct (n_content na) as [la|], (n_content nb) as [lb|]; try apply reader_ret.
    revert lb. induction la as [|x la IHl]; intros [|y lb]; try apply reader_ret.
    apply reader_bind; [apply IH|]. intros [|]; [apply IHl|apply reader_ret].
Qed.
Lemma reader_all_equal f rs v : reader (h_all_equal f rs v).
Proof.
  induction rs as [|x rs IH]; [apply reader_ret|]. cbn [h_all_equal]. apply reader_bind; [apply reader_equal|].
  intros [|]; [apply IH|apply reader_ret].
Qed.
Lemma reader_check f dq node : reader (h_check_queries f dq node).
Proof.
  unfold h_check_queries. destruct dq as [|g dq]; [apply reader_ret|]. generalize (g :: dq). clear g dq.
  induction l as [|g l IH]; [apply reader_ret|]. cbn [h_check_any]. apply reader_bind; [|intros [|]; [apply reader_ret|apply IH]].
  clear IH. induction g as [|c g IHg]; [apply reader_ret|]. cbn [h_check_query]. apply reader_bind; [|intros [|]; [apply IHg|apply reader_ret]].
  unfold h_condition. apply reader_bind; [apply reader_find|]. intros [|x rs]; [apply reader_ret|].
  apply reader_bind; [apply reader_get|]. intros v. destruct (node_is_zero v); [apply reader_ret|apply reader_all_equal].
Qed.

(** ** One overlay *)
Lemma apply_keeps fuel sed dflt o ro d t h doc gs h' o' r :
  Forall finds_inside (o_queries o) -> (forall ip, o_inject o = Some ip -> Forall finds_inside ip) ->
  own h (doc :: gs) -> apart ro h (doc :: gs) -> value_at d ro h (o_value o) t -> sound (erase doc) -> sound t ->
  apply fuel sed dflt o (label doc) h = (h', o', r) -> r <> Fuel ->
  exists doc' gs', trans h (doc :: gs) h' (doc' :: gs') /\ label doc' = label doc /\ (r = Ok tt -> sound (erase doc')).
Proof.
  intros FQ FI O A V S St E NF.
  assert (R : reads h doc) by (destruct O as [R _]; by apply Forall_cons in R as [R _]).
  assert (K : h' = h -> exists doc' gs', trans h (doc :: gs) h' (doc' :: gs') /\ label doc' = label doc /\ (r = Ok tt -> sound (erase doc'))).
  { intros ->. exists doc, gs. split; [apply trans_refl; apply O|]. done. }
  unfold apply in E. destruct (h_check_queries fuel (o_docqueries o) (label doc) h) as [h1 r1] eqn:E1.
  apply reader_check in E1. subst h1. destruct r1 as [[]| | |]; try (injection E as <- _ _; by apply K).
  destruct (find_ok (o_queries o) h doc R) as [rs FR]. rewrite FR in E. destruct rs as [|x rs].
  - destruct (h_on_missing fuel sed (resolve_missing dflt o) (label doc) h) as [h3 r3] eqn:E3. injection E as <- <- <-.
    set (o1 := resolve_missing dflt o) in *.
    assert (Q : o_queries o1 = o_queries o /\ o_value o1 = o_value o /\ o_inject o1 = o_inject o).
    { subst o1. unfold resolve_missing. destruct (o_missing o); try done. by destruct (equal_fold _ _). }
    destruct Q as (Q1 & Q2 & Q3). unfold h_on_missing in E3.
    assert (I : forall ip, Forall finds_inside ip -> h_inject fuel sed ip (o_value o) (label doc) h = (h3, r3) ->
      exists doc' gs', trans h (doc :: gs) h3 (doc' :: gs') /\ label doc' = label doc /\ (r3 = Ok tt -> sound (erase doc'))).
    { intros ip Fip EI. destruct (inject_forest sed ip (o_value o) ro d t Fip St) as [F IF].
      apply (fun L => below_inject fuel (fuel + F + d) sed ip (o_value o) (label doc) L _ _ _ EI) in NF as EI'; [|lia].
      destruct (IF (fuel + F + d) ltac:(lia) ltac:(lia) h doc gs O A V S) as (h4 & r4 & doc' & gs' & M & T & L & _ & SS).
      rewrite M in EI'. injection EI' as -> ->. eauto. }
    destruct (o_missing o1); try (injection E3 as <- <-; by apply K).
    unfold h_handle_inject in E3. rewrite Q1, Q2, Q3 in E3.
    destruct (build_all (map q_text (o_queries o))) as [ts|e| |]; try (injection E3 as <- <-; by apply K); [by apply I in E3|].
    destruct e; try (injection E3 as <- <-; by apply K). destruct (o_inject o) as [ip|]; [|injection E3 as <- <-; by apply K].
    apply (I ip); [by apply FI|done].
  - destruct (h_do_action fuel sed (o_action o) (o_value o) (label doc) (x :: rs) h) as [h3 r3] eqn:E3. injection E as <- <- <-.
    set (f2 := fuel + d + tree_size (erase doc)). apply (fun L => below_do_action fuel f2 sed (o_action o) (o_value o) (label doc) _ L _ _ _ E3) in NF as E4; [|unfold f2; lia].
    destruct (act_forest sed ro d (o_action o) (o_value o) t f2 h doc gs (x :: rs) ltac:(unfold f2; lia) ltac:(unfold f2; lia) O A V S St)
      as (h4 & r4 & doc' & gs' & M & T & L & _ & SS).
    + exact (find_inside _ _ _ _ FQ R FR).
    + rewrite M in E4. injection E4 as -> ->. eauto.
Qed.

(** ** A dotted path finds nodes of the document *)
Lemma f_path_inside h names : forall t x, reads h t -> In x (f_path h names (label t)) -> x ∈ locs t.
Proof.
  induction names as [|k r IH]; intros t x R X; destruct (reads_root _ _ R) as [al E]; cbn [f_path] in X; rewrite E in X.
  - destruct X as [<-|[]]. apply label_locs.
  - destruct t as [l i c]. cbn [n_info n_content l_info l_content] in X. destruct (kind_eqb _ _); [|destruct X].
    destruct c as [ts|]; [|destruct X]. cbn [labels] in X. destruct (f_child h k (map label ts)) as [v|] eqn:F; [|destruct X].
    apply f_child_in, in_map_iff in F as (u & <- & U). rewrite reads_eq in R. destruct R as [_ R]. cbn [kids] in R.
    rewrite Forall_forall in R. apply elem_of_list_In in U. rewrite locs_eq. cbn [kids]. apply elem_of_cons. right.
    apply elem_of_flat. exists u. split; [done|]. apply IH; auto.
Qed.
Lemma dotted_inside text names : finds_inside (dotted text names).
Proof.
  intros h t x R X. cbn [dotted q_find] in X. unfold f_root in X. destruct (reads_root _ _ R) as [al E]. rewrite E in X.
  cbn [n_info n_content] in X. destruct (kind_eqb _ _); [|by apply (f_path_inside h names)].
  destruct t as [l i [[|u ts]|]]; cbn [l_content labels map] in X; try (destruct X; fail).
  rewrite reads_eq in R. destruct R as [_ R]. cbn [kids] in R. apply Forall_cons in R as [R _].
  rewrite locs_eq. cbn [kids]. apply elem_of_cons. right. apply elem_of_flat. exists u. split; [left|]. by apply (f_path_inside h names).
Qed.
