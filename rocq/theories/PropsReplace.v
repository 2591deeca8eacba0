(** C16: replace; C54: merge, replace and combine touch the selected nodes only. *)
From Verif Require Import Prelude GoStrings Format Yaml Heap MergeTree Combine HeapActions ActionNames Overlay SpecMerge SpecHeap SpecDelete
  SpecOverlay SpecReplace ProofHeap ProofHeapActions ProofHeapMerge ProofSanitize ProofOverlay ProofSelected ProofForest Examples ExamplesHeap Witness.
From Verif Require Import MergeTree.

Lemma trans_edited ro d h doc v t sel h' doc' gs : setting ro d h doc v t sel -> trans h [doc] h' (doc' :: gs) ->
  label doc' = label doc -> edited ro d h doc v t h' doc'.
Proof.
  intros (O & A & V & _) T LB. split; [done|]. split; [exact (own_head _ _ _ (own_trans _ _ _ _ O T))|].
  split; [exact (apart_head _ _ _ _ (apart_trans _ _ _ _ _ O T A))|]. split; [by eapply value_at_trans|].
  intros x X N. apply (tr_frame _ _ _ _ T x X). cbn. by rewrite app_nil_r.
Qed.

(** *** C16: replace installs exactly the overlay value *)
(** [rewrite_at (mem sel) f doc] is the document with each topmost selected
    node [old] turned into [f old] and everything else untouched.  The selected
    nodes may lie inside each other and come in any order. *)
Theorem C16_replace_installs_the_value fuel sed ro d h doc v t sel :
  setting ro d h doc v t sel -> d <= fuel ->
  exists h' doc' f, h_do_action fuel sed AReplace v (label doc) sel h = (h', Ok tt) /\
    edited ro d h doc v t h' doc' /\
    erase doc' = rewrite_at (mem sel) f doc /\ forall old, installed sed t old (f old).
Proof.
  intros ST F. pose proof ST as (O & A & V & N & IN).
  destruct (replace_selected sed ro d fuel v t F sel h doc [] O A V N) as (h' & doc' & gs & M & T & LB & E).
  { intros x X. cbn. rewrite app_nil_r. auto. }
  exists h', doc', (fun old => replace_node sed old t). split; [exact M|]. split; [by eapply trans_edited|].
  split; [exact E|]. intros old. unfold installed. repeat (split; [done|]).
  exact (merge_comments_from_first sed (t_info old) (t_info t) []).
Qed.

(** *** C54: selected nodes are merged or combined, and nothing else *)
(** When no selected node lies inside another and each merge succeeds, each
    selected node becomes its merge with the overlay value ([merge], about which
    C01 to C12 speak), all else stays. *)
Theorem C54_merge_edits_only_the_selection fuel sed ro d h doc v t sel :
  setting ro d h doc v t sel -> d <= fuel -> independent sel doc ->
  (forall s, subtree s doc -> In (label s) sel -> exists r, merge sed (erase s) t [] = Ok r) ->
  exists h' doc' f, h_do_action fuel sed AMerge v (label doc) sel h = (h', Ok tt) /\
    edited ro d h doc v t h' doc' /\ erase doc' = rewrite_at (mem sel) f doc /\
    forall s, subtree s doc -> In (label s) sel -> merge sed (erase s) t [] = Ok (f (erase s)).
Proof.
  intros ST F IND TOT. pose proof ST as (O & A & V & N & IN).
  destruct (each_selected ro (fun h => value_at d ro h v t) (fun n => h_merge_node fuel sed n [v]) (fun o => merge sed o t []))
    with (sel := sel) (h := h) (doc := doc) as (h' & doc' & gs & M & T & LB & E); try done.
  - intros h0 s Os As Vs. destruct (h_merge_spec sed ro d fuel h0 s v t [] F Os As Vs) as (h' & r & s' & g & M & T & LB & E).
    exists h', r, s', g. split; [|done]. unfold h_merge_node. cbn [loop]. unfold bind. rewrite M.
    destruct r as [[]| | |]; reflexivity.
  - intros. by eapply value_at_trans.
  - exists h', doc', (result (fun o => merge sed o t [])). split; [exact M|]. split; [by eapply trans_edited|].
    split; [exact E|]. intros s S I. destruct (TOT s S I) as [r R]. unfold result. by rewrite R.
Qed.
Theorem C54_combine_edits_only_the_selection fuel sed ro d h doc v t sel :
  setting ro d h doc v t sel -> independent sel doc ->
  (forall s, subtree s doc -> In (label s) sel -> snd (combine_node sed (erase s) t) = None) ->
  exists h' doc', h_do_action fuel sed ACombine v (label doc) sel h = (h', Ok tt) /\
    edited ro d h doc v t h' doc' /\
    erase doc' = rewrite_at (mem sel) (fun old => fst (combine_node sed old t)) doc.
Proof.
  intros ST IND TOT. pose proof ST as (O & A & V & N & IN).
  set (F := fun o => match combine_node sed o t with (t', None) => Ok t' | (_, Some e) => Err e end).
  destruct (each_selected ro (fun h => value_at d ro h v t) (fun n => h_combine_node sed n v) F)
    with (sel := sel) (h := h) (doc := doc) as (h' & doc' & gs & M & T & LB & E); try done.
  - intros h0 s Os As Vs. by apply (combine_performs sed ro d).
  - intros. by eapply value_at_trans.
  - intros s S I. specialize (TOT s S I). unfold F. destruct (combine_node sed (erase s) t) as [t' [e|]]; [done|eauto].
  - exists h', doc'. split; [exact M|]. split; [by eapply trans_edited|]. rewrite E. clear E M.
    assert (X : forall u, subtree u doc -> rewrite_at (mem sel) (result F) u = rewrite_at (mem sel) (fun old => fst (combine_node sed old t)) u).
    { induction u as [l i|l i ts IH] using ltree_ind'; intros U; rewrite !rewrite_at_eq; destruct (mem sel l) eqn:ML.
      - unfold result, F. pose proof (TOT _ U (proj1 (mem_In _ _) ML)) as Y. cbn [label] in Y. destruct (combine_node _ _ _) as [t' [e|]]; done.
      - done.
      - unfold result, F. pose proof (TOT _ U (proj1 (mem_In _ _) ML)) as Y. destruct (combine_node _ _ _) as [t' [e|]]; done.
      - do 2 f_equal. apply map_ext_in. intros u0 U0. rewrite Forall_forall in IH. apply IH; [by apply elem_of_list_In|].
        eapply subtree_trans; [|exact U]. eapply st_below; [exact U0|constructor]. }
    apply X. constructor.
Qed.
(** If one of them cannot be combined the overlay fails with the error of the
    first such node [s]; the nodes selected before it have been combined, of [s]
    itself at most the comments changed, and the rest of the document, including
    the nodes selected after it, is as before. *)
Theorem C54_first_error_is_reported fuel sed ro d h doc v t l1 s l2 e :
  setting ro d h doc v t (l1 ++ label s :: l2) -> independent (l1 ++ label s :: l2) doc ->
  subtree s doc -> snd (combine_node sed (erase s) t) = Some e ->
  (forall u, subtree u doc -> In (label u) l1 -> snd (combine_node sed (erase u) t) = None) ->
  exists h' doc', h_do_action fuel sed ACombine v (label doc) (l1 ++ label s :: l2) h = (h', Err e) /\
    edited ro d h doc v t h' doc' /\
    erase doc' = rewrite_at (mem (l1 ++ [label s])) (fun old => fst (combine_node sed old t)) doc /\
    t_content (fst (combine_node sed (erase s) t)) = t_content (erase s) /\
    t_value (fst (combine_node sed (erase s) t)) = t_value (erase s) /\
    t_tag (fst (combine_node sed (erase s) t)) = t_tag (erase s) /\
    t_kind (fst (combine_node sed (erase s) t)) = t_kind (erase s).
Proof.
  intros (O & A & V & N & IN) IND S ER TOT.
  set (m := fun n => h_combine_node sed n v).
  set (F := fun o => match combine_node sed o t with (t', None) => Ok t' | (_, Some e) => Err e end).
  set (Q := fun o => Ok (A := tree) (fst (combine_node sed o t))).
  assert (HJ : forall h W h' W', own h W -> apart ro h W -> trans h W h' W' -> value_at d ro h v t -> value_at d ro h' v t)
    by (intros; by eapply value_at_trans).
  pose proof N as N'. apply NoDup_app in N' as (N1 & N12 & N2). apply NoDup_cons in N2 as [NS N2].
  assert (SL : subtree s doc -> ~ In (label s) l1) by (intros _ I; apply (N12 (label s)); [by apply elem_of_list_In|by left]).
  assert (IN1 : forall x, In x l1 -> x ∈ locs doc) by (intros x X; apply IN, in_or_app; by left).
  assert (IND1 : independent l1 doc).
  { intros u x U I J. apply (IND u x U); apply in_or_app; by left. }
  destruct (each_selected_keeps ro (fun h => value_at d ro h v t) m F) with (sel := l1) (h := h) (doc := doc)
    as (h1 & doc1 & g1 & M1 & T1 & L1 & _ & K1); try done.
  { intros h0 u Ou Au Vu. by apply (combine_performs sed ro d). }
  { intros u U I. specialize (TOT u U I). unfold F. destruct (combine_node sed (erase u) t) as [t' [e'|]]; [done|eauto]. }
  destruct (each_selected ro (fun h => value_at d ro h v t) (quiet m) Q) with (sel := l1 ++ [label s]) (h := h) (doc := doc)
    as (h2 & doc2 & g2 & M2 & T2 & L2 & E2); try done.
  { intros h0 u Ou Au Vu. destruct d; [destruct Vu|]. destruct Vu as (R & nn & V1 & V2 & _).
    destruct (h_combine_spec sed ro h0 u v nn t Ou Au R V1 V2) as (h' & u' & gs & M & T & L & E).
    exists h', (Ok tt), u', gs. split; [|done]. unfold quiet, m. by rewrite M. }
  { apply NoDup_app. split; [done|]. split; [|apply NoDup_singleton].
    intros x X Y. apply elem_of_list_singleton in Y as ->. apply (N12 (label s) X). by left. }
  { intros x X. apply in_app_or in X as [X|[<-|[]]]; [by apply IN1|]. apply IN, in_or_app. right. by left. }
  { intros u x U I J. assert (SUB : forall y, In y (l1 ++ [label s]) -> In y (l1 ++ label s :: l2)).
    { intros y Y. apply in_app_or in Y as [Y|[<-|[]]]; apply in_or_app; [by left|right; by left]. }
    apply (IND u x U); by apply SUB. }
  { intros u _ _. unfold Q. eauto. }
  assert (S1 : subtree s doc1).
  { apply K1; [done| |].
    - intros x X. apply (IND s x S); [apply in_or_app; right; by left|apply in_or_app; by left|]. intros ->. by apply SL.
    - intros u U I. apply (IND u (label s) U); [apply in_or_app; by left|apply in_or_app; right; by left|].
      intros E. rewrite <- E in I. by apply SL. }
  pose proof (own_head _ _ _ (own_trans _ _ _ _ O T1)) as O1.
  pose proof (apart_head _ _ _ _ (apart_trans _ _ _ _ _ O T1 A)) as A1.
  pose proof (HJ _ _ _ _ O A T1 V) as V1.
  destruct d as [|d']; [destruct V|]. pose proof V1 as (R & nn & Va & Vb & _).
  destruct (h_combine_spec sed ro h1 s v nn t (own_subtree _ _ _ O1 S1) (apart_subtree _ _ _ _ A1 S1) R Va Vb)
    as (h3 & s3 & g3 & M3 & _ & _ & _). rewrite ER in M3.
  rewrite (loop_app _ _ _ _ _ (loop_quiet _ _ _ _ M1)) in M2. cbn [loop] in M2. unfold bind, quiet, ret in M2.
  assert (M3' : m (label s) h1 = (h3, Err e)) by exact M3. rewrite M3' in M2. cbn [fst] in M2. injection M2 as ->.
  exists h2, doc2. split; [|split; [|split; [exact E2|]]].
  - unfold h_do_action. change (fun l => h_act fuel sed ACombine v (label doc) l) with m.
    rewrite (loop_app _ _ _ _ _ M1). cbn [loop]. unfold bind. by rewrite M3'.
  - eapply (trans_edited ro _ h doc v t (l1 ++ label s :: l2)); [|done|done]. by split.
  - clear -ER. revert ER. unfold combine_node.
    set (i := merge_comments sed (t_info (erase s)) (t_info t) []).
    assert (K : forall c, t_value (T i c) = t_value (erase s) /\ t_tag (T i c) = t_tag (erase s) /\ t_kind (T i c) = t_kind (erase s)).
    { intros c. subst i. unfold merge_comments. repeat (destruct (nonempty _)); done. }
    destruct (_ || _); [done|]. destruct (seq_eqb _ _).
    { destruct (atoi _); [destruct (atoi _)|]; cbn [fst snd]; try discriminate; intros _; split; try done; apply K. }
    destruct (seq_eqb _ _); [|discriminate].
    destruct (parse_bool _); [destruct (parse_bool _)|]; cbn [fst snd]; try discriminate; intros _; split; try done; apply K.
Qed.

(** *** A concrete case *)
Definition ex_ro (x : loc) : Prop := between (S ex_doc) (length ex_heap) x = true.
Definition ex_tree : ltree := match lread 20 ex_heap ex_doc with Some t => t | None => L 0 (mk KZero [] []) None end.
Definition ex_sel : list loc := q_find q_name ex_heap ex_doc.
Lemma ex_tree_read : lread 20 ex_heap ex_doc = Some ex_tree.
Proof. vm_compute. reflexivity. Qed.
Example C16_applies : setting ex_ro 20 ex_heap ex_tree ex_val ex_n ex_sel /\ ex_sel <> [].
Proof.
  split; [|vm_compute; discriminate]. split; [|split; [|split; [|split]]].
  - apply (lread_own 20 _ _ _ ex_tree_read). apply (bool_decide_unpack _). vm_compute. exact I.
  - apply apart_between; [done|]. apply between_all. vm_compute. reflexivity.
  - apply vread_value. vm_compute. reflexivity.
  - apply (bool_decide_unpack _). vm_compute. exact I.
  - intros x X. apply (bool_decide_unpack _). assert (Y : forallb (fun x => bool_decide (x ∈ locs ex_tree)) ex_sel = true) by (vm_compute; reflexivity).
    rewrite forallb_forall in Y. apply Is_true_eq_left. by apply Y.
Qed.
Example C54_applies : setting ex_ro 20 ex_heap ex_tree ex_x (sc "x") ex_sel /\ independent ex_sel ex_tree /\
  forall s, subtree s ex_tree -> In (label s) ex_sel -> exists r, merge no_sed (erase s) (sc "x") [] = Ok r.
Proof.
  split; [|split].
  - destruct C16_applies as [(O & A & _ & N & I) _]. split; [done|]. split; [done|]. split; [|done].
    apply vread_value. vm_compute. reflexivity.
  - intros s x S I1 I2 NE. exfalso. assert (E : ex_sel = [match ex_sel with a :: _ => a | [] => 0 end]) by (vm_compute; reflexivity).
    rewrite E in I1, I2. destruct I1 as [I1|[]], I2 as [I2|[]]. congruence.
  - intros s _ _. cbn. destruct (merge_scalar _ _ _ _). eauto.
Qed.
(** Combining "x" with the name and then with the whole metadata mapping fails
    at the mapping. *)
Example C54_failure_applies :
  exists s l2, setting ex_ro 20 ex_heap ex_tree ex_x (sc "x") ([] ++ label s :: l2) /\ independent ([] ++ label s :: l2) ex_tree /\
    subtree s ex_tree /\ snd (combine_node no_sed (erase s) (sc "x")) = Some ECombineOnlyScalars.
Proof.
  destruct C54_applies as ((O & A & V & N & I) & _).
  assert (K : exists l i k r, ex_tree = L l i (Some (k :: r)) /\ t_kind (erase k) = KMapping) by (do 4 eexists; split; vm_compute; reflexivity).
  destruct K as (l & i & k & r & K & M).
  assert (S : subtree k ex_tree).
  { rewrite K. eapply st_below; [by left|constructor]. }
  exists k, []. cbn [app]. split; [|split; [|split; [done|]]].
  - split; [done|]. split; [done|]. split; [done|]. split; [apply NoDup_singleton|]. intros x [<-|[]]. eapply subtree_locs; [exact S|apply label_locs].
  - intros s x _ [E1|[]] [E2|[]] NE. congruence.
  - unfold combine_node. rewrite M. reflexivity.
Qed.

Print Assumptions C16_replace_installs_the_value.
Print Assumptions C54_merge_edits_only_the_selection.
Print Assumptions C54_combine_edits_only_the_selection.
Print Assumptions C54_first_error_is_reported.
