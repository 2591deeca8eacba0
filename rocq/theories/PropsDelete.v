(** C13, C14, C15: deletion. *)
From Verif Require Import Prelude Yaml Heap HeapActions ActionNames Overlay SpecMerge SpecHeap SpecDelete SpecOverlay
  ProofHeap ProofHeapActions ProofDelete ProofSound ProofForest ProofSelected ProofDeleteProps Format Examples Deciders.

(** *** C13: delete removes exactly what was selected *)
(** [prune (mem sel) doc] (SpecDelete.v) is the document without the selected
    sequence elements and without the mapping pairs one of whose halves is
    selected, everything else in place.  Nothing outside the document changes,
    and no node, not even a removed one, loses a scalar field or its alias. *)
Theorem C13_delete_removes_exactly_the_selection fuel sed v h doc sel :
  proper h doc -> tree_size (erase doc) <= fuel ->
  exists h', h_do_action fuel sed ADelete v (label doc) sel h = (h', Ok tt) /\
    own h' [prune (mem sel) doc] /\
    (forall x, x ∉ locs doc -> h' !! x = h !! x) /\
    (forall x n, h !! x = Some n -> exists c, h' !! x = Some (mkNode (n_info n) (n_alias n) c)).
Proof.
  intros (O & W & B) F.
  destruct (h_delete_all _ fuel F sel h doc (size_height doc) O (shape_cuttable _ W B)) as (h' & gs & E & T).
  exists h'. split; [exact E|]. split; [exact (own_head _ _ _ (own_trans _ _ _ _ O T))|].
  assert (K : keeps_fields h h').
  { pose proof (keeper_loop (h_delete fuel (label doc)) sel (fun c => keeper_delete fuel _ c) h) as K. by rewrite E in K. }
  destruct K as [KL K]. split; [|exact K]. intros x X. destruct (lt_dec x (length h)) as [L|L].
  - apply (tr_frame _ _ _ _ T x L). cbn. by rewrite app_nil_r.
  - rewrite !lookup_ge_None_2; [done|lia|lia].
Qed.

(** What [prune] leaves of a node, level by level. *)
Theorem C13_meaning_of_prune sel l i ts :
  exists ts', l_content (prune sel (L l i (Some ts))) = Some ts' /\
    l_info (prune sel (L l i (Some ts))) = i /\ label (prune sel (L l i (Some ts))) = l /\
    (i_kind i = KSequence \/ i_kind i = KDocument ->
       map label ts' = base.filter (fun x => sel x = false) (map label ts)) /\
    (i_kind i = KMapping -> map label ts' = drop_pairs sel (map label ts)) /\
    (forall t', t' ∈ ts' -> exists t, t ∈ ts /\ t' = prune sel t).
Proof.
  eexists. split; [reflexivity|]. split; [done|]. split; [done|].
  assert (FL : forall us, map label (base.filter (fun t => sel (label t) = false) us) = base.filter (fun x => sel x = false) (map label us)).
  { induction us as [|u us IH]; [done|]. cbn [map]. rewrite !filter_cons.
    destruct (decide (sel (label u) = false)); cbn [map]; by rewrite IH. }
  assert (DL : forall us, map label (drop_pairs (fun t => sel (label t)) us) = drop_pairs sel (map label us)).
  { induction us as [|x|x y us IH] using ProofMerge.list_ind2; [done|done|]. cbn [map drop_pairs].
    destruct (sel (label x) || sel (label y)); cbn [map]; by rewrite IH. }
  split; [|split].
  - intros K. assert (E : elements (i_kind i) = true) by (by destruct K as [-> | ->]). rewrite E, FL, map_prune_label. done.
  - intros K. rewrite K. cbn [elements kind_eqb orb]. rewrite DL, map_prune_label. done.
  - intros t' T'. assert (X : t' ∈ map (prune sel) ts).
    { destruct (elements (i_kind i)); [by apply elem_of_list_filter in T' as [_ T']|by eapply drop_pairs_sub]. }
    apply elem_of_list_In, in_map_iff in X as (t & <- & I). exists t. split; [by apply elem_of_list_In|done].
Qed.

(** *** C14: idempotent and independent of the order *)
Theorem C14_selection_order_irrelevant fuel sed v h doc sel sel' :
  proper h doc -> tree_size (erase doc) <= fuel -> (forall x, In x sel <-> In x sel') ->
  exists h1 h2 doc', h_do_action fuel sed ADelete v (label doc) sel h = (h1, Ok tt) /\
    h_do_action fuel sed ADelete v (label doc) sel' h = (h2, Ok tt) /\ own h1 [doc'] /\ own h2 [doc'] /\ label doc' = label doc.
Proof.
  intros P F E.
  destruct (C13_delete_removes_exactly_the_selection fuel sed v h doc sel P F) as (h1 & A1 & B1 & _).
  destruct (C13_delete_removes_exactly_the_selection fuel sed v h doc sel' P F) as (h2 & A2 & B2 & _).
  exists h1, h2, (prune (mem sel) doc). split; [done|]. split; [done|]. split; [done|]. split; [|apply prune_label].
  rewrite (prune_ext (mem sel) (mem sel')); [done|]. intros x.
  destruct (mem sel x) eqn:M1, (mem sel' x) eqn:M2; try done; exfalso.
  - apply mem_In, E, mem_In in M1. congruence.
  - apply mem_In, E, mem_In in M2. congruence.
Qed.
Theorem C14_delete_again_changes_nothing fuel sed v h doc sel sel' :
  proper h doc -> tree_size (erase doc) <= fuel -> (forall x, In x sel' -> In x sel) ->
  exists h', h_do_action fuel sed ADelete v (label doc) sel h = (h', Ok tt) /\
    h_do_action fuel sed ADelete v (label doc) sel' h' = (h', Ok tt).
Proof.
  intros P F S. destruct (C13_delete_removes_exactly_the_selection fuel sed v h doc sel P F) as (h' & A & B & _).
  exists h'. split; [exact A|]. destruct P as (O & W & Br). pose proof (shape_cuttable _ W Br) as C.
  unfold h_do_action. cbn [h_act].
  rewrite <- (prune_label (mem sel) doc).
  eapply (delete_again (tree_size (erase doc))); [exact F|apply prune_height, size_height| |].
  - destruct B as [R _]. by apply Forall_cons in R as [R _].
  - intros x X I. apply S, mem_In in X. rewrite (prune_kept _ _ C x I) in X. discriminate.
Qed.

(** *** C15: no crash, and pairs stay paired *)
Theorem C15_delete_never_crashes fuel sed v h doc sel :
  proper h doc -> tree_size (erase doc) <= fuel ->
  exists h' doc', h_do_action fuel sed ADelete v (label doc) sel h = (h', Ok tt) /\
    proper h' doc' /\ label doc' = label doc.
Proof.
  intros P F. destruct (C13_delete_removes_exactly_the_selection fuel sed v h doc sel P F) as (h' & A & B & _).
  exists h', (prune (mem sel) doc). split; [done|]. destruct P as (O & W & Br).
  split; [|apply prune_label]. split; [done|]. exact (sound_prune (mem sel) doc (conj W Br)).
Qed.

(** *** A concrete case *)
Definition ex_ldoc : ltree :=
  L 0 (mk KDocument [] []) (Some [L 1 (mk KMapping (lit "!!map") []) (Some [
    L 2 (mk KScalar (lit "!!str") (lit "a")) None; L 3 (mk KSequence (lit "!!seq") []) (Some [
       L 4 (mk KScalar (lit "!!int") (lit "1")) None; L 5 (mk KScalar (lit "!!int") (lit "2")) None]);
    L 6 (mk KScalar (lit "!!str") (lit "b")) None; L 7 (mk KScalar (lit "!!str") (lit "x")) None;
    L 8 (mk KScalar (lit "!!str") (lit "c")) None; L 9 (mk KScalar (lit "!!str") (lit "y")) None])]).
Definition ex_lheap : heap :=
  [mkNode (mk KDocument [] []) None (Some [1]); mkNode (mk KMapping (lit "!!map") []) None (Some [2; 3; 6; 7; 8; 9]);
   mkNode (mk KScalar (lit "!!str") (lit "a")) None None; mkNode (mk KSequence (lit "!!seq") []) None (Some [4; 5]);
   mkNode (mk KScalar (lit "!!int") (lit "1")) None None; mkNode (mk KScalar (lit "!!int") (lit "2")) None None;
   mkNode (mk KScalar (lit "!!str") (lit "b")) None None; mkNode (mk KScalar (lit "!!str") (lit "x")) None None;
   mkNode (mk KScalar (lit "!!str") (lit "c")) None None; mkNode (mk KScalar (lit "!!str") (lit "y")) None None].
Definition node_branchingb (t : tree) : bool :=
  match children t with [] => true | _ => kind_eqb (t_kind t) KDocument || kind_eqb (t_kind t) KSequence || kind_eqb (t_kind t) KMapping end.
Lemma branching_ex t : everywhereb node_branchingb t = true -> branching t.
Proof.
  apply everywhereb_sound. intros x H NE. unfold node_branchingb in H. destruct (children x); [done|].
  destruct (kind_eqb_spec (t_kind x) KDocument); [auto|]. destruct (kind_eqb_spec (t_kind x) KSequence); [auto|].
  destruct (kind_eqb_spec (t_kind x) KMapping); [auto|discriminate].
Qed.
Lemma ex_proper : proper ex_lheap ex_ldoc.
Proof.
  split; [|split].
  - split.
    + apply Forall_cons. split; [|constructor]. cbn. repeat (split; [eexists; reflexivity|]). repeat split; eexists; reflexivity.
    + apply (bool_decide_unpack _). vm_compute. exact I.
  - apply well_paired_ex. vm_compute. reflexivity.
  - apply branching_ex. vm_compute. reflexivity.
Qed.
(** Deleting element 4, the value 7 and the key 8 (and 7 again, and 5 inside
    nothing else) leaves a: [2]. *)
Example C13_applies :
  proper ex_lheap ex_ldoc /\
  erase (prune (mem [4; 7; 8; 7]) ex_ldoc) =
  doc (mp [sc "a"; sq [num "2"]]).
Proof. split; [exact ex_proper|vm_compute; reflexivity]. Qed.

(** The selections 4, 7, 8 and 8, 4, 7, 7 are the same; deleting 4 and 7 again changes nothing. *)
Example C14_applies :
  proper ex_lheap ex_ldoc /\ tree_size (erase ex_ldoc) <= 20 /\ (forall x, In x [4; 7; 8] <-> In x [8; 4; 7; 7]) /\
  (forall x, In x [7; 4] -> In x [4; 7; 8]) /\
  h_do_action 20 no_sed ADelete 0 0 [4; 7; 8] ex_lheap = h_do_action 20 no_sed ADelete 0 0 [8; 4; 7; 7] ex_lheap /\
  h_do_action 20 no_sed ADelete 0 0 [4; 7; 8] ex_lheap <> (ex_lheap, Ok tt).
Proof.
  split; [exact ex_proper|]. split; [vm_compute; lia|]. split; [intros x; cbn [In]; tauto|]. split; [intros x; cbn [In]; tauto|].
  split; [vm_compute; reflexivity|vm_compute; discriminate].
Qed.
(** Deleting the top of the document (1), what is below it and a node that is nowhere (99) does not crash. *)
Example C15_applies :
  proper ex_lheap ex_ldoc /\ tree_size (erase ex_ldoc) <= 20 /\
  snd (h_do_action 20 no_sed ADelete 0 0 [3; 1; 4; 99; 0] ex_lheap) = Ok tt.
Proof. split; [exact ex_proper|]. split; [vm_compute; lia|vm_compute; reflexivity]. Qed.

Print Assumptions C13_delete_removes_exactly_the_selection.
Print Assumptions C13_meaning_of_prune.
Print Assumptions C14_selection_order_irrelevant.
Print Assumptions C14_delete_again_changes_nothing.
Print Assumptions C15_delete_never_crashes.
