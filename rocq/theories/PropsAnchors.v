(** C50: aliases keep their anchors. *)
From Verif Require Import Prelude GoStrings Format Yaml Heap MergeTree Combine HeapActions ActionNames Overlay SpecMerge SpecHeap SpecDelete
  SpecOverlay SpecReplace SpecInject SpecAnchors ProofHeap ProofHeapActions ProofMerge ProofOverlay ProofDelete ProofSelected ProofForest ProofAnchors
  ProofDeleteProps PropsReplace PropsDelete PropsInject Finder Examples ExamplesHeap Witness Deciders.
From Verif Require Import MergeTree.

(** *** What each action needs for aliases to keep their anchors *)
(** Replace: the value is linked by itself, and the aliases outside the selected
    nodes have their anchors outside them too. *)
Theorem C50_replace_keeps_links fuel sed ro d h doc v t sel :
  setting ro d h doc v t sel -> d <= fuel -> linked t ->
  linked_within (outside sel doc) (outside sel doc) doc ->
  exists h' doc', h_do_action fuel sed AReplace v (label doc) sel h = (h', Ok tt) /\ edited ro d h doc v t h' doc' /\ linked (erase doc').
Proof.
  intros ST F LT LW. destruct (C16_replace_installs_the_value fuel sed ro d h doc v t sel ST F) as (h' & doc' & f & M & ED & E & IF).
  exists h', doc'. split; [done|]. split; [done|]. rewrite E. apply linked_ok.
  apply linked_within_held in LW.
  eapply (rewrite_ok (outside sel doc) (outside sel doc)); [| | | |exact LW].
  - intros s S MS p q _ _. split.
    + apply linked_ok in LT. destruct (IF (erase s)) as (K & _ & V & _ & A & C & _). destruct (f (erase s)) as [i c], t as [ti tc].
      unfold t_kind, t_value in *. cbn [t_info t_content] in *. subst c. apply ok_node in LT as [LT1 LT2]. apply ok_node. split.
      * rewrite K, V. intros KA. by destruct (LT1 KA).
      * eapply held_mono; [|exact LT2]. cbn. rewrite A. intros n [[]|?]; auto.
    + intros n (x & i & X & O & _). exfalso. apply O. exists s. split; [done|]. split; [by apply mem_In|]. by eapply nodes_loc.
  - intros x X N (s & S & I & XS). apply (N s S); [by apply mem_In|done].
  - destruct ST as (O & _). by eapply own_nodup.
  - done.
Qed.

(** Merge: the value has no alias, and every alias of the document has its anchor
    outside the selected nodes. *)
Theorem C50_merge_keeps_links fuel sed ro d h doc v t sel :
  setting ro d h doc v t sel -> d <= fuel -> independent sel doc ->
  (forall s, subtree s doc -> In (label s) sel -> exists r, merge sed (erase s) t [] = Ok r) ->
  no_alias t -> linked_within (fun _ => True) (outside sel doc) doc ->
  exists h' doc', h_do_action fuel sed AMerge v (label doc) sel h = (h', Ok tt) /\ edited ro d h doc v t h' doc' /\ linked (erase doc').
Proof.
  intros ST F IND TOT NA LW.
  destruct (C54_merge_edits_only_the_selection fuel sed ro d h doc v t sel ST F IND TOT) as (h' & doc' & f & M & ED & E & IF).
  exists h', doc'. split; [done|]. split; [done|]. rewrite E. apply linked_ok. apply linked_within_held in LW.
  eapply (rewrite_ok always (outside sel doc)); [| | | |exact LW].
  - intros s S MS p q PQ H. split.
    + apply mem_In in MS. apply ok_aliases. eapply ai_merge; [exact NA| |exact (IF s S MS)].
      assert (X : aliases_in (fun n => n <> [] /\ p n) (erase s)).
      { eapply held_aliases; [|exact H]. intros x X O. apply O. exists s. done. }
      eapply everywhere_impl; [|exact X]. cbn. intros u U K. destruct (U K). auto.
    + intros n (x & i & X & O & _). exfalso. apply O. exists s. split; [done|]. split; [by apply mem_In|]. by eapply nodes_loc.
  - done.
  - destruct ST as (O & _). by eapply own_nodup.
  - done.
Qed.

(** Combine: nothing. *)
Theorem C50_combine_keeps_links fuel sed ro d h doc v t sel :
  setting ro d h doc v t sel -> independent sel doc ->
  (forall s, subtree s doc -> In (label s) sel -> snd (combine_node sed (erase s) t) = None) ->
  linked (erase doc) ->
  exists h' doc', h_do_action fuel sed ACombine v (label doc) sel h = (h', Ok tt) /\ edited ro d h doc v t h' doc' /\ linked (erase doc').
Proof.
  intros ST IND TOT LD.
  destruct (C54_combine_edits_only_the_selection fuel sed ro d h doc v t sel ST IND TOT) as (h' & doc' & M & ED & E).
  exists h', doc'. split; [done|]. split; [done|]. rewrite E. apply linked_ok in LD. apply linked_ok.
  apply ok_nodes in LD. eapply (rewrite_ok always always); [| | | |exact LD].
  - intros s S MS p q PQ H. apply mem_In in MS. specialize (TOT s S MS). apply ok_nodes in H.
    assert (X : exists i', fst (combine_node sed (erase s) t) = T i' (t_content (erase s)) /\ i_kind i' = KScalar /\ i_anchor i' = i_anchor (t_info (erase s)) /\
      i_kind (t_info (erase s)) = KScalar).
    { revert TOT. unfold combine_node, t_kind. destruct (kind_eqb_spec (i_kind (t_info (erase s))) KScalar) as [K|]; [|discriminate]. cbn [negb orb].
      destruct (negb _); [discriminate|].
      destruct (seq_eqb _ _).
      { destruct (atoi _); [destruct (atoi _)|]; cbn [fst snd]; try discriminate. intros _. eexists. split; [reflexivity|].
        cbn [set_value i_kind i_anchor]. by rewrite merge_comments_kind, merge_comments_anchor. }
      destruct (seq_eqb _ _).
      { destruct (parse_bool _); [destruct (parse_bool _)|]; cbn [fst snd]; try discriminate. intros _. eexists. split; [reflexivity|].
        cbn [set_value i_kind i_anchor]. by rewrite merge_comments_kind, merge_comments_anchor. }
      intros _. eexists. cbn [fst]. split; [reflexivity|]. cbn [set_value i_kind i_anchor]. by rewrite merge_comments_kind, merge_comments_anchor. }
    destruct X as (i' & -> & K & A & KO). destruct (erase s) as [si sc] eqn:ES. cbn [t_info t_content] in *. apply ok_node in H as [H1 H2]. split.
    + apply ok_node. split; [rewrite K; discriminate|]. eapply held_mono; [|exact H2]. cbn. rewrite A. intros n [?|?]; auto.
    + intros n (x & i & X & _ & EA). assert (HS : has (T si sc) n).
      { rewrite <- ES. exists i. split; [|done]. rewrite <- nodes_outline. apply elem_of_list_fmap. exists (x, i). done. }
      apply has_node in HS. apply has_node. by rewrite A.
  - done.
  - destruct ST as (O & _). by eapply own_nodup.
  - done.
Qed.

(** Delete: the aliases that remain have anchors that remain. *)
Theorem C50_delete_keeps_links fuel sed v h doc sel :
  proper h doc -> tree_size (erase doc) <= fuel ->
  let remains x := x ∈ locs (prune (mem sel) doc) in
  linked_within remains remains doc ->
  exists h', h_do_action fuel sed ADelete v (label doc) sel h = (h', Ok tt) /\ own h' [prune (mem sel) doc] /\
    linked (erase (prune (mem sel) doc)).
Proof.
  intros P F remains LW. destruct (C13_delete_removes_exactly_the_selection fuel sed v h doc sel P F) as (h' & M & O & _).
  exists h'. split; [done|]. split; [done|]. apply linked_ok, ok_nodes. apply linked_within_held in LW.
  eapply (held_sublist remains); [apply prune_sublist| | | | |exact LW].
  - rewrite nodes_fst. destruct P as (Od & _). by eapply own_nodup.
  - intros [x i] X. by eapply nodes_loc.
  - intros x X _. by rewrite nodes_fst.
  - done.
Qed.

(** Inject: the value is linked by itself and no existing node on the way is
    destroyed. *)
Theorem C50_inject_keeps_links fuel sed dflt ro d text names h doc root rest o t :
  target ro d fuel (length names) h doc root rest o t -> missing text names root o ->
  mappings_above names (erase root) -> linked t -> linked (erase doc) ->
  exists h' doc', apply fuel sed dflt o (label doc) h = (h', o, Ok tt) /\ edited ro d h doc (o_value o) t h' doc' /\ linked (erase doc').
Proof.
  intros TG MS MA LT LD.
  destruct (C25_exact_result fuel sed dflt ro d text names h doc root rest o t TG MS) as (h' & doc' & root' & v & M & ED & E & IV & I).
  exists h', doc'. split; [done|]. split; [done|]. rewrite E.
  assert (LV : linked v).
  { apply linked_ok in LT. apply linked_ok. destruct IV as (K & _ & V & _ & A & C & _). destruct v as [i c], t as [ti tc].
    unfold t_kind, t_value in *. cbn [t_info t_content] in *. subst c. apply ok_node in LT as [LT1 LT2]. apply ok_node. split.
    - rewrite K, V. intros KA. by destruct (LT1 KA).
    - eapply held_mono; [|exact LT2]. cbn. by rewrite A. }
  destruct (injected_ok _ _ _ _ _ (fun _ _ x => x) LV I MA) as [I1 I2].
  destruct TG as (_ & K & C & _). destruct doc as [l i c]. cbn [l_info l_content] in *. subst c. apply linked_ok in LD. apply linked_ok.
  rewrite erase_eq in LD. cbn [map] in LD. apply ok_node in LD as [H1 H2]. apply ok_node. split; [done|].
  apply oks_cons in H2 as [H2 H3]. apply oks_cons. split; [eapply I1; [|exact H2]; done|].
  eapply held_mono; [|exact H3]. cbn. intros n [?|?]; auto.
Qed.

(** *** Without these conditions the statement fails *)
Definition alias_of (s : string) : tree := T (mkInfo KAlias 0 [] (lit s) [] [] [] [] 0 0) None.
Definition anchored (a : string) (t : tree) : tree :=
  match t with T (mkInfo k s tg v _ h l f r c) k' => T (mkInfo k s tg v (lit a) h l f r c) k' end.
Definition linkedb (t : tree) : bool :=
  (fix go (seen : list (list N)) (l : list info) : bool :=
     match l with
     | [] => true
     | i :: r => (negb (kind_eqb (i_kind i) KAlias) || existsb (seq_eqb (i_value i)) seen) && go (i_anchor i :: seen) r
     end) [] (outline t).

(** Running one overlay with path [names] and value [v] on the document [t]. *)
Definition run_on (t v : tree) (a : action) (names : list string) : option tree * res unit :=
  let '(h1, dl) := put_tree (doc t) [] in
  let '(h2, vl) := put_tree v h1 in
  let o := mkOverlay [Finder.dotted (lit "$") (map lit names)] vl a [] MIgnore None None in
  let '(h3, _, r) := apply 20 no_sed [] o dl h2 in (read 20 h3 dl, r).

(** {base: &a 1, ref: *a}: replacing or deleting base, or merging a scalar over
    {base: {x: &a 1}, ref: *a}, leaves *a without its anchor; and merging the
    value {p: &x 1, q: *x} into {p: 2} does not bring the anchor along. *)
Definition dangling (r : option tree * res unit) : Prop := exists t, r = (Some t, Ok tt) /\ ~ linked t.
Lemma linkedb_false t : linkedb t = false -> ~ linked t.
Proof.
  unfold linkedb, linked. intros H LN.
  assert (X : forall l seen before, outline t = before ++ l -> (forall j, j ∈ before -> i_anchor j ∈ seen) ->
    (fix go (seen : list (list N)) (l : list info) : bool :=
     match l with
     | [] => true
     | i :: r => (negb (kind_eqb (i_kind i) KAlias) || existsb (seq_eqb (i_value i)) seen) && go (i_anchor i :: seen) r
     end) seen l = true).
  { induction l as [|i l IH]; intros seen before E S; [done|]. apply andb_true_intro. split.
    - destruct (kind_eqb_spec (i_kind i) KAlias) as [K|]; [|done]. cbn [negb orb]. destruct (LN before i l E K) as (j & J & D & _).
      apply existsb_exists. exists (i_anchor j). split; [apply elem_of_list_In; auto|]. rewrite D. by destruct (seq_eqb_spec (i_value i) (i_value i)).
    - apply (IH (i_anchor i :: seen) (before ++ [i])); [by rewrite <- app_assoc|]. intros j J. apply elem_of_app in J as [J|J]; [right; auto|].
      apply elem_of_list_singleton in J as ->. by left. }
  rewrite (X (outline t) [] []) in H; [discriminate|done|]. intros j J. by apply elem_of_nil in J.
Qed.
Lemma linkedb_true t : linkedb t = true -> forallb (fun i => negb (kind_eqb (i_kind i) KAlias && seq_eqb (i_value i) [])) (outline t) = true -> linked t.
Proof.
  intros H NE before i after E K.
    assert (X : forall l seen before, outline t = before ++ l -> (forall n, n ∈ seen -> exists j, j ∈ before /\ i_anchor j = n) ->
      (fix go (seen : list (list N)) (l : list info) : bool :=
       match l with
       | [] => true
       | i :: r => (negb (kind_eqb (i_kind i) KAlias) || existsb (seq_eqb (i_value i)) seen) && go (i_anchor i :: seen) r
       end) seen l = true -> forall l1 i l2, l = l1 ++ i :: l2 -> i_kind i = KAlias -> exists j, j ∈ before ++ l1 /\ i_anchor j = i_value i).
    { induction l as [|x l IH]; intros seen bf EB S G l1 y l2 EL KY; [by destruct l1|]. apply andb_prop in G as [G1 G2].
      destruct l1 as [|z l1].
      - injection EL as <- _. rewrite KY in G1. cbn [kind_eqb negb orb] in G1. apply existsb_exists in G1 as (n & N & Q).
        destruct (seq_eqb_spec (i_value x) n); [|discriminate]. subst n. rewrite app_nil_r. apply S. by apply elem_of_list_In.
      - injection EL as -> EL. destruct (IH (i_anchor z :: seen) (bf ++ [z])) with (l1 := l1) (i := y) (l2 := l2) as (j & J & A); try done.
        + by rewrite <- app_assoc.
        + intros n N. apply elem_of_cons in N as [->|N]; [exists z; split; [apply elem_of_app; right; by left|done]|].
          destruct (S n N) as (j & J & A). exists j. split; [apply elem_of_app; by left|done].
        + exists j. by rewrite <- app_assoc in J. }
    unfold linkedb in H. destruct (X (outline t) [] [] eq_refl ltac:(intros n N; by apply elem_of_nil in N) H before i after E K) as (j & J & A).
    exists j. split; [done|]. split; [done|]. intros Z.
  rewrite forallb_forall in NE. assert (I : In i (outline t)) by (rewrite E; apply in_app_iff; right; by left).
  specialize (NE i I). by rewrite K, Z in NE.
Qed.

Theorem C50_anchors_lost_refuted :
  let base := mp [sc "base"; anchored "a" (num "1"); sc "ref"; alias_of "a"] in
  let deep := mp [sc "base"; mp [sc "x"; anchored "a" (num "1")]; sc "ref"; alias_of "a"] in
  linked (doc base) /\ linked (doc deep) /\
  dangling (run_on base (sc "x") AReplace ["base"]%string) /\
  dangling (run_on base (sc "x") ADelete ["base"]%string) /\
  dangling (run_on deep (sc "x") AMerge ["base"]%string).
Proof.
  cbn zeta.
  split; [|split]; [apply linkedb_true; vm_compute; reflexivity..|].
  split; [|split]; (eexists; split; [vm_compute; reflexivity|apply linkedb_false; vm_compute; reflexivity]).
Qed.
Theorem C50_value_anchors_lost_refuted :
  let value := mp [sc "p"; anchored "x" (num "1"); sc "q"; alias_of "x"] in
  linked value /\ dangling (run_on (mp [sc "p"; num "2"]) value AMerge []).
Proof. cbn zeta. split; [apply linkedb_true; vm_compute; reflexivity|]. eexists. split; [vm_compute; reflexivity|]. apply linkedb_false. vm_compute. reflexivity. Qed.

(** *** The conditions are met by {base: &a 1, ref: *a, c: 2} with $.c selected *)
Fixpoint selected_locs (sel : list loc) (t : ltree) : list loc :=
  if mem sel (label t) then locs t else
  match t with L _ _ None => [] | L _ _ (Some ts) => concat (map (selected_locs sel) ts) end.
Lemma inside_selected sel doc x : inside sel doc x -> x ∈ selected_locs sel doc.
Proof.
  intros (s & S & I & X). induction S as [|l i ts t T S IH].
  - apply mem_In in I. destruct s as [l i [ts|]]; cbn [selected_locs label] in *; by rewrite I.
  - cbn [selected_locs label]. destruct (mem sel l); [eapply subtree_locs; [|exact X]; by eapply st_below|].
    apply elem_of_list_In, in_concat. exists (selected_locs sel t). split; [by apply in_map|]. by apply elem_of_list_In.
Qed.
Definition lk1 := put_tree (doc (mp [sc "base"; anchored "a" (num "1"); sc "ref"; alias_of "a"; sc "c"; num "2"])) [].
Definition lk2 := put_tree (num "7") (fst lk1).
Definition lk_heap : heap := fst lk2.
Definition lk_doc : ltree := match lread 20 lk_heap (snd lk1) with Some t => t | None => L 0 (mk KZero [] []) None end.
Definition lk_ro (x : loc) : Prop := between (S (snd lk1)) (length lk_heap) x = true.
Definition lk_sel : list loc := q_find (Finder.dotted (lit "$.c") [lit "c"]) lk_heap (snd lk1).
Example C50_applies :
  setting lk_ro 20 lk_heap lk_doc (snd lk2) (num "7") lk_sel /\ length lk_sel = 1 /\ independent lk_sel lk_doc /\ proper lk_heap lk_doc /\
  linked_within (fun _ => True) (outside lk_sel lk_doc) lk_doc /\
  linked_within (outside lk_sel lk_doc) (outside lk_sel lk_doc) lk_doc /\
  (let remains x := x ∈ locs (prune (mem lk_sel) lk_doc) in linked_within remains remains lk_doc) /\
  linked (erase lk_doc) /\ no_alias (num "7") /\ linked (num "7") /\
  (forall s, subtree s lk_doc -> In (label s) lk_sel -> exists r, merge no_sed (erase s) (num "7") [] = Ok r) /\
  exists i, i ∈ outline (erase lk_doc) /\ i_kind i = KAlias.
Proof.
  assert (O : own lk_heap [lk_doc]).
  { apply (lread_own 20 _ (snd lk1)); [vm_compute; reflexivity|]. apply (bool_decide_unpack _). vm_compute. exact I. }
  assert (LW : forall P : loc -> Prop, linked_within P (fun y => y ∉ selected_locs lk_sel lk_doc /\ y ∈ locs (prune (mem lk_sel) lk_doc)) lk_doc).
  { intros P before x i after E K _.
    assert (X : exists y j, (y, j) ∈ take 5 (nodes lk_doc) /\ (y ∉ selected_locs lk_sel lk_doc /\ y ∈ locs (prune (mem lk_sel) lk_doc)) /\ defines j (lit "a")).
    { exists 1%nat. assert (XX : exists j, nodes lk_doc !! 3 = Some (1, j) /\ defines j (lit "a")).
      { eexists. split; [vm_compute; reflexivity|]. split; [reflexivity|discriminate]. }
      destruct XX as (j & J & D). exists j. split; [|split; [|done]].
      - apply elem_of_list_lookup. exists 3. by rewrite lookup_take by lia.
      - split; apply (bool_decide_unpack _); vm_compute; exact I. }
    destruct X as (y & j & J & NS & D). exists y, j.
    assert (Z : forall k, nodes lk_doc !! k = Some (x, i) -> k = 5%nat /\ i_value i = lit "a").
    { intros k Z. do 8 (destruct k as [|k]; [vm_compute in Z; injection Z as <- <-; (discriminate K || (split; [reflexivity|reflexivity]))|]).
      vm_compute in Z. by destruct k. }
    destruct (Z (length before)) as [L V]; [rewrite E; by rewrite list_lookup_middle|].
    rewrite V. split; [|done].
    assert (B : before = take 5 (nodes lk_doc)) by (by rewrite E, <- L, take_app).
    by rewrite B. }
  split; [|split; [vm_compute; reflexivity|]].
  - split; [done|]. split; [apply apart_between; [done|]; apply between_all; vm_compute; reflexivity|].
    split; [apply vread_value; vm_compute; reflexivity|]. split; [apply (bool_decide_unpack _); vm_compute; exact I|].
    assert (Y : forallb (fun x => bool_decide (x ∈ locs lk_doc)) lk_sel = true) by (vm_compute; reflexivity).
    rewrite forallb_forall in Y. intros x X. apply (bool_decide_unpack _), Is_true_eq_left. by apply Y.
  - assert (SUB : forall P Q Q' : loc -> Prop, linked_within P Q lk_doc -> (forall y, Q y -> Q' y) -> linked_within P Q' lk_doc).
    { intros P Q Q' H M b x i a E K U. destruct (H b x i a E K U) as (y & j & J & Y & D). exists y, j. auto. }
    assert (OUT : forall P : loc -> Prop, linked_within P (outside lk_sel lk_doc) lk_doc).
    { intros P. eapply SUB; [apply LW|]. intros y [Y _] N. exact (Y (inside_selected _ _ _ N)). }
    split.
    { assert (E : lk_sel = [match lk_sel with a :: _ => a | [] => 0 end]) by (vm_compute; reflexivity).
      intros s x S I1 I2 NE. exfalso. rewrite E in I1, I2. destruct I1 as [I1|[]], I2 as [I2|[]]. congruence. }
    split; [split; [exact O|split; [apply well_paired_ex|apply branching_ex]; vm_compute; reflexivity]|].
    split; [apply OUT|]. split; [apply OUT|]. split.
    { eapply SUB; [apply LW|]. by intros y [_ Y]. }
    split; [apply linkedb_true; vm_compute; reflexivity|]. split; [by constructor|].
    split; [apply linkedb_true; vm_compute; reflexivity|]. split.
    + intros s _ _. cbn. destruct (merge_scalar _ _ _ _). eauto.
    + eexists. split; [|].
      * apply elem_of_list_lookup. exists 5. vm_compute. reflexivity.
      * reflexivity.
Qed.

Print Assumptions C50_replace_keeps_links.
Print Assumptions C50_merge_keeps_links.
Print Assumptions C50_combine_keeps_links.
Print Assumptions C50_delete_keeps_links.
Print Assumptions C50_inject_keeps_links.
Print Assumptions C50_anchors_lost_refuted.
Print Assumptions C50_value_anchors_lost_refuted.
Print Assumptions C50_applies.
