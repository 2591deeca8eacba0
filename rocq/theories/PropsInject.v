(** C24, C25: injecting a value at a missing path. *)
From Verif Require Import Prelude GoStrings Format SpecFormat ProofFormat Yaml Heap MergeTree HeapActions Builder ActionNames Overlay SpecMerge SpecHeap
  SpecDelete SpecBuilder SpecReplace SpecInject SpecOverlay ProofHeap ProofHeapActions ProofMerge ProofForest ProofSanitize ProofBuilder ProofInject PropsBuilder PropsReplace
  Finder Examples ExamplesHeap Witness Deciders PropsDelete.
From Verif Require Import MergeTree.

(** A document [doc] with root content [root], an overlay whose value [t] is
    read at its value address outside the document, and enough budget for a path
    of [n] keys. *)
Definition target (ro : loc -> Prop) (d fuel n : nat) (h : heap) (doc root : ltree) (rest : list ltree) (o : overlay) (t : tree) : Prop :=
  proper h doc /\ i_kind (l_info doc) = KDocument /\ l_content doc = Some (root :: rest) /\
  apart ro h [doc] /\ value_at d ro h (o_value o) t /\ d <= fuel /\ 2 + n <= fuel.

(** The overlay's query is the key path [names], free of markers, missing in the
    document; onMissing says inject; no document query. *)
Definition missing (text : list N) (names : list (list N)) (root : ltree) (o : overlay) : Prop :=
  o_queries o = [Finder.dotted text names] /\ denotes text names /\ Forall (fun n => ~ marker_in n) names /\
  o_docqueries o = [] /\ o_missing o = MInject /\ tree_at names (erase root) = None.

Lemma denotes_build text names : denotes text names -> build text = Ok (document_of (nested names empty_scalar)).
Proof.
  intros [F D]. pose proof (C26_dotted_path_builds_its_keys names F) as (A & B & C).
  destruct D as [-> |[[N ->]|(n & r & E & Bn & ->)]]; [done|by apply B|by eapply C].
Qed.
Lemma find_dotted text names h doc root rest : reads h doc -> i_kind (l_info doc) = KDocument -> l_content doc = Some (root :: rest) ->
  h_find [Finder.dotted text names] (label doc) h =
  (h, Ok (match lpath names root with Some s => [label s] | None => [] end)).
Proof.
  intros R K C. destruct doc as [l i c]. cbn [l_info l_content] in *. subst c. destruct (reads_root _ _ R) as [al E].
  cbn [label l_info l_content labels map] in *. unfold h_find. rewrite (bind_ok _ _ _ _ _ (get_ok _ _ _ E)). cbn [n_info n_content].
  rewrite K. cbn [kind_eqb andb map concat]. do 2 f_equal. rewrite app_nil_r. cbn [Finder.dotted q_find]. unfold f_root. rewrite E.
  cbn [n_info n_content]. rewrite K. cbn [kind_eqb]. apply f_path_lpath.
  rewrite reads_eq in R. destruct R as [_ R]. cbn [kids] in R. by apply Forall_cons in R as [R _].
Qed.

Lemma apply_inject fuel sed dflt ro d text names h doc root rest o t :
  target ro d fuel (length names) h doc root rest o t -> missing text names root o ->
  exists h' doc' root', apply fuel sed dflt o (label doc) h = (h', o, Ok tt) /\ edited ro d h doc (o_value o) t h' doc' /\
    erase doc' = T (l_info doc) (Some (root' :: map erase rest)) /\
    injected (fun old new => new = replace_node sed (blanked old) t) (replace_node sed empty_scalar t) names (erase root) root'.
Proof.
  intros ((O & W & Br) & K & C & A & V & F1 & F2) (Q & D & NM & DQ & MI & TN).
  assert (R : reads h doc) by (destruct O as [R _]; by apply Forall_cons in R as [R _]).
  pose proof (denotes_build _ _ D) as B.
  destruct (inject_exact sed ro d fuel text names h doc root rest (o_value o) t O W A V F1 F2 B NM K C) as (h' & doc' & gs & root' & M & T & LB & E & I).
  exists h', doc', root'. split; [|split; [|done]].
  - unfold apply. rewrite DQ. cbn [h_check_queries]. unfold ret. rewrite Q, (find_dotted _ _ _ _ _ _ R K C).
    rewrite tree_at_lpath in TN. destruct (lpath names root); [discriminate|].
    assert (RM : resolve_missing dflt o = o) by (unfold resolve_missing; by rewrite MI). rewrite RM.
    unfold h_on_missing. rewrite MI. unfold h_handle_inject. rewrite Q. cbn [map Finder.dotted q_text build_all]. rewrite B. cbn [rbind].
    change (mkQuery text _) with (Finder.dotted text names). by rewrite M.
  - apply (trans_edited ro d h doc (o_value o) t [] h' doc' gs); [|done|done].
    split; [done|]. split; [done|]. split; [done|]. split; [constructor|]. by intros x [].
Qed.
Lemma replaced_fresh sed t : ~ marker_in (i_head (t_info t)) -> ~ marker_in (i_linec (t_info t)) -> ~ marker_in (i_foot (t_info t)) ->
  replace_node sed empty_scalar t = t.
Proof.
  intros H1 H2 H3. unfold replace_node, merge_comments. rewrite !format_no_marker by done. destruct t as [i c]. f_equal. cbn [t_info].
  destruct i as [k s tg v an hd lc ft ro co]. cbn. destruct hd, lc, ft; reflexivity.
Qed.

(** *** C24: inject makes the missing path resolve to the value *)
Theorem C24_injected_path_resolves fuel sed dflt ro d text names h doc root rest o t :
  target ro d fuel (length names) h doc root rest o t -> missing text names root o ->
  exists h' doc' root' v, apply fuel sed dflt o (label doc) h = (h', o, Ok tt) /\ edited ro d h doc (o_value o) t h' doc' /\
    erase doc' = T (l_info doc) (Some (root' :: map erase rest)) /\
    tree_at names root' = Some v /\ installed sed t empty_scalar v /\ (node_plain t -> v = t).
Proof.
  intros TG MS. destruct (apply_inject fuel sed dflt ro d text names h doc root rest o t TG MS) as (h' & doc' & root' & M & ED & E & I).
  exists h', doc', root', (replace_node sed empty_scalar t). split; [done|]. split; [done|]. split; [done|].
  pose proof (injected_at _ _ _ _ _ I) as AT. destruct MS as (_ & _ & _ & _ & _ & TN). rewrite TN in AT. split; [done|]. split.
  - unfold installed. repeat (split; [done|]). exact (merge_comments_from_first sed (t_info empty_scalar) (t_info t) []).
  - intros (_ & P1 & P2 & P3). by apply replaced_fresh.
Qed.

(** *** C25: inject leaves unrelated paths alone *)
Theorem C25_inject_changes_only_its_path fuel sed dflt ro d text names h doc root rest o t :
  target ro d fuel (length names) h doc root rest o t -> missing text names root o ->
  exists h' doc' root', apply fuel sed dflt o (label doc) h = (h', o, Ok tt) /\ edited ro d h doc (o_value o) t h' doc' /\
    erase doc' = T (l_info doc) (Some (root' :: map erase rest)) /\
    (forall p, diverge p names -> tree_at p root' = tree_at p (erase root)) /\
    (mappings_above names (erase root) -> kept (erase root) root').
Proof.
  intros TG MS. destruct (apply_inject fuel sed dflt ro d text names h doc root rest o t TG MS) as (h' & doc' & root' & M & ED & E & I).
  exists h', doc', root'. split; [done|]. split; [done|]. split; [done|]. split.
  - intros p D. by eapply injected_diverge.
  - intros MA. destruct MS as (_ & _ & _ & _ & _ & TN). by eapply injected_kept.
Qed.
(** The exact shape of the result, level by level (SpecInject.v). *)
Theorem C25_exact_result fuel sed dflt ro d text names h doc root rest o t :
  target ro d fuel (length names) h doc root rest o t -> missing text names root o ->
  exists h' doc' root' v, apply fuel sed dflt o (label doc) h = (h', o, Ok tt) /\ edited ro d h doc (o_value o) t h' doc' /\
    erase doc' = T (l_info doc) (Some (root' :: map erase rest)) /\
    installed sed t empty_scalar v /\ injected (fun _ _ => False) v names (erase root) root'.
Proof.
  intros TG MS. destruct (apply_inject fuel sed dflt ro d text names h doc root rest o t TG MS) as (h' & doc' & root' & M & ED & E & I).
  exists h', doc', root', (replace_node sed empty_scalar t). split; [done|]. split; [done|]. split; [done|]. split.
  - unfold installed. repeat (split; [done|]). exact (merge_comments_from_first sed (t_info empty_scalar) (t_info t) []).
  - destruct MS as (_ & _ & _ & _ & _ & TN). clear -I TN.
    induction I as [old new Hh|k r i l1 kn ov ov' l2 K P N EK I IH|k r i c K P N|k r i c K]; cbn [tree_at] in TN.
    + discriminate.
    + apply inj_in; try done. apply IH. unfold t_kind in TN. cbn [t_info] in TN. rewrite K in TN.
      change (children (T i (Some (l1 ++ kn :: ov :: l2)))) with (l1 ++ kn :: ov :: l2) in TN. by rewrite lookup_app in TN.
    + by apply inj_new.
    + by apply inj_convert.
Qed.

(** injectPath: when the query is not a key path (C29) and finds nothing, the
    value goes to the inject path, which may already exist; if it does, only the
    comments of the node there survive. *)
Theorem C24_inject_path_resolves fuel sed dflt ro d text names h doc root rest o t :
  target ro d fuel (length names) h doc root rest o t ->
  denotes text names -> Forall (fun n => ~ marker_in n) names ->
  o_docqueries o = [] -> o_missing o = MInject -> o_inject o = Some [Finder.dotted text names] ->
  (forall q, In q (o_queries o) -> q_find q h (label doc) = []) ->
  (exists q, In q (o_queries o) /\ build (q_text q) = Err EInvalidPath) ->
  exists h' doc' root' v, apply fuel sed dflt o (label doc) h = (h', o, Ok tt) /\ edited ro d h doc (o_value o) t h' doc' /\
    erase doc' = T (l_info doc) (Some (root' :: map erase rest)) /\
    tree_at names root' = Some v /\
    (tree_at names (erase root) = None -> installed sed t empty_scalar v) /\
    (forall old, tree_at names (erase root) = Some old -> installed sed t (T (set_value [] (t_info old)) None) v) /\
    (forall p, diverge p names -> tree_at p root' = tree_at p (erase root)).
Proof.
  intros ((O & W & Br) & K & C & A & V & F1 & F2) D NM DQ MI IJ FN BE.
  assert (R : reads h doc) by (destruct O as [R _]; by apply Forall_cons in R as [R _]).
  pose proof (denotes_build _ _ D) as B.
  destruct (inject_exact sed ro d fuel text names h doc root rest (o_value o) t O W A V F1 F2 B NM K C) as (h' & doc' & gs & root' & M & T & LB & E & I).
  assert (AP : apply fuel sed dflt o (label doc) h = (h', o, Ok tt)).
  { unfold apply. rewrite DQ. cbn [h_check_queries]. unfold ret.
    assert (FE : h_find (o_queries o) (label doc) h = (h, Ok [])).
    { destruct (reads_root _ _ R) as [al EE]. unfold h_find. rewrite (bind_ok _ _ _ _ _ (get_ok _ _ _ EE)). destruct (_ && _); [done|].
      do 2 f_equal. clear -FN. induction (o_queries o) as [|q qs IH]; [done|]. cbn [map concat]. rewrite FN by (by left).
      cbn [app]. apply IH. intros q' Q'. apply FN. by right. }
    rewrite FE. assert (RM : resolve_missing dflt o = o) by (unfold resolve_missing; by rewrite MI). rewrite RM.
    unfold h_on_missing. rewrite MI. unfold h_handle_inject.
    destruct (C28_path_lists_total (map q_text (o_queries o))) as [(ts & _ & F)|[-> _]].
    - exfalso. destruct BE as (q & Q & BQ). clear -Q BQ F. revert ts F. induction (o_queries o) as [|q0 qs IH]; intros ts F; [done|].
      cbn [map] in F. inversion F; subst. destruct Q as [->|Q]; [congruence|eauto].
    - rewrite IJ. by rewrite M. }
  pose proof (injected_at _ _ _ _ _ I) as AT.
  assert (IE : installed sed t empty_scalar (replace_node sed empty_scalar t)).
  { unfold installed. repeat (split; [done|]). exact (merge_comments_from_first sed (t_info empty_scalar) (t_info t) []). }
  assert (ED : edited ro d h doc (o_value o) t h' doc').
  { apply (trans_edited ro d h doc (o_value o) t [] h' doc' gs); [|done|done].
    split; [done|]. split; [done|]. split; [done|]. split; [constructor|]. by intros x []. }
  destruct (tree_at names (erase root)) as [old|].
  - destruct AT as (new & AT & ->). exists h', doc', root', (replace_node sed (blanked old) t). split; [done|]. split; [done|]. split; [done|]. split; [done|]. split; [done|].
    split; [|intros p Dp; by eapply injected_diverge].
    intros old' [= <-]. unfold installed. repeat (split; [done|]).
    exact (merge_comments_from_first sed (t_info (blanked old)) (t_info t) []).
  - exists h', doc', root', (replace_node sed empty_scalar t). split; [done|]. split; [done|]. split; [done|]. split; [done|]. split; [done|]. split; [done|].
    intros p Dp. by eapply injected_diverge.
Qed.

(** *** Limits *)
(** A sequence (or a non-empty scalar) on the way is lost: injecting 9 at
    a.b into {a: [1, 2], c: 3}. *)
Definition inject_run (t : tree) (text : string) (names : list string) : option tree * res unit :=
  let '(h1, dl) := put_tree (doc t) [] in
  let '(h2, vl) := put_tree (num "9") h1 in
  let o := mkOverlay [Finder.dotted (lit text) (map lit names)] vl AMerge [] MInject None None in
  let '(h3, _, r) := apply 20 no_sed [] o dl h2 in (read 20 h3 dl, r).
Example C25_sequence_on_the_way_is_lost :
  inject_run (mp [sc "a"; sq [num "1"; num "2"]; sc "c"; num "3"]) "$.a.b" ["a"; "b"]%string =
  (Some (doc (mp [sc "a"; mp [T (mk KScalar [] (lit "b")) None; num "9"]; sc "c"; num "3"])), Ok tt).
Proof. vm_compute. reflexivity. Qed.
(** Without the restriction on markers C24 fails: the scaffold key "%v" acts on
    every entry of the mapping, and the path still does not resolve. *)
Theorem C24_marker_names_refuted :
  exists r, inject_run (mp [sc "a"; num "1"; sc "b"; num "2"]) "$.%v.x" ["%v"; "x"]%string = (Some (doc r), Ok tt) /\
    tree_at [lit "%v"; lit "x"] r = None /\ tree_at [lit "a"] r <> Some (num "1").
Proof. eexists. vm_compute. split; [reflexivity|]. split; [reflexivity|discriminate]. Qed.

(** *** A concrete case *)
Definition ex_root : ltree := match ex_tree with L _ _ (Some (r :: _)) => r | _ => ex_tree end.
Definition ex_inject : overlay := mkOverlay [q_missing] ex_val AMerge [] MInject None None.
Example C24_applies :
  target ex_ro 20 20 3 ex_heap ex_tree ex_root [] ex_inject ex_n /\
  missing (lit "$.metadata.annotations.a") [lit "metadata"; lit "annotations"; lit "a"] ex_root ex_inject /\
  mappings_above [lit "metadata"; lit "annotations"; lit "a"] (erase ex_root) /\
  (tree_at [lit "metadata"; lit "name"] (erase ex_root) <> None) /\
  diverge [lit "metadata"; lit "name"] [lit "metadata"; lit "annotations"; lit "a"].
Proof.
  destruct C16_applies as [(O & A & V & _) _]. split; [|split; [|split; [|split]]].
  - split; [|split; [vm_compute; reflexivity|split; [vm_compute; reflexivity|split; [exact A|split; [exact V|split; lia]]]]].
    split; [exact O|]. split; [apply well_paired_ex|apply branching_ex]; vm_compute; reflexivity.
  - split; [reflexivity|]. split; [|split; [|split; [reflexivity|split; [reflexivity|vm_compute; reflexivity]]]].
    + split; [|by left]. repeat (apply Forall_cons; split; [apply plainb_spec; vm_compute; reflexivity|]). constructor.
    + repeat (apply Forall_cons; split; [intros H; apply check_for_markers_spec in H; vm_compute in H; discriminate|]). constructor.
  - vm_compute. split; [reflexivity|split; reflexivity || exact I].
  - vm_compute. discriminate.
  - exists [lit "metadata"], (lit "name"), (lit "annotations"), [], [lit "a"]. split; [reflexivity|]. split; [reflexivity|discriminate].
Qed.

Print Assumptions C24_injected_path_resolves.
Print Assumptions C24_inject_path_resolves.
Print Assumptions C25_inject_changes_only_its_path.
Print Assumptions C25_exact_result.
Print Assumptions C24_marker_names_refuted.
