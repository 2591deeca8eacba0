(** C24, C25 for overlays with several queries (or injectPaths). *)
From Verif Require Import Prelude GoStrings Format SpecFormat ProofFormat Yaml Heap HeapActions Builder ActionNames Overlay SpecMerge SpecHeap SpecDelete SpecQuery SpecBuilder
  SpecReplace SpecInject SpecOverlay ProofHeap ProofMerge ProofSanitize ProofMergeAbs ProofMergeMap ProofBuilder ProofInject Finder ProofFinder SpecMeaning ProofMeaning ProofMeaningApply ProofMeaningKeys ProofSeveral
  SpecReach SpecSame PropsBuilder PropsReplace PropsInject PropsMeaning Examples ExamplesHeap Witness Deciders PropsDelete.
From Verif Require Import MergeTree.

(** A query text and the keys it goes through. *)
Notation path_text := (list N * list (list N))%type (only parsing).
Definition path_query (x : path_text) : query := Finder.dotted (fst x) (snd x).
(** The texts denote their paths, which carry no marker; the paths part ways. *)
Definition several (ps : list path_text) : Prop :=
  ps <> [] /\ Forall (fun x => denotes (fst x) (snd x) /\ Forall (fun n => ~ marker_in n) (snd x)) ps /\ all_diverge (map snd ps).
(** A document [doc] of [h] with content [root :: rest] and, elsewhere, the overlay's value [t]. *)
Definition injectable (d : nat) (ro : loc -> Prop) (h : heap) (doc root : ltree) (rest : list ltree) (o : overlay) (t : tree) : Prop :=
  proper h doc /\ i_kind (l_info doc) = KDocument /\ l_content doc = Some (root :: rest) /\
  apart ro h [doc] /\ value_at d ro h (o_value o) t /\ well_paired t /\ branching t /\
  o_docqueries o = [] /\ o_missing o = MInject.
(** The run succeeds; the document keeps its identity; its content is [root'] followed by
    what was there; all other nodes are untouched. *)
Definition becomes (h : heap) (doc : ltree) (rest : list ltree) (h' : heap) (root' : tree) : Prop :=
  exists doc', label doc' = label doc /\ own h' [doc'] /\ (forall l, l < length h -> l ∉ flat [doc] -> h' !! l = h !! l) /\
    erase doc' = T (l_info doc) (Some (root' :: map erase rest)).

Lemma several_builds ps : several ps -> Forall builds ps.
Proof. intros (_ & F & _). eapply Forall_impl; [exact F|]. intros x [D M]. split; [by apply denotes_build|done]. Qed.
Lemma computes_several ps : Forall2 computes (map path_query ps) (map kq ps).
Proof. induction ps as [|x ps IH]; constructor; [apply dotted_computes|done]. Qed.
Lemma found_none i root rest ps : i_kind i = KDocument -> Forall (fun x => tree_at (snd x) root = None) ps ->
  found (map kq ps) (T i (Some (root :: rest))) = [].
Proof.
  intros K F. unfold found, empty_doc, t_kind. cbn [t_info]. rewrite K. change (children (T i (Some (root :: rest)))) with (root :: rest). cbn [kind_eqb andb].
  induction F as [|x ps N F IH]; [done|]. cbn [map concat]. rewrite IH. cbn [kq key_query tq_find]. unfold t_kind. cbn [t_info]. rewrite K.
  change (children (T i (Some (root :: rest)))) with (root :: rest). cbn iota. pose proof (position_tree_at (snd x) root) as X.
  destruct (key_position (snd x) root); [|done]. destruct X as (? & _ & X). congruence.
Qed.
Lemma erase_document doc root rest : l_content doc = Some (root :: rest) -> erase doc = T (l_info doc) (Some (erase root :: map erase rest)).
Proof. destruct doc as [l i c]. cbn [l_content l_info]. by intros ->. Qed.
Lemma replaced_installed sed t old : installed sed t old (replace_node sed old t).
Proof. unfold installed. repeat (split; [done|]). exact (merge_comments_from_first sed (t_info old) (t_info t) []). Qed.
Lemma root_paired h doc root rest : proper h doc -> l_content doc = Some (root :: rest) -> well_paired (erase root).
Proof.
  intros (_ & W & _) C. rewrite (erase_document _ _ _ C) in W. apply well_paired_inv in W as [_ W]. by apply Forall_cons in W as [W _].
Qed.

(** *** C24: every missing query path of an injecting overlay comes to hold the value *)
Theorem C24_several_paths_resolve sed dflt d ro h doc root rest o t ps :
  injectable d ro h doc root rest o t -> several ps ->
  o_queries o = map path_query ps -> o_inject o = None -> Forall (fun x => tree_at (snd x) (erase root) = None) ps ->
  exists enough, forall fuel, enough <= fuel -> exists h' o' root',
    apply fuel sed dflt o (label doc) h = (h', o', Ok tt) /\ becomes h doc rest h' root' /\
    (forall x, In x ps -> exists v, tree_at (snd x) root' = Some v /\ installed sed t empty_scalar v /\ (node_plain t -> v = t)) /\
    (forall p, Forall (fun x => diverge p (snd x)) ps -> tree_at p root' = tree_at p (erase root)).
Proof.
  intros (PR & K & C & A & V & Wt & Bt & DQ & MI) SV Q NI MS. pose proof (several_builds _ SV) as BU. destruct SV as (NE & _ & AD).
  destruct ps as [|x ps]; [done|].
  destruct (inject_several sed t (l_info doc) (erase root) (map erase rest) x ps K (root_paired _ _ _ _ PR C) BU AD) as (root' & TI & HV & HO).
  set (ot := mkTOverlay (map kq (x :: ps)) t (o_action o) [] MInject None).
  assert (TA : t_apply sed dflt ot (erase doc) = Ok (T (l_info doc) (Some (root' :: map erase rest)))).
  { rewrite (erase_document _ _ _ C). unfold t_apply, ot. cbn [to_docqueries tqualifies to_queries]. rewrite (found_none _ _ _ _ K MS). cbn [injects to_missing].
    unfold inject_paths. cbn [to_queries to_value]. rewrite build_all_several by done. exact TI. }
  assert (U : understood sed dflt d ro h doc [o] [ot]).
  { constructor; [constructor; [done|done|..]|].
    - constructor; [|constructor]. split; [rewrite Q; apply computes_several|]. split; [done|]. split; [done|]. rewrite DQ, NI. split; [constructor|]. done.
    - constructor; [done|constructor].
    - left. constructor; [constructor|constructor].
    - split; [|done]. rewrite (erase_document _ _ _ C). unfold plainly, ot. cbn [to_docqueries tqualifies to_queries to_action]. rewrite (found_none _ _ _ _ K MS).
      intros _. by destruct (o_action o). }
  destruct (C69_one_overlay _ _ _ _ _ _ _ _ U) as [enough H]. exists enough. intros fuel Hf. destruct (H fuel Hf) as (h' & o' & r & doc' & E & L & O & F & B).
  rewrite TA in B. destruct B as [-> B]. exists h', o', root'. split; [done|]. split; [by exists doc'|]. split.
  - intros y Y. exists (replace_node sed empty_scalar t). rewrite HV by (by apply in_map). rewrite Forall_forall in MS. rewrite MS by (by apply elem_of_list_In). split; [done|].
    split; [apply replaced_installed|]. intros (_ & P1 & P2 & P3). by apply replaced_fresh.
  - intros p P. apply HO. by apply Forall_map.
Qed.

(** *** The same for a list of injectPaths, some of which may exist already *)
Theorem C24_several_inject_paths_resolve sed dflt d ro h doc root rest o t ps tqs :
  injectable d ro h doc root rest o t -> several ps ->
  Forall2 computes (o_queries o) tqs -> found tqs (erase doc) = [] ->
  (exists q, In q (o_queries o) /\ build (q_text q) = Err EInvalidPath) ->
  o_inject o = Some (map path_query ps) ->
  exists enough, forall fuel, enough <= fuel -> exists h' o' root',
    apply fuel sed dflt o (label doc) h = (h', o', Ok tt) /\ becomes h doc rest h' root' /\
    (forall x, In x ps -> exists v, tree_at (snd x) root' = Some v /\
      (tree_at (snd x) (erase root) = None -> installed sed t empty_scalar v) /\
      (forall old, tree_at (snd x) (erase root) = Some old -> installed sed t (T (set_value [] (t_info old)) None) v)) /\
    (forall p, Forall (fun x => diverge p (snd x)) ps -> tree_at p root' = tree_at p (erase root)).
Proof.
  intros (PR & K & C & A & V & Wt & Bt & DQ & MI) SV CQ NF BE IJ. pose proof (several_builds _ SV) as BU. destruct SV as (NE & _ & AD).
  destruct ps as [|x ps]; [done|].
  destruct (inject_several sed t (l_info doc) (erase root) (map erase rest) x ps K (root_paired _ _ _ _ PR C) BU AD) as (root' & TI & HV & HO).
  assert (BF : forall ts, build_all (map tq_text tqs) <> Ok ts).
  { destruct BE as (q & Q & BE). clear -CQ Q BE. induction CQ as [|q' tq qs tqs' [T _] F IH]; [done|]. intros ts. cbn [map build_all].
    destruct Q as [->|Q]; [rewrite <- T, BE; done|]. destruct (build (tq_text tq)); cbn [rbind]; try done. destruct (build_all _) as [us| | |] eqn:E; try done.
    by destruct (IH Q us). }
  set (ot := mkTOverlay tqs t (o_action o) [] MInject (Some (map kq (x :: ps)))).
  assert (IP : inject_paths ot = Some (map kq (x :: ps))).
  { unfold inject_paths, ot. cbn [to_queries to_inject]. destruct (build_all (map tq_text tqs)) as [ts| | |] eqn:E; try done. by destruct (BF ts). }
  assert (TA : t_apply sed dflt ot (erase doc) = Ok (T (l_info doc) (Some (root' :: map erase rest)))).
  { unfold t_apply. rewrite IP. unfold ot. cbn [to_docqueries tqualifies to_queries to_value injects to_missing]. rewrite NF.
    rewrite (erase_document _ _ _ C). exact TI. }
  assert (U : understood sed dflt d ro h doc [o] [ot]).
  { constructor; [constructor; [done|done|..]|].
    - constructor; [|constructor]. split; [done|]. split; [done|]. split; [done|]. rewrite DQ, IJ. split; [constructor|]. split; [done|]. apply computes_several.
    - constructor; [done|constructor].
    - left. constructor; [constructor|constructor].
    - split; [|done]. unfold plainly, ot. cbn [to_docqueries tqualifies to_queries to_action]. rewrite NF.
      intros _. by destruct (o_action o). }
  destruct (C69_one_overlay _ _ _ _ _ _ _ _ U) as [enough H]. exists enough. intros fuel Hf. destruct (H fuel Hf) as (h' & o' & r & doc' & E & L & O & F & B).
  rewrite TA in B. destruct B as [-> B]. exists h', o', root'. split; [done|]. split; [by exists doc'|]. split.
  - intros y Y. eexists. rewrite HV by (by apply in_map). split; [done|]. split.
    + intros ->. apply replaced_installed.
    + intros old ->. unfold installed. repeat (split; [done|]). exact (merge_comments_from_first sed (t_info (blanked old)) (t_info t) []).
  - intros p P. apply HO. by apply Forall_map.
Qed.

(** *** A concrete case: two paths missing in the example document *)
Definition q_owner : list N * list (list N) := (lit "metadata.owner.team", [lit "metadata"; lit "owner"; lit "team"]).
Definition q_anno : list N * list (list N) := (lit "$.metadata.annotations.a", [lit "metadata"; lit "annotations"; lit "a"]).
Definition ex_inject_two : overlay := mkOverlay [path_query q_anno; path_query q_owner] ex_val AMerge [] MInject None None.
Example C24_several_applies :
  injectable 20 ex_ro ex_heap ex_tree ex_root [] ex_inject_two ex_n /\ several [q_anno; q_owner] /\
  o_queries ex_inject_two = map path_query [q_anno; q_owner] /\ o_inject ex_inject_two = None /\
  Forall (fun x => tree_at (snd x) (erase ex_root) = None) [q_anno; q_owner] /\
  tree_at [lit "metadata"; lit "name"] (erase ex_root) <> None /\
  Forall (fun x => diverge [lit "metadata"; lit "name"] (snd x)) [q_anno; q_owner].
Proof.
  destruct C24_applies as [(P & K & C & A & V & _) _]. split; [|split; [|split; [|split; [|split; [|split]]]]].
  - split; [done|]. split; [done|]. split; [done|]. split; [done|]. split; [done|]. split; [apply well_paired_ex; vm_compute; reflexivity|].
    split; [apply branching_ex; vm_compute; reflexivity|]. split; reflexivity.
  - split; [discriminate|]. split.
    + assert (M : forall ns, forallb (fun n => negb (check_for_markers n)) ns = true -> Forall (fun n => ~ marker_in n) ns).
      { intros ns H. apply Forall_forall. intros n N X. rewrite forallb_forall in H. apply elem_of_list_In in N. specialize (H n N). apply check_for_markers_spec in X. by rewrite X in H. }
      assert (PN : forall ns, forallb plainb ns = true -> Forall plain_name ns).
      { intros ns H. apply Forall_forall. intros n N. rewrite forallb_forall in H. apply plainb_spec, H. by apply elem_of_list_In. }
      apply Forall_cons. split; [|apply Forall_cons; split; [|constructor]].
      * split; [|apply M; vm_compute; reflexivity]. split; [apply PN; vm_compute; reflexivity|by left].
      * split; [|apply M; vm_compute; reflexivity]. split; [apply PN; vm_compute; reflexivity|]. right. right.
        exists (lit "metadata"), [lit "owner"; lit "team"]. split; [done|]. split; [|reflexivity]. split; [apply plainb_spec; vm_compute; reflexivity|]. intros c r [= <- _]. split; discriminate.
    + split; [|split; [constructor|done]]. constructor; [|constructor]. exists [lit "metadata"], (lit "annotations"), (lit "owner"), [lit "a"], [lit "team"]. split; [done|]. split; [done|discriminate].
  - reflexivity.
  - reflexivity.
  - repeat (apply Forall_cons; split; [vm_compute; reflexivity|]). constructor.
  - vm_compute. discriminate.
  - repeat (apply Forall_cons; split); [..|constructor].
    + exists [lit "metadata"], (lit "name"), (lit "annotations"), [], [lit "a"]. split; [done|]. split; [done|discriminate].
    + exists [lit "metadata"], (lit "name"), (lit "owner"), [], [lit "team"]. split; [done|]. split; [done|discriminate].
Qed.

Print Assumptions C24_several_paths_resolve.
Print Assumptions C24_several_inject_paths_resolve.
