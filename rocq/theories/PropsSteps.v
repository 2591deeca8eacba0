(** C76: paths with wildcards, indices, filters and recursive descent. *)
From stdpp Require Import list_numbers.
From Verif Require Import Prelude GoStrings Format Yaml Heap HeapActions Combine Builder ActionNames Overlay SpecMerge SpecHeap SpecDelete SpecQuery SpecReach SpecSame SpecOverlay
  ProofHeap ProofHeapActions ProofMerge Finder ProofFinder ProofInject SpecInject SpecMeaning ProofMeaning ProofAliasFree ProofMeaningApply ProofMeaningKeys
  SpecExecute ProofForest Render Files SpecWhole PropsWhole Deciders Examples ExamplesHeap Witness PropsDelete PropsReplace PropsMeaning
  Steps SpecSteps ProofSteps.
From Verif Require Import MergeTree.

(** *** C76: what a path of steps finds depends on the document's tree only *)
Theorem C76_step_paths_are_queries_on_trees text ss : computes (stepped text ss) (step_query text ss).
Proof. apply stepped_computes. Qed.
(** ... it finds nodes of the document, and neither the names of the nodes nor nodes elsewhere
    matter (what C31, C41-C44 and C70 ask of queries). *)
Theorem C76_step_paths_are_good_finders text ss : good_finder (stepped text ss).
Proof. split; [apply stepped_ok|apply stepped_blind]. Qed.
(** Paths of names are the key paths of C69. *)
Theorem C76_key_paths_are_paths_of_names text names t :
  tq_find (key_query text names) t = tq_find (step_query text (map Name names)) t.
Proof. symmetry. apply names_query. Qed.

(** One query, a path of steps without recursive descent. *)
Definition one_path (qs : list tquery) : Prop :=
  exists q ss, qs = [q] /\ shallow ss /\ forall t, tq_find q t = tq_find (step_query (tq_text q) ss) t.

Lemma one_path_found qs t : one_path qs -> NoDup (found qs t) /\ not_nested (found qs t).
Proof.
  intros (q & ss & -> & SH & E). unfold found. destruct (empty_doc t); [split; [constructor|by intros ? ? []]|].
  cbn [map concat]. rewrite app_nil_r, E. split; [by apply query_nodup|].
  eapply same_length_not_nested. intros p P. by apply query_length in P.
Qed.

(** Such an overlay never finds a node inside another one it finds: the side condition of
    C69 and C70 holds of every document. *)
Theorem C76_never_nested sed dflt ots :
  Forall (fun ot => one_path (to_queries ot)) ots ->
  forall t, all_plainly sed dflt ots t.
Proof.
  induction 1 as [|ot ots Q F IH]; intros t; cbn [all_plainly]; [done|]. split; [|intros t' _; apply IH].
  intros _. destruct (to_action ot); try done; by apply not_nested_inside_out, one_path_found.
Qed.

(** The overlay's operation on one node. *)
Definition rewritten (sed : sed_engine) (a : action) (v old new : tree) : Prop :=
  match a with
  | AReplace => new = replace_node sed old v
  | ACombine => combine_node sed old v = (new, None)
  | AMerge | AInvalid => merge sed old v [] = Ok new
  | ADelete => False
  end.
(** Only the node itself: its texts and how many children it has. *)
Definition look (t : tree) : info * option nat := (t_info t, length <$> t_content t).

(** With such a path every node found is rewritten once, and nothing else is. *)
Theorem C76_each_found_node_rewritten_once sed dflt d ro h doc o ot fuel h' o' :
  situated d ro h doc [o] [ot] -> one_path (to_queries ot) ->
  tqualifies (to_docqueries ot) (erase doc) = true -> found (to_queries ot) (erase doc) <> [] -> to_action ot <> ADelete ->
  apply fuel sed dflt o (label doc) h = (h', o', Ok tt) ->
  exists doc', label doc' = label doc /\ own h' [doc'] /\
    (forall p, In p (found (to_queries ot) (erase doc)) -> exists old new,
       node_at p (erase doc) = Some old /\ node_at p (erase doc') = Some new /\ rewritten sed (to_action ot) (to_value ot) old new) /\
    (forall q, (forall p, In p (found (to_queries ot) (erase doc)) -> ~ p `prefix_of` q) ->
       look <$> node_at q (erase doc') = look <$> node_at q (erase doc)) /\
    (forall q, (forall p, In p (found (to_queries ot) (erase doc)) -> ~ p `prefix_of` q /\ ~ q `prefix_of` p) ->
       node_at q (erase doc') = node_at q (erase doc)).
Proof.
  intros SI OP TQ FN AD E.
  assert (PL : all_plainly sed dflt [ot] (erase doc)).
  { cbn [all_plainly]. split; [|done]. intros _. destruct (to_action ot); try done; by apply not_nested_inside_out, one_path_found. }
  assert (E' : apply_each fuel sed dflt [o] (label doc) h = (h', Ok tt)) by (cbn [apply_each]; by rewrite E).
  destruct (C69_every_run_that_ends sed dflt d ro h doc [o] [ot] fuel h' (Ok tt) (mkUnderstood _ _ _ _ _ _ _ _ SI PL) E') as (doc' & L & OW & _ & B); [done|].
  exists doc'. split; [done|]. split; [done|].
  assert (U : exists f, update_each (found (to_queries ot) (erase doc)) f (erase doc) = Ok (erase doc') /\
     forall old new, f old = Ok new -> rewritten sed (to_action ot) (to_value ot) old new).
  { cbn [t_apply_each] in B. destruct (t_apply sed dflt ot (erase doc)) as [t| | |] eqn:TA; cbn [rbind] in B; try done. destruct B as [_ <-].
    pose proof (not_nested_remaining _ (proj2 (one_path_found _ (erase doc) OP))) as RM.
    unfold t_apply in TA. rewrite TQ in TA. destruct (found (to_queries ot) (erase doc)) as [|p ps] eqn:FE; [done|]. unfold t_act in TA. rewrite RM in TA.
    destruct (to_action ot); try done; eexists; (split; [exact TA|]); intros old new; cbn [rewritten]; try done.
    - by intros [= <-].
    - destruct (combine_node sed old (to_value ot)) as [x [y|]]; [done|]. by intros [= ->]. }
  destruct U as (f & U & R). destruct (one_path_found _ (erase doc) OP) as [ND NN].
  split; [|split].
  - intros p P.
    assert (X : exists old, node_at p (erase doc) = Some old).
    { destruct SI as [(O & _) _ ME _ _]. inversion ME as [|? ? ? ? (CQ & _) _]; subst. clear -P CQ O. unfold found in P.
      destruct (empty_doc (erase doc)) eqn:ED; [done|]. apply in_concat in P as (ps & I & P). apply in_map_iff in I as (tq & <- & I).
      assert (C : exists q, computes q tq).
      { clear -CQ I. induction CQ as [|q tq' qs tqs C _ IH]; [done|]. destruct I as [->|I]; [by exists q|auto]. }
      destruct C as (q & _ & C). specialize (C h doc O ED). assert (M : In (place p doc) (map Some (q_find q h (label doc)))) by (rewrite C; by apply (in_map (fun p => place p doc))).
      apply in_map_iff in M as (x & M & _). rewrite place_sub in M. rewrite node_at_erase. destruct (sub_at p doc) as [c|]; [by exists (erase c)|done]. }
    destruct X as [old X]. destruct (update_each_here f _ ND NN _ _ _ _ U P X) as (new & F & N). exists old, new. split_and!; [done|done|by apply R].
  - intros q Q. by apply (update_each_apart f _ _ _ q U).
  - intros q Q. by apply (update_each_other f _ _ _ q U).
Qed.

(** items: [{name: a, image: 1}, {name: b, image: 2}, {name: a, image: 3}] / other: {name: c, image: 4} *)
Definition s_item (n i : string) : tree := mp [sc "name"; sc n; sc "image"; sc i].
Definition s_doc : tree := doc (mp [sc "items"; sq [s_item "a" "1"; s_item "b" "2"; s_item "a" "3"]; sc "other"; s_item "c" "4"]).
Definition s_heap1 := put_tree s_doc [].
Definition s_heap2 := put_tree (sc "x") (fst s_heap1).
Definition s_heap : heap := fst s_heap2.
Definition s_tree : ltree := match lread 20 s_heap (snd s_heap1) with Some t => t | None => L 0 (mk KZero [] []) None end.
Definition s_ro (x : loc) : bool := between (Datatypes.S (snd s_heap1)) (length s_heap) x.
(** $.items[?(@.name=='a')].image := x *)
Definition s_steps : list step := [Name (lit "items"); Where [lit "name"] (lit "a"); Name (lit "image")].
Definition s_text : list N := lit "$.items[?(@.name=='a')].image".
Definition s_overlay : overlay := mkOverlay [stepped s_text s_steps] (snd s_heap2) AReplace [] MDefault None None.
Definition s_toverlay : toverlay := mkTOverlay [step_query s_text s_steps] (sc "x") AReplace [] MDefault None.
Lemma s_tree_read : lread 20 s_heap (snd s_heap1) = Some s_tree.
Proof. vm_compute. reflexivity. Qed.
Example C76_applies :
  situated 20 (fun x => s_ro x = true) s_heap s_tree [s_overlay] [s_toverlay] /\
  one_path (to_queries s_toverlay) /\
  tqualifies (to_docqueries s_toverlay) (erase s_tree) = true /\
  map (fun p => option_map t_value (node_at p (erase s_tree))) (found (to_queries s_toverlay) (erase s_tree)) = [Some (lit "1"); Some (lit "3")] /\
  (exists h' o', apply 20 no_sed [] s_overlay (label s_tree) s_heap = (h', o', Ok tt) /\
     read 20 h' (label s_tree) = Some (doc (mp [sc "items"; sq [s_item "a" "x"; s_item "b" "2"; s_item "a" "x"]; sc "other"; s_item "c" "4"]))) /\
  map (fun ss => map (fun p => option_map t_value (node_at p (erase s_tree))) (tq_find (step_query [] ss) (erase s_tree)))
    [[Name (lit "items"); Index (-1); Name (lit "image")]; [Name (lit "items"); Every; Name (lit "name")]; [Deep; Name (lit "image")]; [Name (lit "items"); Index 3]; [Every; Name (lit "image")]; [Name (lit "other"); KeyOf (lit "image")]]
  = [[Some (lit "3")]; [Some (lit "a"); Some (lit "b"); Some (lit "a")]; [Some (lit "1"); Some (lit "2"); Some (lit "3"); Some (lit "4")]; []; [Some (lit "4")]; [Some (lit "image")]].
Proof.
  split; [|split; [|split; [|split; [|split]]]].
  - constructor.
    + split; [apply (lread_own 20 _ _ _ s_tree_read), (bool_decide_unpack _); vm_compute; exact I|].
      split; [apply well_paired_ex|apply branching_ex]; vm_compute; reflexivity.
    + apply apart_between; [done|]. apply between_all. vm_compute. reflexivity.
    + apply Forall2_cons. split; [|by apply Forall2_nil].
      split; [apply Forall2_cons; split; [apply C76_step_paths_are_queries_on_trees|by apply Forall2_nil]|].
      split; [apply vread_value; vm_compute; reflexivity|]. split; [done|]. split; [by apply Forall2_nil|]. done.
    + apply Forall_cons. split; [|apply Forall_nil; exact I]. split; [apply well_paired_ex|apply branching_ex]; vm_compute; reflexivity.
    + left. repeat constructor.
  - exists (step_query s_text s_steps), s_steps. split; [done|]. split; [|done]. intros [H|[H|[H|[]]]]; discriminate.
  - reflexivity.
  - vm_compute. reflexivity.
  - destruct (apply 20 no_sed [] s_overlay (label s_tree) s_heap) as [[h' o'] r] eqn:E.
    assert (X : r = Ok tt /\ read 20 h' (label s_tree) = Some (doc (mp [sc "items"; sq [s_item "a" "x"; s_item "b" "2"; s_item "a" "x"]; sc "other"; s_item "c" "4"]))).
    { assert (H' : h' = fst (fst (apply 20 no_sed [] s_overlay (label s_tree) s_heap))) by (by rewrite E).
      assert (R : r = snd (apply 20 no_sed [] s_overlay (label s_tree) s_heap)) by (by rewrite E). rewrite H', R. split; vm_compute; reflexivity. }
    destruct X as [-> X]. by exists h', o'.
  - vm_compute. reflexivity.
Qed.

Print Assumptions C76_step_paths_are_queries_on_trees.
Print Assumptions C76_step_paths_are_good_finders.
Print Assumptions C76_key_paths_are_paths_of_names.
Print Assumptions C76_never_nested.
Print Assumptions C76_each_found_node_rewritten_once.
