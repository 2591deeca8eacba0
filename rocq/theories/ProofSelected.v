(** Merge, replace and combine over all the selected nodes of a document. *)
From Verif Require Import Prelude GoStrings Format Yaml Heap MergeTree Combine HeapActions SpecMerge SpecHeap
  ProofHeap ProofHeapActions ProofHeapMerge SpecDelete ProofDelete Builder ActionNames Overlay SpecOverlay ProofOverlay.
From stdpp Require Import sets.

Lemma mem_In sel x : mem sel x = true <-> In x sel.
Proof.
  unfold mem. rewrite existsb_exists. split; [intros (y & Y & E); apply Nat.eqb_eq in E; by subst|].
  intros I. exists x. split; [done|apply Nat.eqb_refl].
Qed.
Lemma mem_false sel x : mem sel x = false <-> ~ In x sel.
Proof. rewrite <- mem_In. destruct (mem sel x); intuition congruence. Qed.

Lemma rewrite_at_eq sel f l i c : rewrite_at sel f (L l i c) =
  if sel l then f (erase (L l i c)) else T i (match c with None => None | Some ts => Some (map (rewrite_at sel f) ts) end).
Proof. destruct c; reflexivity. Qed.

Lemma rewrite_at_absent sel f t : (forall x, x ∈ locs t -> sel x = false) -> rewrite_at sel f t = erase t.
Proof.
  induction t as [l i|l i ts IH] using ltree_ind'; intros H; rewrite rewrite_at_eq.
  - rewrite H; [done|]. rewrite locs_eq. set_solver.
  - rewrite H; [|rewrite locs_eq; set_solver]. rewrite erase_eq. do 2 f_equal. apply map_ext_in. intros t T.
    rewrite Forall_forall in IH. apply elem_of_list_In in T. apply IH; [done|]. intros x X. apply H.
    rewrite locs_eq. cbn [kids]. apply elem_of_cons. right. apply elem_of_flat. eauto.
Qed.

Lemma rewrite_at_ext p q f t : (forall x, x ∈ locs t -> p x = q x) -> rewrite_at p f t = rewrite_at q f t.
Proof.
  induction t as [l i|l i ts IH] using ltree_ind'; intros H; rewrite !rewrite_at_eq; rewrite (H l) by (rewrite locs_eq; set_solver).
  - done.
  - destruct (q l); [done|]. do 2 f_equal. apply map_ext_in. intros t T.
    rewrite Forall_forall in IH. apply elem_of_list_In in T. apply IH; [done|]. intros x X. apply H.
    rewrite locs_eq. cbn [kids]. apply elem_of_cons. right. apply elem_of_flat. eauto.
Qed.

Lemma nodup_child l i ts t : NoDup (locs (L l i (Some ts))) -> t ∈ ts -> NoDup (locs t).
Proof.
  intros ND T. rewrite locs_eq in ND. cbn [kids] in ND. apply NoDup_cons in ND as [NI ND].
  destruct (elem_of_list_split _ _ T) as (a & b & ->). rewrite flat_app, flat_cons in ND.
  apply NoDup_app in ND as (_ & _ & ND). by apply NoDup_app in ND as (? & _).
Qed.
Lemma child_locs l i ts t x : t ∈ ts -> x ∈ locs t -> x ∈ locs (L l i (Some ts)).
Proof. intros T X. rewrite locs_eq. cbn [kids]. apply elem_of_cons. right. apply elem_of_flat. eauto. Qed.
Lemma subtree_child s l i ts t : NoDup (locs (L l i (Some ts))) -> t ∈ ts -> subtree s (L l i (Some ts)) ->
  label s ∈ locs t -> subtree s t.
Proof.
  intros ND T S XT. destruct (subtree_of_loc _ _ XT) as (u & U & LU).
  assert (UU : subtree u (L l i (Some ts))) by (eapply st_below; [by apply elem_of_list_In|done]).
  assert (u = s) as <-; [|done]. by apply (subtree_label_unique (L l i (Some ts))).
Qed.
Lemma put_sub_keeps s s' u t : subtree u t -> NoDup (locs t) -> (label s ∈ locs t -> subtree s t) ->
  label s ∉ locs u -> label u ∉ locs s -> subtree u (put_sub (label s) s' t).
Proof.
  intros U. induction U as [|l i ts t I U IHU]; intros ND S NU NS.
  - rewrite put_sub_absent by done. constructor.
  - apply elem_of_list_In in I. cbn [put_sub label]. destruct (Nat.eqb_spec l (label s)) as [E|NE].
    + exfalso. assert (s = L l i (Some ts)) as ->.
      { apply (subtree_label_unique _ ND); [|constructor|done]. apply S. rewrite <- E, locs_eq. set_solver. }
      apply NS. eapply child_locs; [exact I|]. eapply subtree_locs; [exact U|apply label_locs].
    + eapply st_below; [apply in_map, elem_of_list_In, I|]. apply IHU; [by eapply nodup_child| |done|done].
      intros XT. eapply subtree_child; [exact ND|exact I| |exact XT]. apply S. by eapply child_locs.
Qed.

(** One step: the node [x] has been edited, the others of [sel] not yet. *)
Lemma rewrite_at_step f x s s' sel : erase s' = f (erase s) -> label s = x ->
  (forall y, y ∈ locs s' -> ~ In y sel) ->
  forall t, NoDup (locs t) -> (x ∈ locs t -> subtree s t) ->
  (forall u, subtree u t -> In (label u) sel -> x ∈ locs u -> label u <> x -> f (erase (put_sub x s' u)) = f (erase u)) ->
  rewrite_at (mem (x :: sel)) f t = rewrite_at (mem sel) f (put_sub x s' t).
Proof.
  intros E LX NS. induction t as [l i|l i ts IH] using ltree_ind'; intros ND ST FU.
  - cbn [put_sub label]. destruct (Nat.eqb_spec l x) as [->|NE].
    + rewrite (rewrite_at_absent (mem sel) f s'); [|intros y Y; by apply mem_false, NS].
      rewrite rewrite_at_eq. cbn [mem existsb]. rewrite Nat.eqb_refl. cbn [orb].
      assert (S : subtree s (L x i None)) by (apply ST; rewrite locs_eq; set_solver). inversion S; subst. congruence.
    + rewrite !rewrite_at_eq. cbn [mem existsb]. destruct (Nat.eqb_spec l x); [congruence|]. cbn [orb]. reflexivity.
  - rewrite rewrite_at_eq. cbn [mem existsb]. destruct (Nat.eqb_spec l x) as [->|NE].
    + cbn [orb put_sub label]. rewrite Nat.eqb_refl.
      rewrite (rewrite_at_absent (mem sel) f s'); [|intros y Y; by apply mem_false, NS].
      assert (S : subtree s (L x i (Some ts))) by (apply ST; rewrite locs_eq; set_solver).
      assert (s = L x i (Some ts)) as <-.
      { apply (subtree_label_unique _ ND); [done|constructor|done]. }
      congruence.
    + cbn [orb]. fold (mem sel l). destruct (mem sel l) eqn:M.
      * assert (PL : label (put_sub x s' (L l i (Some ts))) = l).
        { cbn [put_sub label]. destruct (Nat.eqb_spec l x); [congruence|done]. }
        destruct (decide (x ∈ locs (L l i (Some ts)))) as [XI|XI].
        -- assert (FE : f (erase (put_sub x s' (L l i (Some ts)))) = f (erase (L l i (Some ts)))).
           { apply FU; [constructor|by apply mem_In|done|done]. }
           rewrite <- FE. destruct (put_sub x s' (L l i (Some ts))) as [l' i' c'] eqn:EP. cbn [label] in PL. subst l'.
           rewrite rewrite_at_eq, M. reflexivity.
        -- rewrite put_sub_absent by done. rewrite rewrite_at_eq, M. reflexivity.
      * cbn [put_sub label]. destruct (Nat.eqb_spec l x); [congruence|]. rewrite rewrite_at_eq, M. do 2 f_equal.
        rewrite map_map. apply map_ext_in. intros t T. rewrite Forall_forall in IH. apply elem_of_list_In in T.
        apply IH; [done|by eapply nodup_child| |].
        -- intros XT. subst x. eapply subtree_child; [exact ND|exact T| |exact XT]. apply ST. by eapply child_locs.
        -- intros u U. apply FU. eapply st_below; [by apply elem_of_list_In|done].
Qed.

Lemma own_nodup h t : own h [t] -> NoDup (locs t).
Proof. intros [_ N]. cbn in N. by rewrite app_nil_r in N. Qed.

Lemma subtree_trans a b c : subtree a b -> subtree b c -> subtree a c.
Proof. intros A. induction 1; [done|]. eapply st_below; eauto. Qed.

Lemma put_sub_subtree s' x t u : subtree u (put_sub x s' t) ->
  subtree u s' \/ exists v, subtree v t /\ label v <> x /\ u = put_sub x s' v.
Proof.
  revert u. induction t as [l i|l i ts IH] using ltree_ind'; intros u U; cbn [put_sub label] in U;
    destruct (Nat.eqb_spec l x) as [->|NE]; auto.
  - right. exists (L l i None). split; [constructor|]. split; [done|]. inversion U; subst. cbn.
    by destruct (Nat.eqb_spec l x).
  - inversion U as [|l0 i0 ts0 t0 I0 S0]; subst.
    + right. exists (L l i (Some ts)). split; [constructor|]. split; [done|]. cbn. by destruct (Nat.eqb_spec l x).
    + apply in_map_iff in I0 as (t1 & <- & T1). rewrite Forall_forall in IH.
      destruct (IH t1 (proj2 (elem_of_list_In _ _) T1) u S0) as [H|(v & V & NV & ->)]; [auto|].
      right. exists v. split; [|done]. eapply st_below; eauto.
Qed.
Lemma put_sub_locs s' x t y : y ∈ locs (put_sub x s' t) -> y ∈ locs s' \/ y ∈ locs t.
Proof.
  intros Y. destruct (subtree_of_loc _ _ Y) as (u & U & <-). apply put_sub_subtree in U as [U|(v & V & NV & ->)].
  - left. eapply subtree_locs; [exact U|apply label_locs].
  - right. assert (LV : label (put_sub x s' v) = label v).
    { destruct v as [l i [ts|]]; cbn [put_sub label] in *; destruct (Nat.eqb_spec l x); try congruence; done. }
    rewrite LV. eapply subtree_locs; [exact V|apply label_locs].
Qed.

(** The edited subtree has no foreign addresses. *)
Lemma trans_locs h s h' s' gs y : trans h [s] h' (s' :: gs) -> y ∈ locs s' -> y ∈ locs s \/ length h <= y.
Proof.
  intros T Y. destruct (tr_perm _ _ _ _ T) as (fr & _ & F & P).
  assert (X : y ∈ flat [s] ++ fr). { rewrite <- P, flat_cons. set_solver. }
  apply elem_of_app in X as [X|X]; [left; cbn in X; by rewrite app_nil_r in X|right]. rewrite Forall_forall in F. auto.
Qed.

(** ** Selections none of whose nodes lies inside another *)
Definition result (F : tree -> res tree) (t : tree) : tree := match F t with Ok t' => t' | _ => t end.

Lemma each_selected_keeps (ro : loc -> Prop) (J : heap -> Prop) (m : loc -> M unit) (F : tree -> res tree) :
  (forall h s, own h [s] -> apart ro h [s] -> J h -> performs (m (label s)) h s (F (erase s))) ->
  (forall h W h' W', own h W -> apart ro h W -> trans h W h' W' -> J h -> J h') ->
  forall sel h doc,
    own h [doc] -> apart ro h [doc] -> J h -> NoDup sel -> (forall x, In x sel -> x ∈ locs doc) ->
    independent sel doc ->
    (forall s, subtree s doc -> In (label s) sel -> exists t', F (erase s) = Ok t') ->
  exists h' doc' gs, loop m sel h = (h', Ok tt) /\ trans h [doc] h' (doc' :: gs) /\ label doc' = label doc /\
    erase doc' = rewrite_at (mem sel) (result F) doc /\
    (forall u, subtree u doc -> (forall x, In x sel -> x ∉ locs u) ->
       (forall s, subtree s doc -> In (label s) sel -> label u ∉ locs s) -> subtree u doc').
Proof.
  intros Hm HJ. induction sel as [|x sel IH]; intros h doc O A Jh ND IN IND TOT.
  { exists h, doc, []. split; [done|]. split; [apply trans_refl; apply O|]. split; [done|].
    split; [|done]. rewrite rewrite_at_absent; [done|]. intros y _. reflexivity. }
  apply NoDup_cons in ND as [NX ND]. rewrite elem_of_list_In in NX.
  destruct (subtree_of_loc x doc (IN x (or_introl eq_refl))) as (s & S & LS).
  pose proof (own_subtree _ _ _ O S) as Os. pose proof (apart_subtree _ _ _ _ A S) as As.
  destruct (Hm h s Os As Jh) as (h1 & r1 & s1 & g1 & M1 & T1 & L1 & E1). rewrite LS in M1.
  destruct (TOT s S) as (t1 & FT); [rewrite LS; by left|]. rewrite FT in E1. destruct E1 as [-> E1].
  pose proof (trans_inside _ _ _ _ _ _ S O T1 L1) as TD. rewrite LS in TD.
  set (doc1 := put_sub x s1 doc) in *.
  assert (O1 : own h1 [doc1]) by exact (own_head _ _ _ (own_trans _ _ _ _ O TD)).
  assert (A1 : apart ro h1 [doc1]) by exact (apart_head _ _ _ _ (apart_trans _ _ _ _ _ O TD A)).
  assert (NS : forall y, y ∈ locs s1 -> ~ In y sel).
  { intros y Y I. destruct (trans_locs _ _ _ _ _ _ T1 Y) as [H|H].
    - apply (IND s y S); [rewrite LS; by left|by right| |done]. rewrite LS. intros ->. contradiction.
    - assert (y < length h); [|lia]. eapply reads_bound; [|apply IN; by right].
      destruct O as [R _]. by inversion R. }
  assert (EQ : rewrite_at (mem (x :: sel)) (result F) doc = rewrite_at (mem sel) (result F) doc1).
  { apply (rewrite_at_step (result F) x s s1 sel); [unfold result; by rewrite FT|done|done| | |].
    - by eapply own_nodup.
    - by intros _.
    - intros u U I XU NU. exfalso. apply (IND u x U); [by right|by left| |done]. congruence. }
  assert (KEEP : forall u, subtree u doc1 -> In (label u) sel -> subtree u doc /\ put_sub x s1 u = u).
  { intros u U I. apply put_sub_subtree in U as [U|(v & V & NV & ->)].
    - exfalso. apply (NS (label u)); [|done]. eapply subtree_locs; [exact U|apply label_locs].
    - assert (LV : label (put_sub x s1 v) = label v) by (rewrite <- LS; apply put_sub_label; congruence).
      rewrite LV in I. assert (XV : x ∉ locs v).
      { apply (IND v x V); [by right|by left|]. congruence. }
      rewrite put_sub_absent by done. split; [done|by apply put_sub_absent]. }
  destruct (IH h1 doc1 O1 A1) as (h2 & doc2 & g2 & M2 & T2 & L2 & E2 & K2); [| | | | |].
  - exact (HJ _ _ _ _ Os As T1 Jh).
  - done.
  - intros y Y. assert (Yd : y ∈ locs doc) by (apply IN; by right).
    destruct (subtree_of_loc _ _ Yd) as (u & U & LU).
    assert (XU : x ∉ locs u) by (apply (IND u x U); [rewrite LU; by right|by left|]; rewrite LU; intros ->; contradiction).
    rewrite <- LU. eapply subtree_locs; [|apply label_locs]. subst doc1. rewrite <- LS. apply put_sub_keeps; [done| | | |].
    + by eapply own_nodup.
    + done.
    + by rewrite LS.
    + apply (IND s (label u) S); [rewrite LS; by left|rewrite LU; by right|]. rewrite LS, LU. intros ->. contradiction.
  - intros u y U I Iy NE. destruct (KEEP u U I) as [U' _]. apply (IND u y U'); [by right|by right|done].
  - intros u U I. destruct (KEEP u U I) as [U' _]. apply (TOT u U'). by right.
  - exists h2, doc2, (g2 ++ g1). split; [cbn [loop]; by rewrite (bind_ok _ _ _ _ _ M1)|].
    split; [eapply trans_seq; eauto|]. split; [|split].
    + rewrite L2. subst doc1. rewrite <- LS. apply put_sub_label. congruence.
    + rewrite E2. by rewrite EQ.
    + intros u U N1 N2. apply K2.
      * subst doc1. rewrite <- LS. apply put_sub_keeps; [done|by eapply own_nodup|done| |].
        -- rewrite LS. apply N1. by left.
        -- apply N2; [done|]. rewrite LS. by left.
      * intros y Y. apply N1. by right.
      * intros s0 S0 I0. destruct (KEEP s0 S0 I0) as [U' _]. apply N2; [done|by right].
Qed.

Lemma each_selected (ro : loc -> Prop) (J : heap -> Prop) (m : loc -> M unit) (F : tree -> res tree) :
  (forall h s, own h [s] -> apart ro h [s] -> J h -> performs (m (label s)) h s (F (erase s))) ->
  (forall h W h' W', own h W -> apart ro h W -> trans h W h' W' -> J h -> J h') ->
  forall sel h doc,
    own h [doc] -> apart ro h [doc] -> J h -> NoDup sel -> (forall x, In x sel -> x ∈ locs doc) ->
    independent sel doc ->
    (forall s, subtree s doc -> In (label s) sel -> exists t', F (erase s) = Ok t') ->
  exists h' doc' gs, loop m sel h = (h', Ok tt) /\ trans h [doc] h' (doc' :: gs) /\ label doc' = label doc /\
    erase doc' = rewrite_at (mem sel) (result F) doc.
Proof.
  intros Hm HJ sel h doc O A Jh ND IN IND TOT.
  destruct (each_selected_keeps ro J m F Hm HJ sel h doc O A Jh ND IN IND TOT) as (h' & doc' & gs & M & T & L & E & _).
  exists h', doc', gs. done.
Qed.

(** A loop that stops at its first failure. *)
Definition quiet (m : loc -> M unit) (x : loc) : M unit := fun h => (fst (m x h), Ok tt).
Lemma loop_quiet m l h h' : loop m l h = (h', Ok tt) -> loop (quiet m) l h = (h', Ok tt).
Proof.
  revert h. induction l as [|x l IH]; intros h; cbn [loop]; [done|]. unfold bind, quiet at 1.
  destruct (m x h) as [h1 [[]| | |]]; cbn [fst]; try discriminate. apply IH.
Qed.
Lemma loop_app (m : loc -> M unit) (l1 l2 : list loc) h h' : loop m l1 h = (h', Ok tt) -> loop m (l1 ++ l2) h = loop m l2 h'.
Proof.
  revert h. induction l1 as [|x l IH]; intros h; cbn [loop app]; [by intros [= <-]|]. unfold bind.
  destruct (m x h) as [h1 [[]| | |]]; try discriminate. apply IH.
Qed.

(** ** Replace: any selection, even nested, in any order *)
Lemma in_forest h W x t u : own h W -> t ∈ W -> u ∈ W -> x ∈ locs t -> x ∈ locs u -> t = u.
Proof.
  intros [_ N] T U XT XU. destruct (elem_of_list_split _ _ T) as (a & b & ->).
  rewrite flat_app, flat_cons in N. apply NoDup_app in N as (_ & N1 & N). apply NoDup_app in N as (_ & N2 & _).
  apply elem_of_app in U as [U|U]; [|apply elem_of_cons in U as [->|U]; [done|]]; exfalso.
  - apply (N1 x); [apply elem_of_flat; eauto|]. apply elem_of_app. by left.
  - apply (N2 x XT). apply elem_of_flat; eauto.
Qed.

Lemma put_sub_info x s' u : label u <> x -> t_info (erase (put_sub x s' u)) = t_info (erase u).
Proof. destruct u as [l i [ts|]]; cbn [put_sub label]; intros NE; destruct (Nat.eqb_spec l x); try congruence; done. Qed.

Lemma replace_selected sed ro d fuel v t : d <= fuel ->
  forall sel h doc gs, own h (doc :: gs) -> apart ro h (doc :: gs) -> value_at d ro h v t ->
    NoDup sel -> (forall x, In x sel -> x ∈ flat (doc :: gs)) ->
  exists h' doc' gs', loop (fun n => h_replace_node fuel sed n v) sel h = (h', Ok tt) /\
    trans h (doc :: gs) h' (doc' :: gs') /\ label doc' = label doc /\
    erase doc' = rewrite_at (mem sel) (fun old => replace_node sed old t) doc.
Proof.
  intros Hf. induction sel as [|x sel IH]; intros h doc gs O A V ND IN.
  { exists h, doc, gs. split; [done|]. split; [apply trans_refl; apply O|]. split; [done|].
    rewrite rewrite_at_absent; [done|]. intros y _. reflexivity. }
  apply NoDup_cons in ND as [NX ND]. rewrite elem_of_list_In in NX.
  destruct (forest_edit h (doc :: gs) x O (IN x (or_introl eq_refl))) as (s & tt0 & S & T0 & LS & Os & ED).
  destruct (h_replace_fresh sed ro d fuel h s v t Hf Os V) as (h1 & s1 & g1 & M1 & T1 & L1 & E1 & FR). rewrite LS in M1.
  destruct (ED h1 s1 g1 T1 L1) as [TD _]. cbn [map app] in TD.
  set (doc1 := put_sub x s1 doc) in *. set (gs1 := map (put_sub x s1) gs ++ g1) in *.
  assert (O1 : own h1 (doc1 :: gs1)) by exact (own_trans _ _ _ _ O TD).
  assert (A1 : apart ro h1 (doc1 :: gs1)) by exact (apart_trans _ _ _ _ _ O TD A).
  assert (NS : forall y, y ∈ locs s1 -> ~ In y sel).
  { intros y Y I. destruct (FR y Y) as [->|H]; [by rewrite LS in I|].
    assert (y < length h); [|lia]. eapply reads_all_bound; [apply O|]. apply IN. by right. }
  assert (EQ : rewrite_at (mem (x :: sel)) (fun old => replace_node sed old t) doc =
               rewrite_at (mem sel) (fun old => replace_node sed old t) doc1).
  { apply (rewrite_at_step (fun old => replace_node sed old t) x s s1 sel); [done|done|done| | |].
    - eapply own_nodup. eapply own_head, O.
    - intros XD. assert (tt0 = doc) as <-; [|done].
      eapply in_forest; [exact O|done|by left| |exact XD]. rewrite <- LS. eapply subtree_locs; [exact S|apply label_locs].
    - intros u U I XU NU. unfold replace_node. rewrite put_sub_info by done. reflexivity. }
  destruct (IH h1 doc1 gs1 O1 A1) as (h2 & doc2 & g2 & M2 & T2 & L2 & E2); [| | |].
  - eapply value_at_trans; [exact TD|exact A|exact V].
  - done.
  - intros y Y. destruct (tr_perm _ _ _ _ TD) as (fr & _ & _ & P). rewrite P. apply elem_of_app. left. apply IN. by right.
  - exists h2, doc2, g2. split; [cbn [loop]; by rewrite (bind_ok _ _ _ _ _ M1)|].
    split; [eapply trans_trans; eauto|]. split.
    + rewrite L2. subst doc1. rewrite <- LS. apply put_sub_label. congruence.
    + rewrite E2. by rewrite EQ.
Qed.
