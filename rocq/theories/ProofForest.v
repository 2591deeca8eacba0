(** Applying a whole overlay to a document that owns its nodes. *)
From stdpp Require Import sets.
From Verif Require Import Prelude GoStrings Format Yaml Heap MergeTree Combine HeapActions SpecMerge SpecHeap
  ProofHeap ProofHeapActions ProofHeapMerge SpecDelete ProofDelete Lexer Builder ProofBuilder ActionNames Overlay SpecOverlay ProofOverlay
  ProofMerge ProofMergeMap ProofMergeAbs ProofSound ProofSelected ProofBuilderPaths SpecReach SpecQuery ProofQuery.
From Verif Require Import MergeTree.

(** ** merge terminates *)
Lemma merge_entries_no_fuel sed f nk oc : (forall ov k, f ov k <> Fuel) -> merge_entries sed f nk oc <> Fuel.
Proof.
  intros Hf. induction oc as [|x|x y oc IH] using list_ind2; cbn [merge_entries]; try discriminate.
  destruct (_ || _).
  - specialize (Hf y (t_value x)). destruct (f y (t_value x)); cbn [rbind]; try discriminate; [|done].
    destruct (check_for_markers _); [|discriminate].
    destruct (merge_entries sed f nk oc) as [[]| | |]; cbn [rbind]; try discriminate. done.
  - destruct (merge_entries sed f nk oc) as [[]| | |]; cbn [rbind]; try discriminate. done.
Qed.
Lemma merge_no_fuel sed n : forall o ks, merge sed o n ks <> Fuel.
Proof.
  induction n as [i|i l IH] using tree_ind'; intros o ks.
  - cbn [merge]. destruct (i_kind i); try discriminate.
    + destruct (t_content o); discriminate.
    + destruct (merge_scalar _ _ _ _); discriminate.
  - destruct (i_kind i) eqn:Ek.
    4:{ rewrite merge_map_eq by exact Ek. clear Ek. revert o.
        induction l as [|x|nk nv ps IHp] using list_ind2; intros o; cbn [merge_pairs]; try discriminate.
        apply Forall_cons in IH as [_ IH]. apply Forall_cons in IH as [IHv IH].
        assert (X : merge_pair sed (fun ov key => merge sed ov nv [key]) nk nv o <> Fuel).
        { unfold merge_pair. destruct (t_content (to_map o)) as [oc|]; [|discriminate].
          pose proof (merge_entries_no_fuel sed (fun ov key => merge sed ov nv [key]) (t_info nk) oc (fun ov k => IHv ov [k])) as Y.
          destruct (merge_entries _ _ _ oc) as [[oc' []]| | |]; cbn [rbind]; try discriminate; done. }
        destruct (merge_pair _ _ _ _ o); cbn [rbind]; try discriminate; [|done]. by apply IHp. }
    all: cbn [merge]; rewrite Ek; try discriminate.
    + destruct (t_content o) as [[|o0 oc]|]; try discriminate. destruct l as [|n0 l]; [discriminate|].
      apply Forall_cons in IH as [IH0 _]. specialize (IH0 o0 [t_value o]).
      destruct (merge sed o0 n0 _); cbn [rbind]; try discriminate; done.
    + destruct (merge_scalar _ _ _ _); discriminate.
Qed.

(** ** Sound subtrees *)
Lemma sound_subtree s t : subtree s t -> sound (erase t) -> sound (erase s).
Proof.
  induction 1 as [|l i ts t I S IH]; [done|]. rewrite erase_eq. intros H. apply sound_inv in H as (_ & _ & H).
  rewrite Forall_forall in H. apply IH, H. apply elem_of_list_In, in_map, I.
Qed.
Lemma sound_put_sub x s' t : sound (erase s') -> sound (erase t) -> sound (erase (put_sub x s' t)).
Proof.
  intros S. induction t as [l i|l i ts IH] using ltree_ind'; intros H; cbn [put_sub label]; destruct (Nat.eqb l x); auto.
  rewrite erase_eq in *. apply sound_inv in H as (H1 & H2 & H3). apply sound_node; auto.
  - intros K. apply is_paired_even. rewrite !map_length. apply H1, is_paired_even in K. by rewrite map_length in K.
  - intros NE. apply H2. intros E. apply NE. by destruct ts.
  - rewrite Forall_forall in IH. rewrite Forall_forall in H3. rewrite Forall_forall. intros y Y. apply elem_of_list_In, in_map_iff in Y as (z & <- & Z).
    apply in_map_iff in Z as (w & <- & W). apply IH; [by apply elem_of_list_In|]. apply H3.
    apply elem_of_list_In, in_map, W.
Qed.
Lemma sound_prune p t : sound (erase t) -> sound (erase (prune p t)).
Proof.
  induction t as [l i|l i ts IH] using ltree_ind'; intros H; [exact H|].
  rewrite erase_eq in H. apply sound_inv in H as (H1 & H2 & H3).
  assert (F : Forall sound (map erase (map (prune p) ts))).
  { rewrite Forall_forall in IH. rewrite Forall_forall in H3. rewrite Forall_forall. intros y Y. apply elem_of_list_In, in_map_iff in Y as (z & <- & Z).
    apply in_map_iff in Z as (w & <- & W). apply IH; [by apply elem_of_list_In|]. apply H3.
    apply elem_of_list_In, in_map, W. }
  assert (F' : forall l, (forall y, y ∈ l -> y ∈ map (prune p) ts) -> Forall sound (map erase l)).
  { intros l' L. rewrite Forall_forall in F. rewrite Forall_forall. intros y Y. apply elem_of_list_In, in_map_iff in Y as (z & <- & Z).
    apply F. apply elem_of_list_In, in_map, elem_of_list_In, L, elem_of_list_In, Z. }
  cbn [prune]. rewrite erase_eq. apply sound_node.
  - intros K. specialize (H1 K). apply is_paired_even in H1. apply is_paired_even. rewrite map_length in *.
    rewrite K. cbn [elements kind_eqb orb]. apply drop_pairs_even. by rewrite map_length.
  - intros NE. apply H2. destruct ts; [|done]. intros _. apply NE. destruct (elements _); reflexivity.
  - apply F'. intros y Y. destruct (elements (i_kind i)).
    + by apply elem_of_list_filter in Y as [_ Y].
    + by eapply drop_pairs_sub.
Qed.

(** ** Acting on any list of nodes of the forest *)
Lemma loop_forest (ro : loc -> Prop) (J : heap -> Prop) (m : loc -> M unit) (F : tree -> res tree) :
  (forall h s, own h [s] -> apart ro h [s] -> J h -> performs (m (label s)) h s (F (erase s))) ->
  (forall t t', sound t -> F t = Ok t' -> sound t') -> (forall t, F t <> Fuel) ->
  (forall h W h' W', own h W -> apart ro h W -> trans h W h' W' -> J h -> J h') ->
  forall sel h doc gs, own h (doc :: gs) -> apart ro h (doc :: gs) -> J h -> sound (erase doc) ->
    (forall x, In x sel -> x ∈ flat (doc :: gs)) ->
  exists h' r doc' gs', loop m sel h = (h', r) /\ trans h (doc :: gs) h' (doc' :: gs') /\ label doc' = label doc /\
    r <> Fuel /\ (r = Ok tt -> sound (erase doc')).
Proof.
  intros Hm HS HF HJ. induction sel as [|x sel IH]; intros h doc gs O A Jh Sd IN.
  { exists h, (Ok tt), doc, gs. split; [done|]. split; [apply trans_refl; apply O|]. done. }
  destruct (forest_edit h (doc :: gs) x O (IN x (or_introl eq_refl))) as (s & t & S & T & LS & Os & ED).
  assert (As : apart ro h [s]).
  { eapply apart_subtree; [|exact S]. by eapply apart_member. }
  destruct (Hm h s Os As Jh) as (h1 & r1 & s1 & g1 & M1 & T1 & L1 & E1). rewrite LS in M1.
  destruct (ED h1 s1 g1 T1 L1) as [TD _]. cbn [map app] in TD.
  pose proof (HF (erase s)) as HFs.
  assert (LD : label (put_sub x s1 doc) = label doc) by (rewrite <- LS; apply put_sub_label; congruence).
  destruct (F (erase s)) as [t1|e| |] eqn:EF; cbn [agree] in E1; [destruct E1 as [-> E1]|subst r1..|done].
  - assert (O1 := own_trans _ _ _ _ O TD). assert (A1 := apart_trans _ _ _ _ _ O TD A).
    destruct (IH h1 _ _ O1 A1) as (h2 & r2 & doc2 & g2 & M2 & T2 & L2 & N2 & S2).
    + exact (HJ _ _ _ _ O A TD Jh).
    + destruct (decide (x ∈ locs doc)) as [XD|XD]; [|rewrite put_sub_absent; done].
      apply sound_put_sub; [|done]. rewrite E1. eapply HS; [|exact EF]. eapply sound_subtree; [|exact Sd].
      assert (t = doc) as <-; [|done]. eapply in_forest; [exact O|done|by left| |exact XD].
      rewrite <- LS. eapply subtree_locs; [exact S|apply label_locs].
    + intros y Y. destruct (tr_perm _ _ _ _ TD) as (fr & _ & _ & P). rewrite P. apply elem_of_app. left. apply IN. by right.
    + exists h2, r2, doc2, g2. split; [cbn [loop]; by rewrite (bind_ok _ _ _ _ _ M1)|].
      split; [eapply trans_trans; eauto|]. split; [congruence|done].
  - exists h1, (Err e), (put_sub x s1 doc), (map (put_sub x s1) gs ++ g1). split; [cbn [loop]; unfold bind; by rewrite M1|].
    split; [exact TD|]. done.
  - exists h1, Panic, (put_sub x s1 doc), (map (put_sub x s1) gs ++ g1). split; [cbn [loop]; unfold bind; by rewrite M1|].
    split; [exact TD|]. done.
Qed.

(** ** Allocating a fresh tree *)
Fixpoint depth (t : tree) : nat :=
  match t with T _ c => S (match c with None => 0 | Some l => fold_right (fun t n => Nat.max (depth t) n) 0 l end) end.
Lemma depth_in t l : In t l -> depth t <= fold_right (fun t n => Nat.max (depth t) n) 0 l.
Proof. induction l as [|x l IH]; [intros []|]. intros [<-|I]; cbn; [lia|]. specialize (IH I). lia. Qed.

Lemma h_alloc_spec (ro : loc -> Prop) t : forall h, (forall l, length h <= l -> ro l) ->
  exists ext l, h_alloc t h = (h ++ ext, Ok l) /\ length h <= l /\ forall d, depth t <= d -> value_at d ro (h ++ ext) l t.
Proof.
  induction t as [i|i l IH] using tree_ind'; intros h R.
  - exists [mkNode i None None], (length h). split; [reflexivity|]. split; [lia|].
    intros [|d] D; [cbn in D; lia|]. cbn [value_at]. split; [apply R; lia|]. eexists.
    split; [rewrite lookup_app_r, Nat.sub_diag by lia; reflexivity|]. done.
  - assert (X : exists ext ls, (fix go (ts : list tree) : M (list loc) := match ts with
        | [] => ret [] | t :: r => do! l := h_alloc t in do! ls := go r in ret (l :: ls) end) l h = (h ++ ext, Ok ls) /\
        forall d, fold_right (fun t n => Nat.max (depth t) n) 0 l <= d -> Forall2 (value_at d ro (h ++ ext)) ls l).
    { clear i. revert h R. induction IH as [|t l Ht _ IHl]; intros h R.
      - exists [], []. split; [by rewrite app_nil_r|]. intros; constructor.
      - destruct (Ht h R) as (e1 & l1 & E1 & B1 & V1).
        destruct (IHl (h ++ e1)) as (e2 & ls & E2 & V2); [intros y Y; apply R; rewrite app_length in Y; lia|].
        exists (e1 ++ e2), (l1 :: ls). split.
        + rewrite (bind_ok _ _ _ _ _ E1). rewrite (bind_ok _ _ _ _ _ E2). unfold ret. by rewrite app_assoc.
        + intros d D. cbn in D. rewrite app_assoc. constructor.
          * apply value_at_ext. apply V1. lia.
          * apply V2. lia. }
    destruct X as (ext & ls & E & V). exists (ext ++ [mkNode i None (Some ls)]), (length (h ++ ext)).
    cbn [h_alloc]. split; [rewrite (bind_ok _ _ _ _ _ E); unfold alloc; by rewrite <- app_assoc|].
    split; [rewrite app_length; lia|]. intros [|d] D; [cbn in D; lia|].
    cbn [value_at]. split; [apply R; rewrite app_length; lia|]. eexists. rewrite app_assoc.
    split; [rewrite lookup_app_r, Nat.sub_diag by lia; reflexivity|]. split; [done|]. split; [done|].
    cbn [n_content t_content]. cbn [depth] in D.
    eapply Forall2_impl; [apply (V d); lia|]. intros x y H. by apply value_at_ext.
Qed.

(** ** The scaffold is sound *)
Lemma sound_leaf i : sound (T i None).
Proof. apply sound_node; [intros _; apply is_paired_nil|done|constructor]. Qed.
Lemma new_path_sound f : forall l t, new_path f l = Ok t -> sound t.
Proof.
  induction f as [|f IH]; intros l t; cbn [new_path]; [discriminate|].
  destruct (next_lexeme 4 l) as [[lx l1]| | |]; cbn [rbind]; try discriminate.
  assert (C : forall name t, (if seq_eqb name (lit "*") then Err EWildcard
        else let! sub := new_path f l1 in Ok (b_map [b_key (unescape name); sub])) = Ok t -> sound t).
  { intros name t'. destruct (seq_eqb name _); [discriminate|]. destruct (new_path f l1) as [sub'| | |] eqn:E; cbn [rbind]; try discriminate.
    intros [= <-]. apply sound_node.
    - intros _. by apply is_paired_even.
    - intros _. right. by right.
    - apply Forall_cons. split; [apply sound_leaf|]. apply Forall_cons. split; [by eapply IH|constructor]. }
  destruct (lm_typ lx); try discriminate; try (intros [= <-]; apply sound_leaf); auto.
  - destruct (new_path f l1) as [sub'| | |] eqn:E; cbn [rbind]; try discriminate. intros [= <-].
    apply sound_node; [discriminate|intros _; by left|]. apply Forall_cons. split; [by eapply IH|constructor].
  - destruct (seq_eqb _ (lit "*")); [discriminate|]. apply C.
  - apply C.
  - destruct (new_path f l1) as [sub'| | |] eqn:E; cbn [rbind]; try discriminate. intros [= <-].
    specialize (IH _ _ E). apply sound_node.
    + intros _. apply is_paired_even. induction (bracket_child_names _) as [|n ns IHn]; [done|]. cbn [map concat app length]. exact IHn.
    + intros _. right. by right.
    + induction (bracket_child_names _) as [|n ns IHn]; [constructor|]. cbn [map concat app].
      apply Forall_cons. split; [apply sound_leaf|]. apply Forall_cons. split; done.
Qed.
Lemma build_all_sound ps : forall ts, build_all ps = Ok ts -> Forall sound ts.
Proof.
  induction ps as [|p ps IH]; intros ts; cbn [build_all]; [intros [= <-]; constructor|].
  destruct (build p) as [t| | |] eqn:E; cbn [rbind]; try discriminate.
  destruct (build_all ps) as [ts'| | |]; cbn [rbind]; try discriminate. intros [= <-].
  apply Forall_cons. split; [by eapply new_path_sound|]. by apply IH.
Qed.
Lemma merge_node_sound sed ns : forall o o', sound o -> Forall sound ns -> merge_node sed o ns = Ok o' -> sound o'.
Proof.
  induction ns as [|n ns IH]; intros o o' So Sn H; [injection H as <-; done|].
  apply Forall_cons in Sn as [Sn1 Sn2]. unfold merge_node in *. cbn [fold_left rbind] in H.
  destruct (merge sed o n []) as [o1| | |] eqn:E.
  - apply (IH o1); [exact (merge_sound sed n o [] o1 Sn1 So E)|exact Sn2|exact H].
  - exfalso. clear -H. induction ns; [discriminate|auto].
  - exfalso. clear -H. induction ns; [discriminate|auto].
  - exfalso. clear -H. induction ns; [discriminate|auto].
Qed.
Lemma merge_node_no_fuel sed ns : forall o, merge_node sed o ns <> Fuel.
Proof.
  induction ns as [|n ns IH]; intros o; [discriminate|].
  unfold merge_node in *. cbn [fold_left rbind]. pose proof (merge_no_fuel sed n o []) as NF.
  destruct (merge sed o n []) as [o1| | |] eqn:E; [apply IH| | |done]; clear; induction ns; try discriminate; auto.
Qed.
Lemma build_paths_sound sed ts y : Forall sound ts -> build_paths sed ts = Ok y -> sound y.
Proof.
  intros S. destruct ts as [|t ts]; cbn [build_paths]; [discriminate|]. apply Forall_cons in S as [S1 S2].
  by eapply merge_node_sound.
Qed.

(** ** Injection on the forest *)
Lemma find_inside qs h doc rs : Forall finds_inside qs -> reads h doc ->
  h_find qs (label doc) h = (h, Ok rs) -> forall x, In x rs -> x ∈ locs doc.
Proof.
  intros F R H x X. unfold h_find, bind, get in H. destruct (h !! label doc); [|discriminate].
  destruct (_ && _); [injection H as <-; destruct X|]. injection H as <-.
  apply in_concat in X as (l & L & X). apply in_map_iff in L as (q & <- & Q). rewrite Forall_forall in F.
  exact (F q (proj2 (elem_of_list_In _ _) Q) h doc x R X).
Qed.
Lemma find_ok qs h doc : reads h doc -> exists rs, h_find qs (label doc) h = (h, Ok rs).
Proof.
  intros R. destruct (reads_root _ _ R) as [al E]. unfold h_find, bind, get. rewrite E. destruct (_ && _); eauto.
Qed.

Lemma performs_forest m h doc gs F : own h (doc :: gs) -> performs m h doc F ->
  exists h' r doc' gs', m h = (h', r) /\ trans h (doc :: gs) h' (doc' :: gs') /\ label doc' = label doc /\ agree F r (erase doc').
Proof.
  intros O (h' & r & doc' & g & M & T & L & A). exists h', r, doc', (g ++ gs). split; [done|]. split; [|done].
  pose proof (trans_frame_r h [doc] h' (doc' :: g) gs O T) as X. exact X.
Qed.

Lemma build_all_cases ps : (exists ts, build_all ps = Ok ts) \/ build_all ps = Err EInvalidPath.
Proof.
  induction ps as [|p ps IH]; [left; by eexists|]. cbn [build_all].
  destruct (build_safe p) as [[t ->]| ->]; cbn [rbind]; [|by right].
  destruct IH as [[ts ->]| ->]; cbn [rbind]; [left; by eexists|by right].
Qed.
Lemma build_paths_no_fuel sed ts : build_paths sed ts <> Fuel.
Proof. destruct ts; [discriminate|]. apply merge_node_no_fuel. Qed.

Lemma depth_le_depth t : forall d, depth t <= d -> depth_le d t.
Proof.
  induction t as [i|i l IH] using tree_ind'; intros [|d] D; cbn [depth] in D; try lia; cbn [depth_le t_content]; [done|].
  rewrite Forall_forall in *. intros x X. apply IH; [done|]. apply elem_of_list_In in X. apply depth_in in X. lia.
Qed.

Lemma trans_ext h X ext : Forall (reads h) X -> trans h X (h ++ ext) X.
Proof.
  intros A. split.
  - rewrite app_length. lia.
  - intros x Hx _. apply lookup_app_l. exact Hx.
  - apply (reads_all_frame h); [|exact A]. intros x Hx. apply lookup_app_l. eapply reads_all_bound; eauto.
  - exists []. split; [constructor|]. split; [constructor|]. rewrite app_nil_r. reflexivity.
Qed.
Lemma value_at_bound (ro : loc -> Prop) h d : forall l t, value_at d ro h l t -> value_at d (fun l => ro l /\ l < length h) h l t.
Proof.
  induction d as [|d IH]; intros l t; cbn [value_at]; [done|]. intros (R & n & A & B & C & D).
  split; [split; [done|by eapply lookup_lt_Some]|]. exists n. split; [done|]. split; [done|]. split.
  - destruct (n_alias n); [|done]. destruct C as [t' C]. eauto.
  - destruct (n_content n), (t_content t); auto. eapply Forall2_impl; [exact D|]. auto.
Qed.

Lemma inject_forest sed ip v ro d t : Forall finds_inside ip -> sound t ->
  exists F, forall fuel, F <= fuel -> d <= fuel ->
  forall h doc gs, own h (doc :: gs) -> apart ro h (doc :: gs) -> value_at d ro h v t -> sound (erase doc) ->
  exists h' r doc' gs', h_inject fuel sed ip v (label doc) h = (h', r) /\ trans h (doc :: gs) h' (doc' :: gs') /\
    label doc' = label doc /\ r <> Fuel /\ (r = Ok tt -> sound (erase doc')).
Proof.
  intros FI St. unfold h_inject.
  destruct (build_all_cases (map q_text ip)) as [[ts EB]|EB]; rewrite EB.
  2: exists 0; intros fuel _ _ h doc gs O A V S; eexists h, _, doc, gs; (split; [reflexivity|]);
    (split; [apply trans_refl; apply O|]); done.
  pose proof (build_paths_no_fuel sed ts) as NF.
  destruct (build_paths sed ts) as [y|e| |] eqn:EY; [|..|done].
  2,3: exists 0; intros fuel _ _ h doc gs O A V S; eexists h, _, doc, gs; (split; [reflexivity|]);
    (split; [apply trans_refl; apply O|]); done.
  assert (Sy : sound y) by (eapply build_paths_sound; [|exact EY]; by eapply build_all_sound).
  exists (depth y). intros fuel F1 F2 h doc gs O A V S.
  destruct (h_alloc_spec (fun l => length h <= l) y h ltac:(done)) as (ext & ly & EA & LY & VA).
  set (h1 := h ++ ext) in *. set (ro' := fun l => length h <= l /\ l < length h1).
  assert (T0 : trans h (doc :: gs) h1 (doc :: gs)) by (apply trans_ext, O).
  assert (O1 := own_trans _ _ _ _ O T0). assert (A1 := apart_trans _ _ _ _ _ O T0 A).
  assert (V1 := value_at_trans _ _ _ _ _ _ _ _ T0 A V).
  assert (A1' : apart ro' h1 [doc]).
  { intros l [L1 L2]. split; [done|]. cbn. rewrite app_nil_r. intros X. destruct O as [R _]. apply Forall_cons in R as [R _].
    pose proof (reads_bound _ _ _ R X). lia. }
  pose proof (h_merge_spec sed ro' (depth y) fuel h1 doc ly y [] F1 (own_head _ _ _ O1) A1' (value_at_bound _ _ _ _ _ (VA _ (le_n _)))) as P.
  destruct (performs_forest _ _ _ _ _ O1 P) as (h2 & r2 & doc2 & gs2 & M2 & T2 & L2 & E2).
  assert (T02 := trans_trans _ _ _ _ _ _ O T0 T2).
  assert (MN : h_merge_node fuel sed (label doc) [ly] h1 = (h2, r2)).
  { unfold h_merge_node. cbn [loop]. unfold bind. rewrite M2. destruct r2 as [[]| | |]; reflexivity. }
  pose proof (merge_no_fuel sed y (erase doc) []) as NF2.
  destruct (merge sed (erase doc) y []) as [t2|e| |] eqn:EM; cbn [agree] in E2; [destruct E2 as [-> E2]|subst r2..|done].
  2,3: eexists h2, _, doc2, gs2; (split; [rewrite (bind_ok _ _ _ _ _ EA); unfold bind; rewrite MN; reflexivity|]); done.
  assert (S2 : sound (erase doc2)) by (rewrite E2; exact (merge_sound _ _ _ _ _ Sy S EM)).
  assert (O2 := own_trans _ _ _ _ O1 T2). assert (A2 := apart_trans _ _ _ _ _ O1 T2 A1).
  assert (V2 := value_at_trans _ _ _ _ _ _ _ _ T2 A1 V1).
  assert (R2 : reads h2 doc2) by (destruct O2 as [R _]; by apply Forall_cons in R as [R _]).
  destruct (find_ok ip h2 doc2 R2) as [rs FR].
  destruct (loop_forest ro (fun h => value_at d ro h v t) (fun r => h_replace_node fuel sed r v)
     (fun o => Ok (replace_node sed o t))) with (sel := rs) (h := h2) (doc := doc2) (gs := gs2)
     as (h3 & r3 & doc3 & gs3 & M3 & T3 & L3 & N3 & S3); try done.
  - intros hh s Os As Vs. by apply (h_replace_spec sed ro d).
  - intros a b Sa [= <-]. by apply replace_sound.
  - intros. by eapply value_at_trans.
  - intros x X. rewrite flat_cons. apply elem_of_app. left. by eapply find_inside.
  - exists h3, r3, doc3, gs3. split; [|split; [by eapply trans_trans|split; [congruence|done]]].
    rewrite (bind_ok _ _ _ _ _ EA). rewrite (bind_ok _ _ _ _ _ MN).
    rewrite L2 in FR. rewrite (bind_ok _ _ _ _ _ FR). exact M3.
Qed.

(** ** The whole of Apply *)
Lemma combine_performs sed ro d h s v t : own h [s] -> apart ro h [s] -> value_at d ro h v t ->
  performs (h_combine_node sed (label s) v) h s
    (match combine_node sed (erase s) t with (t', None) => Ok t' | (_, Some e) => Err e end).
Proof.
  intros O A V. destruct d; [destruct V|]. destruct V as (R & nn & E1 & E2 & _).
  destruct (h_combine_spec sed ro h s v nn t O A R E1 E2) as (h' & lt' & gs & M & T & L & E).
  destruct (combine_node sed (erase s) t) as [t' [e|]]; cbn [fst snd] in *; eexists h', _, lt', gs; done.
Qed.

Lemma delete_forest h doc gs fuel sel : own h (doc :: gs) -> sound (erase doc) -> tree_size (erase doc) <= fuel ->
  exists h' doc' gs', loop (h_delete fuel (label doc)) sel h = (h', Ok tt) /\ trans h (doc :: gs) h' (doc' :: gs') /\
    label doc' = label doc /\ sound (erase doc').
Proof.
  intros O S F. destruct (h_delete_all _ fuel F sel h doc (size_height doc) (own_head _ _ _ O) (shape_cuttable _ (proj1 S) (proj2 S)))
    as (h' & g & M & T). exists h', (prune (mem sel) doc), (g ++ gs). split; [done|]. split.
  - exact (trans_frame_r h [doc] h' (prune (mem sel) doc :: g) gs O T).
  - split; [apply prune_label|by apply sound_prune].
Qed.

Lemma act_forest sed ro d a v t fuel h doc gs sel : d <= fuel -> tree_size (erase doc) <= fuel ->
  own h (doc :: gs) -> apart ro h (doc :: gs) -> value_at d ro h v t -> sound (erase doc) -> sound t ->
  (forall x, In x sel -> x ∈ locs doc) ->
  exists h' r doc' gs', h_do_action fuel sed a v (label doc) sel h = (h', r) /\ trans h (doc :: gs) h' (doc' :: gs') /\
    label doc' = label doc /\ r <> Fuel /\ (r = Ok tt -> sound (erase doc')).
Proof.
  intros Fd Fs O A V S St IN.
  assert (IN' : forall x, In x sel -> x ∈ flat (doc :: gs)) by (intros x X; rewrite flat_cons; apply elem_of_app; auto).
  assert (JV : forall h W h' W', own h W -> apart ro h W -> trans h W h' W' -> value_at d ro h v t -> value_at d ro h' v t)
    by (intros; by eapply value_at_trans).
  assert (M : forall h s, own h [s] -> apart ro h [s] -> value_at d ro h v t ->
     performs (h_merge_node fuel sed (label s) [v]) h s (merge sed (erase s) t [])).
  { intros h0 s Os As Vs. destruct (h_merge_spec sed ro d fuel h0 s v t [] Fd Os As Vs) as (h' & r & s' & g & M & T & L & E).
    exists h', r, s', g. split; [|done]. unfold h_merge_node. cbn [loop]. unfold bind. rewrite M.
    destruct r as [[]| | |]; reflexivity. }
  unfold h_do_action. destruct a; cbn [h_act].
  - apply (loop_forest ro (fun h => value_at d ro h v t) _ (fun o => merge sed o t [])); auto.
    + intros a b Sa. exact (merge_sound sed t a [] b St Sa).
    + intros a. apply merge_no_fuel.
  - apply (loop_forest ro (fun h => value_at d ro h v t) _ (fun o => merge sed o t [])); auto.
    + intros a b Sa. exact (merge_sound sed t a [] b St Sa).
    + intros a. apply merge_no_fuel.
  - apply (loop_forest ro (fun h => value_at d ro h v t) _ (fun o => Ok (replace_node sed o t))); auto.
    + intros h0 s Os As Vs. by apply (h_replace_spec sed ro d).
    + intros a b Sa [= <-]. by apply replace_sound.
  - destruct (delete_forest h doc gs fuel sel O S Fs) as (h' & doc' & gs' & M' & T' & L' & S').
    exists h', (Ok tt), doc', gs'. done.
  - apply (loop_forest ro (fun h => value_at d ro h v t) _
       (fun o => match combine_node sed o t with (t', None) => Ok t' | (_, Some e) => Err e end)); auto.
    + intros h0 s Os As Vs. by apply (combine_performs sed ro d).
    + intros a b Sa E. pose proof (combine_sound sed a t Sa) as X. destruct (combine_node sed a t) as [a' []]; [done|].
      injection E as <-. exact X.
    + intros a. destruct (combine_node sed a t) as [a' []]; discriminate.
Qed.

Lemma apply_forest sed dflt o ro d t h doc gs :
  Forall finds_inside (o_queries o) -> Forall finds_inside (default [] (o_inject o)) ->
  own h (doc :: gs) -> apart ro h (doc :: gs) -> value_at d ro h (o_value o) t ->
  sound (erase doc) -> sound t ->
  closed h -> conditions_ok d h (label doc) (o_docqueries o) ->
  exists F, forall fuel, F <= fuel ->
  exists h' o' r doc' gs', apply fuel sed dflt o (label doc) h = (h', o', r) /\ trans h (doc :: gs) h' (doc' :: gs') /\
    label doc' = label doc /\ r <> Fuel /\ (r = Ok tt -> sound (erase doc')).
Proof.
  intros FQ FI O A V S St C CO.
  assert (R : reads h doc) by (destruct O as [R _]; by apply Forall_cons in R as [R _]).
  assert (N : label doc < length h) by (eapply reads_bound; [exact R|apply label_locs]).
  destruct (inject_forest sed (o_queries o) (o_value o) ro d t FQ St) as [F1 I1].
  destruct (inject_forest sed (default [] (o_inject o)) (o_value o) ro d t FI St) as [F2 I2].
  exists (F1 + F2 + d + tree_size (erase doc)). intros fuel FL.
  destruct (check_spec h d fuel (label doc) (o_docqueries o) C ltac:(lia) N CO) as (e & E1 & _).
  unfold apply. rewrite E1.
  assert (K : forall o' : overlay, exists h' o'' (r : res unit) doc' gs', (h, o', Ok tt) = (h', o'', r) /\ trans h (doc :: gs) h' (doc' :: gs') /\
    label doc' = label doc /\ r <> Fuel /\ (r = Ok tt -> sound (erase doc'))).
  { intros o'. exists h, o', (Ok tt), doc, gs. split; [done|]. split; [apply trans_refl; apply O|]. done. }
  destruct e; [|apply K]. destruct (find_ok (o_queries o) h doc R) as [rs FR]. rewrite FR.
  destruct rs as [|x rs].
  - assert (X : forall o', o_queries o' = o_queries o -> o_value o' = o_value o -> o_inject o' = o_inject o ->
       exists h' r doc' gs', h_on_missing fuel sed o' (label doc) h = (h', r) /\ trans h (doc :: gs) h' (doc' :: gs') /\
         label doc' = label doc /\ r <> Fuel /\ (r = Ok tt -> sound (erase doc'))).
    { intros o' Q1 Q2 Q3. assert (K' : forall r : res unit, r <> Fuel -> exists h' r' doc' gs', (h, r) = (h', r') /\ trans h (doc :: gs) h' (doc' :: gs') /\
         label doc' = label doc /\ r' <> Fuel /\ (r' = Ok tt -> sound (erase doc'))).
      { intros r Hr. exists h, r, doc, gs. split; [done|]. split; [apply trans_refl; apply O|]. done. }
      unfold h_on_missing. destruct (o_missing o'); try (by apply K').
      unfold h_handle_inject. rewrite Q1, Q2, Q3.
      destruct (build_all_cases (map q_text (o_queries o))) as [[ts ->]| ->].
      - apply (I1 fuel ltac:(lia) ltac:(lia)); done.
      - destruct (o_inject o) as [ip|]; [|by apply K']. apply (I2 fuel ltac:(lia) ltac:(lia)); done. }
    destruct (X (resolve_missing dflt o)) as (h' & r & doc' & gs' & M & T & L & NF & SS).
    + unfold resolve_missing. destruct (o_missing o); try done. by destruct (equal_fold _ _).
    + unfold resolve_missing. destruct (o_missing o); try done. by destruct (equal_fold _ _).
    + unfold resolve_missing. destruct (o_missing o); try done. by destruct (equal_fold _ _).
    + rewrite M. eexists h', _, r, doc', gs'. done.
  - destruct (act_forest sed ro d (o_action o) (o_value o) t fuel h doc gs (x :: rs)) as (h' & r & doc' & gs' & M & T & L & NF & SS);
      try done; try lia.
    + exact (find_inside _ _ _ _ FQ R FR).
    + rewrite M. exists h', o, r, doc', gs'. done.
Qed.
