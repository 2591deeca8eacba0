(** Injection: what the scaffold merge and the replacement amount to. *)
From stdpp Require Import sets.
From Verif Require Import Prelude GoStrings Format SpecFormat ProofFormat Yaml Heap MergeTree HeapActions SpecMerge SpecHeap
  ProofMerge ProofMergeMap ProofMergeAbs ProofHeap ProofHeapActions ProofHeapMerge SpecDelete Builder SpecBuilder ProofBuilder ActionNames
  Overlay SpecOverlay ProofOverlay ProofSelected ProofForest Finder SpecInject SpecReplace ProofSanitize.
From Verif Require Import MergeTree.

(** ** Paths on trees with identities *)
Fixpoint lchild (k : list N) (ts : list ltree) : option ltree :=
  match ts with
  | a :: b :: r => if seq_eqb (i_value (l_info a)) k then Some b else lchild k r
  | _ => None
  end.
Fixpoint lpath (names : list (list N)) (t : ltree) : option ltree :=
  match names with
  | [] => Some t
  | k :: r => if kind_eqb (i_kind (l_info t)) KMapping
              then match lchild k (kids (l_content t)) with Some v => lpath r v | None => None end
              else None
  end.
Lemma list_pair_ind {A} (P : list A -> Prop) : P [] -> (forall x, P [x]) -> (forall x y l, P l -> P (x :: y :: l)) -> forall l, P l.
Proof. intros H0 H1 H2. exact (list_ind2 P H0 H1 H2). Qed.

Lemma f_child_lchild h k ts : Forall (reads h) ts -> f_child h k (map label ts) = match lchild k ts with Some s => Some (label s) | None => None end.
Proof.
  induction ts as [|x|x y ts IH] using list_pair_ind; intros F; [done|done|].
  apply Forall_cons in F as [Rx F]. apply Forall_cons in F as [_ F]. cbn [map f_child lchild].
  destruct (reads_root _ _ Rx) as [al E]. rewrite E. cbn [n_info]. destruct (seq_eqb _ _); [done|auto].
Qed.
Lemma lchild_in k ts s : lchild k ts = Some s -> s ∈ ts.
Proof.
  induction ts as [|x|x y ts IH] using list_pair_ind; cbn [lchild]; try discriminate.
  destruct (seq_eqb _ _); [intros [= <-]; set_solver|]. intros H. apply IH in H. set_solver.
Qed.
Lemma lchild_erase k ts : lookup_key k (map erase ts) = match lchild k ts with Some s => Some (erase s) | None => None end.
Proof.
  induction ts as [|x|x y ts IH] using list_pair_ind; [done|done|]. unfold lookup_key in *. cbn [map pairs lookup_pairs lchild].
  assert (V : t_value (erase x) = i_value (l_info x)) by (unfold t_value; by rewrite erase_info).
  destruct (seq_eqb_spec (i_value (l_info x)) k) as [E|E], (decide (t_value (erase x) = k)); try congruence; done.
Qed.
Lemma reads_kids h t : reads h t -> Forall (reads h) (kids (l_content t)).
Proof. destruct t as [l i c]. rewrite reads_eq. by intros [_ H]. Qed.
Lemma f_path_lpath h names : forall t, reads h t -> f_path h names (label t) = match lpath names t with Some s => [label s] | None => [] end.
Proof.
  induction names as [|k r IH]; intros t R; destruct (reads_root _ _ R) as [al E]; cbn [f_path lpath]; rewrite E; [done|].
  cbn [n_info n_content]. destruct (kind_eqb _ _); [|done]. pose proof (reads_kids _ _ R) as F.
  destruct (l_content t) as [ts|]; cbn [labels kids] in *; [|done]. rewrite f_child_lchild by done.
  destruct (lchild k ts) as [s|] eqn:C; [|done]. apply IH. rewrite Forall_forall in F. by eapply F, lchild_in.
Qed.
Lemma children_erase t : children (erase t) = map erase (kids (l_content t)).
Proof. destruct t as [l i [ts|]]; reflexivity. Qed.
Lemma tree_at_lpath names : forall t, tree_at names (erase t) = match lpath names t with Some s => Some (erase s) | None => None end.
Proof.
  induction names as [|k r IH]; intros t; cbn [tree_at lpath]; [done|]. unfold t_kind. rewrite erase_info.
  destruct (i_kind (l_info t)); cbn [kind_eqb]; try done. rewrite children_erase, lchild_erase.
  destruct (lchild k (kids (l_content t))); [apply IH|done].
Qed.
Lemma lpath_subtree names : forall t s, lpath names t = Some s -> subtree s t.
Proof.
  induction names as [|k r IH]; intros t s; cbn [lpath]; [intros [= <-]; constructor|].
  destruct (kind_eqb _ _); [|discriminate]. destruct t as [l i [ts|]]; cbn [l_content kids]; [|discriminate].
  destruct (lchild k ts) as [v|] eqn:C; [|discriminate]. intros H. eapply st_below; [|apply IH, H].
  apply elem_of_list_In. by eapply lchild_in.
Qed.

(** ** Changing the node at an existing path *)
Fixpoint on_first (k : list N) (f : tree -> tree) (l : list tree) : list tree :=
  match l with
  | kn :: v :: r => if seq_eqb (t_value kn) k then kn :: f v :: r else kn :: v :: on_first k f r
  | _ => l
  end.
Fixpoint set_at (names : list (list N)) (f : tree -> tree) (t : tree) : tree :=
  match names with
  | [] => f t
  | k :: r => match t with T i (Some l) => T i (Some (on_first k (set_at r f) l)) | _ => t end
  end.
Lemma mem_one x y : mem [x] y = Nat.eqb y x.
Proof. unfold mem. cbn. by rewrite orb_false_r. Qed.
Lemma rewrite_at_on_first k f g v x ts : NoDup (flat ts) -> lchild k ts = Some v -> x ∈ locs v ->
  rewrite_at (mem [x]) f v = g (erase v) ->
  map (rewrite_at (mem [x]) f) ts = on_first k g (map erase ts).
Proof.
  intros ND C X E. induction ts as [|a|a b ts IH] using list_pair_ind; cbn [lchild] in C; try discriminate.
  assert (AB : forall t, x ∉ locs t -> rewrite_at (mem [x]) f t = erase t).
  { intros t N. apply rewrite_at_absent. intros y Y. rewrite mem_one. apply Nat.eqb_neq. congruence. }
  rewrite !flat_cons in ND. apply NoDup_app in ND as (_ & D1 & ND). apply NoDup_app in ND as (_ & D2 & ND).
  cbn [map on_first]. unfold t_value. rewrite erase_info. destruct (seq_eqb _ _).
  - injection C as ->. rewrite E, (AB a); [|intros Y; apply (D1 x Y), elem_of_app; by left]. do 2 f_equal.
    apply map_ext_in. intros t T. apply AB. intros Y. apply (D2 x X). apply elem_of_flat. exists t. split; [by apply elem_of_list_In|done].
  - assert (XT : x ∈ flat ts) by (apply elem_of_flat; exists v; split; [by eapply lchild_in|done]).
    rewrite (AB a), (AB b); [|intros Y; by apply (D2 x Y)|intros Y; apply (D1 x Y), elem_of_app; by right]. by rewrite (IH ND C).
Qed.
Lemma rewrite_set names f : forall t s, NoDup (locs t) -> lpath names t = Some s ->
  rewrite_at (mem [label s]) f t = set_at names f (erase t).
Proof.
  induction names as [|k r IH]; intros t s ND; cbn [lpath set_at].
  - intros [= <-]. destruct t as [l i c]. rewrite rewrite_at_eq, mem_one. cbn [label]. by rewrite Nat.eqb_refl.
  - destruct (kind_eqb _ _); [|discriminate]. destruct t as [l i [ts|]]; cbn [l_content kids]; [|discriminate].
    destruct (lchild k ts) as [v|] eqn:C; [|discriminate]. intros P. pose proof (lchild_in _ _ _ C) as V.
    pose proof (lpath_subtree _ _ _ P) as S. assert (X : label s ∈ locs v) by (eapply subtree_locs; [exact S|apply label_locs]).
    rewrite rewrite_at_eq, mem_one. rewrite locs_eq in ND. cbn [kids] in ND. apply NoDup_cons in ND as [NI ND'].
    destruct (Nat.eqb_spec l (label s)) as [->|NE].
    { exfalso. apply NI. apply elem_of_flat. eauto. }
    rewrite erase_eq. do 2 f_equal. apply (rewrite_at_on_first k f (set_at r f) v); [done|done|done|].
    apply IH; [|done]. eapply (nodup_child l i ts); [|done]. rewrite locs_eq. cbn [kids]. by apply NoDup_cons.
Qed.

(** ** Lists of entries *)
Lemma keys_cons k v l : keys (k :: v :: l) = t_value k :: keys l.
Proof. reflexivity. Qed.
Lemma on_first_app k f l1 kn v l2 : is_paired l1 -> k ∉ keys l1 -> t_value kn = k ->
  on_first k f (l1 ++ kn :: v :: l2) = l1 ++ kn :: f v :: l2.
Proof.
  intros P N E. induction l1 as [|x|x y l1 IH] using list_pair_ind.
  - cbn [app on_first]. by rewrite E, seq_eqb_refl.
  - by apply is_paired_single in P.
  - apply is_paired_tail in P. rewrite keys_cons in N. cbn [app on_first].
    destruct (seq_eqb_spec (t_value x) k); [set_solver|]. rewrite IH; [done|done|set_solver].
Qed.
Lemma on_first_head k f kn v l : t_value kn = k -> on_first k f (kn :: v :: l) = kn :: f v :: l.
Proof. intros E. cbn [on_first]. by rewrite E, seq_eqb_refl. Qed.
Lemma split_first k l : is_paired l -> (k ∉ keys l /\ lookup_key k l = None) \/
  exists l1 kn v l2, l = l1 ++ kn :: v :: l2 /\ is_paired l1 /\ k ∉ keys l1 /\ t_value kn = k /\ lookup_key k l = Some v.
Proof.
  induction l as [|x|x y l IH] using list_pair_ind; intros P.
  - left. split; [|done]. unfold keys. cbn. apply not_elem_of_nil.
  - by apply is_paired_single in P.
  - apply is_paired_tail in P. unfold lookup_key. cbn [pairs lookup_pairs]. destruct (decide (t_value x = k)) as [E|E].
    + right. exists [], x, y, l. repeat split; [apply is_paired_nil|unfold keys; cbn; apply not_elem_of_nil|done].
    + destruct (IH P) as [[N Lk]|(l1 & kn & v & l2 & -> & P1 & N1 & E1 & Lk)].
      * left. rewrite keys_cons. split; [set_solver|exact Lk].
      * right. exists (x :: y :: l1), kn, v, l2. split; [done|]. split; [by apply is_paired_cons|]. rewrite keys_cons.
        split; [set_solver|]. split; [done|exact Lk].
Qed.
Lemma set_at_nested names f leaf : set_at names f (nested names leaf) = nested names (f leaf).
Proof.
  induction names as [|k r IH]; [done|]. cbn [nested set_at]. unfold mapping_of, entry. cbn [on_first].
  unfold t_value. cbn. rewrite seq_eqb_refl. by rewrite IH.
Qed.

(** ** Merging the scaffold *)
Lemma bare_comments sed o k v vs : merge_comments sed o (empty_info k v) vs = o.
Proof. reflexivity. Qed.
Lemma sanitize_bare sed k v : ~ marker_in v -> sanitize_info sed (empty_info k v) = empty_info k v.
Proof. intros N. unfold sanitize_info, empty_info. cbn [i_head i_linec i_foot i_value]. rewrite (format_no_marker sed v) by done. reflexivity. Qed.
Lemma no_marker_nil : ~ marker_in [].
Proof. intros H. apply check_for_markers_spec in H. discriminate. Qed.
Lemma sanitize_nested sed names : Forall (fun n => ~ marker_in n) names -> sanitize sed (nested names empty_scalar) = nested names empty_scalar.
Proof.
  induction 1 as [|n names N _ IH]; [reflexivity|]. cbn [nested]. unfold mapping_of, entry. cbn [sanitize i_kind empty_info map].
  rewrite IH. change (mkInfo KScalar 0 [] n [] [] [] [] 0 0) with (empty_info KScalar n).
  change (mkInfo KMapping 0 [] [] [] [] [] [] 0 0) with (empty_info KMapping []).
  by rewrite !sanitize_bare by (done || apply no_marker_nil).
Qed.
Definition blanked (o : tree) : tree :=
  T (set_tag [] (set_value [] (set_kind KScalar (t_info o)))) (if kind_eqb (t_kind o) KScalar then t_content o else None).
Lemma merge_blank sed o ks : merge sed o empty_scalar ks = Ok (blanked o).
Proof.
  unfold empty_scalar, empty_info. cbn [merge i_kind]. unfold merge_scalar. cbn [i_value]. rewrite format_nil.
  change (mkInfo KScalar 0 [] [] [] [] [] [] 0 0) with (empty_info KScalar []). rewrite bare_comments. unfold blanked.
  destruct (kind_eqb_spec (t_kind o) KScalar) as [E|E]; [|done].
  assert (X : set_kind KScalar (t_info o) = t_info o) by (unfold t_kind in E; destruct (t_info o); cbn in *; by subst).
  by rewrite X.
Qed.
Lemma merge_entries_absent sed f nk oc : ~ marker_in (i_value nk) -> i_value nk ∉ keys oc -> merge_entries sed f nk oc = Ok (oc, false).
Proof.
  intros NM. induction oc as [|x|x y oc IH] using list_pair_ind; intros N; [done|done|]. rewrite keys_cons in N.
  cbn [merge_entries]. rewrite (proj2 (check_markers_false _) NM). cbn [orb].
  destruct (seq_eqb_spec (t_value x) (i_value nk)); [set_solver|]. rewrite IH by set_solver. reflexivity.
Qed.
Lemma merge_entries_found sed f k l1 kn ov ov' l2 : ~ marker_in k -> is_paired l1 -> k ∉ keys l1 -> t_value kn = k ->
  f ov k = Ok ov' -> merge_entries sed f (empty_info KScalar k) (l1 ++ kn :: ov :: l2) = Ok (l1 ++ kn :: ov' :: l2, true).
Proof.
  intros NM P N E F. induction l1 as [|x|x y l1 IH] using list_pair_ind.
  - cbn [app merge_entries]. cbn [i_value empty_info]. rewrite (proj2 (check_markers_false _) NM). cbn [orb]. rewrite E, seq_eqb_refl.
    rewrite F. cbn [rbind]. change (mkInfo KScalar 0 [] k [] [] [] [] 0 0) with (empty_info KScalar k). rewrite bare_comments. by destruct kn.
  - by apply is_paired_single in P.
  - apply is_paired_tail in P. rewrite keys_cons in N. cbn [app merge_entries]. cbn [i_value empty_info].
    rewrite (proj2 (check_markers_false _) NM). cbn [orb]. destruct (seq_eqb_spec (t_value x) k); [set_solver|].
    change (mkInfo KScalar 0 [] k [] [] [] [] 0 0) with (empty_info KScalar k). rewrite IH; [done|done|set_solver].
Qed.
Lemma merge_scaffold sed names : Forall (fun n => ~ marker_in n) names -> forall o ks, well_paired o ->
  exists m, merge sed o (nested names empty_scalar) ks = Ok m /\
    injected (fun old new => new = blanked old) empty_scalar names o m.
Proof.
  induction names as [|k r IH]; intros NM o ks W.
  { exists (blanked o). split; [apply merge_blank|by constructor]. }
  apply Forall_cons in NM as [Nk Nr]. cbn [nested]. unfold mapping_of. rewrite merge_map_eq by done.
  unfold entry. cbn [merge_pairs]. unfold merge_pair.
  assert (SN : map (sanitize sed) [T (empty_info KScalar k) None; nested r empty_scalar] = entry k (nested r empty_scalar)).
  { cbn [map]. rewrite sanitize_nested by done. unfold entry. do 2 f_equal. cbn [sanitize]. by rewrite sanitize_bare. }
  destruct o as [i c]. unfold to_map, t_kind. cbn [t_info]. destruct (kind_eqb_spec (i_kind i) KMapping) as [K|K].
  - cbn [t_content t_info]. destruct c as [oc|].
    + apply well_paired_inv in W as [P Wc]. specialize (P K). cbn in P, Wc.
      destruct (split_first k oc P) as [[N _]|(l1 & kn & ov & l2 & -> & P1 & N1 & E1 & _)].
      * rewrite merge_entries_absent by done. cbn [rbind add_node append_content]. rewrite SN.
        eexists. split; [reflexivity|]. apply (inj_new _ _ k r i (Some oc)); done.
      * assert (Wo : well_paired ov) by (apply Forall_app in Wc as [_ Wc]; apply Forall_cons in Wc as [_ Wc]; by apply Forall_cons in Wc as [Wc _]).
        destruct (IH Nr ov [k] Wo) as (m & M & I).
        rewrite (merge_entries_found sed _ k l1 kn ov m l2) by done. cbn [rbind].
        eexists. split; [reflexivity|]. by apply inj_in.
    + cbn [add_node append_content rbind]. rewrite SN. unfold entry at 1. cbn [rbind]. eexists. split; [reflexivity|].
      apply (inj_new _ _ k r i None); [done|apply is_paired_nil|unfold keys; cbn; apply not_elem_of_nil].
  - cbn [t_content t_info merge_entries rbind add_node append_content app]. rewrite SN.
    eexists. split; [reflexivity|]. by apply inj_convert.
Qed.

(** Then changing the node at the path. *)
Lemma injected_set (here0 here1 : tree -> tree -> Prop) f leaf names t m : injected here0 leaf names t m ->
  (forall old new, here0 old new -> here1 old (f new)) ->
  injected here1 (f leaf) names t (set_at names f m).
Proof.
  intros I H. induction I as [old new Hh|k r i l1 kn ov ov' l2 K P N E I IH|k r i c K P N|k r i c K]; cbn [set_at].
  - constructor. auto.
  - rewrite on_first_app by done. by apply inj_in.
  - unfold entry at 1. rewrite on_first_app by done. rewrite set_at_nested. by apply (inj_new here1 (f leaf) k r i c).
  - unfold entry at 1. rewrite on_first_head by done. rewrite set_at_nested. by apply inj_convert.
Qed.
(** ... where the path does lead somewhere. *)
Lemma lookup_app k l1 kn v l2 : is_paired l1 -> k ∉ keys l1 -> t_value kn = k -> lookup_key k (l1 ++ kn :: v :: l2) = Some v.
Proof.
  intros P N E. induction l1 as [|x|x y l1 IH] using list_pair_ind.
  - unfold lookup_key. cbn. by destruct (decide (t_value kn = k)).
  - by apply is_paired_single in P.
  - apply is_paired_tail in P. rewrite keys_cons in N. unfold lookup_key in *. cbn [app pairs lookup_pairs].
    destruct (decide (t_value x = k)); [set_solver|]. apply IH; [done|set_solver].
Qed.
Lemma lookup_head k kn v l : t_value kn = k -> lookup_key k (kn :: v :: l) = Some v.
Proof. intros E. unfold lookup_key. cbn. by destruct (decide (t_value kn = k)). Qed.
Lemma tree_at_nested names leaf : tree_at names (nested names leaf) = Some leaf.
Proof.
  induction names as [|k r IH]; [done|]. cbn [nested].
  change (match lookup_key k (entry k (nested r leaf)) with Some v => tree_at r v | None => None end = Some leaf).
  unfold entry. by rewrite lookup_head.
Qed.
Lemma injected_at here leaf names t m : injected here leaf names t m ->
  match tree_at names t with
  | None => tree_at names m = Some leaf
  | Some old => exists new, tree_at names m = Some new /\ here old new
  end.
Proof.
  intros I. induction I as [old new Hh|k r i l1 kn ov ov' l2 K P N E I IH|k r i c K P N|k r i c K]; cbn [tree_at].
  - eauto.
  - unfold t_kind. cbn [t_info]. rewrite K. repeat change (children (T i (Some ?l))) with l. rewrite !lookup_app by done. exact IH.
  - unfold t_kind. cbn [t_info]. rewrite K.
    destruct (split_first k _ P) as [[_ ->]|(l1 & kn & v & l2 & E & P1 & _ & E1 & _)].
    + unfold entry. change (children (T i (Some ?l))) with l. rewrite lookup_app by done. apply tree_at_nested.
    + exfalso. apply N. rewrite E. clear -E1 P1. induction l1 as [|x|x y l1 IH] using list_pair_ind.
      * rewrite app_nil_l, keys_cons. set_solver.
      * by apply is_paired_single in P1.
      * apply is_paired_tail in P1. cbn [app]. rewrite keys_cons. set_solver.
  - unfold t_kind. cbn [t_info]. destruct (i_kind i); try done.
    all: cbn [i_kind set_kind set_tag set_value]; change (children (T ?i (Some ?l))) with l; unfold entry; rewrite lookup_head by done; apply tree_at_nested.
Qed.

(** ** Other paths *)
Lemma diverge_cons p k r : diverge p (k :: r) -> exists a p', p = a :: p' /\ (a <> k \/ (a = k /\ diverge p' r)).
Proof.
  intros (c & a & b & p' & q' & -> & E & NE). destruct c as [|x c]; cbn [app] in *.
  - injection E as -> ->. eauto.
  - injection E as -> ->. exists x, (c ++ a :: p'). split; [done|]. right. split; [done|]. exists c, a, b, p', q'. done.
Qed.
Lemma diverge_nil p : ~ diverge p [].
Proof. intros (c & a & b & p' & q' & _ & E & _). by destruct c. Qed.
Lemma nested_diverge leaf r : forall p, diverge p r -> tree_at p (nested r leaf) = None.
Proof.
  induction r as [|k r IH]; intros p D; [by apply diverge_nil in D|].
  apply diverge_cons in D as (a & p' & -> & [NE|[-> D]]).
  - cbn [nested]. change (match lookup_key a (entry k (nested r leaf)) with Some v => tree_at p' v | None => None end = None).
    unfold lookup_key, entry. cbn. unfold t_value. cbn. by destruct (decide (k = a)).
  - cbn [nested]. change (match lookup_key k (entry k (nested r leaf)) with Some v => tree_at p' v | None => None end = None).
    unfold entry. rewrite lookup_head by done. by apply IH.
Qed.
Lemma lookup_other a l1 kn v v' l2 : t_value kn <> a -> lookup_key a (l1 ++ kn :: v :: l2) = lookup_key a (l1 ++ kn :: v' :: l2) \/ ~ is_paired l1.
Proof.
  intros NE. destruct (decide (Nat.even (length l1) = true)) as [E|E]; [|right; by rewrite is_paired_even]. left.
  assert (P : is_paired l1) by by apply is_paired_even. clear E.
  induction l1 as [|x|x y l1 IH] using list_pair_ind.
  - unfold lookup_key. cbn. by destruct (decide (t_value kn = a)).
  - by apply is_paired_single in P.
  - apply is_paired_tail in P. unfold lookup_key in *. cbn [app pairs lookup_pairs]. by rewrite IH.
Qed.
Lemma lookup_snoc a l kn v : is_paired l -> t_value kn <> a -> lookup_key a (l ++ [kn; v]) = lookup_key a l.
Proof.
  intros P NE. induction l as [|x|x y l IH] using list_pair_ind.
  - unfold lookup_key. cbn. by destruct (decide (t_value kn = a)).
  - by apply is_paired_single in P.
  - apply is_paired_tail in P. unfold lookup_key in *. cbn [app pairs lookup_pairs]. by rewrite IH.
Qed.
Lemma lookup_absent k l : is_paired l -> k ∉ keys l -> lookup_key k l = None.
Proof.
  intros P N. destruct (split_first k l P) as [[_ ->]|(l1 & kn & v & l2 & -> & P1 & _ & E1 & _)]; [done|]. exfalso. apply N.
  clear -P1 E1. induction l1 as [|x|x y l1 IH] using list_pair_ind.
  - rewrite app_nil_l, keys_cons. apply elem_of_cons. by left.
  - by apply is_paired_single in P1.
  - apply is_paired_tail in P1. cbn [app]. rewrite keys_cons. apply elem_of_cons. right. auto.
Qed.
Lemma injected_diverge here leaf names t m p : injected here leaf names t m -> diverge p names -> tree_at p m = tree_at p t.
Proof.
  intros I. revert p. induction I as [old new Hh|k r i l1 kn ov ov' l2 K P N E I IH|k r i c K P N|k r i c K]; intros p D;
    [by apply diverge_nil in D|..]; apply diverge_cons in D as (a & p' & -> & D).
  - cbn [tree_at]. unfold t_kind. cbn [t_info]. rewrite K. repeat change (children (T i (Some ?l))) with l.
    destruct D as [NE|[-> D]].
    + destruct (lookup_other a l1 kn ov ov' l2) as [-> |X]; [congruence|done|done].
    + rewrite !lookup_app by done. by apply IH.
  - cbn [tree_at]. unfold t_kind. cbn [t_info]. rewrite K. change (children (T i (Some (children (T i c) ++ ?l)))) with (children (T i c) ++ l).
    destruct D as [NE|[-> D]].
    + unfold entry. rewrite lookup_snoc; [done|done|]. unfold t_value. cbn. congruence.
    + rewrite (lookup_absent k (children (T i c))) by done. unfold entry. rewrite lookup_app by done. by apply nested_diverge.
  - cbn [tree_at]. unfold t_kind. cbn [t_info]. cbn [i_kind set_kind set_tag set_value].
    change (children (T ?i (Some ?l))) with l. assert (X : match i_kind i with KMapping =>
      match lookup_key a (children (T i c)) with Some v => tree_at p' v | None => None end | _ => None end = None) by (destruct (i_kind i); done).
    rewrite X. unfold entry. destruct D as [NE|[-> D]].
    + unfold lookup_key. cbn. unfold t_value. cbn. by destruct (decide (k = a)).
    + rewrite lookup_head by done. by apply nested_diverge.
Qed.
Lemma kept_all l : Forall2 kept l l.
Proof. induction l; constructor; [constructor|done]. Qed.
Lemma injected_kept here leaf names t m : injected here leaf names t m -> mappings_above names t -> tree_at names t = None -> kept t m.
Proof.
  intros I. induction I as [old new Hh|k r i l1 kn ov ov' l2 K P N E I IH|k r i c K P N|k r i c K]; cbn [tree_at mappings_above]; intros M A.
  - discriminate.
  - unfold t_kind in *. cbn [t_info] in *. rewrite K in A. destruct M as [_ M].
    change (children (T i (Some (l1 ++ kn :: ov :: l2)))) with (l1 ++ kn :: ov :: l2) in *. rewrite lookup_app in M, A by done.
    rewrite <- (app_nil_r (l1 ++ kn :: ov' :: l2)). apply kept_more. apply Forall2_app; [apply kept_all|].
    constructor; [constructor|]. constructor; [by apply IH|apply kept_all].
  - destruct c as [l|]; [|apply kept_first]. apply kept_more, kept_all.
  - by destruct M.
Qed.

(** ** The whole injection of one path *)
Lemma document_depth names : depth (document_of (nested names empty_scalar)) = 2 + length names.
Proof.
  assert (X : depth (nested names empty_scalar) = S (length names)).
  { induction names as [|k r IH]; [reflexivity|]. cbn [nested depth mapping_of entry fold_right length]. rewrite IH. lia. }
  unfold document_of. cbn [depth fold_right]. rewrite X. lia.
Qed.
Lemma inject_exact sed ro d fuel text names h doc root rest v t :
  own h [doc] -> well_paired (erase doc) -> apart ro h [doc] -> value_at d ro h v t -> d <= fuel -> 2 + length names <= fuel ->
  build text = Ok (document_of (nested names empty_scalar)) -> Forall (fun n => ~ marker_in n) names ->
  i_kind (l_info doc) = KDocument -> l_content doc = Some (root :: rest) ->
  exists h' doc' gs root', h_inject fuel sed [Finder.dotted text names] v (label doc) h = (h', Ok tt) /\
    trans h [doc] h' (doc' :: gs) /\ label doc' = label doc /\
    erase doc' = T (l_info doc) (Some (root' :: map erase rest)) /\
    injected (fun old new => new = replace_node sed (blanked old) t) (replace_node sed empty_scalar t) names (erase root) root'.
Proof.
  intros O W A V F1 F2 B NM K C. set (y := document_of (nested names empty_scalar)) in *.
  destruct (h_alloc_spec (fun l => length h <= l) y h ltac:(done)) as (ext & ly & EA & LY & VA).
  set (h1 := h ++ ext) in *. set (ro' := fun l => length h <= l /\ l < length h1).
  assert (T0 : trans h [doc] h1 [doc]) by (apply trans_ext, O).
  assert (O1 := own_trans _ _ _ _ O T0). assert (A1 := apart_trans _ _ _ _ _ O T0 A).
  assert (V1 := value_at_trans _ _ _ _ _ _ _ _ T0 A V).
  assert (A1' : apart ro' h1 [doc]).
  { intros l [L1 L2]. split; [done|]. cbn. rewrite app_nil_r. intros X. destruct O as [R _]. apply Forall_cons in R as [R _].
    pose proof (reads_bound _ _ _ R X). lia. }
  assert (DY : depth y <= fuel) by (unfold y; rewrite document_depth; lia).
  pose proof (h_merge_spec sed ro' (depth y) fuel h1 doc ly y [] DY O1 A1' (value_at_bound _ _ _ _ _ (VA _ (le_n _)))) as P.
  destruct doc as [l i c]. cbn [l_info l_content] in *. subst c. pose proof W as W0. rewrite erase_eq in W.
  apply well_paired_inv in W as [_ W]. cbn in W. apply Forall_cons in W as [Wr _].
  destruct (merge_scaffold sed names NM (erase root) [i_value i] Wr) as (m & M & I).
  assert (EM : merge sed (erase (L l i (Some (root :: rest)))) y [] = Ok (T i (Some (m :: map erase rest)))).
  { rewrite erase_eq. unfold y, document_of. cbn [merge i_kind empty_info t_content map t_value t_info]. unfold t_value; cbn [t_info]. rewrite M. cbn [rbind].
    change (mkInfo KDocument 0 [] [] [] [] [] [] 0 0) with (empty_info KDocument []). by rewrite bare_comments. }
  rewrite EM in P. destruct P as (h2 & r2 & doc2 & gs2 & M2 & T2 & L2 & [-> E2]).
  assert (T02 := trans_trans _ _ _ _ _ _ O T0 T2).
  assert (MN : h_merge_node fuel sed l [ly] h1 = (h2, Ok tt)).
  { unfold h_merge_node. cbn [loop]. unfold bind. cbn [label] in M2. by rewrite M2. }
  assert (O2 := own_trans _ _ _ _ O1 T2). assert (A2 := apart_trans _ _ _ _ _ O1 T2 A1).
  assert (V2 := value_at_trans _ _ _ _ _ _ _ _ T2 A1 V1).
  assert (R2 : reads h2 doc2) by (destruct O2 as [R _]; by apply Forall_cons in R as [R _]).
  destruct doc2 as [l2 i2 c2]. cbn [label] in L2. subst l2. rewrite erase_eq in E2. injection E2 as -> E2.
  destruct c2 as [cs|]; [|discriminate]. injection E2 as E2. destruct cs as [|root2 rest2]; [discriminate|].
  cbn [map] in E2. injection E2 as E2 E3.
  assert (Rr : reads h2 root2).
  { rewrite reads_eq in R2. destruct R2 as [_ R2]. cbn [kids] in R2. by apply Forall_cons in R2 as [R2 _]. }
  pose proof (injected_at _ _ _ _ _ I) as AT. rewrite <- E2, (tree_at_lpath names root2) in AT.
  assert (LP : exists s, lpath names root2 = Some s).
  { destruct (tree_at names (erase root)); [destruct AT as (? & AT & _)|]; destruct (lpath names root2); eauto; discriminate. }
  destruct LP as [s LP].
  assert (FR : h_find [Finder.dotted text names] l h2 = (h2, Ok [label s])).
  { destruct (reads_root _ _ R2) as [al E]. cbn [label l_info l_content labels map] in E. unfold h_find. rewrite (bind_ok _ _ _ _ _ (get_ok _ _ _ E)).
    cbn [n_info n_content]. rewrite K. cbn [kind_eqb andb map concat]. do 2 f_equal. rewrite app_nil_r.
    cbn [Finder.dotted q_find]. unfold f_root. rewrite E. cbn [n_info n_content]. rewrite K. cbn [kind_eqb].
    rewrite (f_path_lpath h2 names root2 Rr), LP. reflexivity. }
  assert (X2 : label s ∈ locs (L l i (Some (root2 :: rest2)))).
  { rewrite locs_eq. cbn [kids]. apply elem_of_cons. right. rewrite flat_cons. apply elem_of_app. left.
    eapply subtree_locs; [by eapply lpath_subtree|apply label_locs]. }
  destruct (replace_selected sed ro d fuel v t F1 [label s] h2 (L l i (Some (root2 :: rest2))) gs2 O2 A2 V2) as (h3 & doc3 & gs3 & M3 & T3 & L3 & E4).
  - apply NoDup_singleton.
  - intros x [<-|[]]. rewrite flat_cons. apply elem_of_app. by left.
  - assert (ND : NoDup (locs (L l i (Some (root2 :: rest2))))) by exact (own_nodup _ _ (own_head _ _ _ O2)).
    assert (NDr : NoDup (locs root2)) by (eapply nodup_child; [exact ND|left]).
    exists h3, doc3, gs3, (set_at names (fun old => replace_node sed old t) m).
    split; [|split; [by eapply trans_trans|split; [exact L3|split]]].
    + unfold h_inject. cbn [map]. cbn [Finder.dotted q_text build_all]. rewrite B. cbn [rbind build_paths].
      unfold merge_node. cbn [fold_left]. fold y. rewrite (bind_ok _ _ _ _ _ EA).
      cbn [label]. rewrite (bind_ok _ _ _ _ _ MN). rewrite (bind_ok _ _ _ _ _ FR). exact M3.
    + rewrite E4. rewrite rewrite_at_eq, mem_one. rewrite locs_eq in ND. cbn [kids] in ND. apply NoDup_cons in ND as [NI ND].
      assert (XS : label s ∈ locs root2) by (eapply subtree_locs; [by eapply lpath_subtree|apply label_locs]).
      destruct (Nat.eqb_spec l (label s)) as [->|_].
      { exfalso. apply NI. rewrite flat_cons. apply elem_of_app. by left. }
      cbn [map]. rewrite (rewrite_set names _ root2 s NDr LP), E2. do 3 f_equal. rewrite <- E3. apply map_ext_in. intros u U.
      apply rewrite_at_absent. intros x X. rewrite mem_one. apply Nat.eqb_neq. intros ->.
      rewrite flat_cons in ND. apply NoDup_app in ND as (_ & ND & _). apply (ND _ XS). apply elem_of_flat.
      exists u. split; [by apply elem_of_list_In|done].
    + apply (injected_set (fun old new => new = blanked old) _ (fun old => replace_node sed old t)); [exact I|]. by intros old new ->.
Qed.
