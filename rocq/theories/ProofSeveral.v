(** Merging scaffolds of several key paths; rewriting the nodes at several key paths. *)
From Verif Require Import Prelude GoStrings Format SpecFormat Yaml Builder SpecMerge ProofMerge ProofMergeAbs SpecBuilder ProofFormat ProofSanitize SpecInject ProofInject SpecMeaning ProofMeaning.
From Verif Require Import MergeTree.

(** ** Scaffolds *)
Definition flat_entries (es : list (list N * tree)) : list tree := concat (map (fun e => entry (fst e) (snd e)) es).
Inductive sc : tree -> Prop :=
  | sc_leaf : sc empty_scalar
  | sc_map es : es <> [] -> NoDup (map fst es) -> Forall (fun k => ~ marker_in k) (map fst es) ->
      Forall (fun e => sc (snd e)) es -> sc (mapping_of (flat_entries es)).
Lemma sc_ind' (P : tree -> Prop) : P empty_scalar ->
  (forall es, es <> [] -> NoDup (map fst es) -> Forall (fun k => ~ marker_in k) (map fst es) ->
     Forall (fun e => sc (snd e)) es -> Forall (fun e => P (snd e)) es -> P (mapping_of (flat_entries es))) -> forall y, sc y -> P y.
Proof.
  intros H0 H1. fix IH 2. intros y [|es N ND NM F]; [done|]. apply H1; try done.
  clear N ND NM. induction F as [|e es He F IHF]; constructor; [by apply IH|done].
Qed.

(** The path [p] parts from the paths of the scaffold. *)
Fixpoint leaves (p : list (list N)) (y : tree) : Prop :=
  match p with
  | [] => False
  | k :: r => t_kind y = KMapping /\ match lookup_key k (children y) with Some v => leaves r v | None => True end
  end.
Lemma leaves_none p : forall y, leaves p y -> tree_at p y = None.
Proof.
  induction p as [|k r IH]; intros y; cbn [leaves tree_at]; [done|]. intros [-> H]. destruct (lookup_key k (children y)); [by apply IH|done].
Qed.

Lemma flat_paired es : is_paired (flat_entries es).
Proof. induction es as [|e es IH]; [apply is_paired_nil|]. unfold flat_entries. cbn [map concat entry app]. by apply is_paired_cons. Qed.
Lemma flat_keys es : keys (flat_entries es) = map fst es.
Proof. induction es as [|e es IH]; [done|]. unfold flat_entries in *. cbn [map concat entry app]. rewrite keys_cons. by rewrite IH. Qed.
Lemma flat_lookup es k v : lookup_key k (flat_entries es) = Some v -> In (k, v) es.
Proof.
  induction es as [|[k' v'] es IH]; [done|]. unfold flat_entries, lookup_key in *. cbn [map concat entry app pairs lookup_pairs fst snd].
  destruct (decide _) as [E|E]; [|intros H; right; auto]. intros [= <-]. left. f_equal. done.
Qed.
Lemma sanitize_sc sed y : sc y -> sanitize sed y = y.
Proof.
  induction 1 as [|es N ND NM F IH] using sc_ind'; [reflexivity|]. unfold mapping_of. cbn [sanitize]. cbn [i_kind empty_info].
  change (mkInfo KMapping 0 [] [] [] [] [] [] 0 0) with (empty_info KMapping []). rewrite sanitize_bare by apply no_marker_nil. do 2 f_equal.
  clear N ND F. induction es as [|e es IHes]; [done|]. cbn [map] in NM. apply Forall_cons in NM as [N1 NM], IH as [I1 IH].
  unfold flat_entries in *. cbn [map concat entry app]. rewrite I1, IHes by done. f_equal. cbn [sanitize]. by rewrite sanitize_bare.
Qed.

(** What [m] has to do with [o] when the scaffold [y] is merged in. *)
Definition over (o y m : tree) : Prop :=
  (forall names, tree_at names y = Some empty_scalar ->
     tree_at names m = Some (match tree_at names o with Some old => blanked old | None => empty_scalar end)) /\
  (forall p, leaves p y -> tree_at p m = tree_at p o).
Lemma over_fresh k r o y : t_kind o <> KMapping \/ lookup_key k (children o) = None ->
  (tree_at r y = Some empty_scalar -> tree_at (k :: r) o = None) /\ (leaves r y -> tree_at (k :: r) o = None /\ tree_at r y = None).
Proof.
  intros H. assert (X : tree_at (k :: r) o = None). { cbn [tree_at]. destruct H as [H| ->]; by destruct (t_kind o). }
  split; [done|]. intros L. split; [done|]. by apply leaves_none.
Qed.

(** The entry with key [k] of a mapping set to [v] (the first one, or a new one). *)
Definition entry_set (k : list N) (v : tree) (o o' : tree) : Prop :=
  t_kind o' = KMapping /\ well_paired o' /\ lookup_key k (children o') = Some v /\
  forall k', k' <> k -> lookup_key k' (children o') = lookup_key k' (children o).
Lemma merge_pair_scaffold sed f k y o : t_kind o = KMapping -> well_paired o -> ~ marker_in k -> well_paired y -> sanitize sed y = y ->
  (forall ov, lookup_key k (children o) = Some ov -> exists r, f ov k = Ok r /\ well_paired r) ->
  exists o', merge_pair sed f (T (empty_info KScalar k) None) y o = Ok o' /\
    match lookup_key k (children o) with
    | None => entry_set k y o o'
    | Some ov => exists r, f ov k = Ok r /\ entry_set k r o o'
    end.
Proof.
  intros K W NM Wy SY HF. destruct o as [i c]. unfold merge_pair, to_map, t_kind in *. cbn [t_info] in *. rewrite K. cbn [kind_eqb t_content].
  assert (SN : map (sanitize sed) [T (empty_info KScalar k) None; y] = [T (empty_info KScalar k) None; y]).
  { cbn [map]. rewrite SY. f_equal. cbn [sanitize]. by rewrite sanitize_bare. }
  pose proof W as W0. apply well_paired_inv in W as [P Wc]. specialize (P K).
  assert (ABS : forall oc, c = Some oc \/ (c = None /\ oc = []) -> k ∉ keys oc -> exists o', T i (append_content c [T (empty_info KScalar k) None; y]) = o' /\ entry_set k y (T i c) o').
  { intros oc HC N. eexists. split; [reflexivity|]. assert (CH : children (T i (append_content c [T (empty_info KScalar k) None; y])) = children (T i c) ++ [T (empty_info KScalar k) None; y]).
    { destruct HC as [->|[-> ->]]; reflexivity. }
    assert (CO : children (T i c) = oc) by (destruct HC as [->|[-> ->]]; reflexivity).
    assert (Po : is_paired oc) by (destruct HC as [->|[-> ->]]; exact P).
    split; [exact K|]. split; [|split].
    - apply well_paired_node.
      + intros _. destruct HC as [->|[-> ->]]; cbn [append_content]; [apply is_paired_app; [done|]|]; apply is_paired_cons, is_paired_nil.
      + assert (W2 : Forall well_paired [T (empty_info KScalar k) None; y]).
        { constructor; [|by constructor]. apply well_paired_node; [discriminate|constructor]. }
        destruct HC as [->|[-> ->]]; cbn [append_content]; [by apply Forall_app|done].
    - rewrite CH, CO. by rewrite lookup_app.
    - intros k' NE. rewrite CH, CO. apply lookup_snoc; [done|]. unfold t_value. cbn. congruence. }
  destruct c as [oc|].
  - destruct (split_first k oc P) as [[N L]|(l1 & kn & ov & l2 & -> & P1 & N1 & E1 & L)].
    + change (children (T i (Some oc))) with oc. rewrite L. rewrite merge_entries_absent by done. cbn [rbind]. destruct (ABS oc (or_introl eq_refl) N) as (o' & E & H).
      unfold add_node. rewrite SN. exists o'. by rewrite E.
    + change (children (T i (Some (l1 ++ kn :: ov :: l2)))) with (l1 ++ kn :: ov :: l2) in *. rewrite L in *.
      destruct (HF ov eq_refl) as (r & Hr & Wr). cbn [t_info]. rewrite (merge_entries_found sed _ k l1 kn ov r l2) by done. cbn [rbind].
      eexists. split; [reflexivity|]. exists r. split; [done|]. split; [exact K|]. split; [|split].
      * apply well_paired_node.
        -- intros _. assert (Q : is_paired (kn :: ov :: l2)). { apply is_paired_even in P, P1. rewrite app_length, Nat.even_add, P1 in P. apply is_paired_even. cbn [length] in *. by destruct (Nat.even _). }
           apply is_paired_app; [done|]. apply is_paired_cons. by apply is_paired_tail in Q.
        -- apply Forall_app in Wc as [Wa Wb]. apply Forall_cons in Wb as [Wk Wb]. apply Forall_cons in Wb as [_ Wb]. apply Forall_app. split; [done|]. by repeat (apply Forall_cons; split).
      * change (children (T i (Some (l1 ++ kn :: r :: l2)))) with (l1 ++ kn :: r :: l2). by rewrite lookup_app.
      * intros k' NE. change (children (T i (Some (l1 ++ kn :: r :: l2)))) with (l1 ++ kn :: r :: l2).
        destruct (lookup_other k' l1 kn r ov l2) as [-> |X]; [congruence|done|done].
  - assert (L : lookup_key k (children (T i None)) = None) by reflexivity. rewrite L.
    destruct (ABS [] (or_intror (conj eq_refl eq_refl)) ltac:(unfold keys; cbn; apply not_elem_of_nil)) as (o' & E & H).
    unfold add_node. rewrite SN. exists o'. by rewrite E.
Qed.

Lemma sc_well_paired y : sc y -> well_paired y.
Proof.
  induction 1 as [|es N ND NM F IH] using sc_ind'; [apply well_paired_node; [discriminate|constructor]|].
  apply well_paired_node; [intros _; apply flat_paired|]. clear -IH. induction IH as [|e es He _ IHes]; [constructor|].
  unfold flat_entries in *. cbn [map concat entry app]. constructor; [apply well_paired_node; [discriminate|constructor]|]. by constructor.
Qed.
Lemma to_map_twice o : to_map (to_map o) = to_map o.
Proof. unfold to_map. destruct (kind_eqb_spec (t_kind o) KMapping) as [K|K]; [|done]. by rewrite K. Qed.
Lemma to_map_kind o : t_kind (to_map o) = KMapping.
Proof. unfold to_map. by destruct (kind_eqb_spec (t_kind o) KMapping). Qed.
Lemma to_map_lookup k o : lookup_key k (children (to_map o)) = match t_kind o with KMapping => lookup_key k (children o) | _ => None end.
Proof. unfold to_map. destruct (kind_eqb_spec (t_kind o) KMapping) as [K|K]; [by rewrite K|]. by destruct (t_kind o). Qed.
Lemma tree_at_to_map k r o : tree_at (k :: r) o = match lookup_key k (children (to_map o)) with Some v => tree_at r v | None => None end.
Proof. rewrite to_map_lookup. cbn [tree_at]. by destruct (t_kind o). Qed.

Lemma merge_scaf sed y : sc y -> forall o ks, well_paired o -> exists m, merge sed o y ks = Ok m /\ well_paired m /\ over o y m.
Proof.
  induction 1 as [|es N ND NM F IH] using sc_ind'; intros o ks W.
  { exists (blanked o). split; [apply merge_blank|]. split.
    - unfold blanked. destruct o as [i c]. apply well_paired_inv in W as [_ W]. apply well_paired_node; [discriminate|]. unfold t_kind. cbn [t_info t_content].
      destruct (kind_eqb _ _); [done|constructor].
    - split.
      + intros [|k r]; cbn [tree_at]; [done|discriminate].
      + intros [|k r]; cbn [leaves]; [done|]. by intros [? _]. }
  unfold mapping_of. rewrite merge_map_eq by done.
  (* the state after some entries *)
  assert (X : forall es o0, NoDup (map fst es) -> Forall (fun k => ~ marker_in k) (map fst es) -> Forall (fun e => sc (snd e)) es ->
     Forall (fun e => forall o ks, well_paired o -> exists m, merge sed o (snd e) ks = Ok m /\ well_paired m /\ over o (snd e) m) es ->
     t_kind o0 = KMapping -> well_paired o0 ->
     exists m, merge_pairs sed (flat_entries es) o0 = Ok m /\ t_kind m = KMapping /\ well_paired m /\
       (forall k, k ∉ map fst es -> lookup_key k (children m) = lookup_key k (children o0)) /\
       (forall k y, In (k, y) es -> exists v, lookup_key k (children m) = Some v /\
          match lookup_key k (children o0) with Some ov => over ov y v | None => v = y end)).
  { clear. induction es as [|[k y] es IHes]; intros o0 ND NM FS IH K W.
    { exists o0. split; [done|]. split; [done|]. split; [done|]. split; [done|]. by intros k y []. }
    cbn [map fst] in *. apply NoDup_cons in ND as [Nk ND]. apply Forall_cons in NM as [NM1 NM], FS as [S1 FS], IH as [I1 IH]. cbn [snd] in *.
    unfold flat_entries. cbn [map concat entry app fst snd merge_pairs].
    destruct (merge_pair_scaffold sed (fun ov key => merge sed ov y [key]) k y o0 K W NM1 (sc_well_paired _ S1) (sanitize_sc sed _ S1)) as (o1 & M1 & H1).
    { intros ov L. assert (Wov : well_paired ov).
      { destruct o0 as [i c]. apply well_paired_inv in W as [P Wc]. destruct (split_first k _ (P K)) as [[_ L0]|(l1 & kn & v & l2 & E & _ & _ & _ & L0)].
        - change (lookup_key k (children (T i c)) = None) in L0. congruence.
        - change (lookup_key k (children (T i c)) = Some v) in L0. rewrite L in L0. injection L0 as ->. rewrite E in Wc.
          apply Forall_app in Wc as [_ Wc]. apply Forall_cons in Wc as [_ Wc]. by apply Forall_cons in Wc as [Wc _]. }
      destruct (I1 ov [k] Wov) as (r & R1 & R2 & _). eauto. }
    rewrite M1. cbn [rbind].
    assert (ES : exists v, entry_set k v o0 o1 /\ match lookup_key k (children o0) with Some ov => over ov y v | None => v = y end).
    { destruct (lookup_key k (children o0)) as [ov|] eqn:L; [|by exists y]. destruct H1 as (r & R1 & R2). exists r. split; [done|].
      assert (Wov : well_paired ov).
      { destruct o0 as [i c]. apply well_paired_inv in W as [P Wc]. destruct (split_first k _ (P K)) as [[_ L0]|(l1 & kn & v & l2 & E & _ & _ & _ & L0)].
        - change (lookup_key k (children (T i c)) = None) in L0. congruence.
        - change (lookup_key k (children (T i c)) = Some v) in L0. rewrite L in L0. injection L0 as ->. rewrite E in Wc.
          apply Forall_app in Wc as [_ Wc]. apply Forall_cons in Wc as [_ Wc]. by apply Forall_cons in Wc as [Wc _]. }
      destruct (I1 ov [k] Wov) as (r' & R1' & _ & R3). rewrite R1 in R1'. by injection R1' as <-. }
    destruct ES as (v & (K1 & W1 & L1 & O1) & V1).
    destruct (IHes o1 ND NM FS IH K1 W1) as (m & M & Km & Wm & U & A). exists m. split; [exact M|]. split; [done|]. split; [done|]. split.
    - intros k' N'. apply not_elem_of_cons in N' as [N1 N2]. rewrite U by done. by apply O1.
    - intros k' y' [[= <- <-]|I'].
      + exists v. split; [|done]. by rewrite U.
      + destruct (A k' y' I') as (v' & L' & V'). exists v'. split; [done|]. rewrite <- (O1 k'); [done|]. intros ->.
        apply Nk. apply elem_of_list_In. apply in_map_iff. by exists (k, y'). }
  assert (TM : merge_pairs sed (flat_entries es) o = merge_pairs sed (flat_entries es) (to_map o)).
  { destruct es as [|[k y] es]; [done|]. unfold flat_entries. cbn [map concat entry app merge_pairs]. unfold merge_pair. by rewrite to_map_twice. }
  rewrite TM. destruct (X es (to_map o) ND NM F IH (to_map_kind o) (to_map_well_paired o W)) as (m & M & Km & Wm & U & A).
  exists m. split; [done|]. split; [done|]. split.
  - intros [|k r] H; [discriminate H|]. cbn [tree_at] in H. unfold t_kind in H. cbn [t_info i_kind empty_info] in H. change (children (T _ (Some ?l))) with l in H.
    destruct (lookup_key k (flat_entries es)) as [y|] eqn:L; [|discriminate]. apply flat_lookup in L. destruct (A k y L) as (v & Lv & V).
    rewrite (tree_at_to_map k r o). cbn [tree_at]. rewrite Km, Lv. destruct (lookup_key k (children (to_map o))) as [ov|]; [by apply V|]. by subst v.
  - intros [|k r] H; [done|]. cbn [leaves] in H. destruct H as [_ H]. change (children (T _ (Some ?l))) with l in H.
    rewrite (tree_at_to_map k r o). cbn [tree_at]. rewrite Km. destruct (lookup_key k (flat_entries es)) as [y|] eqn:L.
    + apply flat_lookup in L. destruct (A k y L) as (v & Lv & V). rewrite Lv. destruct (lookup_key k (children (to_map o))) as [ov|]; [by apply V|].
      subst v. by apply leaves_none.
    + rewrite U; [done|]. rewrite <- flat_keys. by apply lookup_key_none.
Qed.

(** ** The scaffold of several paths *)
Lemma sc_nested names : Forall (fun n => ~ marker_in n) names -> sc (nested names empty_scalar).
Proof.
  induction 1 as [|n names N _ IH]; [constructor|]. cbn [nested]. change (entry n (nested names empty_scalar)) with (flat_entries [(n, nested names empty_scalar)]).
  apply sc_map; [done|apply NoDup_singleton|by repeat constructor|by repeat constructor].
Qed.
Lemma flat_app a b : flat_entries (a ++ b) = flat_entries a ++ flat_entries b.
Proof. unfold flat_entries. by rewrite map_app, concat_app. Qed.
Lemma flat_split l1 : forall es kn ov l2, is_paired l1 -> flat_entries es = l1 ++ kn :: ov :: l2 ->
  exists es1 es2 k, l1 = flat_entries es1 /\ l2 = flat_entries es2 /\ kn = T (empty_info KScalar k) None /\ es = es1 ++ (k, ov) :: es2.
Proof.
  induction l1 as [|x|x y l1 IH] using list_pair_ind; intros es kn ov l2 P E.
  - destruct es as [|[k v] es]; [discriminate|]. unfold flat_entries in E. cbn [map concat entry app fst snd] in E. injection E as <- <- <-.
    by exists [], es, k.
  - by apply is_paired_single in P.
  - destruct es as [|[k v] es]; [discriminate|]. unfold flat_entries in E. cbn [map concat entry app fst snd] in E. injection E as <- <- E.
    apply is_paired_tail in P. destruct (IH es kn ov l2 P E) as (es1 & es2 & k' & -> & -> & -> & ->).
    by exists ((k, v) :: es1), es2, k'.
Qed.
Lemma empty_info_inj k v v' : empty_info k v = empty_info k v' -> v = v'.
Proof. by intros [= ->]. Qed.
Lemma injected_sc here names y m : Forall (fun n => ~ marker_in n) names -> injected here empty_scalar names y m -> sc y -> leaves names y -> sc m.
Proof.
  intros NM I. induction I as [old new Hh|k r i l1 kn ov ov' l2 K P N E I IH|k r i c K P N|k r i c K]; intros S L; [done|..]; apply Forall_cons in NM as [Nk NM].
  - inversion S as [|es NE ND NMs F EQ]; subst. 
    symmetry in H2 || idtac.
    match goal with H : flat_entries es = _ |- _ => destruct (flat_split l1 es kn ov l2 P H) as (es1 & es2 & k & -> & -> & -> & ->) end.
    cbn [leaves] in L. destruct L as [_ L]. change (children (T _ (Some ?l))) with l in L. unfold t_value in *. cbn [t_info i_value empty_info] in *.
    rewrite lookup_app in L by done. rewrite Forall_app, Forall_cons in F. destruct F as (F1 & F2 & F3). cbn [snd] in F2.
    change (flat_entries es1 ++ T (empty_info KScalar k) None :: ov' :: flat_entries es2) with (flat_entries es1 ++ flat_entries ((k, ov') :: es2)).
    rewrite <- flat_app. apply sc_map; [by destruct es1| | |].
    + rewrite map_app in *. exact ND.
    + rewrite map_app in *. exact NMs.
    + rewrite Forall_app, Forall_cons. split_and!; try done. by apply IH.
  - cbn [leaves] in L. destruct L as [_ _]. inversion S as [|es NE ND NMs F EQ]; subst; [discriminate|].
    change (children (T _ (Some ?l))) with l in *. change (entry k (nested r empty_scalar)) with (flat_entries [(k, nested r empty_scalar)]).
    rewrite <- flat_app. apply sc_map; [by destruct es| | |].
    + rewrite map_app. apply NoDup_app. split; [done|]. split; [|apply NoDup_singleton]. intros x X Y. apply elem_of_list_singleton in Y. subst x.
      rewrite flat_keys in N. done.
    + rewrite map_app. apply Forall_app. split; [done|]. by repeat constructor.
    + apply Forall_app. split; [done|]. constructor; [|constructor]. by apply sc_nested.
  - cbn [leaves] in L. by destruct L as [L _].
Qed.

Lemma diverge_sym p q : diverge p q -> diverge q p.
Proof. intros (c & a & b & p' & q' & -> & -> & NE). exists c, b, a, q', p'. split_and!; done. Qed.
(** Being left by a path, seen through [injected]. *)
Lemma leaves_nested p names leaf : diverge p names -> leaves p (nested names leaf).
Proof.
  revert p. induction names as [|k r IH]; intros p D; [by apply diverge_nil in D|]. apply diverge_cons in D as (a & p' & -> & D). cbn [nested leaves]. split; [done|].
  change (children (mapping_of ?l)) with l. unfold entry. destruct D as [NE|[-> D]].
  - unfold lookup_key. cbn. unfold t_value. cbn. by destruct (decide (k = a)).
  - rewrite lookup_head by done. by apply IH.
Qed.
Lemma injected_leaves here names y m p : injected here empty_scalar names y m -> leaves p y -> diverge p names -> leaves p m.
Proof.
  intros I. revert p. induction I as [old new Hh|k r i l1 kn ov ov' l2 K P N E I IH|k r i c K P N|k r i c K]; intros p L D; [by apply diverge_nil in D|..];
    apply diverge_cons in D as (a & p' & -> & D); cbn [leaves] in *; destruct L as [L1 L]; split; try done.
  - repeat change (children (T i (Some ?l))) with l in *. destruct D as [NE|[-> D]].
    + destruct (lookup_other a l1 kn ov' ov l2) as [-> |X]; [congruence|done|done].
    + rewrite lookup_app in L |- * by done. by apply IH.
  - change (children (T i (Some (children (T i c) ++ ?l)))) with (children (T i c) ++ l). destruct D as [NE|[-> D]].
    + unfold entry. rewrite lookup_snoc; [done|done|]. unfold t_value. cbn. congruence.
    + unfold entry. rewrite lookup_app by done. by apply leaves_nested.
Qed.
Lemma merge_document sed y z ks : merge sed (document_of y) (document_of z) ks = (let! r := merge sed y z [[]] in Ok (document_of r)).
Proof. unfold document_of. cbn [merge i_kind empty_info t_content]. reflexivity. Qed.

Definition scaffold_for (ns : list (list (list N))) (y : tree) : Prop :=
  sc y /\ (forall p, In p ns -> tree_at p y = Some empty_scalar) /\ (forall q, Forall (diverge q) ns -> leaves q y).
Lemma scaffold_add sed ns y names : scaffold_for ns y -> ns <> [] -> Forall (fun n => ~ marker_in n) names -> Forall (diverge names) ns ->
  exists m, merge sed (document_of y) (document_of (nested names empty_scalar)) [] = Ok (document_of m) /\ scaffold_for (names :: ns) m.
Proof.
  intros (S & A & B) NE NM D. destruct (merge_scaffold sed names NM y [[]] (sc_well_paired _ S)) as (m & M & I).
  exists m. rewrite merge_document, M. split; [done|]. pose proof (B names D) as L. split; [by eapply injected_sc|]. split.
  - intros p [<-|P].
    + pose proof (injected_at _ _ _ _ _ I) as X. by rewrite (leaves_none _ _ L) in X.
    + rewrite (injected_diverge _ _ _ _ _ p I); [by apply A|]. rewrite Forall_forall in D. by apply diverge_sym, D, elem_of_list_In.
  - intros q Q. apply Forall_cons in Q as [Q1 Q2]. eapply injected_leaves; [done| |done]. by apply B.
Qed.
Lemma scaffold_in ns ns' y : (forall p, In p ns <-> In p ns') -> scaffold_for ns y -> scaffold_for ns' y.
Proof.
  intros H (S & A & B). split; [done|]. split; [intros p P; by apply A, H|]. intros q Q. apply B. rewrite Forall_forall in *. intros p P. apply Q.
  apply elem_of_list_In, H, elem_of_list_In, P.
Qed.
Lemma build_paths_several sed names ns : all_diverge (names :: ns) -> Forall (Forall (fun n => ~ marker_in n)) (names :: ns) ->
  exists y, build_paths sed (map (fun n => document_of (nested n empty_scalar)) (names :: ns)) = Ok (document_of y) /\ scaffold_for (names :: ns) y.
Proof.
  intros AD NM. cbn [map build_paths]. unfold merge_node.
  assert (X : forall ns don y, don <> [] -> scaffold_for don y -> Forall (Forall (fun n => ~ marker_in n)) ns -> all_diverge ns ->
     Forall (fun p => Forall (diverge p) don) ns ->
     exists y', fold_left (fun acc n => let! x := acc in merge sed x n []) (map (fun n => document_of (nested n empty_scalar)) ns) (Ok (document_of y)) = Ok (document_of y') /\
       scaffold_for (don ++ ns) y').
  { clear. induction ns as [|n ns IH]; intros don y ND S NM AD D; cbn [map fold_left].
    - exists y. split; [done|]. by rewrite app_nil_r.
    - apply Forall_cons in NM as [N1 NM], D as [D1 D]. destruct AD as [AD1 AD]. cbn [rbind].
      destruct (scaffold_add sed don y n S ND N1 D1) as (m & M & Sm). rewrite M.
      destruct (IH (n :: don) m) as (y' & E & S'); try done.
      { rewrite Forall_forall in *. intros p P. apply Forall_cons. split; [|by apply D]. by apply diverge_sym, AD1. }
      exists y'. split; [done|]. eapply scaffold_in; [|exact S']. intros p. cbn [app]. rewrite !in_app_iff. cbn [In]. rewrite in_app_iff. tauto. }
  apply Forall_cons in NM as [N1 NM]. destruct AD as [AD1 AD].
  destruct (X ns [names] (nested names empty_scalar)) as (y & E & S); try done.
  - split; [by apply sc_nested|]. split; [intros p [<-|[]]; apply tree_at_nested|]. intros q Q. apply Forall_cons in Q as [Q _]. by apply leaves_nested.
  - rewrite Forall_forall in *. intros p P. constructor; [|constructor]. by apply diverge_sym, AD1.
  - exists y. split; [exact E|]. exact S.
Qed.

(** ** Rewriting the node at a key path *)
Lemma key_index_lookup k ts : match key_index k ts with
  | Some j => exists v, ts !! j = Some v /\ lookup_key k ts = Some v
  | None => lookup_key k ts = None end.
Proof.
  induction ts as [|x|x y ts IH] using list_pair_ind; [done|done|]. unfold lookup_key in *. cbn [key_index pairs lookup_pairs].
  destruct (decide (t_value x = k)) as [E|E]; [by exists y|].
  destruct (key_index k ts) as [j|]; cbn [fmap option_fmap option_map]; [|done]. destruct IH as (v & H1 & H2). by exists v.
Qed.
Lemma position_tree_at names : forall t, match key_position names t with
  | Some p => exists v, node_at p t = Some v /\ tree_at names t = Some v
  | None => tree_at names t = None end.
Proof.
  induction names as [|k r IH]; intros t; cbn [key_position tree_at]; [by exists t|]. destruct (t_kind t); try done.
  pose proof (key_index_lookup k (children t)) as X. destruct (key_index k (children t)) as [j|]; [|by rewrite X].
  destruct X as (v & V & ->). rewrite V. specialize (IH v). destruct (key_position r v) as [p|]; cbn [fmap option_fmap option_map]; [|done].
  cbn [node_at]. by rewrite V.
Qed.
Lemma key_index_insert k j v' : forall ts, key_index k ts = Some j -> forall k', key_index k' (<[j := v']> ts) = key_index k' ts.
Proof.
  revert j. assert (X : forall ts j, key_index k ts = Some j -> forall k', key_index k' (<[j := v']> ts) = key_index k' ts).
  { induction ts as [|x|x y ts IH] using list_pair_ind; intros j; [done|done|]. cbn [key_index].
    destruct (decide (t_value x = k)) as [E|E]; [intros [= <-] k'; done|].
    destruct (key_index k ts) as [j'|]; cbn [fmap option_fmap option_map]; [|done]. intros [= <-] k'.
    change (<[S (S j') := v']> (x :: y :: ts)) with (x :: y :: <[j' := v']> ts). cbn [key_index]. by rewrite (IH j' eq_refl k'). }
  intros j ts. apply X.
Qed.
Lemma key_index_differ k k' : forall ts j, key_index k ts = Some j -> key_index k' ts = Some j -> k = k'.
Proof.
  induction ts as [|x|x y ts IH] using list_pair_ind; intros j; [done|done|]. cbn [key_index].
  destruct (decide (t_value x = k)) as [<-|E], (decide (t_value x = k')) as [<-|E']; try done.
  - intros [= <-]. by destruct (key_index k' ts).
  - intros H [= <-]. by destruct (key_index k ts).
  - destruct (key_index k ts) as [a|]; [|done]. destruct (key_index k' ts) as [b|]; [|done]. cbn [fmap option_fmap option_map]. intros [= <-] [= ->]. by apply (IH a).
Qed.

Lemma update_key f names : forall t p old new, key_position names t = Some p -> tree_at names t = Some old -> f old = Ok new ->
  exists t', update_at p f t = Ok t' /\ t_info t' = (if names then t_info new else t_info t) /\ tree_at names t' = Some new /\ key_position names t' = Some p /\
    forall q, diverge q names -> key_position q t' = key_position q t /\ tree_at q t' = tree_at q t.
Proof.
  induction names as [|k r IH]; intros t p old new; cbn [key_position tree_at].
  - intros [= <-] [= ->] F. exists new. cbn [update_at]. split; [done|]. split; [done|]. split; [done|]. split; [done|]. intros q D. by apply diverge_nil in D.
  - destruct (t_kind t) eqn:K; try discriminate. pose proof (key_index_lookup k (children t)) as X.
    destruct (key_index k (children t)) as [j|] eqn:KI; [|discriminate]. destruct X as (v & V & L). rewrite V, L.
    destruct (key_position r v) as [p'|] eqn:KP; [|discriminate]. cbn [fmap option_fmap option_map]. intros [= <-] TA F.
    destruct (IH v p' old new KP TA F) as (v' & U & _ & T' & P' & D'). cbn [update_at].
    destruct t as [i [ts|]]; [|discriminate]. change (children (T i (Some ts))) with ts in *. rewrite V, U. cbn [rbind].
    eexists. split; [reflexivity|]. split; [done|]. unfold t_kind in *. cbn [t_info] in *. rewrite K.
    change (children (T i (Some (<[j:=v']> ts)))) with (<[j:=v']> ts).
    assert (LT : j < length ts) by by eapply lookup_lt_Some.
    assert (KI' := key_index_insert k j v' ts KI). assert (LK : lookup_key k (<[j:=v']> ts) = Some v').
    { pose proof (key_index_lookup k (<[j:=v']> ts)) as Y. rewrite KI', KI, list_lookup_insert in Y by done. by destruct Y as (? & [= <-] & ->). }
    rewrite KI', KI, LK, list_lookup_insert by done. rewrite P'. split; [done|]. split; [done|].
    intros q D. apply diverge_cons in D as (a & q' & -> & D). cbn [key_position tree_at]. unfold t_kind. cbn [t_info]. rewrite K.
    change (children (T i (Some (<[j:=v']> ts)))) with (<[j:=v']> ts). change (children (T i (Some ts))) with ts. rewrite KI'.
    destruct D as [NE|[-> D]].
    + pose proof (key_index_lookup a ts) as Y. pose proof (key_index_lookup a (<[j:=v']> ts)) as Z. rewrite KI' in Z.
      destruct (key_index a ts) as [j'|] eqn:KA; [|by rewrite Y, Z].
      assert (NJ : j <> j') by (intros <-; apply NE; symmetry; by eapply key_index_differ).
      rewrite list_lookup_insert_ne in Z |- * by done. destruct Y as (w & W1 & W2), Z as (w' & Z1 & Z2). rewrite W1 in Z1. injection Z1 as <-. by rewrite W2, Z2.
    + rewrite KI, L, LK, V, list_lookup_insert by done. destruct (D' q' D) as [-> ->]. done.
Qed.
(** The same at a position below the root of a document. *)
Lemma update_under i rest f p t t' : update_at p f t = Ok t' -> update_at (0 :: p) f (T i (Some (t :: rest))) = Ok (T i (Some (t' :: rest))).
Proof. intros U. cbn [update_at lookup list_lookup]. rewrite U. done. Qed.
Lemma update_several (g : tree -> tree) i rest ns : forall t ps, all_diverge ns -> Forall2 (fun n p => key_position n t = Some p) ns ps ->
  exists t', update_each (map (cons 0) ps) (fun o => Ok (g o)) (T i (Some (t :: rest))) = Ok (T i (Some (t' :: rest))) /\
    (forall n, In n ns -> tree_at n t' = g <$> tree_at n t) /\ (forall q, Forall (diverge q) ns -> tree_at q t' = tree_at q t).
Proof.
  induction ns as [|n ns IH]; intros t ps AD F; inversion F as [|? p ? ps' KP F']; subst; cbn [map update_each].
  - exists t. split; [done|]. split; [by intros n []|done].
  - destruct AD as [D AD]. pose proof (position_tree_at n t) as X. rewrite KP in X. destruct X as (old & _ & TA).
    destruct (update_key (fun o => Ok (g o)) n t p old (g old) KP TA eq_refl) as (t1 & U & _ & TN & _ & O).
    rewrite (update_under i rest _ p t t1 U). cbn [rbind].
    destruct (IH t1 ps' AD) as (t' & U' & A & B).
    { clear -F' D O. induction F' as [|m q ns ps' K F IH]; [constructor|]. apply Forall_cons in D as [D1 D]. constructor; [|by apply IH].
      destruct (O m (diverge_sym _ _ D1)) as [-> _]. done. }
    exists t'. split; [done|]. split.
    + intros m [<-|M].
      * rewrite B by done. by rewrite TN, TA.
      * rewrite A by done. rewrite Forall_forall in D. by destruct (O m (diverge_sym _ _ (D m ltac:(by apply elem_of_list_In)))) as [_ ->].
    + intros q Q. apply Forall_cons in Q as [Q1 Q2]. rewrite B by done. by destruct (O q Q1) as [_ ->].
Qed.
Lemma positions_apart n : forall m t p q, diverge n m -> key_position n t = Some p -> key_position m t = Some q -> ~ p `prefix_of` q.
Proof.
  induction n as [|k r IH]; intros m t p q D.
  { apply diverge_sym, diverge_nil in D. done. }
  destruct m as [|k' r']; [by apply diverge_nil in D|]. apply diverge_cons in D as (a & p' & [= <- <-] & D). cbn [key_position].
  destruct (t_kind t); try discriminate. destruct (key_index k (children t)) as [j|] eqn:K1; [|discriminate].
  destruct (children t !! j) as [v|] eqn:V; [|discriminate]. destruct (key_position r v) as [p1|] eqn:P1; [|discriminate]. intros [= <-].
  destruct (key_index k' (children t)) as [j'|] eqn:K2; [|discriminate].
  destruct (children t !! j') as [v'|] eqn:V'; [|discriminate]. destruct (key_position r' v') as [q1|] eqn:Q1; [|discriminate]. intros [= <-] PF.
  pose proof (prefix_cons_inv_1 _ _ _ _ PF) as <-. apply prefix_cons_inv_2 in PF. destruct D as [NE|[-> D]].
  - apply NE. by eapply key_index_differ.
  - rewrite V in V'. injection V' as <-. by apply (IH r' v p1 q1).
Qed.
Lemma positions_not_nested ns t ps : all_diverge ns -> Forall2 (fun n p => key_position n t = Some p) ns ps -> not_nested (map (cons 0) ps).
Proof.
  intros AD F. assert (X : forall p q, In p ps -> In q ps -> p `prefix_of` q -> p = q).
  { induction F as [|n p ns ps K F IH]; [by intros p q []|]. destruct AD as [D AD]. specialize (IH AD).
    assert (Y : forall q, In q ps -> exists m, key_position m t = Some q /\ diverge n m).
    { intros q Q. apply elem_of_list_In, elem_of_list_lookup in Q as [i Q]. destruct (Forall2_lookup_r _ _ _ _ _ F Q) as (m & M & KM). exists m. split; [done|].
      rewrite Forall_forall in D. apply D. by eapply elem_of_list_lookup_2. }
    intros a b [<-|A] [<-|B] PF; [done|..|by apply IH].
    - destruct (Y b B) as (m & KM & DM). by destruct (positions_apart n m t p b DM K KM).
    - destruct (Y a A) as (m & KM & DM). by destruct (positions_apart m n t a p (diverge_sym _ _ DM) KM K). }
  intros p q P Q PF. apply in_map_iff in P as (p' & <- & P). apply in_map_iff in Q as (q' & <- & Q). apply prefix_cons_inv_2 in PF. f_equal. by apply X.
Qed.

(** ** Injecting at several key paths of a document *)
Definition kq (x : list N * list (list N)) : tquery := key_query (fst x) (snd x).
Definition builds (x : list N * list (list N)) : Prop := build (fst x) = Ok (document_of (nested (snd x) empty_scalar)) /\ Forall (fun n => ~ marker_in n) (snd x).
Lemma build_all_several ns : Forall builds ns -> build_all (map tq_text (map kq ns)) = Ok (map (fun n => document_of (nested n empty_scalar)) (map snd ns)).
Proof. induction 1 as [|x ns [B _] F IH]; [done|]. cbn [map build_all kq tq_text key_query]. rewrite B. cbn [rbind]. by rewrite IH. Qed.
Lemma found_several i t rest ns : i_kind i = KDocument -> (forall n, In n (map snd ns) -> tree_at n t <> None) ->
  exists ps, found (map kq ns) (T i (Some (t :: rest))) = map (cons 0) ps /\ Forall2 (fun n p => key_position n t = Some p) (map snd ns) ps.
Proof.
  intros K H. unfold found, empty_doc, t_kind. cbn [t_info]. rewrite K. change (children (T i (Some (t :: rest)))) with (t :: rest). cbn [kind_eqb andb].
  induction ns as [|x ns IH]; [exists []; split; [done|constructor]|]. destruct IH as (ps & E & F); [intros n N; apply H; by right|].
  specialize (H (snd x) (or_introl eq_refl)). pose proof (position_tree_at (snd x) t) as X. destruct (key_position (snd x) t) as [p|] eqn:KP; [|done].
  exists (p :: ps). split; [|by constructor]. cbn [map concat]. rewrite E. cbn [kq key_query tq_find]. unfold t_kind. cbn [t_info]. rewrite K.
  change (children (T i (Some (t :: rest)))) with (t :: rest). cbn iota. by rewrite KP.
Qed.
Lemma inject_several sed v i root rest x ns : i_kind i = KDocument -> well_paired root ->
  Forall builds (x :: ns) -> all_diverge (map snd (x :: ns)) ->
  exists root', t_inject sed (map kq (x :: ns)) v (T i (Some (root :: rest))) = Ok (T i (Some (root' :: rest))) /\
    (forall n, In n (map snd (x :: ns)) -> tree_at n root' =
       Some (replace_node sed (match tree_at n root with Some old => blanked old | None => empty_scalar end) v)) /\
    (forall p, Forall (diverge p) (map snd (x :: ns)) -> tree_at p root' = tree_at p root).
Proof.
  intros K W B AD. unfold t_inject.
  assert (S : exists m, scaffolded sed (map kq (x :: ns)) (T i (Some (root :: rest))) = Ok (T i (Some (m :: rest))) /\
    (forall n, In n (map snd (x :: ns)) -> tree_at n m = Some (match tree_at n root with Some old => blanked old | None => empty_scalar end)) /\
    (forall p, Forall (diverge p) (map snd (x :: ns)) -> tree_at p m = tree_at p root)).
  { unfold scaffolded. rewrite build_all_several by done. change (map snd (x :: ns)) with (snd x :: map snd ns).
    destruct (build_paths_several sed (snd x) (map snd ns) AD) as (y & -> & SC & A & L).
    { clear -B. change (snd x :: map snd ns) with (map snd (x :: ns)). apply Forall_map. eapply Forall_impl; [exact B|]. by intros ? []. }
    destruct (merge_scaf sed y SC root [i_value i] W) as (m & M & _ & O1 & O2). exists m. split; [|split].
    - unfold document_of. cbn [merge i_kind empty_info t_content]. unfold t_value. cbn [t_info]. rewrite M. cbn [rbind]. by rewrite bare_comments.
    - intros n N. apply O1, A, N.
    - intros p P. apply O2, L, P. }
  destruct S as (m & S & A & L). destruct (found_several i m rest (x :: ns) K) as (ps & FE & F2).
  { intros n N. rewrite (A n N). discriminate. }
  assert (NN : not_nested (map (cons 0) ps)) by (by eapply positions_not_nested).
  rewrite S. cbn [rbind]. rewrite FE, (not_nested_remaining _ NN). destruct (update_several (fun o => replace_node sed o v) i rest _ m ps AD F2) as (root' & U & A' & L').
  exists root'. split; [done|]. split.
  - intros n N. rewrite (A' n N), (A n N). done.
  - intros p P. by rewrite L', L.
Qed.
