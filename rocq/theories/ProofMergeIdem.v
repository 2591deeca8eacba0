(** Merge is idempotent for sequence-free, comment-free, marker-free values. *)
From Verif Require Import Prelude GoStrings Format SpecFormat ProofFormat Yaml MergeTree SpecMerge
  ProofMerge ProofMergeMap ProofMergeAbs.

Lemma idem_plain n : everywhere node_idem n -> plain n.
Proof. apply everywhere_impl. intros t H. apply H. Qed.
Lemma idem_simple n : everywhere node_idem n -> simple_value n.
Proof.
  apply everywhere_impl. intros t (_ & _ & H). unfold node_simple.
  destruct (t_kind t); try contradiction; [apply H|exact H].
Qed.

(** A pair whose entry is already a fixed point changes nothing. *)
Lemma merge_pair_fixed sed nk nv o r :
  t_kind o = KMapping -> ~ marker_in (t_value nk) -> no_comments nk ->
  lookup_key (t_value nk) (children o) = Some r -> merge sed r nv [t_value nk] = Ok r ->
  merge_pair sed (fun ov key => merge sed ov nv [key]) nk nv o = Ok o.
Proof.
  intros Hk Hm (Hc1 & Hc2 & Hc3) Hl Hr. unfold merge_pair. rewrite to_map_mapping by exact Hk.
  destruct o as [oi [oc|]]; [|discriminate]. cbn [children t_content t_info] in *.
  assert (Hin : t_value nk ∈ keys oc).
  { destruct (decide (t_value nk ∈ keys oc)) as [H|H]; [exact H|]. apply lookup_key_none in H. congruence. }
  destruct (keys_split _ _ Hin) as (pre & ok & ov & post & -> & Hp & Hkp & Hv).
  rewrite lookup_key_app in Hl by exact Hp. pose proof (proj2 (lookup_key_none _ _) Hkp) as Hkp'.
  rewrite Hkp' in Hl. unfold lookup_key in Hl. cbn [pairs lookup_pairs] in Hl. rewrite Hv in Hl.
  destruct (decide _) as [_|]; [|congruence]. injection Hl as ->.
  rewrite merge_entries_present by assumption. rewrite Hv, Hr. cbn [rbind].
  rewrite merge_comments_none by assumption. destruct ok; reflexivity.
Qed.

Lemma merge_pairs_fixed sed ps o :
  t_kind o = KMapping -> marker_free_keys ps -> NoDup (keys ps) ->
  Forall no_comments ps ->
  (forall k v, lookup_key k ps = Some v ->
     exists r, lookup_key k (children o) = Some r /\ merge sed r v [k] = Ok r) ->
  merge_pairs sed ps o = Ok o.
Proof.
  intros Hk. induction ps as [|x|nk nv ps IH] using list_ind2; intros Hm Hnd Hc H; [reflexivity..|].
  change (keys (nk :: nv :: ps)) with (t_value nk :: keys ps) in *.
  apply NoDup_cons in Hnd as [Hnk Hnd]. apply Forall_cons in Hc as [Hc1 Hc]. apply Forall_cons in Hc as [_ Hc].
  cbn [merge_pairs].
  assert (Hlk : forall k, lookup_key k (nk :: nv :: ps) =
            if decide (t_value nk = k) then Some nv else lookup_key k ps) by reflexivity.
  destruct (H (t_value nk) nv) as (r & Hr1 & Hr2).
  { rewrite Hlk. destruct (decide _); congruence. }
  rewrite (merge_pair_fixed sed nk nv o r); try assumption.
  2:{ apply Hm. unfold keys. simpl. apply elem_of_list_here. }
  cbn [rbind]. apply IH; try assumption.
  - intros k Hkk. apply Hm. apply elem_of_list_further. exact Hkk.
  - intros k v Hv. apply H. rewrite Hlk. destruct (decide (t_value nk = k)) as [<-|]; [|exact Hv].
    apply lookup_key_none in Hnk. congruence.
Qed.

Lemma lookup_key_elem k l v : lookup_key k l = Some v -> v ∈ l.
Proof.
  unfold lookup_key. induction l as [|x|x y l IH] using list_ind2; cbn [pairs lookup_pairs]; try discriminate.
  destruct (decide _); [intros [= ->]; apply elem_of_list_further, elem_of_list_here|].
  intros H. do 2 apply elem_of_list_further. auto.
Qed.

Lemma keys_elem k l : k ∈ keys l -> exists t, t ∈ l /\ t_value t = k.
Proof.
  induction l as [|x|x y l IH] using list_ind2; intros H; [apply elem_of_nil in H; tauto..|].
  change (keys (x :: y :: l)) with (t_value x :: keys l) in H. apply elem_of_cons in H as [->|H].
  - exists x. split; [apply elem_of_list_here|reflexivity].
  - destruct (IH H) as (t & Ht & <-). exists t. split; [do 2 apply elem_of_list_further; exact Ht|reflexivity].
Qed.

Lemma plain_keys l : Forall plain l -> marker_free_keys l.
Proof.
  intros H k Hk. apply keys_elem in Hk as (t & Ht & <-). rewrite Forall_forall in H.
  apply (everywhere_root _ _ (H t Ht)).
Qed.

Lemma merge_scalar_idem sed o i ks ks' :
  i_head i = [] -> i_linec i = [] -> i_foot i = [] -> ~ marker_in (i_value i) ->
  merge_scalar sed (merge_scalar sed o i ks) i ks' = merge_scalar sed o i ks.
Proof.
  intros H1 H2 H3 Hm. unfold merge_scalar. rewrite !format_no_marker by exact Hm.
  rewrite !merge_comments_none by assumption.
  unfold t_kind. destruct (kind_eqb_spec (i_kind (t_info o)) KScalar) as [E|E]; cbn.
  - rewrite E. reflexivity.
  - reflexivity.
Qed.

Lemma lookup_key_nodup l k v : NoDup (keys l) -> (exists kn, (kn, v) ∈ pairs l /\ t_value kn = k) ->
  lookup_key k l = Some v.
Proof.
  unfold keys, lookup_key. induction (pairs l) as [|[a b] ps IH]; intros Hnd (kn & Hin & Hk).
  - apply elem_of_nil in Hin. tauto.
  - cbn [map fst] in Hnd. apply NoDup_cons in Hnd as [Hn Hnd]. cbn [lookup_pairs].
    apply elem_of_cons in Hin as [He|Hin].
    + injection He as <- <-. destruct (decide _); congruence.
    + destruct (decide (t_value a = k)) as [He|_].
      * exfalso. apply Hn. rewrite He, <- Hk.
        apply elem_of_list_fmap. exists (kn, v). auto.
      * apply IH; eauto.
Qed.

(** Merging such a value into itself changes nothing. *)
Lemma merge_self sed n : everywhere node_idem n -> forall ks, merge sed n n ks = Ok n.
Proof.
  induction n as [i|i l IH] using tree_ind'; intros Hn ks.
  - pose proof (everywhere_root _ _ Hn) as (Hc & Hp & Hk). unfold t_kind in Hk. cbn [t_info] in Hk.
    destruct (i_kind i) eqn:Ek; try contradiction; cbn [merge]; rewrite Ek; [reflexivity|].
    unfold merge_scalar, t_kind. cbn [t_info t_content]. rewrite Ek. cbn [kind_eqb].
    destruct Hc as (H1 & H2 & H3). destruct Hp as (Hp & _). cbn in *.
    rewrite merge_comments_none, format_no_marker by assumption. destruct i; reflexivity.
  - pose proof (everywhere_root _ _ Hn) as (Hc & Hp & Hk). unfold t_kind in Hk. cbn [t_info] in Hk.
    destruct (i_kind i) eqn:Ek; try contradiction; [|discriminate].
    cbn [children t_content] in Hk. destruct Hk as [Hpair Hnd].
    pose proof (everywhere_children _ _ Hn) as Hl. cbn [children t_content] in Hl.
    rewrite merge_map_eq by exact Ek. apply merge_pairs_fixed.
    + exact Ek.
    + apply plain_keys. eapply Forall_impl; [exact Hl|]. intros t Ht. apply idem_plain. exact Ht.
    + exact Hnd.
    + eapply Forall_impl; [exact Hl|]. intros t Ht. apply (everywhere_root _ _ Ht).
    + intros k v Hv. cbn [children t_content]. exists v. split; [exact Hv|].
      rewrite Forall_forall in IH, Hl. pose proof (lookup_key_elem _ _ _ Hv). apply IH; auto.
Qed.

Lemma merge_idem sed n : everywhere node_idem n -> forall o ks o',
  well_paired o -> merge sed o n ks = Ok o' -> forall ks', merge sed o' n ks' = Ok o'.
Proof.
  induction n as [i|i l IH] using tree_ind'; intros Hn o ks o' Ho H ks'.
  - pose proof (everywhere_root _ _ Hn) as (Hc & Hp & Hk). unfold t_kind in Hk. cbn [t_info] in Hk.
    destruct (i_kind i) eqn:Ek; try contradiction; cbn [merge] in *; rewrite Ek in *; [reflexivity|].
    destruct Hc as (H1 & H2 & H3). destruct Hp as (Hp & _). cbn in H1, H2, H3, Hp.
    unfold merge_scalar in *. rewrite format_no_marker in * by exact Hp.
    rewrite merge_comments_none in * by assumption.
    destruct o as [oi oc]. unfold t_kind in *. cbn [t_info t_content] in *.
    destruct (kind_eqb_spec (i_kind oi) KScalar) as [E|E]; injection H as <-; cbn.
    + rewrite E. reflexivity.
    + reflexivity.
  - pose proof (everywhere_root _ _ Hn) as (Hc & Hp & Hk). unfold t_kind in Hk. cbn [t_info] in Hk.
    destruct (i_kind i) eqn:Ek; try contradiction; [|discriminate].
    cbn [children t_content] in Hk. destruct Hk as [Hpair Hnd].
    pose proof (everywhere_children _ _ Hn) as Hl. cbn [children t_content] in Hl.
    assert (Hpl : Forall plain l) by (eapply Forall_impl; [exact Hl|]; intros t Ht; apply idem_plain; exact Ht).
    rewrite merge_map_eq in * by exact Ek.
    destruct l as [|nk [|nv ps]]; [cbn in *; congruence|cbn in *; congruence|].
    assert (Hmap : exists o0, t_kind o0 = KMapping /\ well_paired o0 /\ merge_pairs sed (nk :: nv :: ps) o0 = Ok o').
    { exists (to_map o). split; [apply to_map_kind|]. split; [apply to_map_well_paired; exact Ho|].
      cbn [merge_pairs] in *. unfold merge_pair in *. rewrite (to_map_mapping (to_map o)) by apply to_map_kind. exact H. }
    clear o Ho H. destruct Hmap as (o & Hok & Ho & H).
    pose proof (merge_pairs_effect sed _ o o' Hok (everywhere_root _ _ Ho Hok) (plain_keys _ Hpl) Hnd H)
      as (E1 & E2 & E3 & E4 & E5 & E6).
    apply merge_pairs_fixed; try assumption.
    + unfold t_kind. rewrite E1. exact Hok.
    + apply plain_keys. exact Hpl.
    + eapply Forall_impl; [exact Hl|]. intros t Ht. apply (everywhere_root _ _ Ht).
    + intros k v Hv. pose proof (lookup_key_elem _ _ _ Hv) as Hin. rewrite Forall_forall in IH, Hl, Hpl.
      destruct (lookup_key k (children o)) as [ov|] eqn:Eo.
      * destruct (E6 k v ov Hv Eo) as (r & Hr1 & Hr2). exists r. split; [exact Hr2|].
        eapply IH; [exact Hin|apply Hl; exact Hin| |exact Hr1].
        pose proof (everywhere_children _ _ Ho) as Hc'. rewrite Forall_forall in Hc'. apply Hc'.
        exact (lookup_key_elem _ _ _ Eo).
      * exists v. split; [|apply merge_self, Hl, Hin].
        rewrite (E5 k v Hv Eo). f_equal. apply sanitize_plain. apply Hpl. exact Hin.
Qed.
