(** Proofs about merging mappings (C01, C02, C07, C08). *)
From Verif Require Import Prelude GoStrings Format SpecFormat ProofFormat Yaml MergeTree SpecMerge ProofMerge.

(** ** Effect of one marker-free overlay pair *)
Record pair_effect sed (f : tree -> list N -> res tree) (nk nv : tree) (c c' : list tree) : Prop := {
  pe_paired : is_paired c';
  pe_keys : keys c' = keys c ++ (if decide (t_value nk ∈ keys c) then [] else [t_value nk]);
  pe_other : forall k, k <> t_value nk -> lookup_key k c' = lookup_key k c;
  pe_new : t_value nk ∉ keys c -> lookup_key (t_value nk) c' = Some (sanitize sed nv);
  pe_old : forall ov, lookup_key (t_value nk) c = Some ov ->
           exists ov1, f ov (t_value nk) = Ok ov1 /\ lookup_key (t_value nk) c' = Some ov1 }.

Lemma sanitize_value_of sed t : ~ marker_in (t_value t) -> t_value (sanitize sed t) = t_value t.
Proof.
  intros H. destruct t as [i c]. unfold t_value in *. simpl in *.
  apply format_no_marker. exact H.
Qed.

Lemma pair_step_effect sed f nk nv o o' :
  ~ marker_in (t_value nk) -> is_paired (children (to_map o)) ->
  pair_step sed f nk nv o o' ->
  pair_effect sed f nk nv (children (to_map o)) (children o').
Proof.
  intros Hm Hp Hs. destruct Hs as [Hk|pre ok ov post ov1 Hc Hpre Hk Hv Hf].
  - destruct (to_map o) as [i c] eqn:Eo. rewrite add_node_content. cbn [map].
    set (l := children (T i c)) in *.
    assert (Hke : keys (l ++ [sanitize sed nk; sanitize sed nv]) = keys l ++ [t_value nk]).
    { rewrite keys_app by exact Hp. f_equal. unfold keys. simpl.
      rewrite sanitize_value_of by exact Hm. reflexivity. }
    assert (Hlk : forall k, lookup_key k [sanitize sed nk; sanitize sed nv] =
                       if decide (t_value nk = k) then Some (sanitize sed nv) else None).
    { intros k. unfold lookup_key. simpl. rewrite sanitize_value_of by exact Hm. reflexivity. }
    split.
    + apply is_paired_app; [exact Hp|]. apply is_paired_cons, is_paired_nil.
    + rewrite Hke. destruct (decide _); [contradiction|reflexivity].
    + intros k Hne. rewrite lookup_key_app by exact Hp. rewrite Hlk.
      destruct (decide _); [congruence|]. destruct (lookup_key k l); reflexivity.
    + intros _. rewrite lookup_key_app by exact Hp. apply lookup_key_none in Hk. rewrite Hk, Hlk.
      destruct (decide _); [reflexivity|congruence].
    + intros ov Hov. apply lookup_key_none in Hk. congruence.
  - cbn [children t_content]. assert (Ec : children (to_map o) = pre ++ ok :: ov :: post).
    { unfold children. rewrite Hc. reflexivity. }
    rewrite Ec in *. clear Ec Hc.
    set (ok1 := T _ _).
    assert (Hv1 : t_value ok1 = t_value nk).
    { unfold t_value, ok1. simpl. rewrite merge_comments_value. exact Hv. }
    assert (Hpost : is_paired post).
    { clear -Hp Hpre. induction pre as [|x|x y pre IH] using list_ind2.
      - exact (is_paired_tail _ _ _ Hp).
      - destruct (is_paired_single _ Hpre).
      - apply IH; [exact (is_paired_tail _ _ _ Hp)|exact (is_paired_tail _ _ _ Hpre)]. }
    assert (Hin : t_value nk ∈ keys (pre ++ ok :: ov :: post)).
    { rewrite keys_app by exact Hpre. apply elem_of_app. right. unfold keys. simpl.
      rewrite Hv. apply elem_of_list_here. }
    split.
    + apply is_paired_app; [exact Hpre|]. apply is_paired_cons. exact Hpost.
    + destruct (decide _); [|contradiction]. rewrite app_nil_r, !keys_app by exact Hpre.
      f_equal. unfold keys. simpl. rewrite Hv1, Hv. reflexivity.
    + intros k Hne. rewrite !lookup_key_app by exact Hpre. unfold lookup_key. cbn [pairs lookup_pairs].
      rewrite Hv1, Hv. destruct (decide (t_value nk = k)); [congruence|reflexivity].
    + intros Hnin. contradiction.
    + intros ov' Hov. rewrite lookup_key_app in Hov by exact Hpre. apply lookup_key_none in Hk.
      rewrite Hk in Hov. unfold lookup_key in Hov. cbn [pairs lookup_pairs] in Hov. rewrite Hv in Hov.
      destruct (decide _); [|congruence]. injection Hov as <-.
      exists ov1. split; [exact Hf|]. rewrite lookup_key_app by exact Hpre. rewrite Hk.
      unfold lookup_key. cbn [pairs lookup_pairs]. rewrite Hv1. destruct (decide _); [reflexivity|congruence].
Qed.

Lemma pair_step_info sed f nk nv o o' :
  pair_step sed f nk nv o o' -> t_info o' = t_info (to_map o).
Proof. intros [|]; [apply add_node_info|reflexivity]. Qed.

(** ** The whole outer loop *)
Lemma filter_ext_in {A} (P Q : A -> Prop) `{forall x, Decision (P x), forall x, Decision (Q x)} (l : list A) :
  (forall x, x ∈ l -> P x <-> Q x) -> filter P l = filter Q l.
Proof.
  induction l as [|x l IH]; intros Hx; [reflexivity|]. rewrite !filter_cons.
  rewrite IH by (intros y Hy; apply Hx, elem_of_list_further, Hy).
  pose proof (Hx x (elem_of_list_here _ _)). destruct (decide (P x)), (decide (Q x)); tauto.
Qed.

Definition marker_free_keys (l : list tree) : Prop := forall k, k ∈ keys l -> ~ marker_in k.

Lemma merge_pairs_effect sed ps o o' :
  t_kind o = KMapping -> is_paired (children o) ->
  marker_free_keys ps -> NoDup (keys ps) ->
  merge_pairs sed ps o = Ok o' ->
  t_info o' = t_info o /\ is_paired (children o') /\
  keys (children o') = keys (children o) ++ filter (fun k => k ∉ keys (children o)) (keys ps) /\
  (forall k, k ∉ keys ps -> lookup_key k (children o') = lookup_key k (children o)) /\
  (forall k v, lookup_key k ps = Some v -> lookup_key k (children o) = None ->
     lookup_key k (children o') = Some (sanitize sed v)) /\
  (forall k v ov, lookup_key k ps = Some v -> lookup_key k (children o) = Some ov ->
     exists r, merge sed ov v [k] = Ok r /\ lookup_key k (children o') = Some r).
Proof.
  intros Hkind. revert o o' Hkind.
  induction ps as [|x|nk nv ps IH] using list_ind2; intros o o' Hkind Hp Hm Hnd H.
  1,2: cbn [merge_pairs] in H; injection H as <-; repeat split; auto;
    [unfold keys; simpl; rewrite app_nil_r; reflexivity|
     unfold lookup_key; simpl; discriminate|unfold lookup_key; simpl; discriminate].
  cbn [merge_pairs] in H.
  destruct (merge_pair sed _ nk nv o) as [o1| | |] eqn:E; cbn [rbind] in H; try discriminate.
  assert (Hmk : ~ marker_in (t_value nk)).
  { apply Hm. unfold keys. simpl. apply elem_of_list_here. }
  apply merge_pair_step in E; [|exact Hmk].
  assert (Hp0 : is_paired (children (to_map o))) by (rewrite to_map_mapping; assumption).
  pose proof (pair_step_info _ _ _ _ _ _ E) as Hi.
  apply pair_step_effect in E; [|exact Hmk|exact Hp0].
  rewrite to_map_mapping in E, Hi by exact Hkind. clear Hp0.
  set (c := children o) in *. set (c1 := children o1) in *.
  assert (Hkind1 : t_kind o1 = KMapping) by (unfold t_kind in *; rewrite Hi; exact Hkind).
  change (keys (nk :: nv :: ps)) with (t_value nk :: keys ps) in *.
  apply NoDup_cons in Hnd as [Hnk Hnd].
  assert (Hm' : marker_free_keys ps).
  { intros k Hk. apply Hm. apply elem_of_list_further. exact Hk. }
  destruct E as [E1 E2 E3 E4 E5].
  destruct (IH o1 o' Hkind1 E1 Hm' Hnd H) as (I1 & I2 & I3 & I4 & I5 & I6).
  assert (Hlk : forall k, lookup_key k (nk :: nv :: ps) =
            if decide (t_value nk = k) then Some nv else lookup_key k ps) by reflexivity.
  split; [congruence|]. split; [exact I2|]. split; [|split; [|split]].
  - rewrite I3. fold c1. rewrite E2. rewrite <- app_assoc. f_equal.
    assert (Hf : filter (fun k => k ∉ keys c ++ (if decide (t_value nk ∈ keys c) then [] else [t_value nk])) (keys ps)
                 = filter (fun k => k ∉ keys c) (keys ps)).
    { apply filter_ext_in. intros k Hk. rewrite not_elem_of_app.
      destruct (decide _); [pose proof (not_elem_of_nil k); tauto|].
      rewrite elem_of_list_singleton. assert (k <> t_value nk) by congruence. tauto. }
    rewrite Hf, filter_cons. clear Hf. destruct (decide (t_value nk ∈ keys c)) as [Hin|Hnin].
    + rewrite decide_False by tauto. reflexivity.
    + rewrite decide_True by tauto. reflexivity.
  - intros k Hk. apply not_elem_of_cons in Hk as [Hne Hk]. rewrite I4 by exact Hk. apply E3. exact Hne.
  - intros k v. rewrite Hlk. destruct (decide (t_value nk = k)) as [<-|Hne].
    + intros [= ->] Hn. rewrite I4 by exact Hnk. apply E4. apply lookup_key_none. exact Hn.
    + intros Hv Hn. apply I5; [exact Hv|]. fold c1. rewrite E3 by congruence. exact Hn.
  - intros k v ov. rewrite Hlk. destruct (decide (t_value nk = k)) as [<-|Hne].
    + intros [= ->] Hov. destruct (E5 ov Hov) as (r & Hr & Hr2). exists r. split; [exact Hr|].
      rewrite I4 by exact Hnk. exact Hr2.
    + intros Hv Hov. apply I6; [exact Hv|]. fold c1. rewrite E3 by congruence. exact Hov.
Qed.

Lemma merge_mapping_effect sed o n ks o' :
  t_kind o = KMapping -> t_kind n = KMapping -> is_paired (children o) ->
  marker_free_keys (children n) -> NoDup (keys (children n)) ->
  merge sed o n ks = Ok o' ->
  t_info o' = t_info o /\ is_paired (children o') /\
  keys (children o') = keys (children o) ++ filter (fun k => k ∉ keys (children o)) (keys (children n)) /\
  (forall k, k ∉ keys (children n) -> lookup_key k (children o') = lookup_key k (children o)) /\
  (forall k v, lookup_key k (children n) = Some v -> lookup_key k (children o) = None ->
     lookup_key k (children o') = Some (sanitize sed v)) /\
  (forall k v ov, lookup_key k (children n) = Some v -> lookup_key k (children o) = Some ov ->
     exists r, merge sed ov v [k] = Ok r /\ lookup_key k (children o') = Some r).
Proof.
  intros Ho Hn Hp Hm Hnd H. destruct n as [ni [nl|]].
  - rewrite merge_map_eq in H by exact Hn. apply (merge_pairs_effect sed nl o o'); assumption.
  - apply (merge_pairs_effect sed [] o o'); try assumption.
    cbn [merge] in H. unfold t_kind in Hn. simpl in Hn. rewrite Hn in H. exact H.
Qed.

(** ** Totality *)
Lemma merge_total sed n : everywhere no_alias_no_doc n -> forall o ks, exists o', merge sed o n ks = Ok o'.
Proof.
  induction n as [i|i l IH] using tree_ind'; intros Hn o ks.
  - apply everywhere_root in Hn. destruct Hn as [H1 H2]. unfold t_kind in *. cbn [t_info] in *.
    destruct (i_kind i) eqn:Ek; cbn [merge]; rewrite ?Ek; try congruence; eauto.
    destruct (merge_scalar sed o i ks); eauto.
  - rewrite everywhere_some in Hn. destruct Hn as [[H1 H2] Hl]. unfold t_kind in *. cbn [t_info] in *.
    destruct (i_kind i) eqn:Ek; try congruence.
    + cbn [merge]; rewrite Ek; eauto.
    + cbn [merge]; rewrite Ek; eauto.
    + rewrite merge_map_eq by exact Ek. clear H1 H2 Ek. revert o.
      induction l as [|x|nk nv ps IHp] using list_ind2; intros o; cbn [merge_pairs]; eauto.
      apply Forall_cons in IH as [_ IH]. apply Forall_cons in IH as [IHv IH].
      apply Forall_cons in Hl as [_ Hl]. apply Forall_cons in Hl as [Hv Hl].
      destruct (merge_pair_total sed (fun ov key => merge sed ov nv [key]) nk nv o) as [r ->]; [auto|].
      cbn [rbind]. apply IHp; assumption.
    + cbn [merge]; rewrite Ek. destruct (merge_scalar sed o i ks); eauto.
Qed.

(** Without documents inside the overlay merge fails only with
    ErrMergeUnsupportedType. *)
Definition ok_or_unsupported {A} (r : res A) : Prop :=
  match r with Ok _ => True | Err e => e = EMergeUnsupported | Panic | Fuel => False end.

Lemma merge_entries_outcome sed f nk oc :
  (forall ov k, ok_or_unsupported (f ov k)) -> ok_or_unsupported (merge_entries sed f nk oc).
Proof.
  intros Hf. induction oc as [|x|x y oc IH] using list_ind2; cbn [merge_entries]; [exact I|exact I|].
  destruct (_ || _).
  - pose proof (Hf y (t_value x)) as Hy. destruct (f y (t_value x)); cbn [rbind]; try exact Hy.
    destruct (check_for_markers _); [|exact I].
    destruct (merge_entries sed f nk oc) as [[r b]| | |]; cbn [rbind]; exact IH.
  - destruct (merge_entries sed f nk oc) as [[r b]| | |]; cbn [rbind]; exact IH.
Qed.

Lemma merge_outcome sed n : everywhere no_doc n -> forall o ks, ok_or_unsupported (merge sed o n ks).
Proof.
  induction n as [i|i l IH] using tree_ind'; intros Hn o ks.
  - apply everywhere_root in Hn. unfold no_doc, t_kind in *. cbn [t_info] in *.
    destruct (i_kind i) eqn:Ek; cbn [merge]; rewrite ?Ek; try congruence; try exact I; try reflexivity.
    destruct (merge_scalar sed o i ks); exact I.
  - rewrite everywhere_some in Hn. destruct Hn as [H2 Hl]. unfold no_doc, t_kind in *. cbn [t_info] in *.
    destruct (i_kind i) eqn:Ek; try congruence.
    + cbn [merge]; rewrite Ek; exact I.
    + cbn [merge]; rewrite Ek; exact I.
    + rewrite merge_map_eq by exact Ek. clear H2 Ek. revert o.
      induction l as [|x|nk nv ps IHp] using list_ind2; intros o; cbn [merge_pairs]; [exact I|exact I|].
      apply Forall_cons in IH as [_ IH]. apply Forall_cons in IH as [IHv IH].
      apply Forall_cons in Hl as [_ Hl]. apply Forall_cons in Hl as [Hv Hl].
      assert (Hpair : ok_or_unsupported (merge_pair sed (fun ov key => merge sed ov nv [key]) nk nv o)).
      { unfold merge_pair. destruct (t_content (to_map o)) as [oc|]; [|exact I].
        pose proof (merge_entries_outcome sed (fun ov key => merge sed ov nv [key]) (t_info nk) oc) as He.
        destruct (merge_entries sed _ (t_info nk) oc) as [[r b]| | |]; cbn [rbind] in *;
          [destruct b; exact I|apply He; intros; apply IHv; exact Hv..]. }
      destruct (merge_pair sed _ nk nv o); cbn [rbind]; try exact Hpair. apply IHp; assumption.
    + cbn [merge]; rewrite Ek. destruct (merge_scalar sed o i ks); exact I.
    + cbn [merge]; rewrite Ek. reflexivity.
Qed.

(** ** Marker keys *)
(** Effect on one entry of a marker key. *)
Definition marker_entry sed (nk nv : tree) (e e' : tree * tree) : Prop :=
  merge sed (snd e) nv [t_value (fst e)] = Ok (snd e') /\
  exists i : info, i_value i = t_value (fst e) /\
    t_value (fst e') = format sed (t_value nk) (fvals_of i [t_value (snd e); t_value (fst e)]).

Lemma merge_entries_marker sed f nk oc oc' b :
  marker_in (i_value nk) -> merge_entries sed f nk oc = Ok (oc', b) ->
  length oc' = length oc /\ b = (match pairs oc with [] => false | _ => true end) /\
  Forall2 (fun e e' => f (snd e) (t_value (fst e)) = Ok (snd e') /\
     exists i : info, i_value i = t_value (fst e) /\
      t_value (fst e') = format sed (i_value nk) (fvals_of i [t_value (snd e); t_value (fst e)]))
    (pairs oc) (pairs oc').
Proof.
  intros Hm. apply check_for_markers_spec in Hm. revert oc' b.
  induction oc as [|x|x y oc IH] using list_ind2; intros oc' b H.
  - injection H as <- <-. repeat split; constructor.
  - injection H as <- <-. repeat split; constructor.
  - cbn [merge_entries] in H. rewrite Hm in H. cbn [orb] in H.
    destruct (f y (t_value x)) as [y1| | |] eqn:Ef; cbn [rbind] in H; try discriminate.
    destruct (merge_entries sed f nk oc) as [[r b']| | |]; cbn [rbind] in H; try discriminate.
    injection H as <- <-. destruct (IH r b' eq_refl) as (I1 & I2 & I3).
    split; [cbn [length]; congruence|]. split; [reflexivity|]. cbn [pairs]. constructor; [|exact I3].
    cbn [fst snd]. split; [exact Ef|].
    exists (merge_comments sed (t_info x) nk [t_value y; t_value x]).
    split; [apply merge_comments_value|].
    unfold merge_scalar. cbn [t_info].
    destruct (kind_eqb _ _); reflexivity.
Qed.

Lemma merge_marker_key sed o n ks o' nk nv :
  t_kind o = KMapping -> t_kind n = KMapping -> children n = [nk; nv] ->
  marker_in (t_value nk) -> pairs (children o) <> [] ->
  merge sed o n ks = Ok o' ->
  t_info o' = t_info o /\ length (children o') = length (children o) /\
  Forall2 (marker_entry sed nk nv) (pairs (children o)) (pairs (children o')).
Proof.
  intros Ho Hn Hc Hm Hne H. destruct n as [ni [nl|]]; [|discriminate].
  rewrite merge_map_eq in H by exact Hn. cbn [children t_content] in Hc. subst nl.
  cbn [merge_pairs] in H. unfold merge_pair in H. rewrite to_map_mapping in H by exact Ho.
  destruct o as [oi [oc|]]; [|cbn in Hne; congruence]. cbn [t_content children] in *.
  destruct (merge_entries sed _ (t_info nk) oc) as [[oc' b]| | |] eqn:E; cbn [rbind] in H; try discriminate.
  apply merge_entries_marker in E as (E1 & E2 & E3); [|exact Hm].
  destruct (pairs oc) as [|p pp] eqn:Ep; [congruence|]. subst b. cbn [rbind] in H. injection H as <-.
  cbn [t_info children t_content]. split; [reflexivity|]. split; [exact E1|]. exact E3.
Qed.
