(** Comments of keys and of mappings under merge; the exact text of a marker key
    (C12, C08). *)
From Verif Require Import Prelude GoStrings Format SpecFormat ProofFormat Yaml MergeTree SpecMerge ProofMerge ProofMergeMap ProofSanitize.

(** The effect of merging on the entry [e], for the overlay entries [ps]. *)
Definition entry_merged (sed : sed_engine) (n : list tree) (e e' : tree * tree) : Prop :=
  t_value (fst e') = t_value (fst e) /\
  (t_value (fst e) ∉ keys n -> e' = e) /\
  forall nk nv, (nk, nv) ∈ pairs n -> t_value nk = t_value (fst e) ->
    comments_from_first (fun s => format sed s (texts (t_value (snd e)) (t_value (fst e)) (t_info (fst e))))
      (t_info (fst e)) (t_info nk) (t_info (fst e')) /\
    merge sed (snd e) nv [t_value (fst e)] = Ok (snd e').

Lemma pairs_app l1 l2 : is_paired l1 -> pairs (l1 ++ l2) = pairs l1 ++ pairs l2.
Proof.
  intros P. induction l1 as [|x|x y l1 IH] using list_ind2; [done|by apply is_paired_single in P|].
  apply is_paired_tail in P. cbn [app pairs]. by rewrite IH.
Qed.
Lemma keys_app l1 l2 : is_paired l1 -> keys (l1 ++ l2) = keys l1 ++ keys l2.
Proof. intros P. unfold keys. by rewrite pairs_app, map_app. Qed.
Lemma pair_key k v l : (k, v) ∈ pairs l -> t_value k ∈ keys l.
Proof. intros H. unfold keys. apply elem_of_list_fmap. by exists (k, v). Qed.

Lemma merge_pairs_entries sed ps : marker_free_keys ps -> NoDup (keys ps) -> forall o o',
  t_kind o = KMapping -> is_paired (children o) -> NoDup (keys (children o)) ->
  merge_pairs sed ps o = Ok o' ->
  forall i e, pairs (children o) !! i = Some e -> exists e', pairs (children o') !! i = Some e' /\ entry_merged sed ps e e'.
Proof.
  induction ps as [|x|nk nv ps IH] using list_ind2; intros Hm Hnd o o' Ho Hp Hno H i e He.
  1,2: cbn [merge_pairs] in H; injection H as <-; exists e; split; [exact He|]; split; [done|]; split; [done|];
    intros nk nv Hin; by apply elem_of_nil in Hin.
  cbn [merge_pairs] in H.
  destruct (merge_pair sed _ nk nv o) as [o1| | |] eqn:E; cbn [rbind] in H; try discriminate.
  change (keys (nk :: nv :: ps)) with (t_value nk :: keys ps) in *.
  assert (Hmk : ~ marker_in (t_value nk)) by (apply Hm, elem_of_list_here).
  assert (Hm' : marker_free_keys ps) by (intros k Hk; apply Hm; by apply elem_of_list_further).
  apply NoDup_cons in Hnd as [Hnk Hnd].
  apply merge_pair_step in E; [|exact Hmk].
  assert (Hp0 : is_paired (children (to_map o))) by (rewrite to_map_mapping; assumption).
  pose proof (pair_step_info _ _ _ _ _ _ E) as Hi. pose proof E as E0.
  apply pair_step_effect in E0; [|exact Hmk|exact Hp0]. destruct E0 as [E1 E2 _ _ _].
  rewrite to_map_mapping in * by exact Ho.
  assert (Ho1 : t_kind o1 = KMapping) by (unfold t_kind in *; rewrite Hi; exact Ho).
  assert (Hno1 : NoDup (keys (children o1))).
  { rewrite E2. destruct (decide _) as [Hin|Hnin]; [by rewrite app_nil_r|]. apply NoDup_app. split; [done|]. split; [|apply NoDup_singleton].
    intros k Hk Hk2. apply elem_of_list_singleton in Hk2 as ->. done. }
  assert (S1 : exists e1, pairs (children o1) !! i = Some e1 /\ t_value (fst e1) = t_value (fst e) /\
    (t_value (fst e) <> t_value nk -> e1 = e) /\
    (t_value (fst e) = t_value nk -> comments_from_first (fun s => format sed s (texts (t_value (snd e)) (t_value (fst e)) (t_info (fst e))))
      (t_info (fst e)) (t_info nk) (t_info (fst e1)) /\ merge sed (snd e) nv [t_value (fst e)] = Ok (snd e1))).
  { clear IH H E2. inversion E as [Habs Heq|pre ok ov post ov1 Hc Hpp Hk Hv Hf Heq]; subst o1; rewrite ?to_map_mapping in * by exact Ho.
    - exists e. destruct o as [oi c]. rewrite add_node_content. rewrite pairs_app by done. split; [by apply lookup_app_l_Some|].
      split; [done|]. split; [done|]. intros Heq2. exfalso. apply Habs. rewrite <- Heq2. destruct e as [k v]. eapply pair_key, elem_of_list_lookup_2, He.
    - unfold children in He, Hno |- *. cbn [t_content]. rewrite Hc in He, Hno.
      rewrite keys_app in Hno by done. rewrite pairs_app in He |- * by done. cbn [pairs] in *.
      apply lookup_app_Some in He as [He|[Hge He]].
      + exists e. split; [by apply lookup_app_l_Some|]. split; [done|]. split; [done|]. intros Heq2. exfalso. apply Hk. rewrite <- Heq2.
        destruct e as [k v]. eapply pair_key, elem_of_list_lookup_2, He.
      + destruct (i - length (pairs pre)) as [|j] eqn:Ej; cbn [lookup list_lookup] in He.
        * injection He as <-. exists (T (merge_comments sed (t_info ok) (t_info nk) [t_value ov; t_value nk]) (t_content ok), ov1).
          split; [rewrite lookup_app_r by done; by rewrite Ej|]. cbn [fst snd t_info]. split; [unfold t_value; cbn [t_info]; apply merge_comments_value|].
          split; [congruence|]. intros _. rewrite Hv. split; [|done].
          exact (merge_comments_from_first sed (t_info ok) (t_info nk) [t_value ov; t_value nk]).
        * exists e. split; [rewrite lookup_app_r by done; by rewrite Ej|]. split; [done|]. split; [done|]. intros Heq2. exfalso.
          apply NoDup_app in Hno as (_ & _ & Hno). unfold keys in Hno. cbn [pairs map fst] in Hno. apply NoDup_cons in Hno as [Hno _].
          apply Hno. rewrite Hv, <- Heq2. destruct e as [k v]. cbn [fst]. change (map _ (pairs post)) with (keys post).
          eapply pair_key, elem_of_list_lookup_2, He. }
  destruct S1 as (e1 & L1 & V1 & U1 & M1).
  destruct (IH Hm' Hnd o1 o' Ho1 E1 Hno1 H i e1 L1) as (e' & L2 & V2 & U2 & M2).
  exists e'. split; [done|]. split; [congruence|]. split.
  - intros Hnin. apply not_elem_of_cons in Hnin as [N1 N2]. rewrite <- V1 in N2. rewrite (U2 N2). by apply U1.
  - intros nk' nv' Hin Heq. cbn [pairs] in Hin. apply elem_of_cons in Hin as [[= -> ->]|Hin].
    + rewrite U2 by (rewrite V1; congruence). apply M1. congruence.
    + assert (Hne : t_value (fst e) <> t_value nk). { intros Heq2. apply Hnk. rewrite <- Heq2, <- Heq. by eapply pair_key. }
      rewrite <- (U1 Hne). apply M2; [done|]. rewrite (U1 Hne). done.
Qed.

Lemma merge_mapping_entries sed o n ks o' :
  t_kind o = KMapping -> t_kind n = KMapping -> is_paired (children o) -> NoDup (keys (children o)) ->
  marker_free_keys (children n) -> NoDup (keys (children n)) ->
  merge sed o n ks = Ok o' ->
  forall i e, pairs (children o) !! i = Some e -> exists e', pairs (children o') !! i = Some e' /\ entry_merged sed (children n) e e'.
Proof.
  intros Ho Hn Hp Hno Hm Hnd H. destruct n as [ni [nl|]].
  - rewrite merge_map_eq in H by exact Hn. by apply (merge_pairs_entries sed nl Hm Hnd o o').
  - apply (merge_pairs_entries sed [] Hm Hnd o o'); try assumption.
    cbn [merge] in H. unfold t_kind in Hn. simpl in Hn. rewrite Hn in H. exact H.
Qed.

(** Mapping nodes keep their own comments, whatever they are merged with. *)
Definition same_comments (i j : info) : Prop := i_head i = i_head j /\ i_linec i = i_linec j /\ i_foot i = i_foot j.
Lemma to_map_comments o : same_comments (t_info (to_map o)) (t_info o).
Proof. unfold to_map. destruct (kind_eqb _ _); done. Qed.
Lemma merge_pair_comments sed f nk nv o o' : merge_pair sed f nk nv o = Ok o' -> same_comments (t_info o') (t_info o).
Proof.
  unfold merge_pair. pose proof (to_map_comments o) as HM. destruct (t_content (to_map o)) as [oc|].
  - destruct (merge_entries _ _ _ _) as [[oc' [|]]| | |]; cbn [rbind]; try discriminate; intros [= <-]; [exact HM|]. by rewrite add_node_info.
  - intros [= <-]. by rewrite add_node_info.
Qed.
Lemma merge_map_comments sed o n ks o' : t_kind n = KMapping -> merge sed o n ks = Ok o' -> same_comments (t_info o') (t_info o).
Proof.
  intros Hn. destruct n as [ni [nl|]].
  - rewrite merge_map_eq by exact Hn. clear Hn. revert o. induction nl as [|x|nk nv nl IH] using list_ind2; intros o; cbn [merge_pairs]; [by intros [= <-]..|].
    destruct (merge_pair sed _ nk nv o) as [o1| | |] eqn:E; cbn [rbind]; try discriminate. apply merge_pair_comments in E.
    intros H. apply IH in H. destruct E as (E1 & E2 & E3), H as (H1 & H2 & H3). repeat split; congruence.
  - cbn [merge]. unfold t_kind in Hn. cbn [t_info] in Hn. rewrite Hn. by intros [= <-].
Qed.

(** A marker key: each entry's key becomes the expansion of the overlay's key
    with the entry's value, key and comments. *)
Definition marker_key_edit (sed : sed_engine) (nk nv : tree) (e e' : tree * tree) : Prop :=
  merge sed (snd e) nv [t_value (fst e)] = Ok (snd e') /\
  exists i : info,
    comments_from_first (fun s => format sed s (texts (t_value (snd e)) (t_value (fst e)) (t_info (fst e)))) (t_info (fst e)) (t_info nk) i /\
    t_value (fst e') = format sed (t_value nk) (texts (t_value (snd e)) (t_value (fst e)) i).

Lemma merge_entries_marker_exact sed f nk oc oc' b :
  marker_in (t_value nk) -> merge_entries sed f (t_info nk) oc = Ok (oc', b) ->
  length oc' = length oc /\ b = (match pairs oc with [] => false | _ => true end) /\
  Forall2 (fun e e' => f (snd e) (t_value (fst e)) = Ok (snd e') /\
    exists i : info,
    comments_from_first (fun s => format sed s (texts (t_value (snd e)) (t_value (fst e)) (t_info (fst e)))) (t_info (fst e)) (t_info nk) i /\
    t_value (fst e') = format sed (t_value nk) (texts (t_value (snd e)) (t_value (fst e)) i)) (pairs oc) (pairs oc').
Proof.
  intros Hm. apply check_for_markers_spec in Hm. revert oc' b.
  induction oc as [|x|x y oc IH] using list_ind2; intros oc' b H.
  - injection H as <- <-. repeat split; constructor.
  - injection H as <- <-. repeat split; constructor.
  - cbn [merge_entries] in H. unfold t_value in Hm. rewrite Hm in H. cbn [orb] in H.
    destruct (f y (t_value x)) as [y1| | |] eqn:Ef; cbn [rbind] in H; try discriminate.
    destruct (merge_entries sed f (t_info nk) oc) as [[r b']| | |]; cbn [rbind] in H; try discriminate.
    injection H as <- <-. destruct (IH r b' eq_refl) as (I1 & I2 & I3).
    split; [cbn [length]; congruence|]. split; [reflexivity|]. cbn [pairs]. constructor; [|exact I3].
    cbn [fst snd]. split; [exact Ef|].
    exists (merge_comments sed (t_info x) (t_info nk) [t_value y; t_value x]).
    split; [exact (merge_comments_from_first sed (t_info x) (t_info nk) [t_value y; t_value x])|].
    unfold merge_scalar. cbn [t_info]. rewrite fvals_texts. cbn [vtext ktext].
    destruct (kind_eqb _ _); reflexivity.
Qed.
Lemma merge_marker_key_exact sed o n ks o' nk nv :
  t_kind o = KMapping -> t_kind n = KMapping -> children n = [nk; nv] ->
  marker_in (t_value nk) -> pairs (children o) <> [] ->
  merge sed o n ks = Ok o' ->
  Forall2 (marker_key_edit sed nk nv) (pairs (children o)) (pairs (children o')).
Proof.
  intros Ho Hn Hc Hm Hne H. destruct n as [ni [nl|]]; [|discriminate].
  rewrite merge_map_eq in H by exact Hn. cbn [children t_content] in Hc. subst nl.
  cbn [merge_pairs] in H. unfold merge_pair in H. rewrite to_map_mapping in H by exact Ho.
  destruct o as [oi [oc|]]; [|cbn in Hne; congruence]. cbn [t_content children] in *.
  destruct (merge_entries sed _ (t_info nk) oc) as [[oc' b]| | |] eqn:E; cbn [rbind] in H; try discriminate.
  apply merge_entries_marker_exact in E as (E1 & E2 & E3); [|exact Hm].
  destruct (pairs oc) as [|p pp] eqn:Ep; [congruence|]. subst b. cbn [rbind] in H. injection H as <-.
  cbn [t_info children t_content]. exact E3.
Qed.
