(** Property-level lemmas about the merge action, in the form quoted by
    PropsMerge.v. *)
From Verif Require Import Prelude GoStrings Format SpecFormat ProofFormat Yaml MergeTree SpecMerge
  ProofMerge ProofMergeMap ProofMergeAbs ProofMergeIdem ProofSanitize.

Lemma merge_node_one sed o n : merge_node sed o [n] = merge sed o n [].
Proof. reflexivity. Qed.

Lemma deep_merge_ok sed o n :
  simple_value n -> plain n -> well_paired o ->
  exists o', merge_node sed o [n] = Ok o' /\ abs o' = deep_merge (abs o) (abs n).
Proof.
  intros H1 H2 H3. rewrite merge_node_one.
  destruct (merge_total sed n (simple_no_alias n H1) o []) as [o' Ho']. exists o'. split; [exact Ho'|].
  exact (merge_abs sed n H1 H2 o [] o' H3 Ho').
Qed.

Lemma good_shape_lookup k l v : Forall good_shape l -> lookup_key k l = Some v -> good_shape v.
Proof. intros H Hv. rewrite Forall_forall in H. apply H. exact (lookup_key_elem _ _ _ Hv). Qed.

Lemma mapping_merge sed o n o' :
  t_kind o = KMapping -> t_kind n = KMapping -> is_paired (children o) -> good_shape n ->
  (forall k, k ∈ keys (children n) -> ~ marker_in k) -> NoDup (keys (children n)) ->
  merge_node sed o [n] = Ok o' ->
  (forall k, k ∉ keys (children n) -> lookup_key k (children o') = lookup_key k (children o)) /\
  (forall k v, lookup_key k (children n) = Some v -> k ∉ keys (children o) ->
     exists v', lookup_key k (children o') = Some v' /\ blank_copy sed v v') /\
  (forall k v ov, lookup_key k (children n) = Some v -> lookup_key k (children o) = Some ov ->
     exists r, merge sed ov v [k] = Ok r /\ lookup_key k (children o') = Some r).
Proof.
  intros Ho Hn Hp Hg Hm Hnd H.
  destruct (merge_mapping_effect sed o n [] o' Ho Hn Hp Hm Hnd H) as (_ & _ & _ & A & B & C).
  split; [exact A|]. split; [|exact C]. intros k v Hv Hk.
  exists (sanitize sed v). split; [apply B; [exact Hv|apply lookup_key_none; exact Hk]|].
  apply sanitize_blank_copy. eapply good_shape_lookup; [|exact Hv]. exact (everywhere_children _ _ Hg).
Qed.

Lemma mapping_order sed o n o' :
  t_kind o = KMapping -> t_kind n = KMapping -> is_paired (children o) ->
  (forall k, k ∈ keys (children n) -> ~ marker_in k) -> NoDup (keys (children n)) ->
  merge_node sed o [n] = Ok o' ->
  t_kind o' = KMapping /\ is_paired (children o') /\
  keys (children o') =
    keys (children o) ++ filter (fun k => k ∉ keys (children o)) (keys (children n)).
Proof.
  intros Ho Hn Hp Hm Hnd H.
  destruct (merge_mapping_effect sed o n [] o' Ho Hn Hp Hm Hnd H) as (A & B & C & _).
  split; [unfold t_kind; rewrite A; exact Ho|]. split; [exact B|exact C].
Qed.

Lemma Forall2_sanitize sed l : Forall good_shape l -> Forall2 (blank_copy sed) l (map (sanitize sed) l).
Proof.
  induction 1 as [|t l Ht _ IH]; cbn [map]; constructor; [apply sanitize_blank_copy; exact Ht|exact IH].
Qed.

Lemma sequence_merge sed o n :
  t_kind n = KSequence -> good_shape n ->
  exists o' added, merge_node sed o [n] = Ok o' /\ t_kind o' = KSequence /\
    Forall2 (blank_copy sed) (children n) added /\
    children o' = (if decide (t_kind o = KSequence) then children o else []) ++ added /\
    (t_kind o = KSequence -> t_tag o' = t_tag o) /\
    (t_kind o <> KSequence -> t_tag o' = lit "!!seq" /\ t_value o' = []).
Proof.
  intros Hn Hg. rewrite merge_node_one. destruct n as [ni nc]. pose proof Hn as Hn'.
  unfold t_kind in Hn. cbn [t_info] in Hn. exists (merge_array sed o (T ni nc)).
  exists (map (sanitize sed) (children (T ni nc))).
  split; [cbn [merge]; rewrite Hn; reflexivity|].
  assert (Hs : t_kind (to_seq o) = KSequence).
  { unfold to_seq. destruct (kind_eqb_spec (t_kind o) KSequence); [assumption|reflexivity]. }
  assert (Hi : forall c, let r := T (merge_comments sed (t_info (to_seq o)) ni [t_value (to_seq o)]) c in
     t_kind r = KSequence /\ t_tag r = t_tag (to_seq o) /\ t_value r = t_value (to_seq o)).
  { intros c. unfold t_kind, t_tag, t_value. cbn. rewrite merge_comments_kind, merge_comments_tag, merge_comments_value.
    auto. }
  assert (Hinfo : t_kind (merge_array sed o (T ni nc)) = KSequence /\
     t_tag (merge_array sed o (T ni nc)) = t_tag (to_seq o) /\
     t_value (merge_array sed o (T ni nc)) = t_value (to_seq o)).
  { unfold merge_array. destruct nc as [nl|]; cbn [t_content]; [|auto].
    unfold t_kind, t_tag, t_value. rewrite add_node_info. apply (Hi None). }
  assert (Hch : children (merge_array sed o (T ni nc)) = children (to_seq o) ++ map (sanitize sed) (children (T ni nc))).
  { unfold merge_array. destruct nc as [nl|]; cbn [t_content].
    - rewrite add_node_content. destruct (to_seq o) as [? [?|]]; reflexivity.
    - cbn. rewrite app_nil_r. reflexivity. }
  destruct Hinfo as (I1 & I2 & I3). split; [exact I1|].
  split; [apply Forall2_sanitize; exact (everywhere_children _ _ Hg)|].
  rewrite Hch, I2, I3. unfold to_seq.
  destruct (kind_eqb_spec (t_kind o) KSequence) as [E|E].
  - rewrite decide_True by exact E. split; [reflexivity|]. split; [reflexivity|]. congruence.
  - rewrite decide_False by exact E. split; [reflexivity|]. split; [congruence|]. intros _. split; reflexivity.
Qed.

Lemma fvals_originals o ks m :
  length ks <= 1 -> fval (fvals_of (t_info o) ks) m = originals o (match ks with [] => [] | k :: _ => k end) m.
Proof.
  intros H. destruct ks as [|k [|k2 ks]]; cbn [length] in H; [| |lia];
    destruct m; cbn [originals]; rewrite <- ?uncomment_bare; reflexivity.
Qed.

Lemma expected_ext sed f g ps : (forall m, f m = g m) -> expected sed f ps = expected sed g ps.
Proof.
  intros H. unfold expected. f_equal. apply map_ext. intros [t|m [[|x c]|]]; cbn [piece_out]; rewrite ?H; reflexivity.
Qed.

Lemma scalar_merge sed o n ks :
  t_kind n = KScalar -> good_shape o -> length ks <= 1 ->
  exists o', merge sed o n ks = Ok o' /\ t_kind o' = KScalar /\ t_content o' = None /\
    t_tag o' = t_tag n /\
    forall ps, pieces_ok ps -> src ps = t_value n ->
      let orig := originals o (match ks with [] => [] | k :: _ => k end) in
      (forall m, ~ marker_in (orig m)) ->
      ~ marker_in (expected sed orig ps) -> t_value o' = expected sed orig ps.
Proof.
  intros Hn Hg Hk. destruct n as [ni nc]. unfold t_kind in Hn. cbn [t_info] in Hn. cbn [merge]. rewrite Hn.
  destruct (merge_scalar sed o ni ks) as [ri rc] eqn:E. eexists. split; [reflexivity|].
  assert (Hr : i_kind ri = KScalar /\ rc = None /\ i_value ri = format sed (i_value ni) (fvals_of (t_info o) ks)).
  { unfold merge_scalar in E. destruct (kind_eqb_spec (t_kind o) KScalar) as [Eo|Eo].
    - injection E as <- <-. apply everywhere_root in Hg. unfold node_shape in Hg. rewrite Eo in Hg.
      split; [cbn; rewrite merge_comments_kind; exact Eo|]. split; [exact Hg|reflexivity].
    - injection E as <- <-. repeat split. }
  destruct Hr as (R1 & R2 & R3). split; [exact R1|]. split; [exact R2|]. split; [reflexivity|].
  intros ps Hok Hs Hor Hne.
  set (orig := originals o (match ks with [] => [] | k :: _ => k end)) in *. unfold t_value. cbn. rewrite R3.
  assert (Hx : expected sed orig ps = expected sed (fval (fvals_of (t_info o) ks)) ps).
  { apply expected_ext. intros m. symmetry. apply fvals_originals. exact Hk. }
  unfold t_value in Hs. cbn [t_info] in Hs.
  rewrite Hx in *. rewrite <- Hs. apply format_pieces; [|exact Hok|exact Hne].
  intros m. rewrite fvals_originals by exact Hk. apply Hor.
Qed.

Lemma scalar_merge_plain sed o n ks :
  t_kind n = KScalar -> ~ marker_in (t_value n) ->
  exists o', merge sed o n ks = Ok o' /\ t_kind o' = KScalar /\ t_tag o' = t_tag n /\ t_value o' = t_value n.
Proof.
  intros Hn Hm. destruct n as [ni nc]. unfold t_kind in Hn. cbn [t_info] in Hn. cbn [merge]. rewrite Hn.
  destruct (merge_scalar_result sed o ni ks Hm) as [A B].
  destruct (merge_scalar sed o ni ks) as [ri rc]. eexists. split; [reflexivity|].
  split; [exact A|]. split; [reflexivity|exact B].
Qed.

Lemma idempotent_merge sed o n o' :
  everywhere node_idem n -> well_paired o ->
  merge_node sed o [n] = Ok o' -> merge_node sed o' [n] = Ok o'.
Proof. intros Hn Ho H. exact (merge_idem sed n Hn o [] o' Ho H []). Qed.

Lemma marker_key_merge sed o n o' nk nv :
  t_kind o = KMapping -> t_kind n = KMapping -> children n = [nk; nv] ->
  t_value nk = lit "%k" -> pairs (children o) <> [] ->
  (forall k, k ∈ keys (children o) -> ~ marker_in k) ->
  merge_node sed o [n] = Ok o' ->
  keys (children o') = keys (children o) /\
  Forall2 (fun e e' => merge sed (snd e) nv [t_value (fst e)] = Ok (snd e'))
    (pairs (children o)) (pairs (children o')).
Proof.
  intros Ho Hn Hc Hk Hne Hmf H.
  destruct (merge_marker_key sed o n [] o' nk nv) as (A & B & C); try assumption.
  { rewrite Hk. exists [], MKey, []. reflexivity. }
  split.
  - unfold keys in *. clear -C Hk Hmf. revert Hmf.
    induction C as [|e e' l l' (_ & i & _ & He) _ IH]; intros Hmf; [reflexivity|]. cbn [map].
    f_equal.
    + rewrite He, Hk. change (lit "%k") with (marker_text MKey). rewrite format_marker.
      cbn [fval fv_key fvals_of variadic]. apply sanitize_value_id. apply Hmf. apply elem_of_list_here.
    + apply IH. intros k Hk'. apply Hmf. apply elem_of_list_further. exact Hk'.
  - eapply Forall2_impl; [exact C|]. intros e e' [He _]. exact He.
Qed.

Lemma marker_key_total sed o n nk nv :
  t_kind n = KMapping -> children n = [nk; nv] -> everywhere no_alias_no_doc nv ->
  exists o', merge_node sed o [n] = Ok o'.
Proof.
  intros Hn Hc Hv. rewrite merge_node_one. destruct n as [ni [nl|]]; [|discriminate].
  rewrite merge_map_eq by exact Hn. cbn [children t_content] in Hc. subst nl. cbn [merge_pairs].
  destruct (merge_pair_total sed (fun ov key => merge sed ov nv [key]) nk nv o) as [r ->].
  - intros ov k. apply merge_total. exact Hv.
  - cbn [rbind]. eauto.
Qed.

Lemma added_content_plain sed o n o' k v :
  t_kind o = KMapping -> t_kind n = KMapping -> is_paired (children o) -> good_shape n ->
  (forall k, k ∈ keys (children n) -> ~ marker_in k) -> NoDup (keys (children n)) ->
  merge_node sed o [n] = Ok o' ->
  lookup_key k (children n) = Some v -> k ∉ keys (children o) ->
  everywhere (node_blanks_cleanly sed) v ->
  exists v', lookup_key k (children o') = Some v' /\ plain v'.
Proof.
  intros Ho Hn Hp Hg Hm Hnd H Hv Hk Hc.
  destruct (mapping_merge sed o n o' Ho Hn Hp Hg Hm Hnd H) as (_ & B & _).
  destruct (B k v Hv Hk) as (v' & H1 & H2). exists v'. split; [exact H1|].
  eapply blank_copy_plain; eassumption.
Qed.

Lemma added_elements_plain sed o n :
  t_kind n = KSequence -> good_shape n -> Forall (everywhere (node_blanks_cleanly sed)) (children n) ->
  exists o' added, merge_node sed o [n] = Ok o' /\ Forall plain added /\
    length added = length (children n) /\
    children o' = (if decide (t_kind o = KSequence) then children o else []) ++ added.
Proof.
  intros Hn Hg Hc. destruct (sequence_merge sed o n Hn Hg) as (o' & added & A & _ & B & C & _).
  exists o', added. split; [exact A|]. split; [|split; [symmetry; exact (Forall2_length _ _ _ B)|exact C]].
  clear -B Hc. induction B as [|x y l l' Hxy _ IH]; [constructor|].
  apply Forall_cons in Hc as [Hx Hc]. apply Forall_cons. split; [eapply blank_copy_plain; eassumption|auto].
Qed.

Lemma plain_blanks_cleanly sed t : plain t -> everywhere (node_blanks_cleanly sed) t.
Proof.
  apply everywhere_impl. intros x (A & B & C & D).
  assert (H : forall s, ~ marker_in s -> blanks_cleanly sed s).
  { intros s Hs. exists [Text s]. unfold expected, src. cbn [map concat piece_src piece_out pieces_ok].
    rewrite app_nil_r. tauto. }
  unfold node_blanks_cleanly. auto.
Qed.

Lemma merge_node_well_paired sed o ns o' :
  well_paired o -> Forall well_paired ns -> merge_node sed o ns = Ok o' -> well_paired o'.
Proof.
  unfold merge_node. intros Ho Hns. revert o Ho.
  induction Hns as [|n ns Hn _ IH]; intros o Ho H; cbn [fold_left] in H.
  - injection H as <-. exact Ho.
  - cbn [rbind] in H. destruct (merge sed o n []) as [o1| e | |] eqn:E; cbn [rbind] in H.
    + eapply IH; [|exact H]. exact (merge_well_paired sed n Hn o [] o1 Ho E).
    + exfalso. clear -H. induction ns as [|m ns IH]; cbn in H; [discriminate|auto].
    + exfalso. clear -H. induction ns as [|m ns IH]; cbn in H; [discriminate|auto].
    + exfalso. clear -H. induction ns as [|m ns IH]; cbn in H; [discriminate|auto].
Qed.
