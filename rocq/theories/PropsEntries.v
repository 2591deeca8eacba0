(** C91: merging any mapping, entry by entry. *)
From Verif Require Import Prelude GoStrings Format SpecFormat Yaml SpecMerge MergeTree ProofFormat ProofMerge ProofMergeMap ProofSanitize ProofComments ProofMergeProps Examples.

(** The same node except for its comments. *)
Definition differs_in_comments (i i' : info) : Prop :=
  i_kind i' = i_kind i /\ i_style i' = i_style i /\ i_tag i' = i_tag i /\ i_value i' = i_value i /\ i_anchor i' = i_anchor i.
(** How the texts of an overlay are expanded for the entry [e]: %v is its value, %k its key,
    the other markers its key's comments. *)
Definition for_entry (sed : sed_engine) (e : tree * tree) (s : list N) : list N := format sed s (texts (t_value (snd e)) (t_value (fst e)) (t_info (fst e))).

Lemma pairs_app sed a b : is_paired a -> forall o, merge_pairs sed (a ++ b) o = rbind (merge_pairs sed a o) (merge_pairs sed b).
Proof.
  intros [ps ->]. induction ps as [|[k v] ps IH]; intros o; [done|]. cbn [map concat app fst snd merge_pairs].
  destruct (merge_pair _ _ _ _ _); cbn [rbind]; done.
Qed.
Lemma merge_node_mapping sed o n : t_kind n = KMapping -> merge_node sed o [n] = merge_pairs sed (children n) o.
Proof. intros K. rewrite merge_node_one. destruct n as [i [l|]]; [by rewrite merge_map_eq|]. cbn. unfold t_kind in K. cbn in K. by rewrite K. Qed.

(** C91.  Merging a mapping is merging its entries one after the other: cut it anywhere between
    two entries, merge the first part, then the second part into the result. *)
Theorem C91_one_entry_after_the_other : forall sed o n n1 n2,
  t_kind n = KMapping -> t_kind n1 = KMapping -> t_kind n2 = KMapping -> is_paired (children n1) ->
  children n = children n1 ++ children n2 -> merge_node sed o [n] = merge_node sed o [n1; n2].
Proof.
  intros sed o n n1 n2 K K1 K2 P E. rewrite merge_node_mapping, E, pairs_app by done.
  transitivity (rbind (merge_node sed o [n1]) (fun x => merge_node sed x [n2])).
  - rewrite merge_node_mapping by done. destruct (merge_pairs sed (children n1) o); cbn [rbind]; try done. by rewrite merge_node_mapping.
  - unfold merge_node. cbn [fold_left rbind]. by destruct (merge sed o n1 []).
Qed.
(** Merging an empty mapping changes nothing, whatever the target. *)
Theorem C91_empty_mapping : forall sed o n, t_kind n = KMapping -> children n = [] -> merge_node sed o [n] = Ok o.
Proof. intros sed o n K E. by rewrite merge_node_mapping, E. Qed.

Lemma one_entry sed o n nk nv : t_kind n = KMapping -> children n = [nk; nv] -> merge_node sed o [n] = merge_pair sed (fun ov key => merge sed ov nv [key]) nk nv o.
Proof. intros K E. rewrite merge_node_mapping, E by done. cbn [merge_pairs]. by destruct (merge_pair _ _ _ _ _). Qed.

(** Merging one entry whose key has no marker into a mapping: if no key of the mapping has this
    text, a copy is appended, with markers blanked; otherwise the first entry with this key
    keeps its place and its key (with the comments of the overlay's key), the overlay's value
    is merged into its value, and nothing else changes. *)
Theorem C91_plain_entry : forall sed o n o' nk nv,
  t_kind o = KMapping -> t_kind n = KMapping -> children n = [nk; nv] -> ~ marker_in (t_value nk) ->
  good_shape nk -> good_shape nv -> merge_node sed o [n] = Ok o' ->
  t_info o' = t_info o /\
  ((t_value nk ∉ keys (children o) /\ exists k' v', children o' = children o ++ [k'; v'] /\ t_value k' = t_value nk /\ blank_copy sed nk k' /\ blank_copy sed nv v') \/
   (exists pre ok ov post ok' ov',
      children o = pre ++ ok :: ov :: post /\ is_paired pre /\ t_value nk ∉ keys pre /\ t_value ok = t_value nk /\
      children o' = pre ++ ok' :: ov' :: post /\
      merge sed ov nv [t_value ok] = Ok ov' /\
      t_content ok' = t_content ok /\ differs_in_comments (t_info ok) (t_info ok') /\
      comments_from_first (for_entry sed (ok, ov)) (t_info ok) (t_info nk) (t_info ok'))).
Proof.
  intros sed o n o' nk nv Ko Kn C M Gk Gv H. rewrite (one_entry sed o n nk nv Kn C) in H. apply merge_pair_step in H; [|exact M].
  split; [by rewrite (pair_step_info _ _ _ _ _ _ H), to_map_mapping|]. destruct H as [NI|pre ok ov post ov1 Hc Hp Hk Hv Hf].
  - left. rewrite to_map_mapping in * by done. split; [done|]. exists (sanitize sed nk), (sanitize sed nv).
    destruct o as [i c]. rewrite add_node_content. split; [done|]. split; [by apply sanitize_value_of|]. split; by apply sanitize_blank_copy.
  - right. rewrite to_map_mapping in Hc by done. do 6 eexists. split; [unfold children; rewrite Hc; reflexivity|]. split; [exact Hp|]. split; [exact Hk|]. split; [exact Hv|].
    split; [reflexivity|]. split; [by rewrite Hv|]. split; [reflexivity|]. split.
    + cbn [t_info]. unfold merge_comments. repeat destruct (nonempty _); done.
    + cbn [t_info]. rewrite <- Hv. exact (merge_comments_from_first sed (t_info ok) (t_info nk) [t_value ov; t_value ok]).
Qed.
(** One entry whose key has a marker, merged into a mapping with entries: all entries are
    edited (C08), each key being a scalar with the tag, style and anchor it had. *)
Theorem C91_marker_entry : forall sed o n o' nk nv,
  t_kind o = KMapping -> t_kind n = KMapping -> children n = [nk; nv] -> marker_in (t_value nk) -> is_paired (children o) -> children o <> [] ->
  merge_node sed o [n] = Ok o' ->
  t_info o' = t_info o /\ is_paired (children o') /\
  Forall2 (fun e e' =>
    merge sed (snd e) nv [t_value (fst e)] = Ok (snd e') /\
    let k := t_info (fst e) in let k' := t_info (fst e') in
    i_kind k' = KScalar /\ i_tag k' = i_tag k /\ i_style k' = i_style k /\ i_anchor k' = i_anchor k /\ (i_kind k = KScalar -> t_content (fst e') = t_content (fst e)) /\
    (i_kind k <> KScalar -> t_content (fst e') = None) /\
    exists i, comments_from_first (for_entry sed e) k (t_info nk) i /\
      let fmt s := format sed s (texts (t_value (snd e)) (t_value (fst e)) i) in
      i_value k' = fmt (t_value nk) /\ comments_from_first fmt i (t_info nk) k')
    (pairs (children o)) (pairs (children o')).
Proof.
  intros sed o n o' nk nv Ko Kn C M P NE H. rewrite (one_entry sed o n nk nv Kn C) in H. unfold merge_pair in H. rewrite to_map_mapping in H by done.
  destruct o as [oi [oc|]]; cbn [t_content children t_info] in *; [|done].
  destruct (merge_entries _ _ _ oc) as [[oc' b]| | |] eqn:E; cbn [rbind] in H; try discriminate.
  apply check_for_markers_spec in M.
  assert (X : b = true /\ is_paired oc' /\ Forall2 (fun e e' =>
    merge sed (snd e) nv [t_value (fst e)] = Ok (snd e') /\
    let k := t_info (fst e) in let k' := t_info (fst e') in
    i_kind k' = KScalar /\ i_tag k' = i_tag k /\ i_style k' = i_style k /\ i_anchor k' = i_anchor k /\ (i_kind k = KScalar -> t_content (fst e') = t_content (fst e)) /\
    (i_kind k <> KScalar -> t_content (fst e') = None) /\
    exists i, comments_from_first (for_entry sed e) k (t_info nk) i /\
      let fmt s := format sed s (texts (t_value (snd e)) (t_value (fst e)) i) in
      i_value k' = fmt (t_value nk) /\ comments_from_first fmt i (t_info nk) k')
    (pairs oc) (pairs oc')).
  { clear H Ko. destruct P as [ps ->]. revert oc' b E NE. induction ps as [|[k v] ps IH]; intros oc' b E NE; [done|].
    cbn [map concat app fst snd merge_entries] in E. unfold t_value at 1 in M. rewrite M in E. cbn [orb] in E.
    destruct (merge sed v nv [t_value k]) as [v1| | |] eqn:Ef; cbn [rbind] in E; try discriminate.
    destruct (merge_entries sed _ (t_info nk) _) as [[r b']| | |] eqn:Er; cbn [rbind] in E; try discriminate. injection E as <- <-.
    assert (R : is_paired r /\ (ps = [] -> r = [])).
    { destruct ps as [|p ps']; [cbn in Er; injection Er as <- <-; split; [by exists []|done]|]. split; [|done]. by destruct (IH r b' eq_refl ltac:(discriminate)) as (_ & ? & _). }
    split; [done|]. split; [by apply is_paired_cons, R|]. cbn [pairs map concat app fst snd]. constructor.
    - cbn [fst snd]. split; [done|]. cbv zeta.
      set (i := merge_comments sed (t_info k) (t_info nk) [t_value v; t_value k]).
      assert (Fi : i_kind i = i_kind (t_info k) /\ i_tag i = i_tag (t_info k) /\ i_style i = i_style (t_info k) /\ i_anchor i = i_anchor (t_info k)).
      { unfold i, merge_comments. repeat destruct (nonempty _); done. }
      assert (Fm : forall vs, let m := merge_comments sed i (t_info nk) vs in i_kind m = i_kind i /\ i_tag m = i_tag i /\ i_style m = i_style i /\ i_anchor m = i_anchor i).
      { intros vs. unfold merge_comments. repeat destruct (nonempty _); done. }
      destruct Fi as (F1 & F2 & F3 & F4). destruct (Fm [t_value v; t_value k]) as (M1 & M2 & M3 & M4).
      assert (KK : kind_eqb (t_kind (T i (t_content k))) KScalar = kind_eqb (i_kind (t_info k)) KScalar) by (unfold t_kind; cbn [t_info]; by rewrite F1).
      unfold merge_scalar. rewrite KK. cbn [t_info].
      pose proof (merge_comments_from_first sed i (t_info nk) [t_value v; t_value k]) as CF2. cbn [vtext ktext] in CF2.
      pose proof (merge_comments_from_first sed (t_info k) (t_info nk) [t_value v; t_value k]) as CF1. cbn [vtext ktext] in CF1. fold i in CF1.
      destruct (kind_eqb_spec (i_kind (t_info k)) KScalar) as [KS|KS]; cbn [t_info t_content];
        (split; [cbn; congruence|]; split; [cbn; congruence|]; split; [cbn; congruence|]; split; [cbn; congruence|]; split; [intros; cbn; congruence|]; split; [intros; cbn; congruence|]);
        (exists i; split; [exact CF1|]; split; [cbn [t_info set_value i_value]; by rewrite fvals_texts|exact CF2]).
    - destruct ps as [|p ps']; [rewrite (proj2 R eq_refl); constructor|]. by destruct (IH r b' eq_refl ltac:(discriminate)) as (_ & _ & ?). }
  destruct X as (-> & X1 & X2). injection H as <-. done.
Qed.
(** A key with a marker and an empty mapping: the entry is added, with markers blanked. *)
Theorem C91_marker_entry_empty_mapping : forall sed o n nk nv,
  t_kind o = KMapping -> t_kind n = KMapping -> children n = [nk; nv] -> good_shape nk -> good_shape nv -> children o = [] ->
  exists k' v', merge_node sed o [n] = Ok (T (t_info o) (Some [k'; v'])) /\ blank_copy sed nk k' /\ blank_copy sed nv v'.
Proof.
  intros sed o n nk nv Ko Kn C Gk Gv E. rewrite (one_entry sed o n nk nv Kn C). unfold merge_pair. rewrite to_map_mapping by done.
  exists (sanitize sed nk), (sanitize sed nv). split; [|split; by apply sanitize_blank_copy].
  destruct o as [oi [oc|]]; cbn [children t_content t_info] in *; [subst oc|]; reflexivity.
Qed.
(** One entry merged into what is not a mapping: the target becomes a mapping with a copy of
    this entry only, keeping its comments, style and anchor. *)
Theorem C91_target_not_a_mapping : forall sed o n nk nv,
  t_kind o <> KMapping -> t_kind n = KMapping -> children n = [nk; nv] -> good_shape nk -> good_shape nv ->
  exists o' k' v', merge_node sed o [n] = Ok o' /\ children o' = [k'; v'] /\ blank_copy sed nk k' /\ blank_copy sed nv v' /\
    t_kind o' = KMapping /\ t_tag o' = lit "!!map" /\ t_value o' = [] /\
    let i := t_info o in let i' := t_info o' in
    i_style i' = i_style i /\ i_anchor i' = i_anchor i /\ i_head i' = i_head i /\ i_linec i' = i_linec i /\ i_foot i' = i_foot i.
Proof.
  intros sed o n nk nv Ko Kn C Gk Gv. rewrite (one_entry sed o n nk nv Kn C). unfold merge_pair, to_map. destruct (kind_eqb_spec (t_kind o) KMapping) as [|_]; [done|].
  cbn [t_content merge_entries rbind]. eexists _, (sanitize sed nk), (sanitize sed nv). split; [reflexivity|]. split; [reflexivity|].
  split; [by apply sanitize_blank_copy|]. split; [by apply sanitize_blank_copy|]. done.
Qed.

(** A marker key, an existing and a new one, the existing one twice. *)
Example C91_applies :
  let n1 := mp [sc "%k"; sc "%v!"] in let n2 := mp [sc "b"; mp [sc "x"; num "3"]; sc "c"; sc "%v?"; sc "b"; mp [sc "y"; num "4"]] in
  let n := mp (children n1 ++ children n2) in let o := mp [sc "a"; num "1"; sc "b"; num "2"] in
  is_paired (children n1) /\ marker_in (lit "%k") /\ good_shape n /\
  merge_node no_sed o [n] = Ok (mp [sc "a"; sc "1!"; sc "b"; mp [sc "x"; num "3"; sc "y"; num "4"]; sc "c"; sc "?"]).
Proof.
  cbv zeta. split; [by exists [(sc "%k", sc "%v!")]|]. split; [by apply check_for_markers_spec|]. split; [cbn; repeat split; done|]. vm_compute. reflexivity.
Qed.

Print Assumptions C91_one_entry_after_the_other.
Print Assumptions C91_empty_mapping.
Print Assumptions C91_plain_entry.
Print Assumptions C91_marker_entry.
Print Assumptions C91_marker_entry_empty_mapping.
Print Assumptions C91_target_not_a_mapping.
