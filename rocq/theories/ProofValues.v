From Verif Require Import Prelude GoStrings Format Yaml MergeTree SpecMerge ProofMerge ProofMergeMap ProofMergeAbs ProofMergeProps
  SpecValues Values.

Lemma assoc_None k l : assoc k l = None <-> k ∉ map fst l.
Proof.
  induction l as [|[k' v] l IH]; simpl.
  - split; [intros _; apply not_elem_of_nil|done].
  - rewrite not_elem_of_cons. destruct (decide (k' = k)); [naive_solver|]. rewrite IH. naive_solver.
Qed.

Lemma assoc_update k k' f new l :
  assoc k' (update_first k f new l) =
  if decide (k = k') then Some (match assoc k l with Some v => f v | None => new end) else assoc k' l.
Proof.
  induction l as [|[k0 v] l IH]; simpl.
  - destruct (decide (k = k')); done.
  - destruct (decide (k0 = k)) as [->|]; simpl.
    + destruct (decide (k = k')); done.
    + rewrite IH. destruct (decide (k0 = k')) as [->|]; [|done]. by destruct (decide (k = k')).
Qed.

Lemma assoc_dm l acc k : NoDup (map fst l) ->
  assoc k (dm_pairs l acc) =
  match assoc k l with
  | None => assoc k acc
  | Some v => Some (match assoc k acc with Some o => deep_merge o v | None => v end)
  end.
Proof.
  revert acc; induction l as [|[k0 v] l IH]; intros acc Hnd; [done|].
  simpl in Hnd. apply NoDup_cons in Hnd as [Hn Hnd].
  change (dm_pairs ((k0, v) :: l) acc) with (dm_pairs l (update_first k0 (fun old => deep_merge old v) v acc)).
  rewrite IH by done. simpl. rewrite assoc_update.
  destruct (decide (k0 = k)) as [->|]; [|done].
  rewrite (proj2 (assoc_None k l)) by done. done.
Qed.
(** without distinctness, keys absent from the overlay are untouched *)
Lemma assoc_dm_absent l acc k : assoc k l = None -> assoc k (dm_pairs l acc) = assoc k acc.
Proof.
  revert acc; induction l as [|[k0 v] l IH]; intros acc H; [done|]. simpl in H.
  destruct (decide (k0 = k)) as [|Hne]; [done|].
  change (dm_pairs ((k0, v) :: l) acc) with (dm_pairs l (update_first k0 (fun old => deep_merge old v) v acc)).
  rewrite IH by done. rewrite assoc_update. by rewrite decide_False.
Qed.

Lemma silent_vget ks v : silent ks v -> vget ks v = None.
Proof.
  revert v; induction ks as [|k ks IH]; intros v; simpl; [done|].
  destruct v; try done. destruct (assoc k l); [apply IH|done].
Qed.

Definition base_pairs (o : val) : list (list N * val) := match o with VMap _ l => l | _ => [] end.
Lemma vget_base k ks o : vget (k :: ks) o = match assoc k (base_pairs o) with Some x => vget ks x | None => None end.
Proof. by destruct o. Qed.
Lemma dm_base o t l : l <> [] -> exists t', deep_merge o (VMap t l) = VMap t' (dm_pairs l (base_pairs o)).
Proof. intros H. rewrite deep_merge_map. destruct l; [done|]. destruct o; by eexists. Qed.

Lemma vget_silent ks o n : silent ks n -> distinct_keys ks n -> vget ks (deep_merge o n) = vget ks o.
Proof.
  revert o n; induction ks as [|k ks IH]; intros o n; [done|]. intros Hs Hd.
  destruct n as [| |t l| |]; try done. simpl in Hs, Hd. destruct Hd as [Hnd Hd].
  destruct (decide (l = [])) as [->|Hne]; [by rewrite deep_merge_map|].
  destruct (dm_base o t l Hne) as [t' ->]. rewrite (vget_base k ks o). simpl.
  rewrite assoc_dm by done. destruct (assoc k l) as [v|]; [|done].
  destruct (assoc k (base_pairs o)) as [x|]; [by apply IH|]. by apply silent_vget.
Qed.

Lemma vget_new ks o n v : vget ks n = Some v -> distinct_keys ks n -> vget ks o = None -> vget ks (deep_merge o n) = Some v.
Proof.
  revert o n; induction ks as [|k ks IH]; intros o n; [done|]. intros Hg Hd Ho.
  destruct n as [| |t l| |]; try done. simpl in Hg, Hd. destruct Hd as [Hnd Hd].
  destruct (decide (l = [])) as [->|Hne]; [done|].
  destruct (dm_base o t l Hne) as [t' ->]. rewrite vget_base in Ho. simpl.
  rewrite assoc_dm by done. destruct (assoc k l) as [x|]; [|done].
  destruct (assoc k (base_pairs o)) as [y|]; [by apply IH|done].
Qed.

Lemma vget_scalar ks o n tag text : vget ks n = Some (VScalar tag text) -> distinct_keys ks n ->
  vget ks (deep_merge o n) = Some (VScalar tag text).
Proof.
  revert o n; induction ks as [|k ks IH]; intros o n.
  - simpl. intros [= ->] _. done.
  - intros Hg Hd. destruct n as [| |t l| |]; try done. simpl in Hg, Hd. destruct Hd as [Hnd Hd].
    destruct (decide (l = [])) as [->|Hne]; [done|].
    destruct (dm_base o t l Hne) as [t' ->]. simpl.
    rewrite assoc_dm by done. destruct (assoc k l) as [x|]; [|done].
    destruct (assoc k (base_pairs o)) as [y|]; [by apply IH|done].
Qed.

Lemma fold_silent ks o bs : Forall (fun b => silent ks b /\ distinct_keys ks b) bs ->
  vget ks (fold_left deep_merge bs o) = vget ks o.
Proof.
  revert o; induction bs as [|b bs IH]; intros o H; [done|]. apply Forall_cons in H as [[Hs Hd] H].
  simpl. rewrite IH by done. by apply vget_silent.
Qed.

(** The documents' bodies are folded by the deep merge. *)
Lemma simple_well_paired t : simple_value t -> well_paired t.
Proof.
  unfold simple_value, well_paired. intros H.
  induction t as [i|i l IH] using tree_ind'.
  - rewrite everywhere_none in *. intros Hk. unfold node_simple in H. by rewrite Hk in H.
  - rewrite everywhere_some in *. destruct H as [H1 H2]. split.
    + intros Hk. unfold node_simple in H1. by rewrite Hk in H1.
    + rewrite Forall_forall in IH, H2 |- *. intros x Hx. apply IH; [done|]. by apply H2.
Qed.

Lemma values_fold sed rest : forall d body bodies,
  t_kind d = KDocument -> t_content d = Some [body] -> well_paired body ->
  Forall2 values_doc rest bodies ->
  exists r rb, merge_node sed d rest = Ok r /\ t_kind r = KDocument /\ t_content r = Some [rb] /\
    abs rb = fold_left deep_merge (map abs bodies) (abs body).
Proof.
  induction rest as [|n rest IH]; intros d body bodies Hk Hc Hw HF.
  - apply Forall2_nil_inv_l in HF as ->. exists d, body. done.
  - apply Forall2_cons_inv_l in HF as (nb & bodies' & (Hnk & Hnc & Hns & Hnp) & HF & ->).
    destruct d as [di dc], n as [ni nc]. unfold t_kind in *. simpl in *. subst dc nc.
    destruct (merge_total sed nb (simple_no_alias nb Hns) body [i_value di]) as [b' Hb'].
    pose proof (merge_abs sed nb Hns Hnp body [i_value di] b' Hw Hb') as Habs.
    assert (Hw' : well_paired b') by (exact (merge_well_paired sed nb (simple_well_paired nb Hns) body [i_value di] b' Hw Hb')).
    set (d' := T (merge_comments sed di ni [i_value di]) (Some [b'])).
    assert (Hm : merge sed (T di (Some [body])) (T ni (Some [nb])) [] = Ok d').
    { cbn [merge]. rewrite Hnk. cbn [t_content t_info]. unfold t_value. cbn [t_info]. rewrite Hb'. done. }
    destruct (IH d' b' bodies') as (r & rb & Hr & Hrk & Hrc & Hra); [|done|done|done|].
    { unfold d', t_kind. simpl. by rewrite merge_comments_kind. }
    exists r, rb. split_and!; [|done|done|].
    + rewrite <- Hr. unfold merge_node. cbn [fold_left rbind]. by rewrite Hm.
    + rewrite Hra. simpl. by rewrite Habs.
Qed.
