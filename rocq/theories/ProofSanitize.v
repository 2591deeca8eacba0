(** Proofs about blanked copies and comments (C11, C12). *)
From Verif Require Import Prelude GoStrings Format SpecFormat ProofFormat Yaml MergeTree Combine SpecMerge
  ProofMerge ProofMergeMap.

Lemma blank_fval m : fval blank m = [].
Proof. destruct m; reflexivity. Qed.

Lemma format_nil sed v : format sed [] v = [].
Proof. reflexivity. Qed.

Lemma expected_blank sed ps : expected sed (fval blank) ps = expected sed (fun _ => []) ps.
Proof.
  unfold expected. f_equal. apply map_ext. intros [t|m [[|x c]|]]; cbn [piece_out]; rewrite ?blank_fval; reflexivity.
Qed.

Lemma format_blank sed s : blanked_text sed s (format sed s blank).
Proof.
  intros ps Hok <- Hn. rewrite <- expected_blank in *. apply format_pieces; [|exact Hok|exact Hn].
  intros m. rewrite blank_fval. apply not_marker_in_nil.
Qed.

Lemma sanitize_info_blank sed i : blanked_info sed i (sanitize_info sed i).
Proof. repeat split; apply format_blank. Qed.

Lemma sanitize_blank_copy sed t : good_shape t -> blank_copy sed t (sanitize sed t).
Proof.
  induction t as [i|i l IH] using tree_ind'; intros H.
  - cbn [sanitize]. destruct (i_kind i); apply blank_leaf, sanitize_info_blank.
  - unfold good_shape in H. rewrite everywhere_some in H. destruct H as [H1 H2].
    assert (Hl : Forall2 (blank_copy sed) l (map (sanitize sed) l)).
    { clear H1. induction l as [|t l IHl]; [constructor|].
      apply Forall_cons in IH as [IHt IH]. apply Forall_cons in H2 as [Ht H2].
      cbn [map]. constructor; auto. }
    unfold node_shape, t_kind in H1. cbn [t_info t_content] in H1.
    cbn [sanitize]. destruct (i_kind i); try discriminate; apply blank_branch; auto using sanitize_info_blank.
Qed.

(** A blank copy of a tree whose blanked texts hold no marker is marker-free. *)
Lemma blanked_clean sed s s' : blanked_text sed s s' -> blanks_cleanly sed s -> ~ marker_in s'.
Proof. intros H (ps & H1 & H2 & H3). rewrite (H ps H1 H2 H3). exact H3. Qed.

Lemma blank_copy_plain sed t t' :
  blank_copy sed t t' -> everywhere (node_blanks_cleanly sed) t -> plain t'.
Proof.
  revert t'. induction t as [i|i l IH] using tree_ind'; intros t' Hb Hc.
  - inversion Hb as [? i' Hi|]; subst. apply everywhere_root in Hc. unfold plain. rewrite everywhere_none.
    destruct Hi as (_ & _ & _ & _ & A & B & C & D), Hc as (E & F & G & H).
    repeat split; eapply blanked_clean; eauto.
  - inversion Hb as [|? i' ? l' Hi Hl]; subst. unfold plain. rewrite everywhere_some in *. destruct Hc as [Hc Hcl].
    split.
    + destruct Hi as (_ & _ & _ & _ & A & B & C & D), Hc as (E & F & G & H).
      repeat split; eapply blanked_clean; eauto.
    + clear Hb Hi Hc. revert IH Hcl. induction Hl as [|x x' l l' Hx _ IHl]; intros IH Hcl; [constructor|].
      apply Forall_cons in IH as [IHx IH]. apply Forall_cons in Hcl as [Hcx Hcl].
      apply Forall_cons. split; [apply IHx; assumption|apply IHl; assumption].
Qed.

(** Marker-free trees are copied exactly. *)
Lemma blank_copy_of_plain sed t : plain t -> sanitize sed t = t.
Proof. apply sanitize_plain. Qed.

(** ** Comments *)
Lemma nonempty_spec s : nonempty s = true <-> s <> [].
Proof. destruct s; simpl; split; congruence. Qed.

Definition vtext (o : info) (vs : list (list N)) : list N := match vs with v :: _ :: _ => v | _ => i_value o end.
Definition ktext (vs : list (list N)) : list N := match vs with [] => [] | [k] => k | _ :: k :: _ => k end.
Lemma fvals_texts o vs : fvals_of o vs = texts (vtext o vs) (ktext vs) o.
Proof. unfold fvals_of, variadic, texts. rewrite !uncomment_bare. destruct vs as [|a [|b vs]]; reflexivity. Qed.

Lemma merge_comments_from_first sed o n vs :
  comments_from_first (fun s => format sed s (texts (vtext o vs) (ktext vs) o)) o n (merge_comments sed o n vs).
Proof.
  rewrite <- fvals_texts. unfold comments_from_first, merge_comments.
  destruct (i_head n) as [|a h]; [destruct (i_linec n) as [|b l]; [destruct (i_foot n) as [|c f]|]|];
    cbn [nonempty]; repeat split; intros; try congruence; reflexivity.
Qed.

Lemma comments_no_gap fmt o n r :
  fmt [] = [] -> no_comment_gap o n -> comments_from_first fmt o n r -> comments_kept fmt o n r.
Proof.
  intros Hf [G1 G2] (H1 & H2 & H3). unfold comments_kept, comment_rule.
  destruct (decide (i_head n = [])) as [Eh|Eh].
  - destruct (decide (i_linec n = [])) as [El|El].
    + destruct (H3 Eh El) as (A & B & C). repeat split; intros; try congruence; apply C; assumption.
    + destruct (H2 Eh El) as (A & B & C). repeat split; intros; try congruence.
      rewrite C. rewrite H, Hf. symmetry. apply G2; assumption.
  - destruct (H1 Eh) as (A & B & C). destruct (G1 Eh) as [G3 G4].
    repeat split; intros; try congruence.
    + rewrite B, H, Hf. symmetry. auto.
    + rewrite C, H, Hf. symmetry. auto.
Qed.

Definition tinfo_comments (i : info) := (i_head i, i_linec i, i_foot i).

Lemma replace_comments sed o n :
  comments_from_first (fun s => format sed s (texts (t_value o) [] (t_info o))) (t_info o) (t_info n)
    (t_info (replace_node sed o n)).
Proof. exact (merge_comments_from_first sed (t_info o) (t_info n) []). Qed.

Lemma merge_scalar_comments sed o n ks o' :
  t_kind n = KScalar -> merge sed o n ks = Ok o' ->
  comments_from_first (fun s => format sed s (texts (vtext (t_info o) ks) (ktext ks) (t_info o))) (t_info o) (t_info n) (t_info o').
Proof.
  intros Hk H. destruct n as [ni nc]. unfold t_kind in Hk. cbn [t_info] in *. cbn [merge] in H. rewrite Hk in H.
  pose proof (merge_comments_from_first sed (t_info o) ni ks) as Hm.
  unfold merge_scalar in H. destruct (kind_eqb _ _); injection H as <-; exact Hm.
Qed.

Lemma merge_array_comments sed o n ks o' :
  t_kind n = KSequence -> t_content n <> None -> merge sed o n ks = Ok o' ->
  let v := if decide (t_kind o = KSequence) then t_value o else [] in
  comments_from_first (fun s => format sed s (texts v v (t_info o))) (t_info o) (t_info n) (t_info o').
Proof.
  intros Hk Hc H. destruct n as [ni [nl|]]; [|cbn in Hc; congruence].
  unfold t_kind in Hk. cbn [t_info] in *. cbn [merge] in H. rewrite Hk in H. injection H as <-.
  unfold merge_array. cbn [t_content]. rewrite add_node_info. cbn [t_info].
  pose proof (merge_comments_from_first sed (t_info (to_seq o)) ni [t_value (to_seq o)]) as Hm.
  cbn [vtext ktext] in Hm. cbv zeta. unfold to_seq in *. destruct (kind_eqb_spec (t_kind o) KSequence) as [E|E]; destruct (decide (t_kind o = KSequence)); try congruence; exact Hm.
Qed.

Lemma combine_comments sed o n :
  t_kind o = KScalar -> t_kind n = KScalar ->
  comments_from_first (fun s => format sed s (texts (t_value o) [] (t_info o))) (t_info o) (t_info n)
    (t_info (fst (combine_node sed o n))).
Proof.
  intros Ho Hn. unfold combine_node. rewrite Ho, Hn. cbn [kind_eqb negb orb].
  pose proof (merge_comments_from_first sed (t_info o) (t_info n) []) as Hm.
  repeat case_match; exact Hm.
Qed.

