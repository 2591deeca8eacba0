(** Branching (only documents, sequences and mappings have children) and
    pairing are kept by every action on trees. *)
From Verif Require Import Prelude GoStrings Format Yaml MergeTree Combine SpecMerge SpecHeap SpecDelete ProofMerge ProofMergeMap ProofMergeAbs.

Local Ltac fcons := repeat (apply Forall_cons; split).
Definition can_branch (k : kind) : Prop := k = KDocument \/ k = KSequence \/ k = KMapping.
Notation clist c := (match c with Some l => l | None => [] end).

Lemma branching_node i (c : option (list tree)) :
  (clist c <> [] -> can_branch (i_kind i)) -> Forall branching (clist c) -> branching (T i c).
Proof.
  intros H1 H2. destruct c as [l|].
  - unfold branching. rewrite everywhere_some. split; [exact H1|exact H2].
  - unfold branching. rewrite everywhere_none. exact H1.
Qed.
Lemma branching_inv i (c : option (list tree)) : branching (T i c) ->
  (clist c <> [] -> can_branch (i_kind i)) /\ Forall branching (clist c).
Proof. intros H. split; [exact (everywhere_root _ _ H)|exact (everywhere_children _ _ H)]. Qed.

Lemma sanitize_branching sed t : branching t -> branching (sanitize sed t).
Proof.
  induction t as [i|i l IH] using tree_ind'; intros H; apply branching_inv in H as [H1 H2].
  - cbn [sanitize]. destruct (i_kind i) eqn:E; apply branching_node; cbn; auto; intros X; destruct (X eq_refl).
  - assert (Hl : Forall branching (map (sanitize sed) l)).
    { clear H1. induction l as [|x l IHl]; [constructor|].
      apply Forall_cons in IH as [IHx IH]. apply Forall_cons in H2 as [Hx H2]. constructor; auto. }
    assert (NE : map (sanitize sed) l <> [] -> l <> []) by (intros X ->; by apply X).
    cbn [sanitize]. destruct (i_kind i) eqn:E; apply branching_node; cbn [sanitize_info set_comments set_value i_kind];
      rewrite ?E; auto; intros X; specialize (H1 ltac:(auto)); rewrite ?E in H1; exact H1.
Qed.

Lemma merge_scalar_branching sed o n vs : branching o -> branching (merge_scalar sed o n vs).
Proof.
  destruct o as [oi oc]. intros H. apply branching_inv in H as [H1 H2]. unfold merge_scalar, t_kind.
  cbn [t_info t_content]. destruct (kind_eqb_spec (i_kind oi) KScalar) as [E|E].
  - apply branching_node; [|exact H2]. cbn. rewrite merge_comments_kind. exact H1.
  - apply branching_node; [done|constructor].
Qed.
Lemma set_info_branching i i' c : i_kind i' = i_kind i -> branching (T i c) -> branching (T i' c).
Proof. intros He H. apply branching_inv in H as [H1 H2]. apply branching_node; [rewrite He|]; assumption. Qed.
Lemma to_map_branching o : branching o -> branching (to_map o).
Proof. unfold to_map. destruct (kind_eqb _ _); [auto|]. intros _. apply branching_node; [done|constructor]. Qed.
Lemma to_seq_branching o : branching o -> branching (to_seq o).
Proof. unfold to_seq. destruct (kind_eqb _ _); [auto|]. intros _. apply branching_node; [done|constructor]. Qed.

Lemma add_node_branching sed o nv :
  branching o -> Forall branching nv -> can_branch (t_kind o) -> branching (add_node sed o nv).
Proof.
  destruct o as [i c]. intros H Hn Hp. apply branching_inv in H as [H1 H2].
  cbn [add_node]. apply branching_node; rewrite append_content_list; [auto|].
  apply Forall_app. split; [exact H2|]. clear -Hn. induction Hn; constructor; auto using sanitize_branching.
Qed.

Lemma merge_entries_branching sed f nk oc oc' b :
  (forall ov k r, branching ov -> f ov k = Ok r -> branching r) ->
  Forall branching oc -> merge_entries sed f nk oc = Ok (oc', b) -> Forall branching oc' /\ length oc' = length oc.
Proof.
  intros Hf. revert oc' b. induction oc as [|x|x y oc IH] using list_ind2; intros oc' b Hoc H.
  - injection H as <- <-. auto.
  - injection H as <- <-. auto.
  - apply Forall_cons in Hoc as [Hx Hoc]. apply Forall_cons in Hoc as [Hy Hoc].
    cbn [merge_entries] in H.
    assert (Hx1 : forall vs, branching (T (merge_comments sed (t_info x) nk vs) (t_content x))).
    { intros vs. destruct x as [xi xc]. cbn. eapply set_info_branching; [|exact Hx]. apply merge_comments_kind. }
    destruct (_ || _).
    + destruct (f y (t_value x)) as [y1| | |] eqn:Ef; cbn [rbind] in H; try discriminate.
      destruct (check_for_markers _).
      * destruct (merge_entries sed f nk oc) as [[r b']| | |]; cbn [rbind] in H; try discriminate.
        injection H as <- <-. destruct (IH r b' Hoc eq_refl) as [I1 I2].
        split; [|cbn [length]; congruence]. fcons; [|eapply Hf; eauto|exact I1].
        apply merge_scalar_branching, Hx1.
      * injection H as <- <-. split; [|reflexivity]. fcons; [apply Hx1|eapply Hf; eauto|exact Hoc].
    + destruct (merge_entries sed f nk oc) as [[r b']| | |]; cbn [rbind] in H; try discriminate.
      injection H as <- <-. destruct (IH r b' Hoc eq_refl) as [I1 I2].
      split; [|cbn [length]; congruence]. fcons; assumption.
Qed.

Lemma merge_array_branching sed o n : branching o -> branching n -> branching (merge_array sed o n).
Proof.
  intros Ho Hn. unfold merge_array. pose proof (to_seq_branching o Ho) as H1.
  destruct n as [ni [nl|]]; cbn [t_content]; [|exact H1].
  apply branching_inv in Hn as [_ Hnl].
  destruct (to_seq o) as [i c] eqn:E.
  assert (Hk : i_kind i = KSequence).
  { unfold to_seq in E. destruct (kind_eqb_spec (t_kind o) KSequence) as [Ek|].
    - subst o. exact Ek. - injection E as <- _. reflexivity. }
  apply add_node_branching; [|exact Hnl|].
  - eapply set_info_branching; [|exact H1]. apply merge_comments_kind.
  - cbn. unfold t_kind. cbn. rewrite merge_comments_kind, Hk. right. by left.
Qed.

Lemma to_map_kind o : t_kind (to_map o) = KMapping.
Proof. unfold to_map. destruct (kind_eqb_spec (t_kind o) KMapping); [done|reflexivity]. Qed.

Lemma merge_branching sed n : branching n -> forall o ks o',
  branching o -> merge sed o n ks = Ok o' -> branching o'.
Proof.
  induction n as [i|i l IH] using tree_ind'; intros Hn o ks o' Ho H.
  - cbn [merge] in H. destruct (i_kind i) eqn:Ek.
    + injection H as <-. destruct o as [oi oc]. eapply set_info_branching; [|exact Ho]. reflexivity.
    + destruct (t_content o); injection H as <-; exact Ho.
    + injection H as <-. apply merge_array_branching; assumption.
    + injection H as <-; exact Ho.
    + pose proof (merge_scalar_branching sed o i ks Ho) as Hs.
      destruct (merge_scalar sed o i ks) as [si sc]. injection H as <-.
      eapply set_info_branching; [|exact Hs]. reflexivity.
    + discriminate.
  - pose proof (branching_inv _ _ Hn) as [Hn1 Hn2]. destruct (i_kind i) eqn:Ek.
    + cbn [merge] in H. rewrite Ek in H. injection H as <-. destruct o as [oi oc].
      eapply set_info_branching; [|exact Ho]. reflexivity.
    + cbn [merge] in H. rewrite Ek in H. destruct o as [oi [oc|]]; cbn [t_content t_info] in H.
      * destruct oc as [|o0 orest]; [discriminate|]. destruct l as [|n0 nr]; [discriminate|].
        destruct (merge sed o0 n0 _) as [r| | |] eqn:Er; cbn [rbind] in H; try discriminate.
        injection H as <-. apply branching_inv in Ho as [H1 H2]. apply Forall_cons in H2 as [H20 H2].
        apply Forall_cons in IH as [IH0 _]. apply Forall_cons in Hn2 as [Hn0 _].
        apply branching_node.
        -- rewrite merge_comments_kind. intros _. by apply H1.
        -- constructor; [|exact H2]. exact (IH0 Hn0 _ _ _ H20 Er).
      * injection H as <-. exact Ho.
    + cbn [merge] in H. rewrite Ek in H. injection H as <-. apply merge_array_branching; assumption.
    + rewrite merge_map_eq in H by exact Ek. clear Ek Hn Hn1.
      revert o Ho H. induction l as [|x|nk nv ps IHp] using list_ind2; intros o Ho H.
      * cbn in H. injection H as <-; exact Ho.
      * cbn in H. injection H as <-; exact Ho.
      * apply Forall_cons in IH as [_ IH]. apply Forall_cons in IH as [IHv IH].
        apply Forall_cons in Hn2 as [Hnk Hn2]. apply Forall_cons in Hn2 as [Hnv Hn2].
        cbn [merge_pairs] in H.
        destruct (merge_pair sed _ nk nv o) as [o1| | |] eqn:E; cbn [rbind] in H; try discriminate.
        apply (IHp IH Hn2 o1); [|exact H]. clear H IHp.
        pose proof (to_map_branching o Ho) as Hom. unfold merge_pair in E. pose proof (to_map_kind o) as Km.
        assert (Hadd : branching (add_node sed (to_map o) [nk; nv])).
        { apply add_node_branching; [exact Hom|fcons; [assumption|assumption|constructor]|]. right. by right. }
        destruct (to_map o) as [mi [mc|]]; cbn [t_content] in E; [|injection E as <-; exact Hadd].
        apply branching_inv in Hom as [Hm1 Hm2].
        destruct (merge_entries sed _ (t_info nk) mc) as [[mc' b]| | |] eqn:Ee; cbn [rbind] in E; try discriminate.
        apply merge_entries_branching in Ee as [He1 He2]; [|intros ov k r Hov Hr; eapply IHv; eauto|exact Hm2].
        destruct b; injection E as <-; [|exact Hadd]. apply branching_node; [|exact He1].
        intros _. right. right. exact Km.
    + cbn [merge] in H. rewrite Ek in H. pose proof (merge_scalar_branching sed o i ks Ho) as Hs.
      destruct (merge_scalar sed o i ks) as [si sc]. injection H as <-.
      eapply set_info_branching; [|exact Hs]. reflexivity.
    + cbn [merge] in H. rewrite Ek in H. discriminate.
Qed.

(** ** Both together *)
Definition sound (t : tree) : Prop := well_paired t /\ branching t.
Lemma merge_sound sed n o ks o' : sound n -> sound o -> merge sed o n ks = Ok o' -> sound o'.
Proof. intros [A B] [C D] H. split; [exact (merge_well_paired sed n A o ks o' C H)|exact (merge_branching sed n B o ks o' D H)]. Qed.
Lemma set_info_sound i i' c : i_kind i' = i_kind i -> sound (T i c) -> sound (T i' c).
Proof. intros E [A B]. split; [exact (set_info_well_paired _ _ _ E A)|exact (set_info_branching _ _ _ E B)]. Qed.
Lemma replace_sound sed o n : sound n -> sound (replace_node sed o n).
Proof. intros H. unfold replace_node. destruct n as [i c]. eapply set_info_sound; [|exact H]. reflexivity. Qed.
Lemma combine_sound sed o n : sound o -> sound (fst (combine_node sed o n)).
Proof.
  intros H. unfold combine_node. destruct o as [i c].
  assert (K : forall v, sound (T (set_value v (merge_comments sed i (t_info n) [])) c)).
  { intros v. eapply set_info_sound; [|exact H]. cbn. apply merge_comments_kind. }
  assert (K' : sound (T (merge_comments sed i (t_info n) []) c)).
  { eapply set_info_sound; [|exact H]. apply merge_comments_kind. }
  cbn [t_info t_content].
  repeat match goal with
  | |- sound (fst (if ?b then _ else _)) => destruct b
  | |- sound (fst (match ?b with _ => _ end)) => destruct b
  end; cbn [fst]; auto.
Qed.
Lemma sound_inv i (c : option (list tree)) : sound (T i c) ->
  (i_kind i = KMapping -> is_paired (clist c)) /\ (clist c <> [] -> can_branch (i_kind i)) /\ Forall sound (clist c).
Proof.
  intros [A B]. apply well_paired_inv in A as [A1 A2]. apply branching_inv in B as [B1 B2]. split; [done|]. split; [done|].
  rewrite Forall_forall in *. intros x X. split; auto.
Qed.
Lemma sound_node i (c : option (list tree)) :
  (i_kind i = KMapping -> is_paired (clist c)) -> (clist c <> [] -> can_branch (i_kind i)) -> Forall sound (clist c) -> sound (T i c).
Proof.
  intros A B C. split; [apply well_paired_node|apply branching_node]; auto; (eapply Forall_impl; [exact C|by intros ? []]).
Qed.
