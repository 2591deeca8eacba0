(** The merge action computes the deep merge of abstract values, keeps
    documents well formed and is idempotent (C01, C03, C04, C05, C49). *)
From Verif Require Import Prelude GoStrings Format SpecFormat ProofFormat Yaml MergeTree SpecMerge
  ProofMerge ProofMergeMap.

Ltac fcons := repeat (apply List.Forall_cons || apply List.Forall_nil).

Definition entries (l : list tree) : list (list N * val) :=
  map (fun p => (t_value (fst p), abs (snd p))) (pairs l).

Lemma abs_mapping t : t_kind t = KMapping -> abs t = VMap (t_tag t) (entries (children t)).
Proof.
  destruct t as [i c]. unfold t_kind, t_tag, children. cbn [t_info t_content]. intros Hk.
  cbn [abs]. rewrite Hk. f_equal. destruct c as [l|]; [|reflexivity].
  induction l as [|x|x y l IH] using list_ind2; [reflexivity..|].
  unfold entries. cbn [pairs map fst snd]. f_equal. exact IH.
Qed.
Lemma abs_sequence t : t_kind t = KSequence -> abs t = VSeq (t_tag t) (map abs (children t)).
Proof.
  destruct t as [i c]. unfold t_kind, t_tag, children. cbn [t_info t_content]. intros Hk.
  cbn [abs]. rewrite Hk. f_equal. destruct c; reflexivity.
Qed.
Lemma abs_scalar t : t_kind t = KScalar -> abs t = VScalar (t_tag t) (t_value t).
Proof. destruct t as [i c]. unfold t_kind. cbn [t_info]. intros Hk. cbn [abs]. rewrite Hk. reflexivity. Qed.

Lemma abs_not_map t : t_kind t <> KMapping -> match abs t with VMap _ _ => False | _ => True end.
Proof. destruct t as [i c]. unfold t_kind. cbn [t_info abs]. destruct (i_kind i); try exact (fun _ => I). congruence. Qed.
Lemma abs_not_seq t : t_kind t <> KSequence -> match abs t with VSeq _ _ => False | _ => True end.
Proof. destruct t as [i c]. unfold t_kind. cbn [t_info abs]. destruct (i_kind i); try exact (fun _ => I). congruence. Qed.

Definition dm_pairs (l acc : list (list N * val)) : list (list N * val) :=
  fold_left (fun acc kv => update_first (fst kv) (fun old => deep_merge old (snd kv)) (snd kv) acc) l acc.

Lemma deep_merge_map o t l :
  deep_merge o (VMap t l) =
  match l with
  | [] => o
  | _ => let start := match o with VMap t l0 => (t, l0) | _ => (lit "!!map", []) end in
         VMap (fst start) (dm_pairs l (snd start))
  end.
Proof.
  destruct l as [|[k v] l]; [reflexivity|]. cbn [deep_merge]. f_equal.
  unfold dm_pairs. cbn [fold_left fst snd].
  generalize (update_first k (fun old => deep_merge old v) v
               (snd match o with VMap t0 l0 => (t0, l0) | _ => (lit "!!map", []) end)).
  induction l as [|[k' v'] l IH]; intros acc; [reflexivity|]. cbn [fold_left fst snd]. apply IH.
Qed.

Lemma update_first_absent k f new l : k ∉ map fst l -> update_first k f new l = l ++ [(k, new)].
Proof.
  induction l as [|[k' v] l IH]; intros H; [reflexivity|]. cbn [map fst] in H.
  apply not_elem_of_cons in H as [Hne H]. cbn [update_first].
  destruct (decide (k' = k)); [congruence|]. rewrite IH by exact H. reflexivity.
Qed.
Lemma update_first_present k f new pre v post : k ∉ map fst pre ->
  update_first k f new (pre ++ (k, v) :: post) = pre ++ (k, f v) :: post.
Proof.
  induction pre as [|[k' v'] pre IH]; intros H; cbn [app update_first].
  - destruct (decide (k = k)); [reflexivity|congruence].
  - cbn [map fst] in H. apply not_elem_of_cons in H as [Hne H].
    destruct (decide (k' = k)); [congruence|]. rewrite IH by exact H. reflexivity.
Qed.

Lemma entries_app a b : is_paired a -> entries (a ++ b) = entries a ++ entries b.
Proof. intros H. unfold entries. rewrite pairs_app by exact H. apply map_app. Qed.
Lemma entries_keys l : map fst (entries l) = keys l.
Proof. unfold entries, keys. rewrite map_map. reflexivity. Qed.

(** ** Well-pairedness is preserved by every merge *)
Lemma well_paired_node i c :
  (i_kind i = KMapping -> is_paired (match c with Some l => l | None => [] end)) ->
  Forall well_paired (match c with Some l => l | None => [] end) -> well_paired (T i c).
Proof.
  intros H1 H2. destruct c as [l|].
  - unfold well_paired. rewrite everywhere_some. split; [exact H1|exact H2].
  - unfold well_paired. rewrite everywhere_none. exact H1.
Qed.
Lemma well_paired_inv i c : well_paired (T i c) ->
  (i_kind i = KMapping -> is_paired (match c with Some l => l | None => [] end)) /\
  Forall well_paired (match c with Some l => l | None => [] end).
Proof.
  intros H. split; [exact (everywhere_root _ _ H)|exact (everywhere_children _ _ H)].
Qed.

Lemma is_paired_even l : is_paired l <-> Nat.even (length l) = true.
Proof.
  induction l as [|x|x y l IH] using list_ind2.
  - split; [reflexivity|intros _; apply is_paired_nil].
  - split; [intros H; destruct (is_paired_single _ H)|discriminate].
  - rewrite is_paired_cons, IH. reflexivity.
Qed.

Lemma sanitize_well_paired sed t : well_paired t -> well_paired (sanitize sed t).
Proof.
  induction t as [i|i l IH] using tree_ind'; intros H; apply well_paired_inv in H as [H1 H2].
  - cbn [sanitize]. apply well_paired_node; destruct (i_kind i) eqn:E; unfold sanitize_info; simpl; auto;
      intros _; apply is_paired_nil.
  - assert (Hl : Forall well_paired (map (sanitize sed) l)).
    { clear H1. induction l as [|x l IHl]; [constructor|].
      apply Forall_cons in IH as [IHx IH]. apply Forall_cons in H2 as [Hx H2]. constructor; auto. }
    assert (Hp : is_paired l -> is_paired (map (sanitize sed) l)).
    { rewrite !is_paired_even, map_length. auto. }
    cbn [sanitize]. apply well_paired_node; destruct (i_kind i) eqn:E; unfold sanitize_info; cbn; auto; congruence.
Qed.

Lemma merge_scalar_well_paired sed o n vs : well_paired o -> well_paired (merge_scalar sed o n vs).
Proof.
  destruct o as [oi oc]. intros H. apply well_paired_inv in H as [H1 H2]. unfold merge_scalar, t_kind.
  cbn [t_info t_content]. destruct (kind_eqb_spec (i_kind oi) KScalar) as [E|E].
  - apply well_paired_node; [|exact H2]. cbn. rewrite merge_comments_kind. exact H1.
  - apply well_paired_node; [discriminate|constructor].
Qed.

Lemma set_info_well_paired i i' c : i_kind i' = i_kind i -> well_paired (T i c) -> well_paired (T i' c).
Proof. intros He H. apply well_paired_inv in H as [H1 H2]. apply well_paired_node; [rewrite He|]; assumption. Qed.

Lemma to_map_well_paired o : well_paired o -> well_paired (to_map o).
Proof.
  unfold to_map. destruct (kind_eqb _ _); [auto|]. intros _.
  apply well_paired_node; [intros _; apply is_paired_nil|constructor].
Qed.
Lemma to_seq_well_paired o : well_paired o -> well_paired (to_seq o).
Proof.
  unfold to_seq. destruct (kind_eqb _ _); [auto|]. intros _.
  apply well_paired_node; [discriminate|constructor].
Qed.

Lemma append_content_list c l :
  match append_content c l with Some x => x | None => [] end
  = match c with Some x => x | None => [] end ++ l.
Proof. destruct c, l; reflexivity. Qed.

Lemma add_node_well_paired sed o nv :
  well_paired o -> Forall well_paired nv -> (t_kind o = KMapping -> is_paired nv) ->
  well_paired (add_node sed o nv).
Proof.
  destruct o as [i c]. intros H Hn Hp. apply well_paired_inv in H as [H1 H2].
  cbn [add_node]. apply well_paired_node; rewrite append_content_list.
  - intros Hk. apply is_paired_app; [auto|]. rewrite is_paired_even, map_length, <- is_paired_even. auto.
  - apply Forall_app. split; [exact H2|]. clear -Hn. induction Hn; constructor; auto using sanitize_well_paired.
Qed.

Lemma merge_entries_well_paired sed f nk oc oc' b :
  (forall ov k r, well_paired ov -> f ov k = Ok r -> well_paired r) ->
  Forall well_paired oc -> merge_entries sed f nk oc = Ok (oc', b) ->
  Forall well_paired oc' /\ length oc' = length oc.
Proof.
  intros Hf. revert oc' b. induction oc as [|x|x y oc IH] using list_ind2; intros oc' b Hoc H.
  - injection H as <- <-. auto.
  - injection H as <- <-. auto.
  - apply Forall_cons in Hoc as [Hx Hoc]. apply Forall_cons in Hoc as [Hy Hoc].
    cbn [merge_entries] in H.
    assert (Hx1 : forall vs, well_paired (T (merge_comments sed (t_info x) nk vs) (t_content x))).
    { intros vs. destruct x as [xi xc]. cbn. eapply set_info_well_paired; [|exact Hx]. apply merge_comments_kind. }
    destruct (_ || _).
    + destruct (f y (t_value x)) as [y1| | |] eqn:Ef; cbn [rbind] in H; try discriminate.
      destruct (check_for_markers _).
      * destruct (merge_entries sed f nk oc) as [[r b']| | |]; cbn [rbind] in H; try discriminate.
        injection H as <- <-. destruct (IH r b' Hoc eq_refl) as [I1 I2].
        split; [|cbn [length]; congruence]. fcons; [|eapply Hf; eauto|exact I1].
        apply merge_scalar_well_paired, Hx1.
      * injection H as <- <-. split; [|reflexivity]. fcons; [apply Hx1|eapply Hf; eauto|exact Hoc].
    + destruct (merge_entries sed f nk oc) as [[r b']| | |]; cbn [rbind] in H; try discriminate.
      injection H as <- <-. destruct (IH r b' Hoc eq_refl) as [I1 I2].
      split; [|cbn [length]; congruence]. fcons; assumption.
Qed.

Lemma merge_array_well_paired sed o n : well_paired o -> well_paired n -> well_paired (merge_array sed o n).
Proof.
  intros Ho Hn. unfold merge_array. pose proof (to_seq_well_paired o Ho) as H1.
  destruct n as [ni [nl|]]; cbn [t_content]; [|exact H1].
  apply well_paired_inv in Hn as [_ Hnl].
  destruct (to_seq o) as [i c] eqn:E.
  assert (Hk : i_kind i = KSequence).
  { unfold to_seq in E. destruct (kind_eqb_spec (t_kind o) KSequence) as [Ek|].
    - subst o. exact Ek. - injection E as <- _. reflexivity. }
  apply add_node_well_paired; [|exact Hnl|].
  - eapply set_info_well_paired; [|exact H1]. apply merge_comments_kind.
  - cbn. unfold t_kind. cbn. rewrite merge_comments_kind, Hk. discriminate.
Qed.

Lemma merge_well_paired sed n : well_paired n -> forall o ks o',
  well_paired o -> merge sed o n ks = Ok o' -> well_paired o'.
Proof.
  induction n as [i|i l IH] using tree_ind'; intros Hn o ks o' Ho H.
  - cbn [merge] in H. destruct (i_kind i) eqn:Ek.
    + injection H as <-. destruct o as [oi oc]. eapply set_info_well_paired; [|exact Ho]. reflexivity.
    + destruct (t_content o); injection H as <-; exact Ho.
    + injection H as <-. apply merge_array_well_paired; assumption.
    + injection H as <-; exact Ho.
    + pose proof (merge_scalar_well_paired sed o i ks Ho) as Hs.
      destruct (merge_scalar sed o i ks) as [si sc]. injection H as <-.
      eapply set_info_well_paired; [|exact Hs]. reflexivity.
    + discriminate.
  - pose proof (well_paired_inv _ _ Hn) as [Hn1 Hn2]. destruct (i_kind i) eqn:Ek.
    + cbn [merge] in H. rewrite Ek in H. injection H as <-. destruct o as [oi oc].
      eapply set_info_well_paired; [|exact Ho]. reflexivity.
    + cbn [merge] in H. rewrite Ek in H. destruct o as [oi [oc|]]; cbn [t_content t_info] in H.
      * destruct oc as [|o0 orest]; [discriminate|]. destruct l as [|n0 nr]; [discriminate|].
        destruct (merge sed o0 n0 _) as [r| | |] eqn:Er; cbn [rbind] in H; try discriminate.
        injection H as <-. apply well_paired_inv in Ho as [H1 H2]. apply Forall_cons in H2 as [H20 H2].
        apply Forall_cons in IH as [IH0 _]. apply Forall_cons in Hn2 as [Hn0 _].
        apply well_paired_node.
        -- rewrite merge_comments_kind. intros Hk. specialize (H1 Hk). rewrite is_paired_even in *. exact H1.
        -- constructor; [|exact H2]. exact (IH0 Hn0 _ _ _ H20 Er).
      * injection H as <-. exact Ho.
    + cbn [merge] in H. rewrite Ek in H. injection H as <-. apply merge_array_well_paired; assumption.
    + rewrite merge_map_eq in H by exact Ek. specialize (Hn1 eq_refl). clear Ek Hn.
      revert o Ho H. induction l as [|x|nk nv ps IHp] using list_ind2; intros o Ho H.
      * cbn in H. injection H as <-; exact Ho.
      * cbn in H. injection H as <-; exact Ho.
      * apply Forall_cons in IH as [_ IH]. apply Forall_cons in IH as [IHv IH].
        apply Forall_cons in Hn2 as [Hnk Hn2]. apply Forall_cons in Hn2 as [Hnv Hn2].
        cbn [merge_pairs] in H.
        destruct (merge_pair sed _ nk nv o) as [o1| | |] eqn:E; cbn [rbind] in H; try discriminate.
        apply (IHp IH (is_paired_tail _ _ _ Hn1) Hn2 o1); [|exact H]. clear H IHp.
        pose proof (to_map_well_paired o Ho) as Hom. unfold merge_pair in E.
        assert (Hadd : well_paired (add_node sed (to_map o) [nk; nv])).
        { apply add_node_well_paired; [exact Hom|fcons; assumption|].
          intros _. apply is_paired_cons, is_paired_nil. }
        destruct (to_map o) as [mi [mc|]]; cbn [t_content] in E; [|injection E as <-; exact Hadd].
        apply well_paired_inv in Hom as [Hm1 Hm2].
        destruct (merge_entries sed _ (t_info nk) mc) as [[mc' b]| | |] eqn:Ee; cbn [rbind] in E; try discriminate.
        apply merge_entries_well_paired in Ee as [He1 He2]; [|intros ov k r Hov Hr; eapply IHv; eauto|exact Hm2].
        destruct b; injection E as <-; [|exact Hadd]. apply well_paired_node; [|exact He1].
        intros Hk. specialize (Hm1 Hk). rewrite is_paired_even in *. rewrite He2. exact Hm1.
    + cbn [merge] in H. rewrite Ek in H. pose proof (merge_scalar_well_paired sed o i ks Ho) as Hs.
      destruct (merge_scalar sed o i ks) as [si sc]. injection H as <-.
      eapply set_info_well_paired; [|exact Hs]. reflexivity.
    + cbn [merge] in H. rewrite Ek in H. discriminate.
Qed.

(** ** Deep merge *)
Lemma simple_no_alias n : simple_value n -> everywhere no_alias_no_doc n.
Proof.
  apply everywhere_impl. intros t H. unfold node_simple in H. split; intros E; rewrite E in H; exact H.
Qed.
Lemma simple_well_paired n : simple_value n -> well_paired n.
Proof.
  apply everywhere_impl. intros t H Hk. unfold node_simple in H. rewrite Hk in H. exact H.
Qed.

Lemma pair_step_entries sed nk nv o o1 :
  plain nk -> plain nv -> is_paired (children (to_map o)) ->
  (forall ov r, ov ∈ children (to_map o) -> merge sed ov nv [t_value nk] = Ok r ->
      abs r = deep_merge (abs ov) (abs nv)) ->
  pair_step sed (fun ov key => merge sed ov nv [key]) nk nv o o1 ->
  entries (children o1) =
  update_first (t_value nk) (fun old => deep_merge old (abs nv)) (abs nv) (entries (children (to_map o))).
Proof.
  intros Hnk Hnv Hp IH Hs. destruct Hs as [Hk|pre ok ov post ov1 Hc Hpre Hk Hv Hf].
  - destruct (to_map o) as [i c] eqn:Eo. rewrite add_node_content.
    rewrite update_first_absent by (rewrite entries_keys; exact Hk).
    rewrite entries_app by exact Hp. f_equal. cbn [map]. rewrite !sanitize_plain by assumption. reflexivity.
  - assert (Ec : children (to_map o) = pre ++ ok :: ov :: post) by (unfold children; rewrite Hc; reflexivity).
    rewrite Ec in *. cbn [children t_content]. rewrite !entries_app by exact Hpre.
    unfold entries at 2 4. cbn [pairs map fst snd]. rewrite Hv.
    rewrite update_first_present by (rewrite entries_keys; exact Hk). f_equal. f_equal.
    rewrite (IH ov ov1); [|apply elem_of_app; right; apply elem_of_list_further, elem_of_list_here|exact Hf].
    f_equal. unfold t_value. cbn [t_info]. rewrite merge_comments_value. exact Hv.
Qed.

Lemma to_map_children_or o :
  (t_kind o = KMapping /\ to_map o = o) \/
  (t_kind o <> KMapping /\ children (to_map o) = [] /\ t_tag (to_map o) = lit "!!map").
Proof.
  unfold to_map. destruct (kind_eqb_spec (t_kind o) KMapping) as [E|E]; [left; auto|right].
  split; [exact E|]. split; reflexivity.
Qed.

Lemma merge_scalar_result sed o ni ks :
  ~ marker_in (i_value ni) -> t_kind (merge_scalar sed o ni ks) = KScalar /\
  t_value (merge_scalar sed o ni ks) = i_value ni.
Proof.
  intros Hm. unfold merge_scalar. rewrite format_no_marker by exact Hm.
  destruct (kind_eqb_spec (t_kind o) KScalar) as [E|E]; [|split; reflexivity].
  split; [|reflexivity]. unfold t_kind in *. cbn. rewrite merge_comments_kind. exact E.
Qed.

Lemma merge_array_abs sed o n :
  plain n -> t_kind n = KSequence ->
  abs (merge_array sed o n) = deep_merge (abs o) (abs n).
Proof.
  intros Hpl Hk. rewrite (abs_sequence n Hk). cbn [deep_merge].
  assert (Hm : map (sanitize sed) (children n) = children n).
  { apply map_sanitize_plain. exact (everywhere_children _ _ Hpl). }
  assert (Hkk : t_kind (merge_array sed o n) = KSequence).
  { unfold merge_array, to_seq. destruct (kind_eqb_spec (t_kind o) KSequence) as [E|E];
      destruct (t_content n); try reflexivity; try exact E;
      unfold t_kind; rewrite add_node_info; cbn; rewrite merge_comments_kind; try reflexivity; exact E. }
  assert (Htag : t_tag (merge_array sed o n) = t_tag (to_seq o)).
  { unfold merge_array. destruct (t_content n); [|reflexivity]. unfold t_tag. rewrite add_node_info. cbn.
    apply merge_comments_tag. }
  assert (Hch : children (merge_array sed o n) = children (to_seq o) ++ children n).
  { unfold merge_array. destruct (t_content n) as [nl|] eqn:E.
    - rewrite add_node_content. unfold children at 3. rewrite E. unfold children in Hm. rewrite E in Hm.
      rewrite Hm. destruct (to_seq o) as [? [?|]]; reflexivity.
    - unfold children at 3. rewrite E. rewrite app_nil_r. reflexivity. }
  rewrite (abs_sequence _ Hkk), Htag, Hch, map_app.
  unfold to_seq. destruct (kind_eqb_spec (t_kind o) KSequence) as [E|E].
  - rewrite (abs_sequence o E). reflexivity.
  - pose proof (abs_not_seq o E). cbn. destruct (abs o); tauto.
Qed.

Lemma merge_abs sed n : simple_value n -> plain n -> forall o ks o',
  well_paired o -> merge sed o n ks = Ok o' -> abs o' = deep_merge (abs o) (abs n).
Proof.
  induction n as [i|i l IH] using tree_ind'; intros Hs Hpl o ks o' Ho H.
  - pose proof (everywhere_root _ _ Hs) as Hk. unfold node_simple, t_kind in Hk. cbn [t_info] in Hk.
    destruct (i_kind i) eqn:Ek; try contradiction; cbn [merge] in H; rewrite Ek in H.
    + injection H as <-. apply merge_array_abs; assumption.
    + injection H as <-. cbn [abs]. rewrite Ek. reflexivity.
    + apply everywhere_root in Hpl as [Hv _]. cbn [t_info] in Hv.
      destruct (merge_scalar_result sed o i ks Hv) as [M1 M2].
      destruct (merge_scalar sed o i ks) as [si sc]. injection H as <-.
      rewrite abs_scalar by exact M1. rewrite (abs_scalar (T i None)) by exact Ek.
      cbn. unfold t_value in *. cbn in *. rewrite M2. reflexivity.
  - pose proof (everywhere_root _ _ Hs) as Hk. unfold node_simple, t_kind in Hk. cbn [t_info] in Hk.
    destruct (i_kind i) eqn:Ek; try contradiction.
    + cbn [merge] in H. rewrite Ek in H. injection H as <-. apply merge_array_abs; assumption.
    + rewrite merge_map_eq in H by exact Ek.
      rewrite (abs_mapping (T i (Some l)) Ek). cbn [children t_content] in *.
      pose proof (everywhere_children _ _ Hs) as Hsl. pose proof (everywhere_children _ _ Hpl) as Hpll.
      cbn [children t_content] in Hsl, Hpll. clear Hs Hpl Ek.
      generalize (t_tag (T i (Some l))). intros tg. clear i.
      (* loop invariant *)
      assert (Hloop : forall o, t_kind o = KMapping -> well_paired o -> forall o', merge_pairs sed l o = Ok o' ->
                t_kind o' = KMapping /\ t_tag o' = t_tag o /\
                entries (children o') = dm_pairs (entries l) (entries (children o))).
      { clear H o o' Ho ks tg. induction l as [|x|nk nv ps IHp] using list_ind2; intros o Hok Ho o' H.
        - injection H as <-. auto.
        - destruct (is_paired_single _ Hk).
        - apply Forall_cons in IH as [_ IH]. apply Forall_cons in IH as [IHv IH].
          apply Forall_cons in Hsl as [Hsk Hsl]. apply Forall_cons in Hsl as [Hsv Hsl].
          apply Forall_cons in Hpll as [Hpk Hpll]. apply Forall_cons in Hpll as [Hpv Hpll].
          cbn [merge_pairs] in H.
          destruct (merge_pair sed _ nk nv o) as [o1| | |] eqn:E; cbn [rbind] in H; try discriminate.
          assert (Ho1 : well_paired o1).
          { assert (Hw : merge sed o (T (mkInfo KMapping 0 [] [] [] [] [] [] 0 0) (Some [nk; nv])) [] = Ok o1).
            { rewrite merge_map_eq by reflexivity. cbn [merge_pairs]. rewrite E. reflexivity. }
            eapply merge_well_paired; [|exact Ho|exact Hw]. apply well_paired_node.
            - intros _. apply is_paired_cons, is_paired_nil.
            - fcons; apply simple_well_paired; assumption. }
          pose proof (everywhere_root _ _ Ho Hok) as Hop.
          apply merge_pair_step in E; [|exact (proj1 (everywhere_root _ _ Hpk))].
          pose proof (pair_step_info _ _ _ _ _ _ E) as Hi. rewrite (to_map_mapping o Hok) in Hi.
          assert (Hk1 : t_kind o1 = KMapping) by (unfold t_kind in *; rewrite Hi; exact Hok).
          apply pair_step_entries in E; [|exact Hpk|exact Hpv|rewrite to_map_mapping by exact Hok; exact Hop|].
          2:{ rewrite to_map_mapping by exact Hok. intros ov r Hov Hr. eapply IHv; eauto.
              pose proof (everywhere_children _ _ Ho) as Hc. rewrite Forall_forall in Hc. apply Hc. exact Hov. }
          rewrite to_map_mapping in E by exact Hok.
          destruct (IHp IH (is_paired_tail _ _ _ Hk) Hsl Hpll o1 Hk1 Ho1 o' H) as (J1 & J2 & J3).
          split; [exact J1|]. split; [unfold t_tag in *; rewrite J2, Hi; reflexivity|].
          rewrite J3, E. reflexivity. }
      rewrite deep_merge_map.
      destruct l as [|nk [|nv ps]]; [injection H as <-; reflexivity|destruct (is_paired_single _ Hk)|].
      change (entries (nk :: nv :: ps)) with ((t_value nk, abs nv) :: entries ps) in *.
      destruct (to_map_children_or o) as [[Hok Heq]|(Hok & Hch & Htg)].
      * destruct (Hloop o Hok Ho o' H) as (J1 & J2 & J3).
        rewrite (abs_mapping o' J1), J2, J3. rewrite (abs_mapping o Hok). reflexivity.
      * assert (H' : merge_pairs sed (nk :: nv :: ps) (to_map o) = Ok o').
        { cbn [merge_pairs] in *. unfold merge_pair in *.
          rewrite (to_map_mapping (to_map o)) by apply to_map_kind. exact H. }
        destruct (Hloop (to_map o) (to_map_kind o) (to_map_well_paired o Ho) o' H') as (J1 & J2 & J3).
        rewrite (abs_mapping o' J1), J2, J3, Hch, Htg.
        pose proof (abs_not_map o Hok). destruct (abs o); tauto.
    + discriminate.
Qed.
