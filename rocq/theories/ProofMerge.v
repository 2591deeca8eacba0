(** Proofs about the tree model of merge.go. *)
From Verif Require Import Prelude GoStrings Format SpecFormat ProofFormat Yaml MergeTree SpecMerge.

(** ** Lists two by two *)
Lemma list_ind2 {A} (P : list A -> Prop) :
  P [] -> (forall x, P [x]) -> (forall x y l, P l -> P (x :: y :: l)) -> forall l, P l.
Proof.
  intros H0 H1 H2. assert (forall l, P l /\ forall x, P (x :: l)) as H.
  { induction l as [|x l [IH1 IH2]]; split; auto. }
  intros l. apply H.
Qed.

Lemma is_paired_nil : is_paired [].
Proof. exists []. reflexivity. Qed.
Lemma is_paired_cons k v l : is_paired (k :: v :: l) <-> is_paired l.
Proof.
  split; intros [ps H].
  - destruct ps as [|[a b] ps]; [discriminate|]. exists ps. simpl in H. congruence.
  - exists ((k, v) :: ps). simpl. congruence.
Qed.
Lemma is_paired_tail k v l : is_paired (k :: v :: l) -> is_paired l.
Proof. intros H. exact (proj1 (is_paired_cons k v l) H). Qed.
Lemma is_paired_single x : ~ is_paired [x].
Proof. intros [[|[a b] ps] H]; discriminate. Qed.
Lemma is_paired_app a b : is_paired a -> is_paired b -> is_paired (a ++ b).
Proof. intros [p ->] [q ->]. exists (p ++ q). rewrite map_app, concat_app. reflexivity. Qed.

Lemma pairs_app a b : is_paired a -> pairs (a ++ b) = pairs a ++ pairs b.
Proof.
  induction a as [|x|x y a IH] using list_ind2; intros H; [reflexivity| |].
  - destruct (is_paired_single _ H).
  - apply is_paired_tail in H. simpl. rewrite IH by exact H. reflexivity.
Qed.
Lemma keys_app a b : is_paired a -> keys (a ++ b) = keys a ++ keys b.
Proof. intros H. unfold keys. rewrite pairs_app by exact H. apply map_app. Qed.

Lemma lookup_pairs_app k a b :
  lookup_pairs k (a ++ b) =
  match lookup_pairs k a with Some v => Some v | None => lookup_pairs k b end.
Proof.
  induction a as [|[kn v] a IH]; [reflexivity|]. cbn [app lookup_pairs].
  destruct (decide (t_value kn = k)); [reflexivity|exact IH].
Qed.
Lemma lookup_key_app k a b : is_paired a ->
  lookup_key k (a ++ b) =
  match lookup_key k a with Some v => Some v | None => lookup_key k b end.
Proof. intros H. unfold lookup_key. rewrite pairs_app by exact H. apply lookup_pairs_app. Qed.

Lemma lookup_key_none k l : lookup_key k l = None <-> k ∉ keys l.
Proof.
  unfold lookup_key, keys. induction (pairs l) as [|[kn v] ps IH]; cbn [lookup_pairs map fst].
  - split; [intros _; apply not_elem_of_nil|reflexivity].
  - destruct (decide (t_value kn = k)) as [He|Hne].
    + split; [discriminate|]. intros H. exfalso. apply H. rewrite He. apply elem_of_list_here.
    + rewrite IH. rewrite not_elem_of_cons. intuition congruence.
Qed.

(** ** everywhere *)
Lemma everywhere_some P i l :
  everywhere P (T i (Some l)) <-> P (T i (Some l)) /\ Forall (everywhere P) l.
Proof.
  cbn [everywhere]. f_equiv. induction l as [|t l IH]; simpl.
  - split; [intros _; constructor|auto].
  - rewrite Forall_cons, IH. reflexivity.
Qed.
Lemma everywhere_none P i : everywhere P (T i None) <-> P (T i None).
Proof. cbn [everywhere]. tauto. Qed.
Lemma everywhere_root P t : everywhere P t -> P t.
Proof. destruct t; cbn [everywhere]; tauto. Qed.
Lemma everywhere_children P t : everywhere P t -> Forall (everywhere P) (children t).
Proof.
  destruct t as [i [l|]]; intros H; [|constructor]. rewrite everywhere_some in H. apply H.
Qed.
Lemma everywhere_impl (P Q : tree -> Prop) t :
  (forall t, P t -> Q t) -> everywhere P t -> everywhere Q t.
Proof.
  intros HPQ. induction t as [i|i l IH] using tree_ind'.
  - rewrite !everywhere_none. auto.
  - rewrite !everywhere_some. intros [H1 H2]. split; [auto|].
    rewrite Forall_forall in *. intros x Hx. apply IH; auto.
Qed.
Lemma everywhere_and P Q t :
  everywhere (fun t => P t /\ Q t) t <-> everywhere P t /\ everywhere Q t.
Proof.
  induction t as [i|i l IH] using tree_ind'.
  - rewrite !everywhere_none. tauto.
  - rewrite !everywhere_some. rewrite !Forall_forall in *. split.
    + intros [[H1 H2] H3]. repeat split; auto; intros x Hx; apply IH; auto.
    + intros [[H1 H2] [H3 H4]]. repeat split; auto. intros x Hx. apply IH; auto.
Qed.

(** ** Unfolding [merge] *)
Lemma merge_map_eq sed o ni nl ks :
  i_kind ni = KMapping -> merge sed o (T ni (Some nl)) ks = merge_pairs sed nl o.
Proof.
  intros H. cbn [merge]. rewrite H. revert o. induction nl as [|x|x y l IH] using list_ind2;
    intros o; [reflexivity|reflexivity|]. cbn [merge_pairs].
  destruct (merge_pair sed _ x y o); cbn [rbind]; auto.
Qed.

(** ** Sanitising *)
Lemma format_plain sed s v : ~ marker_in s -> format sed s v = s.
Proof. apply format_no_marker. Qed.

Lemma sanitize_info_plain sed i c : node_plain (T i c) -> sanitize_info sed i = i.
Proof.
  intros (H1 & H2 & H3 & H4). simpl in *. unfold sanitize_info.
  rewrite !format_no_marker by assumption. destruct i; reflexivity.
Qed.

Lemma sanitize_plain sed t : plain t -> sanitize sed t = t.
Proof.
  induction t as [i|i l IH] using tree_ind'; intros H.
  - apply everywhere_root in H. cbn [sanitize]. rewrite (sanitize_info_plain sed i None H).
    destruct (i_kind i); reflexivity.
  - unfold plain in H; rewrite everywhere_some in H; destruct H as [Hi Hl]. cbn [sanitize]. rewrite (sanitize_info_plain sed i _ Hi).
    assert (Hm : map (sanitize sed) l = l).
    { clear Hi. induction l as [|t l IHl]; [reflexivity|].
      apply Forall_cons in Hl as [Ht Hl]. apply Forall_cons in IH as [IHt IH].
      simpl. rewrite IHt by exact Ht. rewrite IHl by assumption. reflexivity. }
    rewrite Hm. destruct (i_kind i); reflexivity.
Qed.

Lemma map_sanitize_plain sed l : Forall plain l -> map (sanitize sed) l = l.
Proof.
  induction 1 as [|t l Ht _ IH]; [reflexivity|]. simpl. rewrite sanitize_plain, IH; auto.
Qed.

(** ** Comments *)
Lemma merge_comments_kind sed o n vs : i_kind (merge_comments sed o n vs) = i_kind o.
Proof. unfold merge_comments. repeat (case_match; try reflexivity). Qed.
Lemma merge_comments_value sed o n vs : i_value (merge_comments sed o n vs) = i_value o.
Proof. unfold merge_comments. repeat (case_match; try reflexivity). Qed.
Lemma merge_comments_tag sed o n vs : i_tag (merge_comments sed o n vs) = i_tag o.
Proof. unfold merge_comments. repeat (case_match; try reflexivity). Qed.
Lemma merge_comments_style sed o n vs : i_style (merge_comments sed o n vs) = i_style o.
Proof. unfold merge_comments. repeat (case_match; try reflexivity). Qed.
Lemma merge_comments_anchor sed o n vs : i_anchor (merge_comments sed o n vs) = i_anchor o.
Proof. unfold merge_comments. repeat (case_match; try reflexivity). Qed.
Lemma merge_comments_none sed o n vs :
  i_head n = [] -> i_linec n = [] -> i_foot n = [] -> merge_comments sed o n vs = o.
Proof. intros H1 H2 H3. unfold merge_comments. rewrite H1, H2, H3. reflexivity. Qed.

(** ** The inner loop for a key without markers *)
Lemma check_markers_false s : check_for_markers s = false <-> ~ marker_in s.
Proof. rewrite <- check_for_markers_spec. destruct (check_for_markers s); split; congruence. Qed.

Lemma merge_entries_absent sed f nk oc :
  ~ marker_in (i_value nk) -> i_value nk ∉ keys oc ->
  merge_entries sed f nk oc = Ok (oc, false).
Proof.
  intros Hm. apply check_markers_false in Hm.
  induction oc as [|x|x y oc IH] using list_ind2; intros H; [reflexivity..|].
  unfold keys in H. cbn [pairs map fst] in H. apply not_elem_of_cons in H as [Hne H].
  cbn [merge_entries]. rewrite Hm. cbn [orb].
  destruct (seq_eqb_spec (t_value x) (i_value nk)) as [He|_]; [congruence|].
  rewrite IH by exact H. reflexivity.
Qed.

Lemma keys_split k oc : k ∈ keys oc ->
  exists pre ok ov post, oc = pre ++ ok :: ov :: post /\ is_paired pre /\ k ∉ keys pre /\ t_value ok = k.
Proof.
  induction oc as [|x|x y oc IH] using list_ind2; intros H.
  - apply elem_of_nil in H. destruct H.
  - apply elem_of_nil in H. destruct H.
  - unfold keys in H. cbn [pairs map fst] in H.
    destruct (decide (t_value x = k)) as [He|Hne].
    + exists [], x, y, oc. split; [reflexivity|]. split; [apply is_paired_nil|].
      split; [apply not_elem_of_nil|exact He].
    + apply elem_of_cons in H as [H|H]; [congruence|].
      destruct (IH H) as (pre & ok & ov & post & -> & Hp & Hk & Hv).
      exists (x :: y :: pre), ok, ov, post. split; [reflexivity|].
      split; [apply is_paired_cons; exact Hp|]. split; [|exact Hv].
      unfold keys. cbn [pairs map fst]. apply not_elem_of_cons. auto.
Qed.

Lemma merge_entries_present sed f nk pre ok ov post :
  ~ marker_in (i_value nk) -> is_paired pre -> i_value nk ∉ keys pre -> t_value ok = i_value nk ->
  merge_entries sed f nk (pre ++ ok :: ov :: post) =
  let! ov1 := f ov (t_value ok) in
  Ok (pre ++ T (merge_comments sed (t_info ok) nk [t_value ov; t_value ok]) (t_content ok)
        :: ov1 :: post, true).
Proof.
  intros Hm Hp Hk Hv. apply check_markers_false in Hm.
  induction pre as [|x|x y pre IH] using list_ind2.
  - cbn [app merge_entries]. rewrite Hm, Hv, seq_eqb_refl. cbn [orb].
    destruct (f ov (i_value nk)); reflexivity.
  - destruct (is_paired_single _ Hp).
  - apply is_paired_tail in Hp. unfold keys in Hk. cbn [pairs map fst] in Hk.
    apply not_elem_of_cons in Hk as [Hne Hk].
    cbn [app merge_entries]. rewrite Hm. cbn [orb].
    destruct (seq_eqb_spec (t_value x) (i_value nk)) as [He|_]; [congruence|].
    rewrite IH by assumption. destruct (f ov (t_value ok)); reflexivity.
Qed.

(** ** One overlay pair *)
Lemma to_map_kind o : t_kind (to_map o) = KMapping.
Proof. unfold to_map. destruct (kind_eqb_spec (t_kind o) KMapping); [assumption|reflexivity]. Qed.
Lemma to_map_mapping o : t_kind o = KMapping -> to_map o = o.
Proof. intros H. unfold to_map. rewrite H. reflexivity. Qed.

Lemma add_node_content sed i c nv :
  children (add_node sed (T i c) nv) = children (T i c) ++ map (sanitize sed) nv.
Proof. destruct c, nv; reflexivity. Qed.
Lemma add_node_info sed o nv : t_info (add_node sed o nv) = t_info o.
Proof. destruct o; reflexivity. Qed.

Inductive pair_step sed (f : tree -> list N -> res tree) (nk nv o : tree) : tree -> Prop :=
  | step_absent :
      t_value nk ∉ keys (children (to_map o)) ->
      pair_step sed f nk nv o (add_node sed (to_map o) [nk; nv])
  | step_present pre ok ov post ov1 :
      t_content (to_map o) = Some (pre ++ ok :: ov :: post) -> is_paired pre ->
      t_value nk ∉ keys pre -> t_value ok = t_value nk -> f ov (t_value nk) = Ok ov1 ->
      pair_step sed f nk nv o
        (T (t_info (to_map o))
           (Some (pre ++ T (merge_comments sed (t_info ok) (t_info nk) [t_value ov; t_value nk]) (t_content ok)
                    :: ov1 :: post))).

Lemma merge_pair_step sed f nk nv o o' :
  ~ marker_in (t_value nk) -> merge_pair sed f nk nv o = Ok o' -> pair_step sed f nk nv o o'.
Proof.
  intros Hm. unfold merge_pair.
  destruct (t_content (to_map o)) as [oc|] eqn:Ec.
  - destruct (decide (t_value nk ∈ keys oc)) as [Hin|Hnin].
    + destruct (keys_split _ _ Hin) as (pre & ok & ov & post & -> & Hp & Hk & Hv).
      rewrite merge_entries_present by assumption.
      rewrite Hv. destruct (f ov (t_value nk)) as [ov1| | |] eqn:Ef; cbn [rbind]; try discriminate.
      intros [= <-]. eapply step_present; eauto.
    + rewrite merge_entries_absent by assumption. cbn [rbind]. intros [= <-].
      apply step_absent. unfold children. rewrite Ec. exact Hnin.
  - intros [= <-]. apply step_absent. unfold children. rewrite Ec. apply not_elem_of_nil.
Qed.

(** The converse, for totality and for computing. *)
Lemma merge_pair_ok sed f nk nv o :
  ~ marker_in (t_value nk) ->
  (forall ov, exists r, f ov (t_value nk) = Ok r) ->
  exists o', merge_pair sed f nk nv o = Ok o'.
Proof.
  intros Hm Hf. unfold merge_pair. destruct (t_content (to_map o)) as [oc|]; [|eauto].
  destruct (decide (t_value nk ∈ keys oc)) as [Hin|Hnin].
  - destruct (keys_split _ _ Hin) as (pre & ok & ov & post & -> & Hp & Hk & Hv).
    rewrite merge_entries_present by assumption. rewrite Hv.
    destruct (Hf ov) as [r ->]. cbn [rbind]. eauto.
  - rewrite merge_entries_absent by assumption. cbn [rbind]. eauto.
Qed.

(** Totality of the inner loop in general (with markers too). *)
Lemma merge_entries_total sed f nk oc :
  (forall ov k, exists r, f ov k = Ok r) -> exists r, merge_entries sed f nk oc = Ok r.
Proof.
  intros Hf. induction oc as [|x|x y oc IH] using list_ind2; cbn [merge_entries]; eauto.
  destruct IH as [[rest b] IH]. destruct (Hf y (t_value x)) as [r Hr]. rewrite Hr, IH. cbn [rbind].
  destruct (check_for_markers _), (seq_eqb _ _); cbn [orb]; eauto.
Qed.
Lemma merge_pair_total sed f nk nv o :
  (forall ov k, exists r, f ov k = Ok r) -> exists r, merge_pair sed f nk nv o = Ok r.
Proof.
  intros Hf. unfold merge_pair. destruct (t_content (to_map o)) as [oc|]; [|eauto].
  destruct (merge_entries_total sed f (t_info nk) oc Hf) as [[r b] ->]. cbn [rbind]. destruct b; eauto.
Qed.

Lemma uncomment_bare s : uncomment s = bare_comment s.
Proof.
  unfold uncomment, trim_prefix, bare_comment. destruct s as [|c s]; [reflexivity|].
  cbn. destruct (decide (c = 35%N)) as [->|N]; [reflexivity|].
  unfold ceq. destruct (N.eqb_spec 35 c) as [E|_]; [congruence|]. cbn [andb].
  destruct c as [|c]; [reflexivity|]. repeat (destruct c as [c|c|]; try reflexivity; try congruence).
Qed.
