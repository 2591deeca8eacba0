(** Merging is associative on values that fit together, and keeps values simple and plain. *)
From Verif Require Import Prelude GoStrings Format SpecFormat ProofFormat Yaml MergeTree SpecMerge ProofMerge ProofMergeMap ProofMergeAbs SpecCompose.

(** ** Associativity on abstract values *)
Section val_ind.
Context (Q : val -> Prop).
Hypothesis HS : forall t s, Q (VScalar t s).
Hypothesis HQ : forall t l, Q (VSeq t l).
Hypothesis HM : forall t l, Forall (fun p => Q (snd p)) l -> Q (VMap t l).
Hypothesis HA : forall n, Q (VAlias n).
Hypothesis HN : Q VNone.
Fixpoint val_map_ind (v : val) : Q v :=
  match v with
  | VScalar t s => HS t s
  | VSeq t l => HQ t l
  | VMap t l => HM t l ((fix go (l : list (list N * val)) : Forall (fun p => Q (snd p)) l :=
      match l with [] => @List.Forall_nil _ _ | p :: r => @List.Forall_cons _ _ p r (val_map_ind (snd p)) (go r) end) l)
  | VAlias n => HA n
  | VNone => HN
  end.
End val_ind.

Lemma upd_upd k f1 n1 f2 n2 l : update_first k f2 n2 (update_first k f1 n1 l) = update_first k (fun x => f2 (f1 x)) (f2 n1) l.
Proof.
  induction l as [|[k' v] l IH]; cbn [update_first].
  - by destruct (decide (k = k)).
  - destruct (decide (k' = k)) as [->|N0]; cbn [update_first]; [by destruct (decide (k = k))|]. destruct (decide (k' = k)); [done|]. by rewrite IH.
Qed.
Lemma upd_ext k f n g l : (forall x, f x = g x) -> update_first k f n l = update_first k g n l.
Proof. intros H. induction l as [|[k' v] l IH]; cbn [update_first]; [done|]. destruct (decide (k' = k)); [by rewrite H|by rewrite IH]. Qed.
Lemma upd_keys k f n l : k ∈ map fst (update_first k f n l).
Proof.
  induction l as [|[k' v] l IH]; cbn [update_first map fst]; [by apply elem_of_list_here|].
  destruct (decide (k' = k)) as [->|]; cbn [map fst]; [by apply elem_of_list_here|by apply elem_of_list_further].
Qed.
Lemma upd_keys_more k f n l x : x ∈ map fst l -> x ∈ map fst (update_first k f n l).
Proof.
  induction l as [|[k' v] l IH]; cbn [update_first map fst]; [by intros ?%not_elem_of_nil|].
  destruct (decide (k' = k)) as [->|]; cbn [map fst]; [done|]. intros [->|H]%elem_of_cons; [by apply elem_of_list_here|]. apply elem_of_list_further, IH, H.
Qed.
Lemma upd_keys_inv k f n l x : x ∈ map fst (update_first k f n l) -> x = k \/ x ∈ map fst l.
Proof.
  induction l as [|[k' v] l IH]; cbn [update_first map fst].
  - intros [->|H]%elem_of_cons; [by left|by apply not_elem_of_nil in H].
  - destruct (decide (k' = k)) as [->|]; cbn [map fst]; [by right|]. intros [->|H]%elem_of_cons; [right; by apply elem_of_list_here|].
    destruct (IH H) as [?|?]; [by left|right; by apply elem_of_list_further].
Qed.
Lemma upd_nodup k f n l : NoDup (map fst l) -> NoDup (map fst (update_first k f n l)).
Proof.
  induction l as [|[k' v] l IH]; cbn [update_first map fst]; intros H; [apply NoDup_singleton|].
  apply NoDup_cons in H as [H1 H2]. destruct (decide (k' = k)) as [->|]; cbn [map fst]; apply NoDup_cons; split; auto.
  intros [?|?]%upd_keys_inv; done.
Qed.
Lemma upd_in_other k f n l k' w : k' <> k -> (k', w) ∈ update_first k f n l -> (k', w) ∈ l.
Proof.
  intros N0. induction l as [|[k1 v] l IH]; cbn [update_first].
  - intros [[= -> ->]|H]%elem_of_cons; [done|by apply not_elem_of_nil in H].
  - destruct (decide (k1 = k)) as [->|].
    + intros [[= -> ->]|H]%elem_of_cons; [done|by apply elem_of_list_further].
    + intros [[= -> ->]|H]%elem_of_cons; [by apply elem_of_list_here|apply elem_of_list_further, IH, H].
Qed.
Lemma upd_comm k f n k' f' n' l : k <> k' -> k ∈ map fst l ->
  update_first k f n (update_first k' f' n' l) = update_first k' f' n' (update_first k f n l).
Proof.
  intros N0. induction l as [|[k1 v] l IH]; cbn [update_first map fst]; [by intros ?%not_elem_of_nil|]. intros H.
  destruct (decide (k1 = k')) as [->|]; cbn [update_first].
  - destruct (decide (k' = k)) as [->|]; [done|]. cbn [update_first]. by destruct (decide (k' = k')).
  - destruct (decide (k1 = k)) as [->|]; cbn [update_first].
    + by destruct (decide (k = k')).
    + destruct (decide (k1 = k')); [done|]. rewrite IH; [done|]. apply elem_of_cons in H as [->|H]; done.
Qed.
Lemma dm_comm k f n b : k ∉ map fst b -> forall l, k ∈ map fst l -> update_first k f n (dm_pairs b l) = dm_pairs b (update_first k f n l).
Proof.
  unfold dm_pairs. induction b as [|[k' v] b IH]; intros NB l H; [done|]. cbn [map fst] in NB. apply not_elem_of_cons in NB as [N0 NB]. cbn [fold_left fst snd].
  rewrite IH; [|done|by apply upd_keys_more]. by rewrite upd_comm.
Qed.
Lemma dm_cons k v l acc : dm_pairs ((k, v) :: l) acc = dm_pairs l (update_first k (fun old => deep_merge old v) v acc).
Proof. done. Qed.
Lemma dm_single k v ly : NoDup (map fst ly) ->
  (forall w, (k, w) ∈ ly -> forall x, deep_merge (deep_merge x w) v = deep_merge x (deep_merge w v)) ->
  forall lx, dm_pairs (update_first k (fun old => deep_merge old v) v ly) lx = update_first k (fun old => deep_merge old v) v (dm_pairs ly lx).
Proof.
  induction ly as [|[k' w] b IH]; intros ND A lx; [done|]. cbn [map fst] in ND. apply NoDup_cons in ND as [NB ND]. cbn [update_first].
  destruct (decide (k' = k)) as [->|N0].
  - rewrite !dm_cons, dm_comm; [|done|apply upd_keys]. f_equal. rewrite upd_upd. apply upd_ext. intros x. symmetry. apply A, elem_of_list_here.
  - rewrite !dm_cons. apply IH; [done|]. intros w' W. apply A. by apply elem_of_list_further.
Qed.
Lemma dm_assoc l : NoDup (map fst l) -> forall ly, NoDup (map fst ly) ->
  (forall k w v, (k, w) ∈ ly -> (k, v) ∈ l -> forall x, deep_merge (deep_merge x w) v = deep_merge x (deep_merge w v)) ->
  forall lx, dm_pairs (dm_pairs l ly) lx = dm_pairs l (dm_pairs ly lx).
Proof.
  induction l as [|[k v] r IH]; intros NL ly NY A lx; [done|]. cbn [map fst] in NL. apply NoDup_cons in NL as [NK NL]. rewrite !dm_cons.
  rewrite IH; [|done|by apply upd_nodup|].
  - rewrite dm_single; [done|done|]. intros w W. apply (A k); [done|apply elem_of_list_here].
  - intros k' w v' W V. assert (k' <> k) by (intros ->; apply NK; apply elem_of_list_fmap; by exists (k, v')).
    apply (A k'); [by eapply upd_in_other|by apply elem_of_list_further].
Qed.
Lemma unique_in k v t l : unique_keys (VMap t l) -> (k, v) ∈ l -> unique_keys v.
Proof.
  cbn [unique_keys]. intros [_ H] I. induction l as [|[k' w] l IH]; [by apply not_elem_of_nil in I|]. cbn [fold_right snd] in H.
  apply elem_of_cons in I as [[= -> ->]|I]; [apply H|apply IH; [apply H|done]].
Qed.
Lemma dm_not_nil k v l acc : dm_pairs ((k, v) :: l) acc <> [].
Proof.
  rewrite dm_cons. assert (K : k ∈ map fst (update_first k (fun old => deep_merge old v) v acc)) by apply upd_keys.
  revert K. generalize (update_first k (fun old => deep_merge old v) v acc). induction l as [|[k' v'] l IH]; intros a K E.
  - cbn in E. subst a. by apply not_elem_of_nil in K.
  - rewrite dm_cons in E. by apply IH in E; [|apply upd_keys_more].
Qed.
Lemma deep_merge_assoc z : forall y x, follows y z -> unique_keys y -> unique_keys z ->
  deep_merge (deep_merge x y) z = deep_merge x (deep_merge y z).
Proof.
  induction z as [t s|t l|t l IH|n|] using val_map_ind; intros y x Fo Uy Uz; [done| | |inversion Fo|inversion Fo].
  - inversion Fo as [|ty ly| |]; subst. cbn [deep_merge]. destruct x as [| |tx lx| |]; cbn [deep_merge]; try done. by rewrite app_assoc.
  - destruct l as [|[k v] l]; [done|]. inversion Fo as [| | |ty ly ? ? Fk]; subst.
    assert (AS : forall lx, dm_pairs (dm_pairs ((k, v) :: l) ly) lx = dm_pairs ((k, v) :: l) (dm_pairs ly lx)).
    { apply dm_assoc; [apply Uz|apply Uy|]. intros k' w v' W V x'. rewrite Forall_forall in IH. apply (IH (k', v') V).
      - apply (Fk k'); by apply elem_of_list_In.
      - exact (unique_in _ _ _ _ Uy W).
      - exact (unique_in k' v' _ _ Uz V). }
    assert (R : forall o, deep_merge o (VMap t ((k, v) :: l)) = let start := match o with VMap t l0 => (t, l0) | _ => (lit "!!map", []) end in VMap (fst start) (dm_pairs ((k, v) :: l) (snd start)))
      by (intros o; apply deep_merge_map).
    rewrite (R (VMap ty ly)). cbn zeta. cbn [fst snd]. rewrite (R (deep_merge x (VMap ty ly))), !deep_merge_map. cbn zeta.
    pose proof (dm_not_nil k v l ly) as NN. destruct (dm_pairs ((k, v) :: l) ly) as [|p d] eqn:D; [done|].
    destruct ly as [|q ly]; cbn zeta.
    + rewrite AS. done.
    + cbn [fst snd]. rewrite AS. done.
Qed.

(** ** A merge of simple plain values is simple and plain *)
Definition fine (t : tree) : Prop := everywhere (fun u => node_simple u /\ node_plain u) t.
Lemma fine_both t : fine t <-> simple_value t /\ plain t.
Proof. apply everywhere_and. Qed.
Lemma fine_some i l : fine (T i (Some l)) <-> (node_simple (T i (Some l)) /\ node_plain (T i (Some l))) /\ Forall fine l.
Proof. apply everywhere_some. Qed.
Lemma fine_none i : fine (T i None) <-> node_simple (T i None) /\ node_plain (T i None).
Proof. apply everywhere_none. Qed.
Lemma plain_comments sed oi ni vs c c' c'' : node_plain (T oi c) -> node_plain (T ni c') -> node_plain (T (merge_comments sed oi ni vs) c'').
Proof.
  intros (A1 & A2 & A3 & A4) (B1 & B2 & B3 & B4). cbn [t_info] in *. unfold merge_comments.
  destruct (nonempty (i_head ni)); [|destruct (nonempty (i_linec ni)); [|destruct (nonempty (i_foot ni))]]; unfold node_plain; cbn [t_info];
    destruct oi; cbn in *; rewrite ?format_plain by done; done.
Qed.
Lemma simple_kind i i' c : i_kind i' = i_kind i -> node_simple (T i c) -> node_simple (T i' c).
Proof. intros K. unfold node_simple, t_kind. cbn [t_info]. by rewrite K. Qed.
Lemma fine_comments sed oi ni vs c c' : fine (T oi c) -> node_plain (T ni c') -> fine (T (merge_comments sed oi ni vs) c).
Proof.
  intros A B. destruct c as [l|]; [apply fine_some in A as [[A1 A2] A3]; apply fine_some|apply fine_none in A as [A1 A2]; apply fine_none].
  - split; [|done]. split; [by eapply simple_kind; [apply merge_comments_kind|]|by eapply plain_comments].
  - split; [by eapply simple_kind; [apply merge_comments_kind|]|by eapply plain_comments].
Qed.
Lemma fine_to_map o : fine o -> fine (to_map o).
Proof.
  intros A. unfold to_map. destruct (kind_eqb _ _); [done|]. apply fine_some. split; [|constructor]. split.
  - apply is_paired_nil.
  - apply everywhere_root in A as [_ (A1 & A2 & A3 & A4)]. destruct o as [[] ?]; cbn in *. split_and!; try done. intros H. by apply check_markers_false in H.
Qed.
Lemma fine_to_seq o : fine o -> fine (to_seq o).
Proof.
  intros A. unfold to_seq. destruct (kind_eqb _ _); [done|]. apply fine_some. split; [|constructor]. split; [done|].
  apply everywhere_root in A as [_ (A1 & A2 & A3 & A4)]. destruct o as [[] ?]; cbn in *. split_and!; try done. intros H. by apply check_markers_false in H.
Qed.
Lemma fine_add sed o nv : fine o -> Forall fine nv -> t_kind o = KSequence \/ t_kind o = KMapping /\ is_paired nv -> fine (add_node sed o nv).
Proof.
  intros A B K. destruct o as [i c]. cbn [add_node]. rewrite map_sanitize_plain by (eapply Forall_impl; [exact B|]; intros t; rewrite fine_both; tauto).
  assert (P : node_plain (T i c)) by (by apply everywhere_root in A as [_ ?]).
  assert (C : Forall fine (match c with Some l => l | None => [] end ++ nv)).
  { apply Forall_app. split; [|done]. destruct c as [l|]; [by apply fine_some in A as [_ ?]|constructor]. }
  assert (S0 : node_simple (T i (Some (match c with Some l => l | None => [] end ++ nv)))).
  { unfold node_simple, t_kind in *. cbn [t_info children t_content] in *. destruct K as [->|[K0 N]]; [done|]. rewrite K0.
    apply everywhere_root in A as [A _]. unfold node_simple, t_kind in A. cbn [t_info children t_content] in A. rewrite K0 in A. by apply is_paired_app. }
  destruct c as [l|]; cbn [append_content]; [by apply fine_some|]. destruct nv as [|n nv]; [done|]. by apply fine_some.
Qed.
Lemma fine_array sed o n : t_kind n = KSequence -> fine o -> fine n -> fine (merge_array sed o n).
Proof.
  intros Kn A B. unfold merge_array. pose proof (fine_to_seq o A) as C. destruct n as [ni [nl|]]; cbn [t_content]; [|done].
  apply fine_add.
  - destruct (to_seq o) as [i c]. cbn [t_info t_content]. eapply fine_comments; [done|]. by apply everywhere_root in B as [_ ?].
  - by apply fine_some in B as [_ ?].
  - left. unfold t_kind. cbn [t_info]. rewrite merge_comments_kind. unfold to_seq. by destruct (kind_eqb_spec (t_kind o) KSequence).
Qed.
Lemma fine_merge sed n : fine n -> forall o ks o', fine o -> merge sed o n ks = Ok o' -> fine o'.
Proof.
  assert (SC : forall i c o ks, i_kind i = KScalar -> node_plain (T i c) -> fine o -> fine (match merge_scalar sed o i ks with T j d => T (set_tag (i_tag i) j) d end)).
  { intros i c o ks K P A. assert (P1 : node_plain o) by (by apply everywhere_root in A as [_ ?]).
    destruct o as [oi oc]. pose proof (plain_comments sed oi i ks _ _ None P1 P) as (C1 & C2 & C3 & C4). unfold merge_scalar. cbn [t_info t_content].
    destruct P as (V & _). cbn [t_info] in V. rewrite format_plain by done. unfold t_kind. cbn [t_info].
    destruct (kind_eqb_spec (i_kind oi) KScalar) as [E|E].
    - assert (oc = None) as ->. { apply everywhere_root in A as [A _]. unfold node_simple, t_kind in A. cbn [t_info t_content] in A. by rewrite E in A. }
      apply fine_none. split; [unfold node_simple, t_kind; cbn; by rewrite merge_comments_kind, E|]. destruct (merge_comments sed oi i ks); cbn in *. done.
    - apply fine_none. split; [done|]. destruct (merge_comments sed oi i ks); cbn in *. done. }
  induction n as [i|i l IH] using tree_ind'; intros B o ks o' A H.
  - pose proof (everywhere_root _ _ B) as [Hk Hp]. unfold node_simple, t_kind in Hk. cbn [t_info] in Hk. cbn [merge] in H. destruct (i_kind i) eqn:Ek; try done.
    + injection H as <-. by apply fine_array.
    + by injection H as <-.
    + pose proof (SC i None o ks Ek Hp A) as X. destruct (merge_scalar sed o i ks). by injection H as <-.
  - pose proof (everywhere_root _ _ B) as [Hk Hp]. unfold node_simple, t_kind in Hk. cbn [t_info] in Hk. destruct (i_kind i) eqn:Ek; try done.
    + cbn [merge] in H. rewrite Ek in H. injection H as <-. by apply fine_array.
    + rewrite merge_map_eq in H by exact Ek. cbn [children t_content] in Hk. apply fine_some in B as [_ B]. clear Ek Hp.
      revert o A H. induction l as [|x|nk nv ps IHp] using list_ind2; intros o A H.
      * by injection H as <-.
      * by destruct (is_paired_single _ Hk).
      * apply Forall_cons in IH as [_ IH]. apply Forall_cons in IH as [IHv IH]. apply Forall_cons in B as [Bk B]. apply Forall_cons in B as [Bv B].
        cbn [merge_pairs] in H. destruct (merge_pair sed _ nk nv o) as [o1| | |] eqn:E; cbn [rbind] in H; try discriminate.
        apply (IHp IH B (is_paired_tail _ _ _ Hk) o1); [|exact H]. clear H IHp.
        pose proof (everywhere_root _ _ Bk) as [_ Pk].
        apply merge_pair_step in E; [|apply Pk]. pose proof (fine_to_map o A) as M0. destruct E as [NK|pre ok ov post ov1 Hc Hpre NK Hv Hf].
        -- apply fine_add; [done|fcons; done|]. right. split; [apply to_map_kind|]. apply is_paired_cons, is_paired_nil.
        -- destruct (to_map o) as [mi mc]. cbn [t_info t_content] in *. subst mc. apply fine_some in M0 as [[M1 M2] M3].
           apply Forall_app in M3 as [Mp M3]. apply Forall_cons in M3 as [Mk M3]. apply Forall_cons in M3 as [Mv M3].
           apply fine_some. split; [split|].
           ++ unfold node_simple, t_kind in *. cbn [t_info children t_content] in *. destruct (i_kind mi); try done.
              rewrite is_paired_even in *. rewrite app_length in *. cbn [length] in *. done.
           ++ done.
           ++ apply Forall_app. split; [done|]. destruct ok as [oki okc]. cbn [t_info t_content]. fcons; [|by eapply IHv|done].
              destruct nk as [nki nkc]. eapply fine_comments; [done|]. exact Pk.
Qed.

(** ** Splitting a mapping *)
Lemma merge_pairs_app sed ps qs : is_paired ps -> forall o,
  merge_pairs sed (ps ++ qs) o = (let! o1 := merge_pairs sed ps o in merge_pairs sed qs o1).
Proof.
  induction ps as [|x|nk nv ps IH] using list_ind2; intros P o.
  - done.
  - by destruct (is_paired_single _ P).
  - cbn [app merge_pairs]. destruct (merge_pair sed _ nk nv o); cbn [rbind]; try done. apply IH. by eapply is_paired_tail.
Qed.
Lemma merge_node_two sed o m n : merge_node sed o [m; n] = (let! x := merge_node sed o [m] in merge_node sed x [n]).
Proof.
  unfold merge_node. cbn [fold_left]. destruct (let! x := Ok o in merge sed x m []) eqn:E; done.
Qed.
