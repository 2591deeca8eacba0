(** Anchors and aliases under the actions. *)
From Verif Require Import Prelude GoStrings Format Yaml Heap MergeTree Combine SpecMerge SpecHeap SpecDelete SpecOverlay SpecAnchors
  ProofMerge ProofMergeMap ProofMergeAbs ProofHeap ProofHeapActions ProofOverlay ProofDelete ProofSelected ProofSound.
From Verif Require Import MergeTree.

Local Ltac fcons := repeat (apply Forall_cons; split).
Notation clist c := (match c with Some l => l | None => [] end).

(** ** Recursive form *)
Fixpoint held (used kept : loc -> Prop) (seen : list N -> Prop) (l : list (loc * info)) : Prop :=
  match l with
  | [] => True
  | (x, i) :: r =>
      (i_kind i = KAlias -> used x -> i_value i <> [] /\ seen (i_value i)) /\
      held used kept (fun n => seen n \/ (kept x /\ i_anchor i = n)) r
  end.
Definition named (kept : loc -> Prop) (l : list (loc * info)) (n : list N) : Prop :=
  exists x i, (x, i) ∈ l /\ kept x /\ i_anchor i = n.

Lemma held_mono used kept l : forall (p q : list N -> Prop), (forall n, p n -> q n) -> held used kept p l -> held used kept q l.
Proof.
  induction l as [|[x i] l IH]; intros p q H; [done|]. cbn [held]. intros [H1 H2]. split.
  - intros K U. destruct (H1 K U). auto.
  - eapply IH; [|exact H2]. cbn. intros n [?|?]; auto.
Qed.
Lemma held_app used kept a b p :
  held used kept p (a ++ b) <-> held used kept p a /\ held used kept (fun n => p n \/ named kept a n) b.
Proof.
  revert p. induction a as [|[x i] a IH]; intros p; cbn [app held].
  - split.
    + intros H. split; [done|]. eapply held_mono; [|exact H]. cbn. auto.
    + intros [_ H]. eapply held_mono; [|exact H]. cbn. intros n [?|(y & j & E & _)]; [done|]. by apply elem_of_nil in E.
  - rewrite IH. split.
    + intros (H1 & H2 & H3). split; [done|]. eapply held_mono; [|exact H3]. cbn.
      intros n [[?|[K E]]|(y & j & Y & K & E)]; [auto|right; exists x, i; split; [by left|done]|right; exists y, j; split; [by right|done]].
    + intros ((H1 & H2) & H3). split; [done|]. split; [done|]. eapply held_mono; [|exact H3]. cbn.
      intros n [?|(y & j & Y & K & E)]; [auto|]. apply elem_of_cons in Y as [Y|Y]; [injection Y as -> ->; auto|].
      right. exists y, j. done.
Qed.
Lemma held_all used kept l p : held used kept p l <->
  forall before x i after, l = before ++ (x, i) :: after -> i_kind i = KAlias -> used x ->
    i_value i <> [] /\ (p (i_value i) \/ named kept before (i_value i)).
Proof.
  split.
  - intros H before x i after -> K U. apply held_app in H as [_ [H _]]. exact (H K U).
  - revert p. induction l as [|[x i] l IH]; intros p H; [done|]. split.
    + intros K U. destruct (H [] x i l eq_refl K U) as [N [S|(y & j & Y & _)]]; [done|]. by apply elem_of_nil in Y.
    + apply IH. intros before y j after -> K U.
      destruct (H ((x, i) :: before) y j after eq_refl K U) as [N [S|(z & k & Z & Kz & E)]]; [auto|].
      split; [done|]. apply elem_of_cons in Z as [Z|Z]; [injection Z as -> ->; auto|]. right. exists z, k. done.
Qed.
Lemma linked_within_held used kept doc : linked_within used kept doc <-> held used kept (fun _ => False) (nodes doc).
Proof.
  rewrite held_all. unfold linked_within. split.
  - intros H before x i after E K U. destruct (H before x i after E K U) as (y & j & Y & Ky & D & NE). split; [done|].
    right. exists y, j. done.
  - intros H before x i after E K U. destruct (H before x i after E K U) as (NE & [[]|(y & j & Y & Ky & D)]).
    exists y, j. done.
Qed.

(** Plain trees: addresses do not matter. *)
Definition anon (l : list info) : list (loc * info) := map (pair 0) l.
Definition always (_ : loc) : Prop := True.
Definition ok (p : list N -> Prop) (t : tree) : Prop := held always always p (anon (outline t)).
Definition has (t : tree) (n : list N) : Prop := exists i, i ∈ outline t /\ i_anchor i = n.
Lemma linked_ok t : linked t <-> ok (fun _ => False) t.
Proof.
  unfold ok. rewrite held_all. unfold linked, anon. split.
  - intros H before x i after E K _. apply map_eq_app in E as (a & b & EO & Ea & Eb).
    destruct b as [|j b]; [discriminate|]. cbn [map] in Eb. injection Eb as E1 E2 _. subst j.
    destruct (H a i b EO K) as (j & J & D & NE). split; [done|]. right. exists 0, j. split; [|done].
    subst before. apply elem_of_list_fmap. eauto.
  - intros H before i after E K.
    destruct (H (map (pair 0) before) 0 i (map (pair 0) after)) as (NE & [[]|(y & j & Y & _ & D)]); [by rewrite E, map_app|done|done|].
    apply elem_of_list_fmap in Y as (k & Ek & Y). injection Ek as _ ->. exists k. done.
Qed.
Lemma ok_mono (p q : list N -> Prop) t : (forall n, p n -> q n) -> ok p t -> ok q t.
Proof. apply held_mono. Qed.

(** Lists of trees. *)
Definition oks (p : list N -> Prop) (ts : list tree) : Prop := held always always p (anon (concat (map outline ts))).
Lemma named_anon l n : named always (anon l) n <-> exists i, i ∈ l /\ i_anchor i = n.
Proof.
  unfold named, anon. split.
  - intros (x & i & X & _ & E). apply elem_of_list_fmap in X as (j & EJ & X). injection EJ as _ ->. eauto.
  - intros (i & X & E). exists 0, i. split; [|done]. apply elem_of_list_fmap. eauto.
Qed.
Lemma oks_nil p : oks p [].
Proof. done. Qed.
Lemma oks_cons p t ts : oks p (t :: ts) <-> ok p t /\ oks (fun n => p n \/ has t n) ts.
Proof.
  unfold oks, ok, anon. cbn [map concat]. rewrite map_app, held_app. split; intros [A B]; (split; [done|]); eapply held_mono; try exact B;
    intros n [?|H]; auto; right; by apply named_anon in H || apply named_anon.
Qed.
Lemma outline_eq i c : outline (T i c) = i :: concat (map outline (clist c)).
Proof. by destruct c. Qed.
Lemma ok_node p i c : ok p (T i c) <->
  (i_kind i = KAlias -> i_value i <> [] /\ p (i_value i)) /\ oks (fun n => p n \/ i_anchor i = n) (clist c).
Proof.
  unfold ok, oks, anon. rewrite outline_eq. cbn [map held]. split; intros [A B]; (split; [auto|]);
    try (intros K; apply (A K); exact I); eapply held_mono; try exact B; cbn; unfold always; intros n [?|?]; tauto.
Qed.
Lemma has_node i c n : has (T i c) n <-> i_anchor i = n \/ exists t, t ∈ clist c /\ has t n.
Proof.
  unfold has. rewrite outline_eq. split.
  - intros (j & J & E). apply elem_of_cons in J as [->|J]; [auto|]. right.
    apply elem_of_list_In, in_concat in J as (l & L & J). apply in_map_iff in L as (t & <- & T).
    exists t. split; [by apply elem_of_list_In|]. exists j. split; [by apply elem_of_list_In|done].
  - intros [E|(t & T & j & J & E)]; [exists i; split; [by left|done]|]. exists j. split; [|done]. right.
    apply elem_of_list_In, in_concat. exists (outline t). split; [apply in_map; by apply elem_of_list_In|by apply elem_of_list_In].
Qed.

(** ** Rewriting selected nodes *)
Lemma nodes_eq l i c : nodes (L l i c) = (l, i) :: concat (map nodes (kids c)).
Proof. by destruct c. Qed.
Lemma nodes_loc t x i : (x, i) ∈ nodes t -> x ∈ locs t.
Proof.
  induction t as [l j|l j ts IH] using ltree_ind'; rewrite nodes_eq, locs_eq; cbn [kids].
  - intros H. apply elem_of_cons in H as [H|H]; [injection H as -> ->; by left|by apply elem_of_nil in H].
  - intros H. apply elem_of_cons in H as [H|H]; [injection H as -> ->; by left|]. right.
    apply elem_of_list_In, in_concat in H as (n & N & H). apply in_map_iff in N as (t & <- & T).
    rewrite Forall_forall in IH. apply elem_of_flat. exists t. split; [by apply elem_of_list_In|].
    apply IH; [by apply elem_of_list_In|by apply elem_of_list_In].
Qed.
Lemma rewrite_ok used kept sel f doc :
  (forall s, subtree s doc -> sel (label s) = true -> forall p q : list N -> Prop, (forall n, p n -> q n) ->
     held used kept p (nodes s) -> ok q (f (erase s)) /\ forall n, named kept (nodes s) n -> has (f (erase s)) n) ->
  (forall x, x ∈ locs doc -> (forall s, subtree s doc -> sel (label s) = true -> x ∉ locs s) -> used x) ->
  NoDup (locs doc) ->
  forall p q : list N -> Prop, (forall n, p n -> q n) -> held used kept p (nodes doc) ->
  ok q (rewrite_at sel f doc) /\ forall n, named kept (nodes doc) n -> has (rewrite_at sel f doc) n.
Proof.
  induction doc as [l i|l i ts IH] using ltree_ind'; intros HF HU ND p q PQ H.
  { rewrite rewrite_at_eq. destruct (sel l) eqn:SL; [by apply (HF (L l i None) (st_here _) SL p q)|].
    rewrite nodes_eq in H. cbn [kids map concat held] in H. destruct H as [H _]. split.
    - apply ok_node. split; [|done]. intros K. destruct H as [NE P]; [done| |auto]. apply HU; [rewrite locs_eq; by left|].
      intros s S SS. inversion S; subst. cbn [label] in SS. congruence.
    - intros n (x & j & X & _ & E). apply elem_of_list_singleton in X. injection X as -> ->. apply has_node. by left. }
  rewrite rewrite_at_eq. destruct (sel l) eqn:SL; [by apply (HF (L l i (Some ts)) (st_here _) SL p q)|].
  rewrite nodes_eq in *. cbn [kids held] in *. destruct H as [H1 H2].
  assert (NT : ~ In l (flat ts) /\ NoDup (flat ts)).
  { rewrite locs_eq in ND. cbn [kids] in ND. apply NoDup_cons in ND as [A B]. split; [|done]. by rewrite <- elem_of_list_In. }
  destruct NT as [NL NT].
  assert (US : used l).
  { apply HU; [rewrite locs_eq; by left|]. intros s S SS X. inversion S as [|l0 i0 ts0 t0 I0 S0]; subst.
    - cbn [label] in SS. congruence.
    - apply NL, elem_of_list_In, elem_of_flat. exists t0. split; [by apply elem_of_list_In|]. by eapply subtree_locs. }
  enough (X : forall (p q : list N -> Prop), (forall n, p n -> q n) -> held used kept p (concat (map nodes ts)) ->
    oks q (map (rewrite_at sel f) ts) /\ forall n, named kept (concat (map nodes ts)) n -> exists t, t ∈ map (rewrite_at sel f) ts /\ has t n).
  { destruct (X (fun n => p n \/ kept l /\ i_anchor i = n) (fun n => q n \/ i_anchor i = n)) as [X1 X2]; [|done|].
    { intros n [?|[_ ?]]; auto. }
    split.
    - apply ok_node. split; [|done]. intros K. destruct (H1 K US). auto.
    - intros n (x & j & Y & Kx & E). apply elem_of_cons in Y as [Y|Y].
      + injection Y as -> ->. apply has_node. by left.
      + apply has_node. right. apply X2. exists x, j. done. }
  clear H1 H2 p q PQ US.
  assert (HF' : forall t s, t ∈ ts -> subtree s t -> subtree s (L l i (Some ts))).
  { intros t s T S. eapply st_below; [by apply elem_of_list_In|done]. }
  assert (HU' : forall t x, t ∈ ts -> x ∈ locs t -> (forall s, subtree s t -> sel (label s) = true -> x ∉ locs s) ->
     used x).
  { intros t x T X N. apply HU; [by eapply child_locs|]. intros s S SS XS. inversion S as [|l0 i0 ts0 t0 I0 S0]; subst.
    - cbn [label] in SS. congruence.
    - apply elem_of_list_In in I0. assert (t0 = t) as ->.
      { destruct (elem_of_list_split _ _ T) as (a & b & ->). rewrite flat_app, flat_cons in NT.
        apply NoDup_app in NT as (_ & N1 & NT). apply NoDup_app in NT as (_ & N2 & _).
        assert (XS0 : x ∈ locs t0) by (by eapply subtree_locs).
        apply elem_of_app in I0 as [U|U]; [|apply elem_of_cons in U as [->|U]; [done|]]; exfalso.
        - apply (N1 x); [apply elem_of_flat; eauto|]. apply elem_of_app. by left.
        - apply (N2 x X). apply elem_of_flat; eauto. }
      by apply (N s S0 SS). }
  clear HU NL. assert (ND' : forall t, t ∈ ts -> NoDup (locs t)) by (intros t T; by eapply nodup_child). clear ND NT.
  assert (HS : forall t, t ∈ ts -> forall p q : list N -> Prop, (forall n, p n -> q n) -> held used kept p (nodes t) ->
    ok q (rewrite_at sel f t) /\ forall n, named kept (nodes t) n -> has (rewrite_at sel f t) n).
  { intros t T. rewrite Forall_forall in IH. apply IH; [done| | |by apply ND'].
    - intros s S. apply HF. by eapply HF'.
    - intros x X N. by eapply HU'. }
  clear IH HF HU' HF' ND' SL. induction ts as [|t ts IHt]; intros p q PQ H.
  { split; [apply oks_nil|]. intros n (x & j & X & _). by apply elem_of_nil in X. }
  cbn [map concat] in H. apply held_app in H as [HA HB].
  destruct (HS t (elem_of_list_here _ _) p q PQ HA) as [A1 A2].
  destruct (IHt (fun u U => HS u (elem_of_list_further _ _ _ U)) (fun n => p n \/ named kept (nodes t) n) (fun n => q n \/ has (rewrite_at sel f t) n)) as [B1 B2].
  { intros n [?|?]; auto. }
  { done. }
  split.
  - cbn [map]. apply oks_cons. done.
  - intros n (x & j & X & Kx & E). cbn [map concat] in *. apply elem_of_app in X as [X|X].
    + exists (rewrite_at sel f t). split; [by left|]. apply A2. exists x, j. done.
    + destruct (B2 n) as (u & U & Hu); [exists x, j; done|]. exists u. split; [by right|done].
Qed.

(** ** Aliases under merge *)
Definition aliases_in (S : list N -> Prop) (t : tree) : Prop := everywhere (fun t => t_kind t = KAlias -> S (t_value t)) t.
Lemma ai_node S i (c : option (list tree)) : aliases_in S (T i c) <-> (i_kind i = KAlias -> S (i_value i)) /\ Forall (aliases_in S) (clist c).
Proof.
  unfold aliases_in. destruct c as [l|]; [by rewrite everywhere_some|]. rewrite everywhere_none. split; [intros H; split; [done|constructor]|by intros [? _]].
Qed.
Lemma ai_info S i i' c : (i_kind i' = KAlias -> i_kind i = KAlias /\ i_value i' = i_value i) -> aliases_in S (T i c) -> aliases_in S (T i' c).
Proof. intros H A. apply ai_node in A as [A B]. apply ai_node. split; [|done]. intros K. destruct (H K) as [K' ->]. auto. Qed.
Lemma ai_comments S sed i n vs c : aliases_in S (T i c) -> aliases_in S (T (merge_comments sed i n vs) c).
Proof. apply ai_info. rewrite merge_comments_kind, merge_comments_value. done. Qed.
Lemma ai_sanitize S sed t : no_alias t -> aliases_in S (sanitize sed t).
Proof.
  unfold no_alias. induction t as [i|i l IH] using tree_ind'; intros H.
  - apply everywhere_none in H. cbn [sanitize]. apply ai_node. unfold t_kind in H. cbn [t_info] in H.
    split; [intros K; by apply H in K|]. by destruct (i_kind i).
  - apply everywhere_some in H as [H HL]. unfold t_kind in H. cbn [t_info] in H. cbn [sanitize]. apply ai_node.
    split; [intros K; by apply H in K|].
    assert (F : Forall (aliases_in S) (map (sanitize sed) l)).
    { clear H. induction l as [|x l IHl]; [constructor|]. apply Forall_cons in IH as [IHx IH]. apply Forall_cons in HL as [Hx HL].
      constructor; auto. }
    assert (F' : Forall (aliases_in S) l).
    { clear H F IH. eapply Forall_impl; [exact HL|]. intros t T. eapply everywhere_impl; [|exact T]. cbn. intros; tauto. }
    by destruct (i_kind i).
Qed.
Lemma ai_scalar S sed o n vs : aliases_in S o -> aliases_in S (merge_scalar sed o n vs).
Proof.
  destruct o as [i c]. intros H. unfold merge_scalar, t_kind. cbn [t_info t_content].
  destruct (kind_eqb_spec (i_kind i) KScalar) as [E|E].
  - eapply ai_info; [|exact H]. cbn. rewrite merge_comments_kind, E. discriminate.
  - apply ai_node. split; [discriminate|constructor].
Qed.
Lemma ai_to_map S o : aliases_in S o -> aliases_in S (to_map o).
Proof. unfold to_map. destruct (kind_eqb _ _); [auto|]. intros _. apply ai_node. split; [discriminate|constructor]. Qed.
Lemma ai_to_seq S o : aliases_in S o -> aliases_in S (to_seq o).
Proof. unfold to_seq. destruct (kind_eqb _ _); [auto|]. intros _. apply ai_node. split; [discriminate|constructor]. Qed.
Lemma ai_add S sed o nv : aliases_in S o -> Forall no_alias nv -> aliases_in S (add_node sed o nv).
Proof.
  destruct o as [i c]. intros H Hn. apply ai_node in H as [H1 H2]. cbn [add_node]. apply ai_node. split; [done|].
  rewrite append_content_list. apply Forall_app. split; [exact H2|]. clear -Hn. induction Hn; constructor; auto using ai_sanitize.
Qed.
Lemma ai_entries S sed f nk oc oc' b :
  (forall ov k r, aliases_in S ov -> f ov k = Ok r -> aliases_in S r) ->
  Forall (aliases_in S) oc -> merge_entries sed f nk oc = Ok (oc', b) -> Forall (aliases_in S) oc'.
Proof.
  intros Hf. revert oc' b. induction oc as [|x|x y oc IH] using list_ind2; intros oc' b Hoc H.
  - by injection H as <- <-.
  - by injection H as <- <-.
  - apply Forall_cons in Hoc as [Hx Hoc]. apply Forall_cons in Hoc as [Hy Hoc].
    cbn [merge_entries] in H.
    assert (Hx1 : forall vs, aliases_in S (T (merge_comments sed (t_info x) nk vs) (t_content x))).
    { intros vs. destruct x as [xi xc]. cbn [t_info t_content]. by apply ai_comments. }
    destruct (_ || _).
    + destruct (f y (t_value x)) as [y1| | |] eqn:Ef; cbn [rbind] in H; try discriminate.
      destruct (check_for_markers _).
      * destruct (merge_entries sed f nk oc) as [[r b']| | |]; cbn [rbind] in H; try discriminate.
        injection H as <- <-. pose proof (IH r b' Hoc eq_refl) as I1.
        constructor; [by apply ai_scalar|]. constructor; [by eapply Hf|done].
      * injection H as <- <-. constructor; [done|]. constructor; [by eapply Hf|done].
    + destruct (merge_entries sed f nk oc) as [[r b']| | |]; cbn [rbind] in H; try discriminate.
      injection H as <- <-. pose proof (IH r b' Hoc eq_refl) as I1. by repeat constructor.
Qed.
Lemma ai_array S sed o n : aliases_in S o -> no_alias n -> aliases_in S (merge_array sed o n).
Proof.
  intros Ho Hn. unfold merge_array. pose proof (ai_to_seq S o Ho) as H1.
  destruct n as [ni [nl|]]; cbn [t_content]; [|exact H1].
  apply everywhere_some in Hn as [_ Hnl]. destruct (to_seq o) as [i c]. apply ai_add; [|done].
  by apply ai_comments.
Qed.
Lemma ai_merge S sed n : no_alias n -> forall o ks o', aliases_in S o -> merge sed o n ks = Ok o' -> aliases_in S o'.
Proof.
  assert (TAG : forall i c t, aliases_in S (T i c) -> aliases_in S (T (set_tag t i) c)).
  { intros i c t. apply ai_info. done. }
  induction n as [i|i l IH] using tree_ind'; intros Hn o ks o' Ho H.
  - cbn [merge] in H. destruct (i_kind i) eqn:Ek.
    + injection H as <-. destruct o as [oi oc]. by apply TAG.
    + destruct (t_content o); by injection H as <-.
    + injection H as <-. by apply ai_array.
    + by injection H as <-.
    + pose proof (ai_scalar S sed o i ks Ho) as Hs. destruct (merge_scalar sed o i ks) as [si sc]. injection H as <-. by apply TAG.
    + discriminate.
  - pose proof (proj1 (everywhere_some _ _ _) Hn) as [_ Hn2]. destruct (i_kind i) eqn:Ek.
    + cbn [merge] in H. rewrite Ek in H. injection H as <-. destruct o as [oi oc]. by apply TAG.
    + cbn [merge] in H. rewrite Ek in H. destruct o as [oi [oc|]]; cbn [t_content t_info] in H; [|by injection H as <-].
      destruct oc as [|o0 orest]; [discriminate|]. destruct l as [|n0 nr]; [discriminate|].
      destruct (merge sed o0 n0 _) as [r| | |] eqn:Er; cbn [rbind] in H; try discriminate.
      injection H as <-. apply (ai_comments S sed oi i [t_value (T oi (Some (o0 :: orest)))]) in Ho.
      apply ai_node in Ho as [H1 H2]. apply Forall_cons in H2 as [H20 H2].
      apply Forall_cons in IH as [IH0 _]. apply Forall_cons in Hn2 as [Hn0 _].
      apply ai_node. split; [exact H1|]. constructor; [|exact H2]. exact (IH0 Hn0 _ _ _ H20 Er).
    + cbn [merge] in H. rewrite Ek in H. injection H as <-. by apply ai_array.
    + rewrite merge_map_eq in H by exact Ek. clear Ek Hn.
      revert o Ho H. induction l as [|x|nk nv ps IHp] using list_ind2; intros o Ho H.
      * by injection H as <-.
      * by injection H as <-.
      * apply Forall_cons in IH as [_ IH]. apply Forall_cons in IH as [IHv IH].
        apply Forall_cons in Hn2 as [Hnk Hn2]. apply Forall_cons in Hn2 as [Hnv Hn2].
        cbn [merge_pairs] in H.
        destruct (merge_pair sed _ nk nv o) as [o1| | |] eqn:E; cbn [rbind] in H; try discriminate.
        apply (IHp IH Hn2 o1); [|exact H]. clear H IHp.
        pose proof (ai_to_map S o Ho) as Hom. unfold merge_pair in E.
        assert (Hadd : aliases_in S (add_node sed (to_map o) [nk; nv])).
        { apply ai_add; [exact Hom|]. constructor; [done|]. constructor; [done|constructor]. }
        destruct (to_map o) as [mi [mc|]]; cbn [t_content] in E; [|injection E as <-; exact Hadd].
        apply ai_node in Hom as [Hm1 Hm2].
        destruct (merge_entries sed _ (t_info nk) mc) as [[mc' b]| | |] eqn:Ee; cbn [rbind] in E; try discriminate.
        apply (ai_entries S) in Ee; [|intros ov k r Hov Hr; eapply IHv; eauto|exact Hm2].
        destruct b; injection E as <-; [|exact Hadd]. apply ai_node. split; [exact Hm1|done].
    + cbn [merge] in H. rewrite Ek in H. pose proof (ai_scalar S sed o i ks Ho) as Hs.
      destruct (merge_scalar sed o i ks) as [si sc]. injection H as <-. by apply TAG.
    + cbn [merge] in H. rewrite Ek in H. discriminate.
Qed.

(** A tree all of whose aliases are in [p]. *)
Lemma ok_aliases (p : list N -> Prop) t : aliases_in (fun n => n <> [] /\ p n) t -> ok p t.
Proof.
  revert p. induction t as [i|i l IH] using tree_ind'; intros p H; apply ai_node in H as [H HL]; apply ok_node; (split; [done|]).
  - done.
  - enough (X : forall q : list N -> Prop, (forall n, p n -> q n) -> oks q l) by (apply X; auto).
    clear H. induction l as [|t l IHl]; intros q Q; [done|]. apply Forall_cons in IH as [IHt IH]. apply Forall_cons in HL as [Ht HL].
    apply oks_cons. split; [|apply IHl; auto].
    eapply ok_mono; [exact Q|]. by apply IHt.
Qed.

Lemma held_anon p l : held always always p l <-> held always always p (anon (map snd l)).
Proof. revert p. induction l as [|[x i] l IH]; intros p; [done|]. cbn [map anon snd held]. rewrite IH. done. Qed.
Lemma nodes_outline t : map snd (nodes t) = outline (erase t).
Proof.
  induction t as [l i|l i ts IH] using ltree_ind'; [done|]. rewrite nodes_eq, erase_eq, outline_eq. cbn [map snd kids]. f_equal.
  induction ts as [|t ts IHt]; [done|]. apply Forall_cons in IH as [H IH]. cbn [map concat]. rewrite map_app, H. f_equal. auto.
Qed.
Lemma ok_nodes p t : ok p (erase t) <-> held always always p (nodes t).
Proof. rewrite held_anon, nodes_outline. done. Qed.

(** ** Merge: no anchors inside the selected nodes *)
Lemma held_aliases (kept : loc -> Prop) t : (forall x, x ∈ locs t -> ~ kept x) ->
  forall p : list N -> Prop, held always kept p (nodes t) -> aliases_in (fun n => n <> [] /\ p n) (erase t).
Proof.
  induction t as [l i|l i ts IH] using ltree_ind'; intros NK p H; rewrite nodes_eq in H; cbn [kids held] in H;
    rewrite erase_eq; cbn [kids]; destruct H as [H1 H2]; apply ai_node; (split; [intros K; by apply H1|]).
  - constructor.
  - assert (H3 : held always kept p (concat (map nodes ts))).
    { eapply held_mono; [|exact H2]. cbn. intros n [?|[K _]]; [done|]. exfalso. eapply NK; [|exact K]. rewrite locs_eq. by left. }
    clear H1 H2. assert (NK' : forall t x, t ∈ ts -> x ∈ locs t -> ~ kept x) by (intros t x T X; apply NK; by eapply child_locs). clear NK.
    revert p H3. induction ts as [|t ts IHt]; intros p H; [constructor|]. apply Forall_cons in IH as [Ht IH].
    cbn [map concat] in H. apply held_app in H as [HA HB]. constructor.
    + apply Ht; [|done]. intros x X. eapply NK'; [by left|done].
    + apply IHt; [done|intros u x U; eapply NK'; by right|]. eapply held_mono; [|exact HB]. cbn.
      intros n [?|(x & j & X & K & _)]; [done|]. exfalso. eapply NK'; [by left| |exact K]. by eapply nodes_loc.
Qed.

(** ** Delete *)
Lemma held_sublist (K : loc -> Prop) l' l : l' `sublist_of` l -> NoDup (map fst l) -> (forall e, e ∈ l' -> K (fst e)) ->
  (forall x, K x -> x ∈ map fst l -> x ∈ map fst l') ->
  forall p q : list N -> Prop, (forall n, p n -> q n) -> held K K p l -> held always always q l'.
Proof.
  induction 1 as [|[x i] l' l S IH|[x i] l' l S IH]; intros ND A B p q PQ; [done| |]; cbn [held map fst] in *;
    apply NoDup_cons in ND as [NX ND]; intros [H1 H2].
  - split.
    + intros KA _. destruct H1 as [? ?]; [done| |auto]. exact (A (x, i) (elem_of_list_here _ _)).
    + eapply IH; [done|intros e E; apply A; by right| | |exact H2].
      * intros y Ky Y. destruct (proj1 (elem_of_cons _ _ _) (B y Ky (elem_of_list_further _ _ _ Y))) as [->|]; [done|done].
      * cbn. intros n [?|[_ ?]]; [left; auto|right; by split].
  - eapply IH; [done|done| | |exact H2].
    + intros y Ky Y. apply (B y Ky). by right.
    + cbn. intros n [?|[Kx _]]; [auto|]. exfalso. assert (X : x ∈ map fst l') by (apply (B x Kx); by left).
      apply NX. apply elem_of_list_In, in_map_iff in X as (e & <- & E). apply elem_of_list_In in E.
      apply elem_of_list_In, in_map, elem_of_list_In. exact (elem_of_submseteq _ _ _ E (sublist_submseteq _ _ S)).
Qed.
Lemma nodes_fst t : map fst (nodes t) = locs t.
Proof.
  induction t as [l i|l i ts IH] using ltree_ind'; [done|]. rewrite nodes_eq, locs_eq. cbn [map fst kids]. f_equal. unfold flat.
  induction ts as [|t ts IHt]; [done|]. apply Forall_cons in IH as [H IH]. cbn [map concat]. rewrite map_app, H. f_equal. auto.
Qed.
Lemma concat_sublist {A} (a b : list (list A)) : a `sublist_of` b -> concat a `sublist_of` concat b.
Proof.
  induction 1 as [|x a b S IH|x a b S IH]; cbn [concat]; [done|by apply sublist_app|by apply sublist_inserts_l].
Qed.
Lemma drop_pairs_sublist {A} (hit : A -> bool) l : drop_pairs hit l `sublist_of` l.
Proof.
  induction l as [|x|x y l IH] using list_ind2; [done|done|]. cbn [drop_pairs].
  destruct (hit x || hit y); [by do 2 constructor|by do 2 constructor].
Qed.
Lemma filter_sublist (sel : loc -> bool) (us : list ltree) : base.filter (fun t => sel (label t) = false) us `sublist_of` us.
Proof.
  induction us as [|u us IH]; [done|]. rewrite filter_cons. destruct (decide _); [by apply sublist_skip|by apply sublist_cons].
Qed.
Lemma prune_sublist sel t : nodes (prune sel t) `sublist_of` nodes t.
Proof.
  induction t as [l i|l i ts IH] using ltree_ind'; [done|]. cbn [prune]. rewrite !nodes_eq. cbn [kids]. apply sublist_skip.
  transitivity (concat (map nodes (map (prune sel) ts))).
  - apply concat_sublist.
    assert (X : forall us us' : list ltree, us' `sublist_of` us -> map nodes us' `sublist_of` map nodes us).
    { induction 1; cbn [map]; [done|by apply sublist_skip|by apply sublist_cons]. }
    apply X. destruct (elements (i_kind i)); [apply filter_sublist|apply drop_pairs_sublist].
  - clear i l. induction ts as [|t ts IHt]; [done|]. apply Forall_cons in IH as [H IH]. cbn [map concat]. apply sublist_app; auto.
Qed.

(** ** Inject *)
From Verif Require Import SpecBuilder SpecInject.
Lemma nested_ok v r : linked v -> forall q, ok q (nested r v).
Proof.
  intros LV. apply linked_ok in LV. induction r as [|k r IH]; intros q; cbn [nested]; [by eapply ok_mono; [|exact LV]|].
  unfold mapping_of, entry. apply ok_node. split; [discriminate|]. apply oks_cons. split; [apply ok_node; by split|].
  apply oks_cons. split; [apply IH|done].
Qed.
Lemma entry_oks v k r q : linked v -> oks q (entry k (nested r v)).
Proof.
  intros LV. unfold entry. apply oks_cons. split; [apply ok_node; by split|]. apply oks_cons. split; [by apply nested_ok|done].
Qed.
Lemma oks_app p a b : oks p (a ++ b) <-> oks p a /\ oks (fun n => p n \/ exists t, t ∈ a /\ has t n) b.
Proof.
  revert p. induction a as [|t a IH]; intros p; cbn [app].
  - split.
    + intros H. split; [done|]. eapply held_mono; [|exact H]. cbn. auto.
    + intros [_ H]. eapply held_mono; [|exact H]. cbn. intros n [?|(t & T & _)]; [done|]. by apply elem_of_nil in T.
  - rewrite !oks_cons, IH. split.
    + intros (H1 & H2 & H3). split; [done|]. eapply held_mono; [|exact H3]. cbn.
      intros n [[?|?]|(u & U & E)]; [auto|right; exists t; split; [by left|done]|right; exists u; split; [by right|done]].
    + intros ((H1 & H2) & H3). split; [done|]. split; [done|]. eapply held_mono; [|exact H3]. cbn.
      intros n [?|(u & U & E)]; [auto|]. apply elem_of_cons in U as [->|U]; [auto|]. right. eauto.
Qed.
Lemma injected_ok (here : tree -> tree -> Prop) v names o n : (forall a b, ~ here a b) -> linked v ->
  injected here v names o n -> mappings_above names o ->
  (forall p q : list N -> Prop, (forall m, p m -> q m) -> ok p o -> ok q n) /\ (forall m, has o m -> has n m).
Proof.
  intros NH LV. induction 1 as [old new Hh|k r i l1 kn ov ov' l2 K P N EK I IH|k r i c K P N|k r i c K]; intros MA.
  - by apply NH in Hh.
  - cbn [mappings_above] in MA. destruct MA as [_ MA]. unfold children in MA. cbn [t_content] in MA.
    rewrite lookup_key_app in MA by done. rewrite (proj2 (lookup_key_none _ _) N) in MA.
    unfold lookup_key in MA. cbn [pairs lookup_pairs] in MA. rewrite decide_True in MA by done.
    destruct (IH MA) as [IH1 IH2]. split.
    + intros p q PQ. rewrite !ok_node. intros [H1 H2]. split; [intros K'; destruct (H1 K'); auto|].
      apply oks_app in H2 as [H2 H3]. apply oks_cons in H3 as [H3 H4]. apply oks_cons in H4 as [H4 H5].
      apply oks_app. split; [eapply held_mono; [|exact H2]; cbn; intros m [?|?]; auto|].
      apply oks_cons. split; [eapply held_mono; [|exact H3]; cbn; intros m [[?|?]|?]; auto|].
      apply oks_cons. split; [eapply IH1; [|exact H4]; cbn; intros m [[[?|?]|?]|?]; auto|].
      eapply held_mono; [|exact H5]. cbn. intros m [[[[?|?]|?]|?]|?]; eauto 8.
    + intros m. rewrite !has_node. intros [E|(t & T & Ht)]; [by left|]. right.
      apply elem_of_app in T as [T|T]; [exists t; split; [apply elem_of_app; by left|done]|].
      apply elem_of_cons in T as [->|T]; [exists kn; split; [apply elem_of_app; right; by left|done]|].
      apply elem_of_cons in T as [->|T].
      * exists ov'. split; [apply elem_of_app; right; right; by left|auto].
      * exists t. split; [apply elem_of_app; right; right; by right|done].
  - split.
    + intros p q PQ. rewrite !ok_node. intros [H1 H2]. split; [intros K'; destruct (H1 K'); auto|].
      apply oks_app. split; [eapply held_mono; [|exact H2]; cbn; intros m [?|?]; auto|]. by apply entry_oks.
    + intros m. rewrite !has_node. intros [E|(t & T & Ht)]; [by left|]. right. exists t. split; [|done]. apply elem_of_app. by left.
  - cbn [mappings_above] in MA. destruct MA as [MA _]. unfold t_kind in MA. cbn [t_info] in MA. contradiction.
Qed.
