(** Editing documents in place amounts to the tree functions of SpecMeaning.v. *)
From stdpp Require Import sets.
From Verif Require Import Prelude GoStrings Format Yaml Heap MergeTree Combine HeapActions SpecMerge SpecHeap
  ProofHeap ProofHeapActions ProofHeapMerge SpecDelete ProofDelete Lexer Builder ProofBuilder ActionNames Overlay SpecOverlay ProofOverlay
  ProofMerge ProofMergeMap ProofMergeAbs ProofSound ProofSelected ProofBuilderPaths SpecReach SpecQuery ProofQuery ProofForest SpecMeaning.
From Verif Require Import MergeTree.

(** ** Positions in documents with node identities *)
Fixpoint sub_at (p : list nat) (t : ltree) : option ltree :=
  match p with
  | [] => Some t
  | k :: r => match kids (l_content t) !! k with Some c => sub_at r c | None => None end
  end.
Lemma place_sub p : forall t, place p t = label <$> sub_at p t.
Proof. induction p as [|k p IH]; intros t; cbn [place sub_at]; [done|]. destruct (_ !! k); [apply IH|done]. Qed.
Lemma sub_at_subtree p : forall t s, sub_at p t = Some s -> subtree s t.
Proof.
  induction p as [|k p IH]; intros t s; cbn [sub_at]; [intros [= <-]; constructor|].
  destruct (_ !! k) as [c|] eqn:E; [|discriminate]. intros H. destruct t as [l i [ts|]]; [|cbn [l_content kids] in E; by rewrite lookup_nil in E].
  cbn [l_content kids] in E. eapply st_below; [|by apply IH]. apply elem_of_list_In. by eapply elem_of_list_lookup_2.
Qed.
Lemma node_at_erase p : forall t, node_at p (erase t) = erase <$> sub_at p t.
Proof.
  induction p as [|k p IH]; intros t; cbn [node_at sub_at]; [done|].
  assert (E : children (erase t) !! k = erase <$> kids (l_content t) !! k).
  { destruct t as [l i [ts|]]; rewrite erase_eq; unfold children; cbn [t_content l_content kids]; [|by rewrite lookup_nil].
    by rewrite <- list_lookup_fmap. }
  rewrite E. destruct (kids (l_content t) !! k) as [c|]; cbn [fmap option_fmap option_map]; [apply IH|done].
Qed.

Lemma flat_lookup (ts : list ltree) k c : ts !! k = Some c -> exists a b, ts = a ++ c :: b /\ length a = k.
Proof.
  intros E. exists (take k ts), (drop (S k) ts). split.
  - symmetry. by apply take_drop_middle.
  - rewrite take_length. apply lookup_lt_Some in E. lia.
Qed.
Lemma nodup_kids l i (ts : list ltree) k c k' c' x : NoDup (locs (L l i (Some ts))) -> ts !! k = Some c -> ts !! k' = Some c' ->
  x ∈ locs c -> x ∈ locs c' -> k = k'.
Proof.
  intros ND E E' X X'. rewrite locs_eq in ND. cbn [kids] in ND. apply NoDup_cons in ND as [_ ND].
  destruct (decide (k = k')) as [|N]; [done|exfalso].
  revert k k' E E' N. induction ts as [|t ts IH]; intros k k' E E' N; [by rewrite lookup_nil in E|].
  rewrite flat_cons in ND. apply NoDup_app in ND as (N1 & N2 & N3).
  destruct k as [|k], k' as [|k']; cbn in E, E'.
  - done.
  - injection E as ->. apply (N2 x X). apply elem_of_flat. exists c'. split; [by eapply elem_of_list_lookup_2|done].
  - injection E' as ->. apply (N2 x X'). apply elem_of_flat. exists c. split; [by eapply elem_of_list_lookup_2|done].
  - eapply (IH N3 k k'); eauto.
Qed.
(** Different positions hold different nodes. *)
Lemma sub_at_inj t : NoDup (locs t) -> forall p q s u, sub_at p t = Some s -> sub_at q t = Some u -> label s = label u -> p = q.
Proof.
  intros ND p. revert t ND. induction p as [|k p IH]; intros t ND [|k' q] s u; cbn [sub_at].
  - done.
  - intros [= <-]. destruct (_ !! k') as [c|] eqn:E; [|discriminate]. intros U LB. exfalso.
    destruct t as [l i [ts|]]; [|cbn [l_content kids] in E; by rewrite lookup_nil in E]. cbn [l_content kids label] in *.
    rewrite locs_eq in ND. cbn [kids] in ND. apply NoDup_cons in ND as [NI _]. apply NI. rewrite LB. apply elem_of_flat. exists c.
    split; [by eapply elem_of_list_lookup_2|]. eapply subtree_locs; [by eapply sub_at_subtree|apply label_locs].
  - destruct (_ !! k) as [c|] eqn:E; [|discriminate]. intros S [= <-] LB. exfalso.
    destruct t as [l i [ts|]]; [|cbn [l_content kids] in E; by rewrite lookup_nil in E]. cbn [l_content kids label] in *.
    rewrite locs_eq in ND. cbn [kids] in ND. apply NoDup_cons in ND as [NI _]. apply NI. rewrite <- LB. apply elem_of_flat. exists c.
    split; [by eapply elem_of_list_lookup_2|]. eapply subtree_locs; [by eapply sub_at_subtree|apply label_locs].
  - destruct (_ !! k) as [c|] eqn:E; [|discriminate]. destruct (kids _ !! k') as [c'|] eqn:E'; [|discriminate]. intros S U LB.
    destruct t as [l i [ts|]]; [|cbn [l_content kids] in E; by rewrite lookup_nil in E]. cbn [l_content kids label] in *.
    assert (k = k') as <-.
    { eapply nodup_kids; [exact ND|exact E|exact E'| |].
      - eapply subtree_locs; [by eapply sub_at_subtree|apply label_locs].
      - rewrite LB. eapply subtree_locs; [by eapply sub_at_subtree|apply label_locs]. }
    rewrite E in E'. injection E' as <-. f_equal. eapply (IH c); eauto. eapply nodup_child; [exact ND|]. by eapply elem_of_list_lookup_2.
Qed.

(** ** Rewriting at a position *)
Lemma put_sub_kid l i (ts : list ltree) k c s s' : NoDup (locs (L l i (Some ts))) -> ts !! k = Some c -> subtree s c -> label s' = label s ->
  put_sub (label s) s' (L l i (Some ts)) = L l i (Some (<[k := put_sub (label s) s' c]> ts)).
Proof.
  intros ND E S _. assert (LS : label s ∈ locs c) by (eapply subtree_locs; [exact S|apply label_locs]).
  assert (NL : l <> label s).
  { intros ->. rewrite locs_eq in ND. cbn [kids] in ND. apply NoDup_cons in ND as [NI _]. apply NI. apply elem_of_flat.
    exists c. split; [by eapply elem_of_list_lookup_2|done]. }
  cbn [put_sub label]. destruct (Nat.eqb_spec l (label s)); [congruence|]. do 2 f_equal.
  destruct (flat_lookup _ _ _ E) as (a & b & -> & <-). rewrite list_insert_middle || idtac.
  rewrite map_app. cbn [map].
  assert (NA : forall u, u ∈ a ++ b -> label s ∉ locs u).
  { intros u U X. apply elem_of_list_lookup in U as [j U].
    destruct (decide (j < length a)) as [J|J].
    - rewrite lookup_app_l in U by done. assert (j = length a); [|lia].
      eapply (nodup_kids l i (a ++ c :: b) j u (length a) c (label s)); [exact ND| | |exact X|exact LS].
      + by rewrite lookup_app_l.
      + by rewrite lookup_app_r, Nat.sub_diag.
    - rewrite lookup_app_r in U by lia. assert (Datatypes.S j = length a); [|lia].
      eapply (nodup_kids l i (a ++ c :: b) (Datatypes.S j) u (length a) c (label s)); [exact ND| | |exact X|exact LS].
      + rewrite lookup_app_r by lia. replace (Datatypes.S j - length a) with (Datatypes.S (j - length a)) by lia. exact U.
      + by rewrite lookup_app_r, Nat.sub_diag. }
  rewrite !map_put_sub_absent.
  - by rewrite insert_app_r_alt, Nat.sub_diag.
  - intros X. apply elem_of_flat in X as (u & U & X). apply (NA u); [set_solver|done].
  - intros X. apply elem_of_flat in X as (u & U & X). apply (NA u); [set_solver|done].
Qed.

Lemma update_at_ok p f : forall t s s', NoDup (locs t) -> sub_at p t = Some s -> label s' = label s ->
  f (erase s) = Ok (erase s') -> update_at p f (erase t) = Ok (erase (put_sub (label s) s' t)).
Proof.
  induction p as [|k p IH]; intros t s s' ND; cbn [sub_at update_at].
  - intros [= ->] LB F. rewrite F. destruct s as [l i [ts|]]; cbn [put_sub label]; rewrite Nat.eqb_refl; done.
  - destruct (_ !! k) as [c|] eqn:E; [|discriminate]. intros S LB F.
    destruct t as [l i [ts|]]; [|cbn [l_content kids] in E; by rewrite lookup_nil in E]. cbn [l_content kids] in E.
    rewrite erase_eq. rewrite list_lookup_fmap, E. cbn [fmap option_fmap option_map].
    rewrite (IH c s s') by first [done | eapply nodup_child; [exact ND|by eapply elem_of_list_lookup_2]]. cbn [rbind].
    rewrite (put_sub_kid l i ts k c s s' ND E (sub_at_subtree _ _ _ S) LB). rewrite erase_eq. do 3 f_equal.
    symmetry. apply (list_fmap_insert erase ts k).
Qed.
Lemma update_at_bad p f : forall t s, sub_at p t = Some s -> (forall x, f (erase s) <> Ok x) -> update_at p f (erase t) = f (erase s).
Proof.
  induction p as [|k p IH]; intros t s; cbn [sub_at update_at]; [by intros [= ->]|].
  destruct (_ !! k) as [c|] eqn:E; [|discriminate]. intros S NF.
  destruct t as [l i [ts|]]; [|cbn [l_content kids] in E; by rewrite lookup_nil in E]. cbn [l_content kids] in E.
  rewrite erase_eq. rewrite list_lookup_fmap, E. cbn [fmap option_fmap option_map].
  rewrite (IH c s S NF). destruct (f (erase s)) eqn:EF; try done. by destruct (NF _ eq_refl).
Qed.

Lemma sub_at_put p : forall t s s', NoDup (locs t) -> sub_at p t = Some s -> label s' = label s ->
  sub_at p (put_sub (label s) s' t) = Some s'.
Proof.
  induction p as [|k p IH]; intros t s s' ND; cbn [sub_at].
  - intros [= ->] _. destruct s as [l i [ts|]]; cbn [put_sub label]; rewrite Nat.eqb_refl; done.
  - destruct (_ !! k) as [c|] eqn:E; [|discriminate]. intros S LB.
    destruct t as [l i [ts|]]; [|cbn [l_content kids] in E; by rewrite lookup_nil in E]. cbn [l_content kids] in E.
    rewrite (put_sub_kid l i ts k c s s' ND E (sub_at_subtree _ _ _ S) LB). cbn [l_content kids].
    rewrite list_lookup_insert by (by eapply lookup_lt_Some). apply IH; [|done|done].
    eapply nodup_child; [exact ND|by eapply elem_of_list_lookup_2].
Qed.
Lemma sub_at_put_other p : forall q t s s', NoDup (locs t) -> sub_at p t = Some s -> label s' = label s ->
  ~ p `prefix_of` q -> ~ q `prefix_of` p -> sub_at q (put_sub (label s) s' t) = sub_at q t.
Proof.
  induction p as [|k p IH]; intros q t s s' ND; cbn [sub_at].
  - intros _ _ NP. destruct NP. apply prefix_nil.
  - destruct (_ !! k) as [c|] eqn:E; [|discriminate]. intros S LB NP NQ.
    destruct t as [l i [ts|]]; [|cbn [l_content kids] in E; by rewrite lookup_nil in E]. cbn [l_content kids] in E.
    rewrite (put_sub_kid l i ts k c s s' ND E (sub_at_subtree _ _ _ S) LB).
    destruct q as [|k' q]; [by destruct NQ; apply prefix_nil|]. cbn [sub_at l_content kids].
    destruct (decide (k = k')) as [<-|N].
    + rewrite list_lookup_insert by (by eapply lookup_lt_Some). rewrite E. apply (IH q c s s'); try done.
      * eapply nodup_child; [exact ND|by eapply elem_of_list_lookup_2].
      * intros H. apply NP. by apply prefix_cons.
      * intros H. apply NQ. by apply prefix_cons.
    + by rewrite list_lookup_insert_ne.
Qed.

Lemma below_prefix a : forall p, below a p = true <-> a `prefix_of` p /\ a <> p.
Proof.
  induction a as [|x a IH]; intros [|y p]; cbn [below].
  - split; [done|]. by intros [_ ?].
  - split; [|done]. intros _. split; [apply prefix_nil|done].
  - split; [done|]. intros [H _]. by apply prefix_nil_not in H.
  - rewrite andb_true_iff, Nat.eqb_eq, IH. split.
    + intros [-> [P N]]. split; [by apply prefix_cons|]. congruence.
    + intros [P N]. assert (x = y) as -> by (by eapply prefix_cons_inv_1). split; [done|]. split; [by eapply prefix_cons_inv_2|]. congruence.
Qed.
Lemma below_false a p : below a p = false -> a = p \/ ~ a `prefix_of` p.
Proof.
  intros B. destruct (decide (a = p)) as [|N]; [by left|]. right. intros P. assert (below a p = true) by (by apply below_prefix). congruence.
Qed.
(** Nodes above the one rewritten stay. *)
Lemma sub_at_put_above p : forall q t s s', NoDup (locs t) -> sub_at p t = Some s -> label s' = label s ->
  q `prefix_of` p -> label <$> sub_at q (put_sub (label s) s' t) = label <$> sub_at q t.
Proof.
  induction p as [|k p IH]; intros q t s s' ND SP LB P.
  - apply prefix_nil_inv in P as ->. cbn [sub_at fmap option_fmap option_map]. by rewrite put_sub_label.
  - destruct q as [|k' q]; [cbn [sub_at fmap option_fmap option_map]; by rewrite put_sub_label|].
    assert (k' = k) as -> by (by eapply prefix_cons_inv_1). apply prefix_cons_inv_2 in P. cbn [sub_at] in *.
    destruct (_ !! k) as [c|] eqn:E; [|discriminate].
    destruct t as [l i [ts|]]; [|cbn [l_content kids] in E; by rewrite lookup_nil in E]. cbn [l_content kids] in E.
    rewrite (put_sub_kid l i ts k c s s' ND E (sub_at_subtree _ _ _ SP) LB). cbn [l_content kids].
    rewrite list_lookup_insert by (by eapply lookup_lt_Some). cbn [l_content kids] in *. rewrite ?E. apply (IH q c s s'); try done.
    eapply nodup_child; [exact ND|by eapply elem_of_list_lookup_2].
Qed.
(** Nodes not inside the one rewritten stay. *)
Lemma place_put p q t s s' : NoDup (locs t) -> sub_at p t = Some s -> label s' = label s -> below p q = false ->
  place q (put_sub (label s) s' t) = place q t.
Proof.
  intros ND SP LB B. rewrite !place_sub. apply below_false in B as [<-|B]; [by apply (sub_at_put_above p)|].
  destruct (decide (q `prefix_of` p)) as [Q|Q]; [by apply (sub_at_put_above p)|]. f_equal. by apply (sub_at_put_other p).
Qed.
Lemma place_below p q t s x : sub_at p t = Some s -> below p q = true -> place q t = Some x -> x ∈ flat (kids (l_content s)).
Proof.
  revert q t. induction p as [|k p IH]; intros q t; cbn [sub_at]; destruct q as [|j q]; cbn [below]; try discriminate.
  - intros [= ->] _. cbn [place]. destruct (_ !! j) as [c|] eqn:E; [|discriminate]. intros P. rewrite place_sub in P. destruct (sub_at q c) as [u|] eqn:U; [|done].
    injection P as <-. apply elem_of_flat. exists c. split; [by eapply elem_of_list_lookup_2|]. eapply subtree_locs; [by eapply sub_at_subtree|apply label_locs].
  - destruct (_ !! k) as [c|] eqn:E; [|done]. intros S B P. apply andb_true_iff in B as [->%Nat.eqb_eq B]. cbn [place] in P. rewrite E in P. by eapply IH.
Qed.

(** ** A loop over nodes given by positions *)
(** The rewriting keeps the nodes at the later positions in their place, or fails. *)
Fixpoint stay (F : tree -> res tree) (ps : list (list nat)) : Prop :=
  match ps with
  | [] => True
  | p :: r => (forall q, In q r -> below p q = true -> forall t t', sound t -> children t <> [] -> F t <> Ok t') /\ stay F r
  end.
Lemma loop_positions (ro : loc -> Prop) (J : heap -> Prop) (m : loc -> M unit) (F : tree -> res tree) :
  (forall h s, own h [s] -> apart ro h [s] -> J h -> performs (m (label s)) h s (F (erase s))) ->
  (forall h W h' W', own h W -> apart ro h W -> trans h W h' W' -> J h -> J h') ->
  (forall t t', sound t -> F t = Ok t' -> sound t') ->
  forall ps xs h doc gs, stay F ps ->
    own h (doc :: gs) -> apart ro h (doc :: gs) -> J h -> sound (erase doc) ->
    map Some xs = map (fun p => place p doc) ps ->
  exists h' r doc' gs', loop m xs h = (h', r) /\ trans h (doc :: gs) h' (doc' :: gs') /\ label doc' = label doc /\
    agree (update_each ps F (erase doc)) r (erase doc') /\ (r = Ok tt -> sound (erase doc')).
Proof.
  intros Hm HJ HS. induction ps as [|p ps IH]; intros xs h doc gs NN O A Jh Sd MX.
  { destruct xs; [|discriminate]. exists h, (Ok tt), doc, gs. split; [done|]. split; [apply trans_refl; apply O|]. done. }
  destruct NN as [NN NN'].
  destruct xs as [|x xs]; [discriminate|]. cbn [map] in MX. injection MX as PX MX.
  rewrite place_sub in PX. destruct (sub_at p doc) as [s|] eqn:SP; [|discriminate]. cbn in PX. injection PX as ->.
  pose proof (own_head _ _ _ O) as Od. pose proof (own_nodup _ _ Od) as ND.
  pose proof (sub_at_subtree _ _ _ SP) as ST.
  pose proof (own_subtree _ _ _ Od ST) as Os. pose proof (apart_subtree _ _ _ _ (apart_head _ _ _ _ A) ST) as As.
  destruct (Hm h s Os As Jh) as (h1 & r1 & s1 & g1 & M1 & T1 & L1 & E1).
  pose proof (trans_inside _ _ _ _ _ _ ST Od T1 L1) as TD0.
  pose proof (trans_frame_r h [doc] h1 (put_sub (label s) s1 doc :: g1) gs O TD0) as TD. cbn [app] in TD.
  assert (LD : label (put_sub (label s) s1 doc) = label doc) by (by apply put_sub_label).
  cbn [update_each]. destruct (F (erase s)) as [t1|e| |] eqn:EF; cbn [agree] in E1.
  - destruct E1 as [-> E1]. assert (EF' := EF). rewrite <- E1 in EF. rewrite (update_at_ok p F doc s s1 ND SP L1 EF). cbn [rbind].
    destruct (IH xs h1 (put_sub (label s) s1 doc) (g1 ++ gs)) as (h2 & r2 & doc2 & gs2 & M2 & T2 & L2 & A2 & S2).
    + done.
    + exact (own_trans _ _ _ _ O TD).
    + exact (apart_trans _ _ _ _ _ O TD A).
    + exact (HJ _ _ _ _ O A TD Jh).
    + apply sound_put_sub; [|done]. eapply HS; [|exact EF]. by eapply sound_subtree.
    + rewrite MX. apply map_ext_in. intros q Q. symmetry. apply (place_put p); try done.
      destruct (below p q) eqn:B; [|done]. exfalso. apply (NN q Q B (erase s) t1); [by eapply sound_subtree| |done].
      assert (PQ : exists x, place q doc = Some x).
      { assert (I : In (place q doc) (map Some xs)) by (rewrite MX; by apply (in_map (fun p => place p doc))). apply in_map_iff in I as (x & <- & _). by exists x. }
      destruct PQ as [x PQ]. pose proof (place_below _ _ _ _ _ SP B PQ) as X. intros C. destruct s as [l i [ts|]]; rewrite erase_eq in C; unfold children in C; cbn [t_content l_content kids] in *; [|by apply elem_of_nil in X].
      apply map_eq_nil in C. rewrite C in X. by apply elem_of_nil in X.
    + exists h2, r2, doc2, gs2. split; [cbn [loop]; by rewrite (bind_ok _ _ _ _ _ M1)|].
      split; [by eapply trans_trans|]. split; [congruence|done].
  - subst r1. rewrite (update_at_bad p F doc s SP) by (rewrite EF; discriminate). rewrite EF. cbn [rbind agree].
    eexists h1, _, _, _. split; [cbn [loop]; unfold bind; by rewrite M1|]. split; [exact TD|]. done.
  - subst r1. rewrite (update_at_bad p F doc s SP) by (rewrite EF; discriminate). rewrite EF. cbn [rbind agree].
    eexists h1, _, _, _. split; [cbn [loop]; unfold bind; by rewrite M1|]. split; [exact TD|]. done.
  - subst r1. rewrite (update_at_bad p F doc s SP) by (rewrite EF; discriminate). rewrite EF. cbn [rbind agree].
    eexists h1, _, _, _. split; [cbn [loop]; unfold bind; by rewrite M1|]. split; [exact TD|]. done.
Qed.
Lemma inside_out_stay F ps : inside_out ps -> stay F ps.
Proof. induction ps as [|p ps IH]; [done|]. intros [H1 H2]. split; [|by apply IH]. intros q Q B. rewrite H1 in B; [done|done]. Qed.
Lemma always_stay (F : tree -> res tree) ps : (forall t t', sound t -> children t <> [] -> F t <> Ok t') -> stay F ps.
Proof. intros H. induction ps as [|p ps IH]; [done|]. split; [|done]. intros q _ _. exact H. Qed.
Lemma not_nested_inside_out ps : not_nested ps -> inside_out ps.
Proof.
  induction ps as [|p ps IH]; [done|]. intros NN. split.
  - intros q Q. destruct (below p q) eqn:B; [|done]. apply below_prefix in B as [B N]. destruct N. apply NN; [by left|by right|done].
  - apply IH. intros a b A B. apply NN; by right.
Qed.
Lemma inside_out_remaining ps : forall earlier, (forall a q, In a earlier -> In q ps -> below a q = false) -> inside_out ps -> remaining earlier ps = ps.
Proof.
  induction ps as [|p ps IH]; intros earlier H IO; cbn [remaining]; [done|]. destruct IO as [I1 I2]. destruct (existsb _ earlier) eqn:E.
  - apply existsb_exists in E as (a & A & B). rewrite (H a p A (or_introl eq_refl)) in B. done.
  - f_equal. apply IH; [|done]. intros a q [<-|A] Q; [by apply I1|apply H; [done|by right]].
Qed.
Lemma not_nested_remaining ps : not_nested ps -> remaining [] ps = ps.
Proof. intros NN. apply inside_out_remaining; [by intros ? ? []|by apply not_nested_inside_out]. Qed.

(** ** Replacing, whatever the positions *)
Lemma loop_replace (ro : loc -> Prop) d fuel sed v t : d <= fuel -> sound t ->
  forall ps xs earlier h doc gs, own h (doc :: gs) -> apart ro h (doc :: gs) -> value_at d ro h v t -> sound (erase doc) ->
    Forall2 (fun x p => if existsb (fun a => below a p) earlier then x ∈ flat gs else place p doc = Some x) xs ps ->
  exists h' doc' gs', loop (fun r => h_replace_node fuel sed r v) xs h = (h', Ok tt) /\ trans h (doc :: gs) h' (doc' :: gs') /\ label doc' = label doc /\
    update_each (remaining earlier ps) (fun o => Ok (replace_node sed o t)) (erase doc) = Ok (erase doc') /\ sound (erase doc').
Proof.
  intros Hf St. induction ps as [|p ps IH]; intros xs earlier h doc gs O A V Sd FX; inversion FX as [|x ? xs' ? X FX']; subst.
  { exists h, doc, gs. split; [done|]. split; [apply trans_refl; apply O|]. done. }
  cbn [remaining]. destruct (existsb (fun a => below a p) earlier) eqn:DEAD.
  - (* a node cut off before *)
    destruct (forest_edit h (doc :: gs) x O) as (s & t0 & S0 & T0 & LS & Os & ED); [rewrite flat_cons; apply elem_of_app; by right|].
    destruct (h_replace_fresh sed ro d fuel h s v t Hf Os V) as (h1 & s1 & g1 & M1 & T1 & L1 & E1 & FR). rewrite LS in M1.
    destruct (ED h1 s1 g1 T1 L1) as [TD _]. cbn [map app] in TD.
    assert (XD : x ∉ locs doc).
    { intros XD. destruct O as [_ N]. rewrite flat_cons in N. apply NoDup_app in N as (_ & N & _). by apply (N x). }
    rewrite (put_sub_absent x s1 doc XD) in TD.
    destruct (IH xs' earlier h1 doc (map (put_sub x s1) gs ++ g1)) as (h2 & doc2 & gs2 & M2 & T2 & L2 & U2 & S2).
    + exact (own_trans _ _ _ _ O TD).
    + exact (apart_trans _ _ _ _ _ O TD A).
    + by eapply value_at_trans.
    + done.
    + eapply Forall2_impl; [exact FX'|]. intros y q. cbn beta. destruct (existsb (fun a => below a q) earlier); [|done]. intros Y.
      destruct (tr_perm _ _ _ _ TD) as (fr & _ & _ & P).
      assert (YI : y ∈ flat (doc :: map (put_sub x s1) gs ++ g1)).
      { rewrite P. apply elem_of_app. left. rewrite flat_cons. apply elem_of_app. right. exact Y. }
      rewrite flat_cons in YI. apply elem_of_app in YI as [YI|YI]; [|done]. exfalso.
      destruct O as [_ N]. rewrite flat_cons in N. apply NoDup_app in N as (_ & N & _). by apply (N y).
    + exists h2, doc2, gs2. split; [cbn [loop]; by rewrite (bind_ok _ _ _ _ _ M1)|]. split; [by eapply trans_trans|]. done.
  - (* a node of the document *)
    rewrite place_sub in X. destruct (sub_at p doc) as [s|] eqn:SP; [|discriminate]. injection X as X. subst x.
    pose proof (own_head _ _ _ O) as Od. pose proof (own_nodup _ _ Od) as ND. pose proof (sub_at_subtree _ _ _ SP) as ST.
    pose proof (own_subtree _ _ _ Od ST) as Os.
    destruct (h_replace_fresh sed ro d fuel h s v t Hf Os V) as (h1 & s1 & g1 & M1 & T1 & L1 & E1 & FR).
    pose proof (trans_inside _ _ _ _ _ _ ST Od T1 L1) as TD0.
    pose proof (trans_frame_r h [doc] h1 (put_sub (label s) s1 doc :: g1) gs O TD0) as TD. cbn [app] in TD.
    cbn [update_each]. rewrite (update_at_ok p (fun o => Ok (replace_node sed o t)) doc s s1 ND SP L1) by (by rewrite E1). cbn [rbind].
    pose proof (own_trans _ _ _ _ O TD) as O1.
    destruct (IH xs' (p :: earlier) h1 (put_sub (label s) s1 doc) (g1 ++ gs)) as (h2 & doc2 & gs2 & M2 & T2 & L2 & U2 & S2).
    + exact O1.
    + exact (apart_trans _ _ _ _ _ O TD A).
    + by eapply value_at_trans.
    + apply sound_put_sub; [|done]. rewrite E1. by apply replace_sound.
    + eapply Forall2_impl; [exact FX'|]. intros y q. cbn beta. cbn [existsb]. destruct (existsb (fun a => below a q) earlier).
      { rewrite orb_true_r. intros Y. rewrite flat_app. apply elem_of_app. by right. }
      rewrite orb_false_r. intros Y. destruct (below p q) eqn:B; [|by rewrite (place_put p)].
      pose proof (place_below _ _ _ _ _ SP B Y) as YK.
      destruct (tr_perm _ _ _ _ TD) as (fr & _ & _ & P).
      assert (YD : y ∈ locs s) by (destruct s as [l i c]; rewrite locs_eq; apply elem_of_cons; by right).
      assert (YI : y ∈ flat (put_sub (label s) s1 doc :: g1 ++ gs)).
      { rewrite P. apply elem_of_app. left. rewrite flat_cons. apply elem_of_app. left. by eapply subtree_locs. }
      rewrite flat_cons in YI. apply elem_of_app in YI as [YI|YI]; [|done]. exfalso.
      assert (YN : y <> label s).
      { intros ->. destruct s as [l i c]. cbn [label l_content] in *. pose proof (own_nodup _ _ Os) as N. rewrite locs_eq in N. by apply NoDup_cons in N as [N _]. }
      assert (BD : y < length h) by (eapply reads_bound; [destruct Os as [R _]; by inversion R|done]).
      assert (NS : y ∉ locs s1) by (intros Z; destruct (FR y Z) as [->|Z']; [done|lia]).
      clear -YI YD NS ND SP L1. revert YI. revert doc ND SP. induction p as [|k p IH]; intros doc ND SP YI.
      * cbn [sub_at] in SP. injection SP as ->. assert (E : put_sub (label s) s1 s = s1) by (destruct s as [l i [ts|]]; cbn [put_sub label]; by rewrite Nat.eqb_refl). by rewrite E in YI.
      * cbn [sub_at] in SP. destruct (_ !! k) as [c|] eqn:E; [|done]. destruct doc as [l i [ts|]]; [|cbn [l_content kids] in E; by rewrite lookup_nil in E]. cbn [l_content kids] in E.
        pose proof (sub_at_subtree _ _ _ SP) as ST. assert (YC : y ∈ locs c) by (by eapply subtree_locs).
        rewrite (put_sub_kid l i ts k c s s1 ND E ST L1), locs_eq in YI. cbn [kids] in YI.
        apply elem_of_cons in YI as [->|YI].
        -- rewrite locs_eq in ND. cbn [kids] in ND. apply NoDup_cons in ND as [N _]. apply N. apply elem_of_flat. exists c. split; [by eapply elem_of_list_lookup_2|done].
        -- apply elem_of_flat in YI as (u & U & YU). apply elem_of_list_lookup in U as [j U]. destruct (decide (j = k)) as [->|NJ].
           ++ rewrite list_lookup_insert in U by (by eapply lookup_lt_Some). injection U as <-. apply (IH c); try done. eapply nodup_child; [exact ND|by eapply elem_of_list_lookup_2].
           ++ rewrite list_lookup_insert_ne in U by done. apply NJ. by eapply (nodup_kids l i ts j u k c y).
    + exists h2, doc2, gs2. split; [cbn [loop]; by rewrite (bind_ok _ _ _ _ _ M1)|]. split; [by eapply trans_trans|]. split; [rewrite L2; by apply put_sub_label|done].
Qed.
Lemma places_forall2 xs ps doc (gs : list ltree) : map Some xs = map (fun p => place p doc) ps ->
  Forall2 (fun x p => if existsb (fun a => below a p) [] then x ∈ flat gs else place p doc = Some x) xs ps.
Proof.
  revert xs. induction ps as [|p ps IH]; intros [|x xs] MX; try discriminate; [constructor|]. cbn [map] in MX. injection MX as PX MX. constructor; [by rewrite PX|by apply IH].
Qed.

(** ** Deleting *)
Lemma filter_marked (sel : loc -> bool) ts (ms : list (bool * tree)) :
  Forall2 (fun t m => sel (label t) = fst m /\ erase t = snd m) ts ms ->
  map erase (base.filter (fun t => sel (label t) = false) ts) = map snd (base.filter (fun m => fst m = false) ms).
Proof.
  induction 1 as [|t m ts ms [A B] _ IH]; [done|]. rewrite !filter_cons. rewrite <- A.
  destruct (decide (sel (label t) = false)); cbn [map]; [by rewrite B, IH|exact IH].
Qed.
Lemma drop_marked (sel : loc -> bool) : forall ts (ms : list (bool * tree)),
  Forall2 (fun t m => sel (label t) = fst m /\ erase t = snd m) ts ms ->
  map erase (drop_pairs (fun t => sel (label t)) ts) = map snd (drop_pairs fst ms).
Proof.
  intros ts. induction ts as [|t|t u ts IH] using list_ind2; intros ms H.
  - inversion H; subst. done.
  - inversion H as [|? m ? ? [A B] H']; subst. inversion H'; subst. cbn. by rewrite B.
  - inversion H as [|? m ? ? [A B] H']; subst. inversion H' as [|? m' ? ? [A' B'] H'']; subst. cbn [drop_pairs].
    rewrite A, A'. destruct (fst m || fst m'); cbn [map]; [by apply IH|]. by rewrite B, B', (IH _ H'').
Qed.
Lemma prune_without (sel : loc -> bool) t : forall gone,
  (forall p s, p <> [] -> sub_at p t = Some s -> sel (label s) = gone p) -> erase (prune sel t) = without gone (erase t).
Proof.
  induction t as [l i|l i ts IH] using ltree_ind'; intros gone G; [reflexivity|].
  rewrite (erase_eq l i (Some ts)). cbn [prune without]. rewrite erase_eq. do 2 f_equal.
  match goal with |- context [drop_pairs fst ?m] => set (ms := m) end.
  assert (X : Forall2 (fun t m => sel (label t) = fst m /\ erase t = snd m) (map (prune sel) ts) ms).
  { subst ms. assert (G' : forall k c p s, ts !! k = Some c -> sub_at p c = Some s -> sel (label s) = gone ((0 + k) :: p)).
    { intros k c p s E S. apply G; [done|]. cbn [sub_at l_content kids Nat.add]. by rewrite E. }
    clear G. revert G'. generalize 0 as n. induction IH as [|t ts Ht _ IHts]; intros n G'; cbn [map]; constructor.
    - cbn [fst snd]. rewrite prune_label. split.
      + rewrite (G' 0 t [] t eq_refl eq_refl). by rewrite Nat.add_0_r.
      + apply Ht. intros p s NP S. rewrite (G' 0 t p s eq_refl S). by rewrite Nat.add_0_r.
    - apply (IHts (S n)). intros k c p s E S. rewrite (G' (Datatypes.S k) c p s E S). f_equal. f_equal. lia. }
  destruct (elements (i_kind i)); [by apply filter_marked|by apply drop_marked].
Qed.
Lemma mem_among doc xs ps p s : NoDup (locs doc) -> map Some xs = map (fun p => place p doc) ps -> sub_at p doc = Some s ->
  mem xs (label s) = among ps p.
Proof.
  intros ND MX SP. unfold among. destruct (existsb _ ps) eqn:E.
  - apply mem_In. apply existsb_exists in E as (q & Q & E). apply bool_decide_eq_true in E as <-.
    assert (I : In (place p doc) (map Some xs)) by (rewrite MX; by apply (in_map (fun p => place p doc))).
    rewrite place_sub, SP in I. cbn in I. apply in_map_iff in I as (y & [= ->] & Y). exact Y.
  - apply mem_false. intros I. enough (H : existsb (fun q => bool_decide (p = q)) ps = true) by congruence.
    apply (in_map Some) in I. rewrite MX in I. apply in_map_iff in I as (q & E' & Q). apply existsb_exists. exists q. split; [done|].
    apply bool_decide_eq_true. rewrite place_sub in E'. destruct (sub_at q doc) as [u|] eqn:U; [|discriminate].
    cbn in E'. injection E' as E'. exact (sub_at_inj doc ND p q s u SP U (eq_sym E')).
Qed.

(** ** Finding *)
Lemma empty_doc_erase doc : empty_doc (erase doc) = kind_eqb (i_kind (l_info doc)) KDocument &&
  match kids (l_content doc) with [] => true | _ => false end.
Proof. destruct doc as [l i [[|t ts]|]]; reflexivity. Qed.
Lemma find_found qs tqs h doc : Forall2 computes qs tqs -> own h [doc] ->
  exists xs, h_find qs (label doc) h = (h, Ok xs) /\ map Some xs = map (fun p => place p doc) (found tqs (erase doc)).
Proof.
  intros C O. assert (R : reads h doc) by (destruct O as [R _]; by inversion R).
  destruct (reads_root _ _ R) as [al E]. unfold h_find. rewrite (bind_ok _ _ _ _ _ (get_ok _ _ _ E)). cbn [n_info n_content].
  unfold found. rewrite empty_doc_erase.
  assert (EQ : (match l_content doc with None => true | Some [] => true | Some (_ :: _) => false end) =
               match kids (l_content doc) with [] => true | _ => false end) by (by destruct (l_content doc) as [[]|]).
  destruct doc as [l i c]. cbn [label l_info l_content] in *.
  assert (EQ' : (match labels c with Some (_ :: _) => false | _ => true end) = match kids c with [] => true | _ => false end)
    by (by destruct c as [[]|]).
  destruct (kind_eqb (i_kind i) KDocument && match kids c with [] => true | _ => false end) eqn:EE.
  - rewrite <- EQ' in EE. exists []. split; [|done]. destruct (kind_eqb _ _); [|discriminate]. cbn [andb] in *.
    destruct (labels c) as [[]|]; [done|discriminate|done].
  - eexists. split.
    + rewrite <- EQ' in EE. destruct (kind_eqb _ _); cbn [andb] in *; [|reflexivity].
      destruct (labels c) as [[]|]; [discriminate|reflexivity|discriminate].
    + assert (NE : empty_doc (erase (L l i c)) = false) by (rewrite empty_doc_erase; exact EE).
      clear -C O NE. induction C as [|q tq qs tqs [_ C1] _ IH]; [done|]. cbn [map concat].
      rewrite !map_app. f_equal; [|exact IH]. exact (C1 h (L l i c) O NE).
Qed.

(** ** Comparing *)
Lemma equal_trees (ro : loc -> Prop) h d : alias_free h -> forall fuel s b v, d <= fuel -> reads h s -> value_at d ro h b v ->
  h_equal fuel (label s) b h = (h, Ok (same_look (erase s) v)).
Proof.
  intros AF. induction d as [|d IH]; intros fuel s b v L R V; [destruct V|]. destruct fuel as [|fuel]; [lia|].
  destruct (reads_root _ _ R) as [al E]. destruct V as (_ & nb & Eb & Ib & _ & Cb).
  assert (al = None) as ->. { apply AF in E. exact E. }
  assert (NB := AF _ _ Eb). destruct s as [l i c]. destruct v as [j dd]. cbn [label l_info l_content t_info t_content] in *.
  cbn [h_equal]. rewrite (bind_ok _ _ _ _ _ (get_ok _ _ _ E)), (bind_ok _ _ _ _ _ (get_ok _ _ _ Eb)).
  cbn [n_info n_alias n_content]. rewrite NB, Ib. rewrite erase_eq. cbn [same_look].
  destruct (info_eqb i j); cbn [negb andb]; [|done]. cbn [bind ret].
  apply reads_eq in R as [_ R].
  destruct c as [ts|], dd as [us|], (n_content nb) as [ls|]; cbn [labels] in *; try (by destruct Cb); try reflexivity.
  cbn [kids negb] in R |- *. clear E Eb Ib NB. revert us ls Cb. induction R as [|t ts Rt _ IHts]; intros us ls Cb.
  - inversion Cb; subst; reflexivity.
  - inversion Cb as [|x u ls' us' Vx Vs]; subst; [reflexivity|]. cbn [map].
    unfold bind at 1. rewrite (IH fuel t x u ltac:(lia) Rt Vx). destruct (same_look (erase t) u); cbn [andb]; [|reflexivity].
    apply (IHts us' ls' Vs).
Qed.
Lemma all_equal_trees (ro : loc -> Prop) h d fuel b v doc : alias_free h -> d <= fuel -> reads h doc -> value_at d ro h b v ->
  forall ps xs, map Some xs = map (fun p => place p doc) ps ->
  h_all_equal fuel xs b h = (h, Ok (forallb (fun p => match node_at p (erase doc) with Some s => same_look s v | None => false end) ps)).
Proof.
  intros AF L R V ps. induction ps as [|p ps IH]; intros [|x xs] MX; try discriminate; [done|].
  cbn [map] in MX. injection MX as PX MX. rewrite place_sub in PX. cbn [forallb h_all_equal]. rewrite node_at_erase.
  destruct (sub_at p doc) as [s|] eqn:SP; [|discriminate]. cbn in PX |- *. injection PX as ->.
  unfold bind at 1. rewrite (equal_trees ro h d AF fuel s b v L); [|eapply subtree_reads; [by eapply sub_at_subtree|done]|done].
  destruct (same_look (erase s) v); cbn [andb]; [by apply IH|done].
Qed.
Lemma condition_meaning (ro : loc -> Prop) h d fuel doc c tc : own h [doc] -> d <= fuel -> means_condition d ro h c tc ->
  tc_value tc = None \/ alias_free h -> h_condition fuel c (label doc) h = (h, Ok (tmet (erase doc) tc)).
Proof.
  intros O L (C & RV & V) AF. assert (R : reads h doc) by (destruct O as [R _]; by inversion R).
  destruct (find_found _ _ _ _ C O) as (xs & FX & MX). unfold h_condition. rewrite (bind_ok _ _ _ _ _ FX). unfold tmet.
  destruct (found (tc_queries tc) (erase doc)) as [|p ps]; destruct xs as [|x xs]; try discriminate; [done|].
  destruct (tc_value tc) as [v|].
  - destruct AF as [|AF]; [discriminate|]. destruct V as [V NV]. assert (V' := V). destruct d; [destruct V|].
    destruct V' as (_ & n & E & _). rewrite (bind_ok _ _ _ _ _ (get_ok _ _ _ E)).
    destruct (node_is_zero n) eqn:Z; [|by eapply all_equal_trees].
    exfalso. apply NV. unfold no_value. rewrite E. f_equal. by apply zero_spec.
  - rewrite (bind_ok _ _ _ _ _ (get_ok _ _ _ V)). reflexivity.
Qed.
Lemma check_meaning (ro : loc -> Prop) h d fuel doc dq tdq : own h [doc] -> d <= fuel -> Forall2 (Forall2 (means_condition d ro h)) dq tdq ->
  Forall (Forall (fun c => tc_value c = None)) tdq \/ alias_free h ->
  h_check_queries fuel dq (label doc) h = (h, Ok (tqualifies tdq (erase doc))).
Proof.
  intros O L M AF.
  assert (Q : forall g tg, Forall2 (means_condition d ro h) g tg -> Forall (fun c => tc_value c = None) tg \/ alias_free h ->
     h_check_query fuel g (label doc) h = (h, Ok (forallb (tmet (erase doc)) tg))).
  { induction 1 as [|c tc g tg Mc _ IH]; intros AF'; [done|]. cbn [h_check_query forallb]. unfold bind.
    assert (AF1 : tc_value tc = None \/ alias_free h) by (destruct AF' as [F|]; [apply Forall_cons in F as [? _]; by left|by right]).
    assert (AF2 : Forall (fun c => tc_value c = None) tg \/ alias_free h) by (destruct AF' as [F|]; [apply Forall_cons in F as [_ ?]; by left|by right]).
    rewrite (condition_meaning ro h d fuel doc c tc O L Mc AF1). destruct (tmet (erase doc) tc); cbn [andb]; [by apply IH|done]. }
  assert (A : h_check_any fuel dq (label doc) h = (h, Ok (existsb (forallb (tmet (erase doc))) tdq))).
  { induction M as [|g tg dq tdq Mg _ IH]; [done|]. cbn [h_check_any existsb]. unfold bind.
    assert (AF1 : Forall (fun c => tc_value c = None) tg \/ alias_free h) by (destruct AF as [F|]; [apply Forall_cons in F as [? _]; by left|by right]).
    assert (AF2 : Forall (Forall (fun c => tc_value c = None)) tdq \/ alias_free h) by (destruct AF as [F|]; [apply Forall_cons in F as [_ ?]; by left|by right]).
    rewrite (Q g tg Mg AF1). destruct (forallb _ tg); cbn [orb]; [done|by apply IH]. }
  unfold h_check_queries, tqualifies. destruct M; [done|exact A].
Qed.
