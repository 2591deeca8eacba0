(** Sane instructions never make an overlay panic. *)
From stdpp Require Import list_numbers.
From Verif Require Import Prelude GoStrings Format Yaml Heap MergeTree Combine HeapActions SpecMerge SpecHeap
  ProofHeap ProofHeapActions ProofHeapMerge SpecDelete ProofDelete Lexer Builder ProofBuilder ActionNames Overlay SpecOverlay ProofOverlay
  ProofMerge ProofMergeMap ProofMergeAbs ProofSound ProofSelected ProofBuilderPaths SpecReach SpecActions SpecQuery ProofQuery ProofForest ProofFuel ProofKeeps ProofLocal
  Queue SpecPipeline Fine Execute SpecExecute SpecEnds ProofEnds SpecSane.
From Verif Require ProofExecute.
From Verif Require Import MergeTree.

Local Ltac fcons := repeat (apply Forall_cons; split).

(** ** Merging creates mappings, sequences and scalars *)
Section kinds.
Context (P : kind -> Prop) (PM : P KMapping) (PS : P KSequence) (PC : P KScalar).
Definition only (t : tree) : Prop := everywhere (fun t => P (t_kind t)) t.
Lemma only_node i (c : option (list tree)) : P (i_kind i) -> Forall only (clist c) -> only (T i c).
Proof.
  intros A B. unfold only. destruct c; [rewrite everywhere_some|rewrite everywhere_none]; [split; done|done].
Qed.
Lemma only_inv i (c : option (list tree)) : only (T i c) -> P (i_kind i) /\ Forall only (clist c).
Proof. intros H. split; [exact (everywhere_root _ _ H)|exact (everywhere_children _ _ H)]. Qed.

Lemma sanitize_only sed t : only t -> only (sanitize sed t).
Proof.
  induction t as [i|i l IH] using tree_ind'; intros H; apply only_inv in H as [H1 H2].
  - cbn [sanitize]. destruct (i_kind i) eqn:E; apply only_node; cbn; rewrite ?E; auto.
  - assert (Hl : Forall only (map (sanitize sed) l)).
    { clear H1. cbn in H2. induction l as [|x l IHl]; [constructor|].
      apply Forall_cons in IH as [IHx IH]. apply Forall_cons in H2 as [Hx H2]. constructor; auto. }
    cbn [sanitize]. destruct (i_kind i) eqn:E; apply only_node; cbn; rewrite ?E; auto.
Qed.
Lemma set_info_only i i' c : i_kind i' = i_kind i -> only (T i c) -> only (T i' c).
Proof. intros He H. apply only_inv in H as [H1 H2]. apply only_node; [by rewrite He|done]. Qed.
Lemma merge_scalar_only sed o n vs : only o -> only (merge_scalar sed o n vs).
Proof.
  destruct o as [oi oc]. intros H. apply only_inv in H as [H1 H2]. unfold merge_scalar, t_kind.
  cbn [t_info t_content]. destruct (kind_eqb_spec (i_kind oi) KScalar) as [E|E].
  - apply only_node; [|exact H2]. cbn. rewrite merge_comments_kind. exact H1.
  - apply only_node; [done|constructor].
Qed.
Lemma to_map_only o : only o -> only (to_map o).
Proof. unfold to_map. destruct (kind_eqb _ _); [auto|]. intros _. apply only_node; [done|constructor]. Qed.
Lemma to_seq_only o : only o -> only (to_seq o).
Proof. unfold to_seq. destruct (kind_eqb _ _); [auto|]. intros _. apply only_node; [done|constructor]. Qed.
Lemma add_node_only sed o nv : only o -> Forall only nv -> only (add_node sed o nv).
Proof.
  destruct o as [i c]. intros H Hn. apply only_inv in H as [H1 H2].
  cbn [add_node]. apply only_node; rewrite ?append_content_list; [auto|].
  apply Forall_app. split; [exact H2|]. clear -Hn. induction Hn; constructor; auto using sanitize_only.
Qed.
Lemma merge_entries_only sed f nk oc oc' b :
  (forall ov k r, only ov -> f ov k = Ok r -> only r) ->
  Forall only oc -> merge_entries sed f nk oc = Ok (oc', b) -> Forall only oc'.
Proof.
  intros Hf. revert oc' b. induction oc as [|x|x y oc IH] using list_ind2; intros oc' b Hoc H.
  - injection H as <- <-. auto.
  - injection H as <- <-. auto.
  - apply Forall_cons in Hoc as [Hx Hoc]. apply Forall_cons in Hoc as [Hy Hoc].
    cbn [merge_entries] in H.
    assert (Hx1 : forall vs, only (T (merge_comments sed (t_info x) nk vs) (t_content x))).
    { intros vs. destruct x as [xi xc]. cbn. eapply set_info_only; [|exact Hx]. apply merge_comments_kind. }
    destruct (_ || _).
    + destruct (f y (t_value x)) as [y1| | |] eqn:Ef; cbn [rbind] in H; try discriminate.
      destruct (check_for_markers _).
      * destruct (merge_entries sed f nk oc) as [[r b']| | |]; cbn [rbind] in H; try discriminate.
        injection H as <- <-. specialize (IH r b' Hoc eq_refl).
        fcons; [|eapply Hf; eauto|exact IH]. apply merge_scalar_only, Hx1.
      * injection H as <- <-. fcons; [apply Hx1|eapply Hf; eauto|exact Hoc].
    + destruct (merge_entries sed f nk oc) as [[r b']| | |]; cbn [rbind] in H; try discriminate.
      injection H as <- <-. specialize (IH r b' Hoc eq_refl). fcons; assumption.
Qed.
Lemma merge_array_only sed o n : only o -> only n -> only (merge_array sed o n).
Proof.
  intros Ho Hn. unfold merge_array. pose proof (to_seq_only o Ho) as H1.
  destruct n as [ni [nl|]]; cbn [t_content]; [|exact H1]. apply only_inv in Hn as [_ Hnl].
  destruct (to_seq o) as [i c] eqn:E. apply add_node_only; [|exact Hnl].
  eapply set_info_only; [|exact H1]. apply merge_comments_kind.
Qed.
Lemma merge_only sed n : only n -> forall o ks o', only o -> merge sed o n ks = Ok o' -> only o'.
Proof.
  induction n as [i|i l IH] using tree_ind'; intros Hn o ks o' Ho H.
  - cbn [merge] in H. destruct (i_kind i) eqn:Ek.
    + injection H as <-. destruct o as [oi oc]. eapply set_info_only; [|exact Ho]. reflexivity.
    + destruct (t_content o); injection H as <-; exact Ho.
    + injection H as <-. apply merge_array_only; assumption.
    + injection H as <-; exact Ho.
    + pose proof (merge_scalar_only sed o i ks Ho) as Hs.
      destruct (merge_scalar sed o i ks) as [si sc]. injection H as <-.
      eapply set_info_only; [|exact Hs]. reflexivity.
    + discriminate.
  - pose proof (only_inv _ _ Hn) as [Hn1 Hn2]. destruct (i_kind i) eqn:Ek.
    + cbn [merge] in H. rewrite Ek in H. injection H as <-. destruct o as [oi oc].
      eapply set_info_only; [|exact Ho]. reflexivity.
    + cbn [merge] in H. rewrite Ek in H. destruct o as [oi [oc|]]; cbn [t_content t_info] in H; [|injection H as <-; exact Ho].
      destruct oc as [|o0 orest]; [discriminate|]. destruct l as [|n0 nr]; [discriminate|].
      destruct (merge sed o0 n0 _) as [r| | |] eqn:Er; cbn [rbind] in H; try discriminate.
      injection H as <-. apply only_inv in Ho as [H1 H2]. apply Forall_cons in H2 as [H20 H2].
      apply Forall_cons in IH as [IH0 _]. apply Forall_cons in Hn2 as [Hn0 _].
      apply only_node; [by rewrite merge_comments_kind|]. constructor; [|exact H2]. exact (IH0 Hn0 _ _ _ H20 Er).
    + cbn [merge] in H. rewrite Ek in H. injection H as <-. apply merge_array_only; assumption.
    + rewrite merge_map_eq in H by exact Ek. clear Ek Hn Hn1.
      revert o Ho H. induction l as [|x|nk nv ps IHp] using list_ind2; intros o Ho H.
      * cbn in H. injection H as <-; exact Ho.
      * cbn in H. injection H as <-; exact Ho.
      * apply Forall_cons in IH as [_ IH]. apply Forall_cons in IH as [IHv IH].
        apply Forall_cons in Hn2 as [Hnk Hn2]. apply Forall_cons in Hn2 as [Hnv Hn2].
        cbn [merge_pairs] in H.
        destruct (merge_pair sed _ nk nv o) as [o1| | |] eqn:E; cbn [rbind] in H; try discriminate.
        apply (IHp IH Hn2 o1); [|exact H]. clear H IHp.
        pose proof (to_map_only o Ho) as Hom. unfold merge_pair in E. pose proof (to_map_kind o) as Km.
        assert (Hadd : only (add_node sed (to_map o) [nk; nv])).
        { apply add_node_only; [exact Hom|fcons; [assumption|assumption|constructor]]. }
        destruct (to_map o) as [mi [mc|]]; cbn [t_content] in E; [|injection E as <-; exact Hadd].
        apply only_inv in Hom as [Hm1 Hm2].
        destruct (merge_entries sed _ (t_info nk) mc) as [[mc' b]| | |] eqn:Ee; cbn [rbind] in E; try discriminate.
        apply merge_entries_only in Ee; [|intros ov k r Hov Hr; eapply IHv; eauto|exact Hm2].
        destruct b; injection E as <-; [|exact Hadd]. apply only_node; done.
    + cbn [merge] in H. rewrite Ek in H. pose proof (merge_scalar_only sed o i ks Ho) as Hs.
      destruct (merge_scalar sed o i ks) as [si sc]. injection H as <-.
      eapply set_info_only; [|exact Hs]. reflexivity.
    + cbn [merge] in H. rewrite Ek in H. discriminate.
Qed.
End kinds.

Definition docless (t : tree) : Prop := everywhere no_alias_no_doc t.

(** ** The scaffold *)
Lemma parse_docless f : forall first s t, parse f first s = Ok t -> docless t.
Proof.
  assert (ID : docless b_identity) by (apply (only_node (fun k => k <> KAlias /\ k <> KDocument)); [done|constructor]).
  assert (KE : forall x, docless (b_key x)) by (intros; apply (only_node (fun k => k <> KAlias /\ k <> KDocument)); [done|constructor]).
  induction f as [|f IH]; intros first s t; [done|]. cbn [parse]. destruct s as [|c r]; [by intros [= <-]|].
  destruct (ceq c (ch ")")); [done|]. destruct (ceq c (ch ".")).
  { destruct (name_len r) as [|n]; [done|]. destruct (parse f false _) as [u| | |] eqn:E; cbn [rbind]; try done. intros [= <-].
    apply (only_node (fun k => k <> KAlias /\ k <> KDocument)); [done|]. fcons; [done|by eapply IH|constructor]. }
  destruct (bracket_start (c :: r)).
  { destruct (bracket_len (c :: r)) as [n|]; [|done]. destruct (parse f false _) as [u| | |] eqn:E; cbn [rbind]; try done. intros [= <-].
    apply (only_node (fun k => k <> KAlias /\ k <> KDocument)); [done|]. apply IH in E. induction (bracket_child_names _) as [|x l IHl]; [constructor|]. cbn. by fcons. }
  destruct first; [|done]. destruct (name_len (c :: r)) as [|n]; [done|].
  destruct (parse f false _) as [u| | |] eqn:E; cbn [rbind]; try done. intros [= <-].
  apply (only_node (fun k => k <> KAlias /\ k <> KDocument)); [done|]. fcons; [done|by eapply IH|constructor].
Qed.
Definition scaffold (t : tree) : Prop := exists i sub rest, t = T i (Some (sub :: rest)) /\ i_kind i = KDocument /\ docless sub.
Lemma build_scaffold p t : p <> [] -> build p = Ok t -> scaffold t.
Proof.
  intros N. rewrite build_parse'. destruct p as [|c r]; [done|].
  destruct (if ceq c (ch "$") then _ else _) as [u| | |] eqn:E; cbn [rbind]; try done. intros [= <-].
  eexists _, u, []. split; [reflexivity|]. split; [done|]. destruct (ceq c (ch "$")); by eapply parse_docless.
Qed.
Lemma build_all_scaffold ps : Forall (fun p => p <> []) ps -> forall ts, build_all ps = Ok ts -> Forall scaffold ts /\ length ts = length ps.
Proof.
  induction 1 as [|p ps N _ IH]; intros ts; cbn [build_all]; [intros [= <-]; split; [constructor|done]|].
  destruct (build p) as [t| | |] eqn:E; cbn [rbind]; try done. destruct (build_all ps) as [ts'| | |]; cbn [rbind]; try done. intros [= <-].
  destruct (IH ts' eq_refl) as [A B]. split; [|cbn; by rewrite B]. constructor; [by eapply build_scaffold|done].
Qed.
(** Merging a scaffold into a document, or into another scaffold. *)
Lemma merge_scaffold sed o n ks : scaffold n -> t_kind o = KDocument -> t_content o <> Some [] ->
  exists o', merge sed o n ks = Ok o' /\ t_kind o' = KDocument /\ t_content o' <> Some [] /\ (scaffold o -> scaffold o').
Proof.
  intros (i & u & rest & -> & K & D) KO CO. cbn [merge]. rewrite K. destruct o as [oi [[|o0 orest]|]]; cbn [t_content] in *; [done| |].
  - destruct (merge_total sed u D o0 [t_value (T oi (Some (o0 :: orest)))]) as [r E]. rewrite E. cbn [rbind].
    eexists. split; [done|].
    cbn [t_content]. unfold t_kind in *. cbn [t_info] in *. rewrite merge_comments_kind. split; [done|]. split; [done|].
    intros (i' & u' & rest' & [= -> -> ->] & K' & D'). eexists _, r, rest'. split; [reflexivity|]. split; [by rewrite merge_comments_kind|].
    eapply (merge_only (fun k => k <> KAlias /\ k <> KDocument)); [done..|exact D|exact D'|exact E].
  - eexists. split; [done|]. done.
Qed.
Lemma build_paths_scaffold sed ts : ts <> [] -> Forall scaffold ts -> exists y, build_paths sed ts = Ok y /\ scaffold y.
Proof.
  destruct ts as [|t ts]; [done|]. intros _ F. apply Forall_cons in F as [S F]. cbn [build_paths].
  revert t S. induction ts as [|n ts IH]; intros t S; [by exists t|].
  apply Forall_cons in F as [Sn F]. unfold merge_node in *. cbn [fold_left rbind].
  assert (P : t_kind t = KDocument /\ t_content t <> Some []).
  { destruct S as (i & u & rest & -> & K & _). done. }
  destruct (merge_scaffold sed t n [] Sn (proj1 P) (proj2 P)) as (t1 & -> & _ & _ & SS). apply IH; [done|]. by apply SS.
Qed.

(** ** The top of a document *)
Section top.
Context (K : Prop).
Definition topped (t : ltree) : Prop := i_kind (l_info t) = KDocument /\ (K -> l_content t <> Some []).
Lemma topped_erase t : topped t <-> t_kind (erase t) = KDocument /\ (K -> t_content (erase t) <> Some []).
Proof.
  destruct t as [l i [[|u c]|]]; unfold topped, t_kind; cbn; split; intros [A B]; split; try done; intros k; specialize (B k); done.
Qed.
Lemma topped_put_sub x s t : x <> label t -> topped t -> topped (put_sub x s t).
Proof.
  intros N. unfold topped. destruct t as [l i c]; cbn [label] in N. destruct c as [c|]; cbn [put_sub label]; (destruct (Nat.eqb_spec l x) as [->|_]; [by destruct N|]); [|done].
  cbn. intros [A B]. split; [done|]. intros k. specialize (B k). by destruct c.
Qed.
Lemma topped_prune sel t : (K -> Forall (fun u => sel (label u) = false) (kids (l_content t))) -> topped t -> topped (prune sel t).
Proof.
  intros F. unfold topped. destruct t as [l i [c|]]; cbn in *; [|done]. intros [A B]. split; [done|]. intros k. specialize (B k). specialize (F k).
  rewrite A. cbn. destruct c as [|u c]; [done|]. apply Forall_cons in F as [F _]. cbn [map base.filter list_filter]. destruct (decide _) as [_|X]; [done|]. by rewrite prune_label in X.
Qed.

Lemma loop_safe (ro : loc -> Prop) (J : heap -> Prop) (m : loc -> M unit) (F : tree -> res tree) :
  (forall h s, own h [s] -> apart ro h [s] -> J h -> performs (m (label s)) h s (F (erase s))) ->
  (forall t t', sound t -> F t = Ok t' -> sound t') -> (forall t, F t <> Fuel) -> (forall t, F t <> Panic) ->
  (forall h W h' W', own h W -> apart ro h W -> trans h W h' W' -> J h -> J h') ->
  forall sel h doc gs, own h (doc :: gs) -> apart ro h (doc :: gs) -> J h -> sound (erase doc) ->
    (forall x, In x sel -> x ∈ flat (doc :: gs) /\ x <> label doc) -> topped doc ->
  exists h' r doc' gs', loop m sel h = (h', r) /\ trans h (doc :: gs) h' (doc' :: gs') /\ label doc' = label doc /\
    r <> Fuel /\ r <> Panic /\ (r = Ok tt -> sound (erase doc')) /\ topped doc'.
Proof.
  intros Hm HS HF HP HJ. induction sel as [|x sel IH]; intros h doc gs O A Jh Sd IN TP.
  { exists h, (Ok tt), doc, gs. split; [done|]. split; [apply trans_refl; apply O|]. done. }
  destruct (IN x (or_introl eq_refl)) as [INx NEx].
  destruct (forest_edit h (doc :: gs) x O INx) as (s & t & S & T & LS & Os & ED).
  assert (As : apart ro h [s]).
  { eapply apart_subtree; [|exact S]. by eapply apart_member. }
  destruct (Hm h s Os As Jh) as (h1 & r1 & s1 & g1 & M1 & T1 & L1 & E1). rewrite LS in M1.
  destruct (ED h1 s1 g1 T1 L1) as [TD _]. cbn [map app] in TD.
  pose proof (HF (erase s)) as HFs. pose proof (HP (erase s)) as HPs.
  assert (LD : label (put_sub x s1 doc) = label doc) by (rewrite <- LS; apply put_sub_label; congruence).
  pose proof (topped_put_sub x s1 doc NEx TP) as TP1.
  destruct (F (erase s)) as [t1|e| |] eqn:EF; cbn [agree] in E1; [destruct E1 as [-> E1]|subst r1..|done]; [|..|done].
  - assert (O1 := own_trans _ _ _ _ O TD). assert (A1 := apart_trans _ _ _ _ _ O TD A).
    destruct (IH h1 _ _ O1 A1) as (h2 & r2 & doc2 & g2 & M2 & T2 & L2 & N2 & NP2 & S2 & TP2).
    + exact (HJ _ _ _ _ O A TD Jh).
    + destruct (decide (x ∈ locs doc)) as [XD|XD]; [|rewrite put_sub_absent; done].
      apply sound_put_sub; [|done]. rewrite E1. eapply HS; [|exact EF]. eapply sound_subtree; [|exact Sd].
      assert (t = doc) as <-; [|done]. eapply in_forest; [exact O|done|by left| |exact XD].
      rewrite <- LS. eapply subtree_locs; [exact S|apply label_locs].
    + intros y Y. destruct (IN y (or_intror Y)) as [I1 I2]. split; [|by rewrite LD].
      destruct (tr_perm _ _ _ _ TD) as (fr & _ & _ & P). rewrite P. apply elem_of_app. by left.
    + done.
    + exists h2, r2, doc2, g2. split; [cbn [loop]; by rewrite (bind_ok _ _ _ _ _ M1)|].
      split; [eapply trans_trans; eauto|]. split; [congruence|done].
  - exists h1, (Err e), (put_sub x s1 doc), (map (put_sub x s1) gs ++ g1). split; [cbn [loop]; unfold bind; by rewrite M1|].
    split; [exact TD|]. done.
Qed.

Lemma find_below qs h doc rs : sane_paths qs -> own h [doc] -> topped doc ->
  h_find qs (label doc) h = (h, Ok rs) -> forall x, In x rs -> x <> label doc.
Proof.
  intros [_ F] R TP H x X. unfold h_find, bind, get in H. destruct (h !! label doc); [|discriminate].
  destruct (_ && _); [injection H as <-; destruct X|]. injection H as <-.
  apply in_concat in X as (l & L & X). apply in_map_iff in L as (q & <- & Q). rewrite Forall_forall in F.
  exact (proj2 (F q (proj2 (elem_of_list_In _ _) Q)) h doc x R (proj1 TP) X).
Qed.
Lemma find_kids qs h doc rs : Forall below_top qs -> own h [doc] -> topped doc ->
  h_find qs (label doc) h = (h, Ok rs) -> Forall (fun u => mem rs (label u) = false) (kids (l_content doc)).
Proof.
  intros F R TP H. rewrite Forall_forall. intros u U. destruct (mem rs (label u)) eqn:E; [|done]. exfalso.
  unfold mem in E. apply existsb_exists in E as (x & X & E). apply Nat.eqb_eq in E. subst x.
  unfold h_find, bind, get in H. destruct (h !! label doc); [|discriminate].
  destruct (_ && _); [injection H as <-; destruct X|]. injection H as <-.
  apply in_concat in X as (l & L & X). apply in_map_iff in L as (q & <- & Q). rewrite Forall_forall in F.
  apply (F q (proj2 (elem_of_list_In _ _) Q) h doc _ R (proj1 TP) X). apply elem_of_list_In, in_map. by apply elem_of_list_In.
Qed.

Lemma inject_safe sed ip v ro d t : K -> Forall finds_inside ip -> sane_paths ip -> sound t ->
  exists F, forall fuel, F <= fuel -> d <= fuel ->
  forall h doc gs, own h (doc :: gs) -> apart ro h (doc :: gs) -> value_at d ro h v t -> sound (erase doc) -> topped doc ->
  exists h' r doc' gs', h_inject fuel sed ip v (label doc) h = (h', r) /\ trans h (doc :: gs) h' (doc' :: gs') /\
    label doc' = label doc /\ r <> Fuel /\ r <> Panic /\ (r = Ok tt -> sound (erase doc')) /\ topped doc'.
Proof.
  intros k FI SP St. unfold h_inject.
  destruct (build_all_cases (map q_text ip)) as [[ts EB]|EB]; rewrite EB.
  2: exists 0; intros fuel _ _ h doc gs O A V S TP; eexists h, _, doc, gs; (split; [reflexivity|]);
    (split; [apply trans_refl; apply O|]); done.
  assert (SC : Forall scaffold ts /\ ts <> []).
  { destruct SP as [NE SP]. apply build_all_scaffold in EB as [A B]; [split; [done|]|].
    - intros ->. rewrite map_length in B. by destruct ip.
    - rewrite Forall_forall in SP. rewrite Forall_forall. intros p P. apply elem_of_list_In, in_map_iff in P as (q & <- & Q). by apply SP, elem_of_list_In. }
  destruct (build_paths_scaffold sed ts (proj2 SC) (proj1 SC)) as (y & EY & SY). rewrite EY.
  assert (Sy : sound y) by (eapply build_paths_sound; [|exact EY]; by eapply build_all_sound).
  exists (depth y). intros fuel F1 F2 h doc gs O A V S TP.
  destruct (h_alloc_spec (fun l => length h <= l) y h ltac:(done)) as (ext & ly & EA & LY & VA).
  set (h1 := h ++ ext) in *. set (ro' := fun l => length h <= l /\ l < length h1).
  assert (T0 : trans h (doc :: gs) h1 (doc :: gs)) by (apply trans_ext, O).
  assert (O1 := own_trans _ _ _ _ O T0). assert (A1 := apart_trans _ _ _ _ _ O T0 A).
  assert (V1 := value_at_trans _ _ _ _ _ _ _ _ T0 A V).
  assert (A1' : apart ro' h1 [doc]).
  { intros l [L1 L2]. split; [done|]. cbn. rewrite app_nil_r. intros X. destruct O as [R _]. apply Forall_cons in R as [R _].
    pose proof (reads_bound _ _ _ R X). lia. }
  pose proof (h_merge_spec sed ro' (depth y) fuel h1 doc ly y [] F1 (own_head _ _ _ O1) A1' (value_at_bound _ _ _ _ _ (VA _ (le_n _)))) as P.
  destruct (performs_forest _ _ _ _ _ O1 P) as (h2 & r2 & doc2 & gs2 & M2 & T2 & L2 & E2).
  assert (T02 := trans_trans _ _ _ _ _ _ O T0 T2).
  assert (MN : h_merge_node fuel sed (label doc) [ly] h1 = (h2, r2)).
  { unfold h_merge_node. cbn [loop]. unfold bind. rewrite M2. destruct r2 as [[]| | |]; reflexivity. }
  destruct (proj1 (topped_erase doc) TP) as [TK TC]. specialize (TC k).
  destruct (merge_scaffold sed (erase doc) y [] SY TK TC) as (t2 & EM & TK2 & TC2 & _).
  rewrite EM in E2. cbn [agree] in E2. destruct E2 as [-> E2].
  assert (TP2 : topped doc2) by (apply topped_erase; by rewrite E2).
  assert (S2 : sound (erase doc2)) by (rewrite E2; exact (merge_sound _ _ _ _ _ Sy S EM)).
  assert (O2 := own_trans _ _ _ _ O1 T2). assert (A2 := apart_trans _ _ _ _ _ O1 T2 A1).
  assert (V2 := value_at_trans _ _ _ _ _ _ _ _ T2 A1 V1).
  assert (R2 : reads h2 doc2) by (destruct O2 as [R _]; by apply Forall_cons in R as [R _]).
  destruct (find_ok ip h2 doc2 R2) as [rs FR].
  destruct (loop_safe ro (fun h => value_at d ro h v t) (fun r => h_replace_node fuel sed r v)
     (fun o => Ok (replace_node sed o t))) with (sel := rs) (h := h2) (doc := doc2) (gs := gs2)
     as (h3 & r3 & doc3 & gs3 & M3 & T3 & L3 & N3 & NP3 & S3 & TP3); try done.
  - intros hh s Os As Vs. by apply (h_replace_spec sed ro d).
  - intros a b Sa [= <-]. by apply replace_sound.
  - intros. by eapply value_at_trans.
  - intros x X. split; [|exact (find_below ip h2 doc2 rs SP (own_head _ _ _ O2) TP2 FR x X)]. rewrite flat_cons. apply elem_of_app. left. by eapply find_inside.
  - exists h3, r3, doc3, gs3. split; [|split; [by eapply trans_trans|split; [congruence|done]]].
    rewrite (bind_ok _ _ _ _ _ EA). rewrite (bind_ok _ _ _ _ _ MN).
    rewrite L2 in FR. rewrite (bind_ok _ _ _ _ _ FR). exact M3.
Qed.

Lemma act_safe sed ro d a v t fuel h doc gs sel : d <= fuel -> tree_size (erase doc) <= fuel ->
  own h (doc :: gs) -> apart ro h (doc :: gs) -> value_at d ro h v t -> sound (erase doc) -> sound t -> everywhere no_doc t ->
  (forall x, In x sel -> x ∈ locs doc /\ x <> label doc) -> topped doc ->
  (a = ADelete -> K -> Forall (fun u => mem sel (label u) = false) (kids (l_content doc))) ->
  exists h' r doc' gs', h_do_action fuel sed a v (label doc) sel h = (h', r) /\ trans h (doc :: gs) h' (doc' :: gs') /\
    label doc' = label doc /\ r <> Fuel /\ r <> Panic /\ (r = Ok tt -> sound (erase doc')) /\ topped doc'.
Proof.
  intros Fd Fs O A V S St ND IN TP DK.
  assert (IN' : forall x, In x sel -> x ∈ flat (doc :: gs) /\ x <> label doc).
  { intros x X. destruct (IN x X). split; [|done]. rewrite flat_cons. apply elem_of_app; auto. }
  assert (JV : forall h W h' W', own h W -> apart ro h W -> trans h W h' W' -> value_at d ro h v t -> value_at d ro h' v t)
    by (intros; by eapply value_at_trans).
  assert (M : forall h s, own h [s] -> apart ro h [s] -> value_at d ro h v t ->
     performs (h_merge_node fuel sed (label s) [v]) h s (merge sed (erase s) t [])).
  { intros h0 s Os As Vs. destruct (h_merge_spec sed ro d fuel h0 s v t [] Fd Os As Vs) as (h' & r & s' & g & M & T & L & E).
    exists h', r, s', g. split; [|done]. unfold h_merge_node. cbn [loop]. unfold bind. rewrite M.
    destruct r as [[]| | |]; reflexivity. }
  assert (NP : forall a, merge sed a t [] <> Panic).
  { intros a'. pose proof (merge_outcome sed t ND a' []) as X. destruct (merge sed a' t []); done. }
  unfold h_do_action. destruct a; cbn [h_act].
  - apply (loop_safe ro (fun h => value_at d ro h v t) _ (fun o => merge sed o t [])); auto.
    + intros a b Sa. exact (merge_sound sed t a [] b St Sa).
    + intros a. apply merge_no_fuel.
  - apply (loop_safe ro (fun h => value_at d ro h v t) _ (fun o => merge sed o t [])); auto.
    + intros a b Sa. exact (merge_sound sed t a [] b St Sa).
    + intros a. apply merge_no_fuel.
  - apply (loop_safe ro (fun h => value_at d ro h v t) _ (fun o => Ok (replace_node sed o t))); auto.
    + intros h0 s Os As Vs. by apply (h_replace_spec sed ro d).
    + intros a b Sa [= <-]. by apply replace_sound.
  - destruct (h_delete_all _ fuel Fs sel h doc (size_height doc) (own_head _ _ _ O) (shape_cuttable _ (proj1 S) (proj2 S)))
      as (h' & g & M' & T'). exists h', (Ok tt), (prune (mem sel) doc), (g ++ gs). split; [done|]. split.
    + exact (trans_frame_r h [doc] h' (prune (mem sel) doc :: g) gs O T').
    + split; [apply prune_label|]. split; [done|]. split; [done|]. split; [intros _; by apply sound_prune|].
      apply topped_prune; auto.
  - apply (loop_safe ro (fun h => value_at d ro h v t) _
       (fun o => match combine_node sed o t with (t', None) => Ok t' | (_, Some e) => Err e end)); auto.
    + intros h0 s Os As Vs. by apply (combine_performs sed ro d).
    + intros a b Sa E. pose proof (combine_sound sed a t Sa) as X. destruct (combine_node sed a t) as [a' []]; [done|].
      injection E as <-. exact X.
    + intros a. destruct (combine_node sed a t) as [a' []]; discriminate.
    + intros a. destruct (combine_node sed a t) as [a' []]; discriminate.
Qed.

(** ** One overlay *)
Record safe (dflt : list N) (ro : loc -> Prop) (h : heap) (o : overlay) : Prop := mkSafe {
  sf_fine : fine ro h o;
  sf_value : exists d t, value_at d ro h (o_value o) t /\ sound t /\ everywhere no_doc t;
  sf_queries : sane_paths (o_queries o);
  sf_inject : forall ip, o_inject o = Some ip -> sane_paths ip;
  sf_conditions : forall g c q, In g (o_docqueries o) -> In c g -> In q (c_queries c) -> finder_ok q;
  sf_finders : Forall finder_ok (o_queries o) /\ forall ip, o_inject o = Some ip -> Forall finder_ok ip;
  sf_may : may_inject dflt o -> K;
  sf_tops : K -> o_action o = ADelete -> Forall below_top (o_queries o) }.

Lemma reach_closed h x y : closed h -> x < length h -> reach h x y -> y < length h.
Proof. intros C X R. destruct R as [|y n z _ E P]; [done|]. by eapply C. Qed.

Lemma apply_safe sed dflt o ro h doc gs : closed h -> own h (doc :: gs) -> apart ro h (doc :: gs) -> sound (erase doc) ->
  safe dflt ro h o -> topped doc ->
  exists F h' o' r doc' gs', apply F sed dflt o (label doc) h = (h', o', r) /\ r <> Fuel /\ r <> Panic /\
    trans h (doc :: gs) h' (doc' :: gs') /\ label doc' = label doc /\ (r = Ok tt -> sound (erase doc')) /\ topped doc' /\
    closed h' /\ (o' = o \/ o' = resolve_missing dflt o).
Proof.
  intros CL O A S SF TP. pose proof SF as [FI (d & t & V & St & ND) SQ SI SC [GQ GI] SM ST]. pose proof FI as [FQ FJ _ _].
  destruct (conditions_bound _ _ _ FI) as [dc HC].
  assert (R : reads h doc) by (destruct O as [R _]; by apply Forall_cons in R as [R _]).
  assert (LT : label doc < length h) by (eapply reads_bound; [exact R|apply label_locs]).
  assert (XF : exists F, forall fuel, F <= fuel -> exists h' o' r doc' gs', apply fuel sed dflt o (label doc) h = (h', o', r) /\ r <> Fuel /\ r <> Panic /\
    trans h (doc :: gs) h' (doc' :: gs') /\ label doc' = label doc /\ (r = Ok tt -> sound (erase doc')) /\ topped doc' /\
    (o' = o \/ o' = resolve_missing dflt o)).
  2:{ destruct XF as [F X]. destruct (X F (le_n _)) as (h' & o' & r & doc' & gs' & E & N1 & N2 & T & L & SS & TP' & Ho).
      exists F, h', o', r, doc', gs'. split_and!; try done. intros l n x. by eapply (apply_closed F sed dflt o (label doc) h h' o' r). }
  assert (MK : o_missing (resolve_missing dflt o) = MInject -> K).
  { unfold resolve_missing. unfold may_inject in SM. destruct (o_missing o) eqn:EM; try (rewrite EM; by intros; try (apply SM; by left)).
    destruct (equal_fold dflt (lit "inject")) eqn:EF; [|by rewrite EM]. intros _. apply SM. right. split; [done|]. by apply inject_spelled. }
  assert (II : forall ip, Forall finds_inside ip -> sane_paths ip -> exists F, o_missing (resolve_missing dflt o) = MInject -> forall fuel, F <= fuel -> d <= fuel ->
    exists h' r doc' gs', h_inject fuel sed ip (o_value o) (label doc) h = (h', r) /\ trans h (doc :: gs) h' (doc' :: gs') /\
    label doc' = label doc /\ r <> Fuel /\ r <> Panic /\ (r = Ok tt -> sound (erase doc')) /\ topped doc').
  { intros ip X1 X2. destruct (o_missing (resolve_missing dflt o)) eqn:EM; try (by exists 0).
    destruct (inject_safe sed ip (o_value o) ro d t (MK eq_refl) X1 X2 St) as [F1 I1]. exists F1. intros _ fuel L1 L2.
    by apply (I1 fuel L1 L2 h doc gs). }
  destruct (II (o_queries o) FQ SQ) as [F1 I1].
  assert (X2 : exists F2, forall ip, o_inject o = Some ip -> o_missing (resolve_missing dflt o) = MInject -> forall fuel, F2 <= fuel -> d <= fuel ->
    exists h' r doc' gs', h_inject fuel sed ip (o_value o) (label doc) h = (h', r) /\ trans h (doc :: gs) h' (doc' :: gs') /\
    label doc' = label doc /\ r <> Fuel /\ r <> Panic /\ (r = Ok tt -> sound (erase doc')) /\ topped doc').
  { destruct (o_inject o) as [ip|]; [|by exists 0]. destruct (II ip (FJ _ eq_refl) (SI _ eq_refl)) as [F2 I2]. exists F2. intros ip' [= <-]. done. }
  destruct X2 as [F2 I2].
  exists (F1 + F2 + dc + d + tree_size (erase doc)). intros fuel LF.
  destruct (check_spec h dc fuel (label doc) (o_docqueries o) CL ltac:(lia) LT) as (e & E1 & _).
  { intros g c G C. split; [by eapply HC|]. intros q x Q X. eapply reach_closed; [done|exact LT|]. by apply (SC g c q G C Q). }
  unfold apply. rewrite E1.
  assert (KK : forall (o' : overlay) (r : res unit), r <> Fuel -> r <> Panic -> o' = o \/ o' = resolve_missing dflt o ->
    exists h' o'' r' doc' gs', (h, o', r) = (h', o'', r') /\ r' <> Fuel /\ r' <> Panic /\ trans h (doc :: gs) h' (doc' :: gs') /\
    label doc' = label doc /\ (r' = Ok tt -> sound (erase doc')) /\ topped doc' /\ (o'' = o \/ o'' = resolve_missing dflt o)).
  { intros o' r N N' Ho. exists h, o', r, doc, gs. split; [done|]. split; [done|]. split; [done|]. split; [apply trans_refl; apply O|]. done. }
  destruct e; [|apply KK; [done|done|by left]].
  destruct (find_ok (o_queries o) h doc R) as [rs FR]. rewrite FR. destruct rs as [|x rs].
  - destruct (h_on_missing fuel sed (resolve_missing dflt o) (label doc) h) as [h3 r3] eqn:E3.
    enough (X : r3 <> Fuel /\ r3 <> Panic /\ exists doc' gs', trans h (doc :: gs) h3 (doc' :: gs') /\ label doc' = label doc /\ (r3 = Ok tt -> sound (erase doc')) /\ topped doc').
    { destruct X as (N & N' & doc' & gs' & X1 & X2 & X3 & X4). exists h3, (resolve_missing dflt o), r3, doc', gs'. split_and!; try done. by right. }
    set (o1 := resolve_missing dflt o) in *.
    assert (Q : o_queries o1 = o_queries o /\ o_value o1 = o_value o /\ o_inject o1 = o_inject o /\ (o_missing o1 = MInject -> K)).
    { subst o1. unfold resolve_missing. unfold may_inject in SM. destruct (o_missing o) eqn:EM; try (rewrite EM; split_and!; done || (intros; apply SM; by left)).
      destruct (equal_fold dflt (lit "inject")) eqn:EF; [|rewrite EM; split_and!; done]. split_and!; try done. intros _. apply SM. right. split; [done|]. by apply inject_spelled. }
    destruct Q as (Q1 & Q2 & Q3 & Q4). unfold h_on_missing in E3.
    assert (K' : forall r : res unit, r <> Fuel -> r <> Panic -> (h, r) = (h3, r3) -> r3 <> Fuel /\ r3 <> Panic /\
      exists doc' gs', trans h (doc :: gs) h3 (doc' :: gs') /\ label doc' = label doc /\ (r3 = Ok tt -> sound (erase doc')) /\ topped doc').
    { intros r N N' [= <- <-]. split; [done|]. split; [done|]. exists doc, gs. split; [apply trans_refl; apply O|]. done. }
    destruct (o_missing o1); try (eapply K', E3; done).
    unfold h_handle_inject in E3. rewrite Q1, Q2, Q3 in E3.
    destruct (build_all_cases (map q_text (o_queries o))) as [[ts EB]|EB]; rewrite EB in E3.
    + destruct (I1 eq_refl fuel ltac:(lia) ltac:(lia)) as (h4 & r4 & doc' & gs' & M & T & L & N & N' & SS & TP').
      rewrite M in E3. injection E3 as <- <-. split; [done|]. split; [done|]. by exists doc', gs'.
    + destruct (o_inject o) as [ip|]; [|eapply K', E3; done].
      destruct (I2 ip eq_refl eq_refl fuel ltac:(lia) ltac:(lia)) as (h4 & r4 & doc' & gs' & M & T & L & N & N' & SS & TP').
      rewrite M in E3. injection E3 as <- <-. split; [done|]. split; [done|]. by exists doc', gs'.
  - destruct (act_safe sed ro d (o_action o) (o_value o) t fuel h doc gs (x :: rs) ltac:(lia) ltac:(lia) O A V S St ND)
      as (h4 & r4 & doc' & gs' & M & T & L & N & N' & SS & TP').
    + intros y Y. split; [exact (find_inside _ _ _ _ FQ R FR y Y)|exact (find_below _ _ _ _ SQ (own_head _ _ _ O) TP FR y Y)].
    + done.
    + intros EA k. exact (find_kids _ _ _ _ (ST k EA) (own_head _ _ _ O) TP FR).
    + rewrite M. exists h4, o, r4, doc', gs'. split_and!; try done. by left.
Qed.

(** ** The workloads of a file *)
Lemma safe_trans dflt ro h W h' W' o : trans h W h' W' -> apart ro h W -> safe dflt ro h o -> safe dflt ro h' o.
Proof.
  intros T A [FI (d & t & V & S) SQ SI SC GQ SM ST]. split; try done; [by eapply fine_trans|].
  exists d, t. split; [by eapply value_at_trans|done].
Qed.
Lemma safe_resolve dflt ro h o : safe dflt ro h o -> safe dflt ro h (resolve_missing dflt o).
Proof.
  intros F. pose proof (fine_resolve ro h o dflt (sf_fine _ _ _ _ F)) as FI.
  assert (FM := sf_may _ _ _ _ F). unfold resolve_missing, may_inject in *. destruct (o_missing o) eqn:EM; try done.
  destruct (equal_fold dflt (lit "inject")) eqn:EF; [|done].
  destruct F as [_ V SQ SI SC GQ SM ST]. split; try done. intros _. apply FM. right. split; [done|]. by apply inject_spelled.
Qed.
Lemma run_safe sed dflt ro nodes : forall ws h os docs,
  closed h -> labelled docs nodes -> own h docs -> apart ro h docs -> Forall (fun d => sound (erase d)) docs -> Forall topped docs -> Forall (safe dflt ro h) os ->
  Forall (fun w => w_node w ∈ nodes /\ w_overlay w < length os) ws ->
  exists F m r, run_all (run_work F sed dflt) ws (h, os) = (m, r) /\ r <> Fuel /\ r <> Panic.
Proof.
  induction ws as [|w ws IH]; intros h os docs CL LB O A S TP FO WS.
  { exists 0, (h, os), (Ok tt). done. }
  apply Forall_cons in WS as [[W1 WO] WS]. cbn [run_all].
  apply lookup_lt_is_Some in WO as [o EO].
  assert (exists doc rest, label doc = w_node w /\ docs ≡ₚ doc :: rest) as (doc & rest & LD & PD).
  { unfold labelled in LB. rewrite <- LB in W1. apply elem_of_list_In, in_map_iff in W1 as (doc & LD & I). apply elem_of_list_In in I.
    destruct (elem_of_Permutation docs doc) as [X _]. destruct (X I) as [rest P]. exists doc, rest. done. }
  assert (O1 : own h (doc :: rest)) by (by eapply own_perm). assert (A1 : apart ro h (doc :: rest)) by (by eapply apart_perm).
  rewrite PD in S, TP. apply Forall_cons in S as [S1 S2]. apply Forall_cons in TP as [TP1 TP2].
  assert (FO1 : safe dflt ro h o) by (rewrite Forall_forall in FO; apply FO; by eapply elem_of_list_lookup_2).
  destruct (apply_safe sed dflt o ro h doc [] CL (own_head _ _ _ O1) (apart_head _ _ _ _ A1) S1 FO1 TP1)
    as (F1 & h1 & o1 & r1 & doc1 & g1 & E1 & N1 & NP1 & T1 & L1 & SS1 & TT1 & CL1 & Ho).
  pose proof (trans_frame_r h [doc] h1 (doc1 :: g1) rest O1 T1) as T2. cbn [app] in T2.
  assert (O2 : own h1 (doc1 :: rest)) by (apply (own_drop _ _ g1); by eapply own_trans).
  assert (LB' : labelled (doc1 :: rest) nodes).
  { unfold labelled in *. rewrite <- LB, PD. cbn [map]. by rewrite L1. }
  assert (RW : forall F', F1 <= F' -> run_work F' sed dflt w (h, os) = ((h1, <[w_overlay w := o1]> os), r1)).
  { intros F' L. unfold run_work. cbn [fst snd]. rewrite EO, <- LD. by rewrite (apply_more_fuel F1 F' _ _ _ _ _ _ _ _ L E1 N1). }
  destruct r1 as [[]|e| |]; [| |done|done].
  2: eexists F1, _, _; split; [by rewrite RW by done|done].
  destruct (IH h1 (<[w_overlay w := o1]> os) (doc1 :: rest) CL1 LB' O2) as (F2 & m2 & r2 & E2 & N2 & NP2).
  - pose proof (apart_trans _ _ _ _ _ O1 T2 A1) as X. intros l Hl. destruct (X l Hl) as [X1 X2]. split; [done|].
    intros Y. apply X2. rewrite flat_cons in *. rewrite flat_app. rewrite !elem_of_app in *. tauto.
  - apply Forall_cons. split; [by apply SS1|done].
  - apply Forall_cons. split; done.
  - assert (FT : Forall (safe dflt ro h1) os).
    { eapply Forall_impl; [exact FO|]. intros x X. by eapply safe_trans. }
    apply Forall_insert; [done|]. assert (safe dflt ro h1 o) by (by eapply safe_trans). destruct Ho as [->| ->]; [done|by apply safe_resolve].
  - eapply Forall_impl; [exact WS|]. intros x [X1 X2]. by rewrite insert_length.
  - exists (F1 + F2), m2, r2. split; [|done]. rewrite RW by lia. eapply run_more; [|exact E2|done]. lia.
Qed.
End top.

(** ** From the file to [safe] *)
Lemma value_kinds ro h d : forall l t, value_at d ro h l t -> (forall x n, reach h l x -> h !! x = Some n -> i_kind (n_info n) <> KDocument) ->
  everywhere no_doc t.
Proof.
  induction d as [|d IH]; intros l [i c] V H; [destruct V|]. destruct V as (_ & n & E & EI & _ & C). cbn [t_content] in C.
  assert (N : no_doc (T i c)) by (unfold no_doc, t_kind; cbn [t_info] in *; rewrite <- EI; eapply H; [constructor|done]).
  destruct (n_content n) as [ls|] eqn:EC, c as [ts|]; try done.
  apply everywhere_some. split; [done|].
  assert (S : forall x, In x ls -> forall y m, reach h x y -> h !! y = Some m -> i_kind (n_info m) <> KDocument).
  { intros x X y m R. apply H. clear -E EC X R. induction R as [|y k z _ IH M P]; [eapply reach_step; [apply reach_refl|exact E|right; eauto]|by eapply reach_step]. }
  clear -IH C S. induction C as [|x y ls ts V C IHc]; constructor.
  - eapply IH; [exact V|]. apply S. by left.
  - apply IHc. intros; eapply S; [by right|done..].
Qed.
Lemma sane_safe dflt files os h : set_up files os h -> tidy files os h -> sane dflt files os h ->
  Forall (safe (exists o, In o os /\ may_inject dflt o) dflt (values_region os h) h) os.
Proof.
  intros SU [_ TO] (_ & SO & TK). pose proof (tidy_fine os h TO) as FI. pose proof (su_queries _ _ _ SU) as GQ.
  rewrite Forall_forall in SO, TO, FI, GQ. rewrite Forall_forall. intros o I. destruct (SO o I) as [A B C D]. destruct (TO o I) as [_ _ (d & t & V & W & BR) _].
  specialize (FI o I). destruct (GQ o I) as [G1 G2 _]. apply elem_of_list_In in I. split; try done.
  - exists d, t. split; [|split; [done|by eapply value_kinds]]. eapply value_region; [|exact V]. intros x X. exists o, (o_value o). split; [done|]. split; [by left|done].
  - split; [eapply Forall_impl; [exact G1|]; by intros q [? _]|]. intros ip J. eapply Forall_impl; [exact (G2 ip J)|]. by intros q [? _].
  - intros M. by exists o.
  - intros (o' & I' & M') EA. rewrite Forall_forall. intros q Q. apply elem_of_list_In in Q. exact (TK o' o q I' M' I EA Q).
Qed.
Lemma file_safe sed dflt files os h f : set_up files os h -> tidy files os h -> sane dflt files os h -> In f files ->
  exists F m r, run_all (run_work F sed dflt) (file_work os f) (h, os) = (m, r) /\ r <> Fuel /\ r <> Panic.
Proof.
  intros SU TI SA I. pose proof (sane_safe _ _ _ _ SU TI SA) as SF. destruct TI as [TF TO]. destruct SA as (SN & _ & _).
  rewrite Forall_forall in TF, SN. destruct (TF f (proj2 (elem_of_list_In _ _) I)) as (docs & LB & O & S).
  specialize (SN f (proj2 (elem_of_list_In _ _) I)).
  apply (run_safe (exists o, In o os /\ may_inject dflt o) sed dflt (values_region os h) (yf_nodes f) (file_work os f) h os docs).
  - apply SU.
  - unfold labelled. by rewrite LB.
  - done.
  - intros l (o & v & Io & V & R). split.
    + destruct R as [|y n z _ E P]; [by eapply su_values|]. by eapply (su_closed _ _ _ SU).
    + intros X. apply elem_of_flat in X as (t & T & X). destruct O as [Or _]. rewrite Forall_forall in Or.
      eapply (su_values_apart _ _ _ SU f (label t) o v l); [done| |done|done| |done].
      * rewrite <- LB. by apply in_map, elem_of_list_In.
      * apply reach_locs; [by apply Or|done].
  - done.
  - rewrite Forall_forall. intros t T. destruct (SN (label t)) as (n & E & K & C); [rewrite <- LB; by apply in_map, elem_of_list_In|].
    destruct O as [Or _]. rewrite Forall_forall in Or. specialize (Or t T). destruct t as [l i c]. rewrite reads_eq in Or. destruct Or as [[al E'] _].
    cbn [label] in E. rewrite E in E'. injection E' as ->. split; [done|]. intros _ X. cbn in X. subst c. by apply C.
  - done.
  - rewrite Forall_forall. intros w W. apply elem_of_list_In in W. split; [apply elem_of_list_In; by eapply queue_nodes|].
    apply elem_of_list_In, elem_of_list_lookup in I as [i I].
    eapply (ProofExecute.work_in files os h SU i (file_work os f) w); [by rewrite list_lookup_fmap, I|done].
Qed.
