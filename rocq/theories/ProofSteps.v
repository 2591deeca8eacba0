From stdpp Require Import sets list_numbers.
From Verif Require Import Prelude GoStrings Format Yaml Heap MergeTree HeapActions SpecMerge SpecHeap
  ProofMerge ProofHeap ProofHeapActions Builder ActionNames Overlay SpecOverlay ProofOverlay Finder SpecReach ProofFinder SpecSame ProofSame
  SpecInject ProofInject ProofSelected SpecMeaning ProofMeaning ProofForest ProofMeaningKeys Steps SpecSteps.
From Verif Require ProofExecuteProps.

(** ** Lists *)
Lemma values_map {A B} (f : A -> B) l : values (map f l) = map f (values l).
Proof. induction l as [|x|x y l IH] using list_pair_ind; [done|done|]. cbn [map values]. by rewrite IH. Qed.
Lemma members_map {A B} k (f : A -> B) l : members k (map f l) = map f (members k l).
Proof. destruct k; try done. apply values_map. Qed.
Lemma at_index_map {A B} z (f : A -> B) l : at_index z (map f l) = map f (at_index z l).
Proof.
  unfold at_index. rewrite map_length. destruct (Z.ltb z 0); (match goal with |- context [Z.ltb ?i 0] => destruct (Z.ltb i 0) end; [done|]);
    rewrite list_lookup_fmap; by destruct (l !! _).
Qed.
Lemma values_in {A} (x : A) l : In x (values l) -> In x l.
Proof. induction l as [|a|a b l IH] using list_pair_ind; [done|done|]. cbn [values]. intros [<-|H]; [right; by left|right; right; by apply IH]. Qed.
Lemma members_in {A} k (x : A) l : In x (members k l) -> In x l.
Proof. destruct k; try done. apply values_in. Qed.
Lemma at_index_in {A} z (x : A) l : In x (at_index z l) -> In x l.
Proof.
  unfold at_index. destruct (Z.ltb z 0); (match goal with |- context [Z.ltb ?i 0] => destruct (Z.ltb i 0) end; [done|]);
    (destruct (l !! _) as [y|] eqn:E; [|done]; intros [<-|[]]; apply elem_of_list_In; by eapply elem_of_list_lookup_2).
Qed.
Lemma filter_map_eq {A B} (f : A -> B) (P : B -> bool) l : List.filter P (map f l) = map f (List.filter (fun x => P (f x)) l).
Proof. induction l as [|x l IH]; [done|]. cbn [map List.filter]. destruct (P (f x)); cbn [map]; by rewrite IH. Qed.
Lemma filter_ext_in' {A} (P Q : A -> bool) l : (forall x, In x l -> P x = Q x) -> List.filter P l = List.filter Q l.
Proof. intros H. induction l as [|x l IH]; [done|]. cbn [List.filter]. rewrite (H x (or_introl eq_refl)), IH; [done|]. intros y Y. apply H. by right. Qed.

(** ** The specification of a step, through the lists of the model *)
Definition numbered (t : tree) : list (nat * tree) := imap pair (children t).
Lemma numbered_fst (t : tree) : map fst (numbered t) = seq 0 (length (children t)).
Proof.
  unfold numbered. generalize (children t) as l. intros l. apply list_eq. intros i. change (map fst) with (fmap (M := list) (@fst nat tree)).
  rewrite list_lookup_fmap, list_lookup_imap. destruct (decide (i < length l)) as [L|L].
  - rewrite (proj2 (lookup_seq 0 (length l) i i)) by lia. destruct (lookup_lt_is_Some_2 l i L) as [x E]. by rewrite E.
  - rewrite (lookup_ge_None_2 l i) by lia. symmetry. cbn. apply lookup_ge_None_2. rewrite seq_length. lia.
Qed.
Lemma numbered_in i c (t : tree) : In (i, c) (numbered t) -> children t !! i = Some c.
Proof. intros I. apply elem_of_list_In, elem_of_lookup_imap in I as (j & x & E & L). by injection E as -> ->. Qed.
Lemma values_seq n : forall k, values (seq k n) = map (fun j => k + (2 * j + 1)) (seq 0 (Nat.div2 n)).
Proof.
  assert (G : forall m, (forall k, values (seq k (2 * m)) = map (fun j => k + (2 * j + 1)) (seq 0 m)) /\
                        (forall k, values (seq k (S (2 * m))) = map (fun j => k + (2 * j + 1)) (seq 0 m))).
  { assert (V : forall k m, values (seq k (S (S m))) = S k :: values (seq (S (S k)) m)) by done.
    induction m as [|m [IH1 IH2]]; [done|]. replace (2 * S m) with (S (S (2 * m))) by lia.
    split; intros k; rewrite V, ?IH1, ?IH2; cbn [seq map]; (f_equal; [lia|]); rewrite <- seq_shift, map_map; apply map_ext; intros j; lia. }
  intros k. destruct (Nat.Even_Odd_dec n) as [[m ->]|[m ->]].
  - rewrite Nat.div2_double. apply G.
  - replace (2 * m + 1) with (S (2 * m)) by lia. rewrite Nat.div2_succ_double. apply G.
Qed.
Lemma held_members t : map fst (members (t_kind t) (numbered t)) = held t.
Proof. unfold held. rewrite <- members_map, numbered_fst. destruct (t_kind t); try done. cbn [members]. by rewrite values_seq. Qed.
Lemma one_of_seq (P : nat -> bool) i n : (forall j, j < n -> (P j = true <-> j = i)) -> List.filter P (seq 0 n) = match seq 0 n !! i with Some x => [x] | None => [] end.
Proof.
  intros H. induction n as [|n IH]; [done|]. rewrite seq_S, List.filter_app. cbn [plus List.filter]. rewrite IH by (intros j J; apply H; lia).
  destruct (decide (i < n)) as [L|L].
  - rewrite lookup_app_l by (rewrite seq_length; lia). rewrite (proj2 (lookup_seq 0 n i i)) by lia. destruct (P n) eqn:E; [|done]. apply H in E; lia.
  - rewrite (lookup_ge_None_2 (seq 0 n) i) by (rewrite seq_length; lia). rewrite lookup_app_r by (rewrite seq_length; lia). rewrite seq_length.
    destruct (decide (i = n)) as [->|NE].
    + rewrite Nat.sub_diag. cbn. destruct (P n) eqn:E; [done|]. assert (X : P n = true) by (apply H; lia). by rewrite X in E.
    + rewrite (lookup_ge_None_2 [n]) by (cbn; lia). destruct (P n) eqn:E; [|done]. apply H in E; lia.
Qed.
Lemma none_of_seq (P : nat -> bool) n : (forall j, j < n -> P j = false) -> List.filter P (seq 0 n) = [].
Proof. intros H. induction n as [|n IH]; [done|]. rewrite seq_S, List.filter_app. cbn [plus List.filter]. rewrite IH by (intros j J; apply H; lia). by rewrite H by lia. Qed.
Lemma index_seq z n : at_index z (seq 0 n) = List.filter (fun i => bool_decide (z = Z.of_nat i \/ z = Z.of_nat i - Z.of_nat n)%Z) (seq 0 n).
Proof.
  unfold at_index. rewrite seq_length. destruct (Z.ltb_spec z 0) as [N|N].
  - destruct (Z.ltb_spec (Z.of_nat n + z) 0) as [M|M].
    + symmetry. apply none_of_seq. intros j J. apply bool_decide_eq_false. lia.
    + symmetry. apply one_of_seq. intros j J. rewrite bool_decide_eq_true. lia.
  - destruct (Z.ltb_spec z 0) as [M|_]; [lia|]. symmetry. apply one_of_seq. intros j J. rewrite bool_decide_eq_true. lia.
Qed.
Lemma t_step_lists s t : t_step s t = match s with
  | Name k => match t_kind t, key_index k (children t) with KMapping, Some j => [[j]] | _, _ => [] end
  | KeyOf k => match t_kind t, key_index k (children t) with KMapping, Some j => [[pred j]] | _, _ => [] end
  | Every => map (fun m => [fst m]) (members (t_kind t) (numbered t))
  | Index z => match t_kind t with KSequence => map (fun m => [fst m]) (at_index z (numbered t)) | _ => [] end
  | Where names text => map (fun m => [fst m]) (List.filter (fun m => shows names text (snd m)) (members (t_kind t) (numbered t)))
  | Deep => all_positions t
  end.
Proof.
  destruct s as [k|k| |z|names text|]; cbn [t_step]; try done.
  - rewrite <- held_members, map_map. done.
  - destruct (t_kind t); try done. cbv zeta. rewrite <- index_seq, <- numbered_fst, at_index_map, map_map. done.
  - rewrite <- held_members, filter_map_eq, map_map. f_equal. apply filter_ext_in'. intros [i c] I. apply members_in, numbered_in in I. cbn [fst snd]. by rewrite I.
Qed.

(** ** Nodes and positions *)
Definition node_for (t : ltree) (l : loc) (p : list nat) : Prop := exists c, sub_at p t = Some c /\ label c = l.
Definition nodes_for (t : ltree) : list loc -> list (list nat) -> Prop := Forall2 (node_for t).
Lemma nodes_for_places t ls ps : nodes_for t ls ps -> map Some ls = map (fun p => place p t) ps.
Proof. induction 1 as [|l p ls ps (c & S & <-) _ IH]; [done|]. cbn [map]. by rewrite place_sub, S, IH. Qed.

Definition pairs (t : ltree) : list (nat * ltree) := imap pair (kids (l_content t)).
Lemma imap_pair_map {A B} (f : A -> B) l : imap pair (map f l) = map (fun m => (fst m, f (snd m))) (imap pair l).
Proof.
  assert (G : forall n, imap (fun i x => (n + i, x)) (map f l) = map (fun m => (fst m, f (snd m))) (imap (fun i x => (n + i, x)) l)).
  { induction l as [|x l IH]; intros n; [done|]. cbn [map]. rewrite !imap_cons. cbn [map fst snd]. f_equal.
    erewrite (imap_ext _ (fun i x => (S n + i, x))) by (intros; cbn; f_equal; lia). symmetry.
    erewrite (imap_ext _ (fun i x => (S n + i, x))) by (intros; cbn; f_equal; lia). symmetry. apply IH. }
  exact (G 0).
Qed.
Lemma numbered_erase t : numbered (erase t) = map (fun m => (fst m, erase (snd m))) (pairs t).
Proof. unfold numbered. rewrite children_erase. apply imap_pair_map. Qed.
Lemma labels_pairs t : map label (kids (l_content t)) = map (fun m => label (snd m)) (pairs t).
Proof. unfold pairs. apply list_eq. intros i. rewrite !list_lookup_fmap, list_lookup_imap. by destruct (kids (l_content t) !! i). Qed.
Lemma pairs_in t j c : In (j, c) (pairs t) -> kids (l_content t) !! j = Some c.
Proof.
  intros I. apply elem_of_list_In, elem_of_lookup_imap in I as (i & y & [= -> ->] & E). done.
Qed.
Lemma node_child t j c : In (j, c) (pairs t) -> node_for t (label c) [j].
Proof. intros I. exists c. cbn [sub_at]. by rewrite (pairs_in _ _ _ I). Qed.
Lemma nodes_children t ms : (forall m, In m ms -> In m (pairs t)) -> nodes_for t (map (fun m => label (snd m)) ms) (map (fun m => [fst m]) ms).
Proof.
  induction ms as [|[j c] ms IH]; intros H; [constructor|]. cbn [map fst snd]. constructor; [apply node_child, H; by left|]. apply IH. intros m M. apply H. by right.
Qed.

(** ** One step *)
Lemma lpath_shows h names text c : reads h c -> f_shows h names text (label c) = shows names text (erase c).
Proof.
  intros R. unfold f_shows, shows. rewrite (f_path_lpath h names c R). pose proof (key_position_lpath names c) as X.
  destruct (lpath names c) as [s|] eqn:LP; [|by rewrite X]. destruct X as (p & -> & SP). rewrite node_at_erase, SP. cbn [fmap option_fmap option_map existsb].
  assert (Rs : reads h s).
  { eapply subtree_reads; [by eapply lpath_subtree|done]. }
  destruct (reads_root _ _ Rs) as [al ->]. cbn [n_info]. unfold t_kind, t_value. rewrite erase_info, orb_false_r. f_equal.
  destruct (seq_eqb_spec (i_value (l_info s)) text); [by rewrite bool_decide_eq_true_2|by rewrite bool_decide_eq_false_2].
Qed.

Lemma pigeon (l : list nat) n : NoDup l -> (forall x, x ∈ l -> x < n) -> length l <= n.
Proof.
  intros ND B. rewrite <- (seq_length n 0). apply submseteq_length, NoDup_submseteq; [done|]. intros x X. apply elem_of_seq. specialize (B x X). lia.
Qed.
Lemma existsb_eqb x l : existsb (Nat.eqb x) l = true <-> x ∈ l.
Proof. rewrite existsb_exists, elem_of_list_In. split; [intros (y & I & E); by apply Nat.eqb_eq in E as ->|intros I; exists x; split; [done|apply Nat.eqb_refl]]. Qed.

(** All nodes below, as subtrees with their positions. *)
Lemma nodes_below t c k ls ps : kids (l_content t) !! k = Some c -> nodes_for c ls ps -> nodes_for t ls (map (cons k) ps).
Proof.
  intros E. induction 1 as [|l p ls ps (s & S & L) _ IH]; [constructor|]. cbn [map]. constructor; [|done]. exists s. split; [|done]. cbn [sub_at]. by rewrite E.
Qed.
Lemma below_agrees h : forall fuel t seen, reads h t -> NoDup (locs t) -> NoDup seen -> (forall x, x ∈ seen -> x < length h) ->
  (forall x, x ∈ seen -> x ∉ locs t) -> length h < fuel + length seen ->
  nodes_for t (f_below fuel h seen (label t)) (all_positions (erase t)).
Proof.
  induction fuel as [|f IH]; intros t seen R ND NS B D LT.
  - exfalso. pose proof (pigeon seen (length h) NS B). lia.
  - cbn [f_below]. destruct (existsb (Nat.eqb (label t)) seen) eqn:E.
    { exfalso. apply existsb_eqb in E. apply (D _ E), label_locs. }
    destruct (reads_root _ _ R) as [al Er]. rewrite Er. cbn [n_content]. pose proof (reads_kids _ _ R) as RK.
    assert (LL : label t < length h) by (by apply lookup_lt_Some in Er).
    assert (NI : label t ∉ seen) by (intros X; by apply existsb_eqb in X; rewrite X in E).
    assert (K : forall c, c ∈ kids (l_content t) -> nodes_for c (f_below f h (label t :: seen) (label c)) (all_positions (erase c))).
    { intros c C. destruct t as [l i [ts|]]; cbn [l_content kids label] in *; [|by apply elem_of_nil in C]. rewrite locs_eq in ND. cbn [kids] in ND.
      pose proof ND as ND'. apply NoDup_cons in ND as [N1 N2]. apply IH.
      - rewrite Forall_forall in RK. by apply RK.
      - by eapply (nodup_child l i ts).
      - by constructor.
      - intros x [->|X]%elem_of_cons; [done|by apply B].
      - intros x [->|X]%elem_of_cons.
        + intros Y. apply N1, elem_of_flat. by exists c.
        + intros Y. apply (D x X). rewrite locs_eq. cbn [kids]. apply elem_of_cons. right. apply elem_of_flat. by exists c.
      - cbn [length]. lia. }
    destruct t as [l i [ts|]]; cbn [l_content kids labels label] in *; rewrite erase_eq; cbn [all_positions].
    + constructor; [by exists (L l i (Some ts))|].
      assert (G : forall us k, (forall j c, us !! j = Some c -> ts !! (k + j) = Some c) ->
        nodes_for (L l i (Some ts)) (concat (map (f_below f h (l :: seen)) (map label us)))
          ((fix go (k : nat) (ts : list tree) : list (list nat) := match ts with [] => [] | c :: r => map (cons k) (all_positions c) ++ go (S k) r end) k (map erase us))).
      { induction us as [|c us IHu]; intros k H; [constructor|]. cbn [map concat]. apply Forall2_app.
        - assert (Ec : ts !! k = Some c) by (rewrite <- (Nat.add_0_r k); by apply H). apply (nodes_below _ c); [done|]. apply K. by eapply elem_of_list_lookup_2.
        - apply IHu. intros j c' J. replace (S k + j) with (k + S j) by lia. by apply H. }
      apply (G ts 0). intros j c J. exact J.
    + constructor; [by exists (L l i None)|]. constructor.
Qed.

Lemma f_key_index h k ts : Forall (reads h) ts -> match key_index k (map erase ts) with
  | Some j => exists s, 0 < j /\ ts !! pred j = Some s /\ f_key h k (map label ts) = Some (label s)
  | None => f_key h k (map label ts) = None end.
Proof.
  induction ts as [|x|x y ts IH] using list_pair_ind; intros F; [done|done|]. apply Forall_cons in F as [Rx F]. apply Forall_cons in F as [_ F].
  cbn [map key_index f_key]. destruct (reads_root _ _ Rx) as [al E]. rewrite E. cbn [n_info].
  assert (V : t_value (erase x) = i_value (l_info x)) by (unfold t_value; by rewrite erase_info). rewrite V.
  destruct (seq_eqb_spec (i_value (l_info x)) k) as [Q|Q], (decide (i_value (l_info x) = k)); try done; [exists x; split_and!; [lia|done|done]|].
  specialize (IH F). destruct (key_index k (map erase ts)) as [j|]; [|done]. destruct IH as (s & J & L & ->). exists s. split; [lia|]. split; [|done].
  destruct j; [lia|]. done.
Qed.
Lemma step_agrees h s t : reads h t -> NoDup (locs t) -> nodes_for t (f_step h s (label t)) (t_step s (erase t)).
Proof.
  intros R ND. unfold f_step. destruct (reads_root _ _ R) as [al Er]. rewrite Er. cbn [n_info n_content]. pose proof (reads_kids _ _ R) as RK.
  assert (CS : match labels (l_content t) with Some cs => cs | None => [] end = map (fun m => label (snd m)) (pairs t)).
  { rewrite <- labels_pairs. by destruct (l_content t). }
  cbv zeta. rewrite CS, t_step_lists. unfold t_kind. rewrite erase_info, numbered_erase. destruct s as [k|k| |z|names text|].
  - rewrite children_erase. rewrite <- labels_pairs, (f_child_lchild h k _ RK). pose proof (key_index_lchild k (kids (l_content t))) as X.
    destruct (i_kind (l_info t)); cbn [kind_eqb]; try constructor. destruct (lchild k (kids (l_content t))) as [s|].
    + destruct X as (j & -> & L). constructor; [|constructor]. exists s. cbn [sub_at]. by rewrite L.
    + rewrite X. constructor.
  - rewrite children_erase, <- labels_pairs. pose proof (f_key_index h k _ RK) as X. destruct (i_kind (l_info t)); cbn [kind_eqb]; try (by constructor).
    destruct (key_index k _) as [j|]; [|rewrite X; constructor]. destruct X as (s & J & L & ->). constructor; [|constructor]. exists s. cbn [sub_at]. by rewrite L.
  - rewrite !members_map, map_map. cbn [fst]. apply nodes_children. intros m. apply members_in.
  - destruct (i_kind (l_info t)); cbn [kind_eqb]; try constructor. rewrite !at_index_map, map_map. cbn [fst]. apply nodes_children. intros m. apply at_index_in.
  - rewrite !members_map, !filter_map_eq, map_map. cbn [fst snd].
    rewrite (filter_ext_in' (fun m => f_shows h names text (label (snd m))) (fun m => shows names text (erase (snd m)))).
    + apply nodes_children. intros m M. apply filter_In in M as [M _]. by eapply members_in.
    + intros [j c] M. cbn [snd]. apply lpath_shows. apply members_in, pairs_in in M. rewrite Forall_forall in RK. apply RK. by eapply elem_of_list_lookup_2.
  - apply below_agrees; try done; [constructor|intros x X; by apply elem_of_nil in X|intros x X; by apply elem_of_nil in X|cbn [length]; lia].
Qed.

Lemma subtree_nodup s t : subtree s t -> NoDup (locs t) -> NoDup (locs s).
Proof. induction 1 as [|l i ts t I _ IH]; [done|]. intros ND. apply IH. eapply nodup_child; [exact ND|by apply elem_of_list_In]. Qed.
Lemma sub_at_app p q t c : sub_at p t = Some c -> sub_at (p ++ q) t = sub_at q c.
Proof.
  revert t. induction p as [|k p IH]; intros t; cbn [sub_at app]; [by intros [= ->]|]. destruct (_ !! k); [apply IH|done].
Qed.
Lemma nodes_shift t c p ls ps : sub_at p t = Some c -> nodes_for c ls ps -> nodes_for t ls (map (app p) ps).
Proof.
  intros E. induction 1 as [|l q ls ps (s & S & L) _ IH]; [constructor|]. cbn [map]. constructor; [|done]. exists s. split; [|done]. by rewrite (sub_at_app _ _ _ _ E).
Qed.
Lemma steps_agree h ss : forall t, reads h t -> NoDup (locs t) -> nodes_for t (f_steps h ss (label t)) (t_steps ss (erase t)).
Proof.
  induction ss as [|s r IH]; intros t R ND; cbn [f_steps t_steps].
  - constructor; [by exists t|constructor].
  - pose proof (step_agrees h s t R ND) as F. induction F as [|l p ls ps (c & S & L) _ IHF]; [constructor|]. cbn [map concat]. apply Forall2_app; [|done].
    rewrite node_at_erase, S. cbn [fmap option_fmap option_map]. apply (nodes_shift _ c); [done|]. rewrite <- L. apply IH.
    + eapply subtree_reads; [by eapply sub_at_subtree|done].
    + eapply subtree_nodup; [by eapply sub_at_subtree|done].
Qed.
Lemma stepped_computes text ss : computes (stepped text ss) (step_query text ss).
Proof.
  split; [done|]. intros h doc O NE. apply nodes_for_places. assert (R : reads h doc) by (destruct O as [R _]; by inversion R).
  assert (ND : NoDup (locs doc)) by exact (own_nodup _ _ O).
  cbn [stepped q_find step_query tq_find]. destruct (reads_root _ _ R) as [al E]. unfold f_root. rewrite E. cbn [n_info n_content].
  unfold t_kind. rewrite erase_info, children_erase. unfold empty_doc, t_kind in NE. rewrite erase_info, children_erase in NE.
  pose proof (reads_kids _ _ R) as RK.
  destruct (kind_eqb_spec (i_kind (l_info doc)) KDocument) as [K|NK].
  - rewrite K. cbn [andb] in NE. destruct (l_content doc) as [[|c ts]|] eqn:C; try discriminate. cbn [labels kids map] in *.
    apply Forall_cons in RK as [Rc _]. apply (nodes_below _ c); [by rewrite C|]. apply steps_agree; [done|].
    destruct doc as [l i co]. cbn [l_content] in C. subst co. eapply nodup_child; [exact ND|left].
  - assert (EQ : (match i_kind (l_info doc) with
       | KDocument => match map erase (kids (l_content doc)) with [] => [] | c :: _ => map (cons 0) (t_steps ss c) end
       | _ => t_steps ss (erase doc) end) = t_steps ss (erase doc)) by (by destruct (i_kind (l_info doc))).
    rewrite EQ. by apply steps_agree.
Qed.

(** ** Paths of steps find reachable nodes *)
Lemma child_reach h l n cs x : h !! l = Some n -> n_content n = Some cs -> In x cs -> reach h l x.
Proof. intros E C I. eapply reach_step; [constructor|exact E|]. right. by exists cs. Qed.
Lemma below_reach h : forall fuel seen l x, In x (f_below fuel h seen l) -> reach h l x.
Proof.
  induction fuel as [|f IH]; intros seen l x; cbn [f_below]; [done|]. destruct (existsb _ _); [done|]. destruct (h !! l) as [n|] eqn:E; [|done].
  intros [<-|I]; [constructor|]. apply in_concat in I as (ls & I1 & I2). apply in_map_iff in I1 as (c & <- & I1).
  destruct (n_content n) as [cs|] eqn:C; [|done]. eapply reach_trans; [by eapply child_reach|by eapply IH].
Qed.
Lemma f_key_in h k ls v : f_key h k ls = Some v -> In v ls.
Proof.
  induction ls as [|x|x y ls IH] using list_pair_ind; cbn [f_key]; [done|done|]. destruct (h !! x) as [n|]; [destruct (seq_eqb _ _); [intros [= ->]; by left|]|];
    intros F; right; right; by apply IH.
Qed.
Lemma step_reach h s l x : In x (f_step h s l) -> reach h l x.
Proof.
  unfold f_step. destruct (h !! l) as [n|] eqn:E; [|done]. cbv zeta.
  assert (G : forall cs, In x cs -> cs = match n_content n with Some cs => cs | None => [] end -> reach h l x).
  { intros cs I ->. destruct (n_content n) as [cs|] eqn:C; [|done]. by eapply child_reach. }
  destruct s as [k|k| |z|names text|].
  - destruct (kind_eqb _ _); [|done]. destruct (f_child h k _) as [v|] eqn:F; [|done]. intros [<-|[]]. eapply G; [by eapply f_child_in|done].
  - destruct (kind_eqb _ _); [|done]. destruct (f_key h k _) as [v|] eqn:F; [|done]. intros [<-|[]]. eapply G; [by eapply f_key_in|done].
  - intros I%members_in. by eapply G.
  - destruct (kind_eqb _ _); [|done]. intros I%at_index_in. by eapply G.
  - intros [I _]%filter_In. apply members_in in I. by eapply G.
  - apply below_reach.
Qed.
Lemma steps_reach h ss : forall l x, In x (f_steps h ss l) -> reach h l x.
Proof.
  induction ss as [|s r IH]; intros l x; cbn [f_steps]; [intros [<-|[]]; constructor|].
  intros I. apply in_concat in I as (ls & I1 & I2). apply in_map_iff in I1 as (c & <- & I1). eapply reach_trans; [by eapply step_reach|by apply IH].
Qed.
Lemma root_reach h l r : f_root h l = Some r -> reach h l r.
Proof.
  unfold f_root. destruct (h !! l) as [n|] eqn:E; [|discriminate]. destruct (kind_eqb _ _).
  - destruct (n_content n) as [[|c ls]|] eqn:C; try discriminate. intros [= <-]. eapply child_reach; [done|done|by left].
  - intros [= <-]. constructor.
Qed.
Lemma stepped_ok text ss : finder_ok (stepped text ss).
Proof.
  intros h l x X. cbn in X. destruct (f_root h l) as [r|] eqn:F; [|destruct X]. eapply reach_trans; [by apply root_reach|by eapply steps_reach].
Qed.

(** ** ... and are blind to addresses *)
Lemma values_rel {A B} (R : A -> B -> Prop) l l' : Forall2 R l l' -> Forall2 R (values l) (values l').
Proof.
  revert l'. induction l as [|a|a b l IH] using list_pair_ind; intros l' F; [inversion F; constructor| |].
  - inversion F as [|? ? ? ? ? F1]; subst. inversion F1; subst. constructor.
  - inversion F as [|? ? ? ? ? F1]; subst. inversion F1; subst. cbn [values]. constructor; [done|by apply IH].
Qed.
Lemma members_rel {A B} (R : A -> B -> Prop) k l l' : Forall2 R l l' -> Forall2 R (members k l) (members k l').
Proof. intros F. destruct k; cbn [members]; try constructor; try done. by apply values_rel. Qed.
Lemma at_index_rel {A B} (R : A -> B -> Prop) z l l' : Forall2 R l l' -> Forall2 R (at_index z l) (at_index z l').
Proof.
  intros F. unfold at_index. rewrite (Forall2_length _ _ _ F).
  assert (G : forall i, Forall2 R (match l !! i with Some x => [x] | None => [] end) (match l' !! i with Some x => [x] | None => [] end)).
  { intros i. pose proof (Forall2_lookup_l R l l' i) as X. destruct (l !! i) as [x|] eqn:E1.
    - destruct (X x F eq_refl) as (y & -> & Y). constructor; [done|]. constructor.
    - apply lookup_ge_None in E1. rewrite (Forall2_length _ _ _ F) in E1. apply lookup_ge_None in E1 as ->. constructor. }
  destruct (Z.ltb z 0); (match goal with |- context [Z.ltb ?i 0] => destruct (Z.ltb i 0) end; [constructor|apply G]).
Qed.
Lemma filter_rel {A B} (R : A -> B -> Prop) P Q l l' : (forall a b, R a b -> P a = Q b) -> Forall2 R l l' -> Forall2 R (List.filter P l) (List.filter Q l').
Proof. intros H. induction 1 as [|a b l l' AB F IH]; [constructor|]. cbn [List.filter]. rewrite (H a b AB). destruct (Q b); [by constructor|done]. Qed.
Lemma concat_rel {A B C D} (R : A -> B -> Prop) (S : C -> D -> Prop) f g l l' :
  (forall a b, R a b -> Forall2 S (f a) (g b)) -> Forall2 R l l' -> Forall2 S (concat (map f l)) (concat (map g l')).
Proof. intros H. induction 1 as [|a b l l' AB F IH]; [constructor|]. cbn [map concat]. apply Forall2_app; [by apply H|done]. Qed.
Section blind.
Context (R : nat -> nat -> Prop) (h1 h2 : list hnode) (Sm : same R h1 h2).
Lemma content_rel a b : R a b -> exists n1 n2, h1 !! a = Some n1 /\ h2 !! b = Some n2 /\ n_info n1 = n_info n2 /\
  Forall2 R (match n_content n1 with Some cs => cs | None => [] end) (match n_content n2 with Some cs => cs | None => [] end).
Proof.
  intros A. destruct (same_node _ _ _ Sm a b A) as (n1 & n2 & E1 & E2 & (I & _ & C)). exists n1, n2. split_and!; try done.
  destruct (n_content n1) as [l1|], (n_content n2) as [l2|]; try done.
Qed.
Lemma seen_rel s1 s2 a b : Forall2 R s1 s2 -> R a b -> existsb (Nat.eqb a) s1 = existsb (Nat.eqb b) s2.
Proof.
  induction 1 as [|x y s1 s2 XY F IH]; intros A; [done|]. cbn [existsb]. rewrite IH by done. f_equal.
  destruct (Nat.eqb_spec a x) as [->|N1], (Nat.eqb_spec b y) as [->|N2]; try done; exfalso; [apply N2; by eapply (same_fun _ _ _ Sm)|apply N1; by eapply (same_inj _ _ _ Sm)].
Qed.
Lemma below_blind : forall f1 f2 s1 s2 a b, Forall2 R s1 s2 -> R a b -> NoDup s1 -> NoDup s2 ->
  (forall x, x ∈ s1 -> x < length h1) -> (forall x, x ∈ s2 -> x < length h2) -> length h1 < f1 + length s1 -> length h2 < f2 + length s2 ->
  Forall2 R (f_below f1 h1 s1 a) (f_below f2 h2 s2 b).
Proof.
  induction f1 as [|f1 IH]; intros f2 s1 s2 a b F A N1 N2 B1 B2 L1 L2.
  { exfalso. pose proof (pigeon s1 _ N1 B1). lia. }
  destruct f2 as [|f2]. { exfalso. pose proof (pigeon s2 _ N2 B2). lia. }
  cbn [f_below]. pose proof (seen_rel s1 s2 a b F A) as SE. destruct (existsb (Nat.eqb b) s2) eqn:E2; rewrite SE; [constructor|].
  destruct (content_rel a b A) as (n1 & n2 & H1 & H2 & _ & C). rewrite H1, H2. constructor; [done|].
  assert (M1 : a ∉ s1) by (intros X; apply existsb_eqb in X; congruence). assert (M2 : b ∉ s2) by (intros X; apply existsb_eqb in X; congruence).
  eapply concat_rel; [|exact C]. intros x y XY. apply IH; try done; try (by constructor).
  - intros z [->|Z]%elem_of_cons; [by apply lookup_lt_Some in H1|by apply B1].
  - intros z [->|Z]%elem_of_cons; [by apply lookup_lt_Some in H2|by apply B2].
  - cbn [length]. lia.
  - cbn [length]. lia.
Qed.
Lemma shows_blind names text a b : R a b -> f_shows h1 names text a = f_shows h2 names text b.
Proof.
  intros A. unfold f_shows. pose proof (ProofExecuteProps.f_path_blind R h1 h2 names Sm a b A) as F.
  induction F as [|x y l l' XY F IH]; [done|]. cbn [existsb]. rewrite IH. f_equal. destruct (content_rel x y XY) as (n1 & n2 & -> & -> & -> & _). done.
Qed.
Lemma f_key_blind k : forall l1 l2, Forall2 R l1 l2 -> match f_key h1 k l1, f_key h2 k l2 with Some a, Some b => R a b | None, None => True | _, _ => False end.
Proof.
  intros l1. induction l1 as [|x|x y l1 IH] using list_pair_ind; intros l2 F.
  - by inversion F.
  - inversion F as [|? ? ? ? ? F1]; subst. by inversion F1.
  - inversion F as [|? x' ? ? X F1]; subst. inversion F1 as [|? y' ? l2' Y F2]; subst. cbn [f_key].
    destruct (content_rel x x' X) as (n1 & n2 & -> & -> & -> & _). destruct (seq_eqb _ _); [done|by apply IH].
Qed.
Lemma step_blind s a b : R a b -> Forall2 R (f_step h1 s a) (f_step h2 s b).
Proof.
  intros A. unfold f_step. destruct (content_rel a b A) as (n1 & n2 & H1 & H2 & I & C). rewrite H1, H2, I. cbv zeta. destruct s as [k|k| |z|names text|].
  - destruct (kind_eqb _ _); [|constructor]. pose proof (ProofExecuteProps.f_child_blind R h1 h2 k Sm _ _ C) as F.
    destruct (f_child h1 k _), (f_child h2 k _); try done; by repeat constructor.
  - destruct (kind_eqb _ _); [|constructor]. pose proof (f_key_blind k _ _ C) as F.
    destruct (f_key h1 k _), (f_key h2 k _); try done; by repeat constructor.
  - by apply members_rel.
  - destruct (kind_eqb _ _); [|constructor]. by apply at_index_rel.
  - eapply filter_rel; [|by apply members_rel]. intros x y. apply shows_blind.
  - apply below_blind; [by apply (Forall2_nil (A:=nat) (B:=nat))|done|apply NoDup_nil_2|apply NoDup_nil_2|intros x X; by apply elem_of_nil in X|intros x X; by apply elem_of_nil in X|cbn [length]; lia|cbn [length]; lia].
Qed.
Lemma steps_blind ss : forall a b, R a b -> Forall2 R (f_steps h1 ss a) (f_steps h2 ss b).
Proof.
  induction ss as [|s r IH]; intros a b A; cbn [f_steps]; [by repeat constructor|]. eapply concat_rel; [exact IH|by apply step_blind].
Qed.
End blind.
Lemma stepped_blind text ss : finder_blind (stepped text ss).
Proof.
  intros R h1 h2 a b S A. cbn [q_find stepped]. unfold f_root.
  destruct (same_node _ _ _ S a b A) as (n1 & n2 & E1 & E2 & (I & _ & C)). rewrite E1, E2, I.
  destruct (kind_eqb _ _); [|by apply steps_blind].
  destruct (n_content n1) as [[|c1 l1]|], (n_content n2) as [[|c2 l2]|]; try done; try (by inversion C); try constructor.
  inversion C; subst. by apply steps_blind.
Qed.

(** ** Without recursive descent *)
Lemma filter_in_in {A} (P : A -> bool) l x : In x (List.filter P l) -> In x l.
Proof. intros H. by apply filter_In in H as [H _]. Qed.
Lemma step_length s t p : s <> Deep -> In p (t_step s t) -> length p = 1.
Proof.
  intros N. rewrite t_step_lists. destruct s as [k|k| |z|names text|]; [| | | | |done].
  - destruct (t_kind t); try done. destruct (key_index k (children t)); [|done]. by intros [<-|[]].
  - destruct (t_kind t); try done. destruct (key_index k (children t)); [|done]. by intros [<-|[]].
  - intros I. by apply in_map_iff in I as (m & <- & _).
  - destruct (t_kind t); try done. intros I. by apply in_map_iff in I as (m & <- & _).
  - intros I. by apply in_map_iff in I as (m & <- & _).
Qed.
Lemma steps_length ss : shallow ss -> forall t p, In p (t_steps ss t) -> length p = length ss.
Proof.
  induction ss as [|s r IH]; intros SH t p; cbn [t_steps]; [by intros [<-|[]]|]. intros I. apply in_concat in I as (ps & I1 & I2).
  apply in_map_iff in I1 as (q & <- & I1). destruct (node_at q t) as [c|]; [|done]. apply in_map_iff in I2 as (q' & <- & I2).
  rewrite app_length, (step_length s t q), (IH (fun X => SH (or_intror X)) c q'); try done. intros ->. apply SH. by left.
Qed.
(** The positions all have the same depth, so none is inside another. *)
Lemma query_length text ss t p : shallow ss -> In p (tq_find (step_query text ss) t) -> length p = length ss + match t_kind t with KDocument => 1 | _ => 0 end.
Proof.
  intros SH. cbn [step_query tq_find]. destruct (t_kind t); try (intros I; rewrite (steps_length ss SH _ _ I); lia).
  destruct (children t) as [|c r]; [done|]. intros I. apply in_map_iff in I as (q & <- & I). cbn [length]. rewrite (steps_length ss SH _ _ I). lia.
Qed.
Lemma same_length_not_nested (ps : list (list nat)) n : (forall p, In p ps -> length p = n) -> not_nested ps.
Proof. intros H p q P Q [r ->]. apply H in P, Q. rewrite app_length in Q. assert (length r = 0) by lia. destruct r; [by rewrite app_nil_r|done]. Qed.
(** No position is given twice. *)
Lemma imap_fst_nodup {A} (l : list A) : NoDup (map fst (imap pair l)).
Proof.
  assert (E : map fst (imap pair l) = seq 0 (length l)).
  { apply list_eq. intros i. rewrite list_lookup_fmap, list_lookup_imap. destruct (decide (i < length l)) as [L|L].
    - rewrite lookup_seq_lt by done. apply lookup_lt_is_Some in L as [x ->]. done.
    - rewrite lookup_seq_ge by lia. rewrite (proj2 (lookup_ge_None l i)) by lia. done. }
  rewrite E. apply NoDup_seq.
Qed.
Lemma sublist_values {A} (l : list A) : values l `sublist_of` l.
Proof. induction l as [|x|x y l IH] using list_pair_ind; [done|repeat constructor|]. cbn [values]. by repeat constructor. Qed.
Lemma sublist_members {A} k (l : list A) : members k l `sublist_of` l.
Proof. destruct k; cbn [members]; try apply sublist_nil_l; [done|apply sublist_values]. Qed.
Lemma sublist_filter {A} (P : A -> bool) l : List.filter P l `sublist_of` l.
Proof. induction l as [|x l IH]; [done|]. cbn [List.filter]. destruct (P x); by constructor. Qed.
Lemma sublist_map {A B} (f : A -> B) l l' : l `sublist_of` l' -> map f l `sublist_of` map f l'.
Proof. induction 1; cbn [map]; by constructor. Qed.
Lemma at_index_sublist {A} z (l : list A) : at_index z l `sublist_of` l.
Proof.
  unfold at_index. assert (G : forall i, match l !! i with Some x => [x] | None => [] end `sublist_of` l).
  { intros i. destruct (l !! i) as [x|] eqn:E; [|apply sublist_nil_l]. apply elem_of_list_lookup_2, elem_of_list_split in E as (a & b & ->).
    apply sublist_inserts_l. constructor. apply sublist_nil_l. }
  destruct (Z.ltb z 0); (match goal with |- context [Z.ltb ?i 0] => destruct (Z.ltb i 0) end; [apply sublist_nil_l|apply G]).
Qed.
Lemma nodup_sublist {A} (l l' : list A) : l `sublist_of` l' -> NoDup l' -> NoDup l.
Proof.
  induction 1 as [|x l l' S IH|x l l' S IH]; intros N; [constructor| |].
  - apply NoDup_cons in N as [N1 N2]. constructor; [|by apply IH]. intros X. apply N1. by eapply elem_of_submseteq; [exact X|apply sublist_submseteq].
  - apply IH. by apply NoDup_cons in N as [_ N].
Qed.
Lemma singles_nodup (l : list (nat * tree)) t : l `sublist_of` numbered t -> NoDup (map (fun m => [fst m]) l).
Proof.
  intros S. assert (N : NoDup (map fst l)) by (eapply nodup_sublist; [by apply sublist_map|apply imap_fst_nodup]).
  rewrite <- (map_map fst (fun j => [j])). exact (NoDup_fmap_2 (fun j : nat => [j]) _ N).
Qed.
Lemma step_nodup s t : s <> Deep -> NoDup (t_step s t).
Proof.
  intros N. rewrite t_step_lists. destruct s as [k|k| |z|names text|]; [| | | | |done].
  - destruct (t_kind t); try constructor. destruct (key_index k (children t)); [apply NoDup_singleton|constructor].
  - destruct (t_kind t); try constructor. destruct (key_index k (children t)); [apply NoDup_singleton|constructor].
  - apply (singles_nodup _ t). apply sublist_members.
  - destruct (t_kind t); try constructor. apply (singles_nodup _ t). apply at_index_sublist.
  - apply (singles_nodup _ t). etrans; [apply sublist_filter|apply sublist_members].
Qed.
Lemma steps_nodup ss : shallow ss -> forall t, NoDup (t_steps ss t).
Proof.
  induction ss as [|s r IH]; intros SH t; cbn [t_steps]; [apply NoDup_singleton|].
  assert (SN : s <> Deep) by (intros ->; apply SH; by left). assert (SR : shallow r) by (intros X; apply SH; by right).
  pose proof (step_nodup s t SN) as ND. pose proof (fun p => step_length s t p SN) as LN. induction (t_step s t) as [|p ps IHp]; [constructor|].
  cbn [map concat]. apply NoDup_cons in ND as [NI ND]. apply NoDup_app. split; [|split].
  - destruct (node_at p t) as [c|]; [|constructor]. apply NoDup_fmap_2; [|by apply IH]. intros a b E. by apply app_inv_head in E.
  - intros x X Y. destruct (node_at p t) as [c|]; [|by apply elem_of_nil in X]. apply elem_of_list_fmap in X as (a & -> & _).
    apply elem_of_list_In, in_concat in Y as (qs & Y1 & Y2). apply in_map_iff in Y1 as (q & <- & Y1). destruct (node_at q t) as [c'|]; [|done].
    apply in_map_iff in Y2 as (b & Y2 & _). apply NI. assert (L1 : length p = 1) by (apply LN; by left). assert (L2 : length q = 1) by (apply LN; by right).
    apply app_inj_1 in Y2 as [-> _]; [by apply elem_of_list_In|lia].
  - apply IHp; [done|]. intros q Q. apply LN. by right.
Qed.
Lemma query_nodup text ss t : shallow ss -> NoDup (tq_find (step_query text ss) t).
Proof.
  intros SH. cbn [step_query tq_find]. destruct (t_kind t); try by apply steps_nodup. destruct (children t) as [|c r]; [constructor|].
  apply NoDup_fmap_2; [|by apply steps_nodup]. intros a b [= ->]. done.
Qed.

(** Key paths are paths of names. *)
Lemma names_positions names : forall t, t_steps (map Name names) t = match key_position names t with Some p => [p] | None => [] end.
Proof.
  induction names as [|k r IH]; intros t; cbn [map t_steps t_step key_position]; [done|]. destruct (t_kind t); try done.
  destruct (key_index k (children t)) as [j|]; [|done]. cbn [map concat node_at]. destruct (children t !! j) as [v|]; [|done]. rewrite IH.
  destruct (key_position r v) as [p|]; [|done]. done.
Qed.
Lemma names_query text names t : tq_find (step_query text (map Name names)) t = tq_find (key_query text names) t.
Proof.
  cbn [step_query key_query tq_find]. destruct (t_kind t); try apply names_positions. destruct (children t) as [|c r]; [done|].
  rewrite names_positions. by destruct (key_position names c).
Qed.

(** ** Rewriting at several positions *)
Lemma update_at_here p f : forall t t' old, update_at p f t = Ok t' -> node_at p t = Some old ->
  exists new, f old = Ok new /\ node_at p t' = Some new.
Proof.
  induction p as [|k p IH]; intros t t' old U E; cbn [update_at node_at] in *; [injection E as ->; by exists t'|].
  destruct t as [i [ts|]]; unfold children in E; cbn [t_content] in *; [|by rewrite lookup_nil in E]. destruct (ts !! k) as [c|] eqn:K; [|done].
  destruct (update_at p f c) as [c'| | |] eqn:U'; cbn [rbind] in U; try done. injection U as <-. destruct (IH _ _ _ U' E) as (new & F & N).
  exists new. split; [done|]. unfold children. cbn [t_content]. rewrite list_lookup_insert by (by eapply lookup_lt_Some). done.
Qed.
(** The tree at a position, but for what is below it. *)
Definition outline (t : tree) : info * option nat := (t_info t, length <$> t_content t).
Lemma update_at_apart p f : forall t t' q, update_at p f t = Ok t' -> ~ p `prefix_of` q -> outline <$> node_at q t' = outline <$> node_at q t.
Proof.
  induction p as [|k p IH]; intros t t' q U N; cbn [update_at] in U; [destruct N; apply prefix_nil|].
  destruct t as [i [ts|]]; [|by injection U as <-]. destruct (ts !! k) as [c|] eqn:K; [|by injection U as <-].
  destruct (update_at p f c) as [c'| | |] eqn:U'; cbn [rbind] in U; try done. injection U as <-. destruct q as [|j q].
  - cbn [node_at fmap option_fmap option_map outline t_info t_content]. unfold outline. cbn [t_info t_content fmap option_fmap option_map]. by rewrite insert_length.
  - cbn [node_at]. unfold children. cbn [t_content]. destruct (decide (j = k)) as [->|NE].
    + rewrite list_lookup_insert by (by eapply lookup_lt_Some). rewrite K. apply (IH _ _ _ U'). intros P. apply N. by apply prefix_cons.
    + by rewrite list_lookup_insert_ne.
Qed.
Lemma update_at_other p f : forall t t' q, update_at p f t = Ok t' -> ~ p `prefix_of` q -> ~ q `prefix_of` p -> node_at q t' = node_at q t.
Proof.
  induction p as [|k p IH]; intros t t' q U N M; cbn [update_at] in U; [destruct N; apply prefix_nil|].
  destruct t as [i [ts|]]; [|by injection U as <-]. destruct (ts !! k) as [c|] eqn:K; [|by injection U as <-].
  destruct (update_at p f c) as [c'| | |] eqn:U'; cbn [rbind] in U; try done. injection U as <-. destruct q as [|j q]; [destruct M; apply prefix_nil|].
  cbn [node_at]. unfold children. cbn [t_content]. destruct (decide (j = k)) as [->|NE].
  - rewrite list_lookup_insert by (by eapply lookup_lt_Some). rewrite K. apply (IH _ _ _ U'); intros P; [apply N|apply M]; by apply prefix_cons.
  - by rewrite list_lookup_insert_ne.
Qed.
Lemma update_each_apart f ps : forall t t' q, update_each ps f t = Ok t' -> (forall p, In p ps -> ~ p `prefix_of` q) -> outline <$> node_at q t' = outline <$> node_at q t.
Proof.
  induction ps as [|p ps IH]; intros t t' q U N; cbn [update_each] in U; [by injection U as <-|].
  destruct (update_at p f t) as [t1| | |] eqn:U1; cbn [rbind] in U; try done.
  rewrite (IH _ _ _ U) by (intros p' P; apply N; by right). eapply update_at_apart; [exact U1|apply N; by left].
Qed.
Lemma update_each_other f ps : forall t t' q, update_each ps f t = Ok t' -> (forall p, In p ps -> ~ p `prefix_of` q /\ ~ q `prefix_of` p) -> node_at q t' = node_at q t.
Proof.
  induction ps as [|p ps IH]; intros t t' q U N; cbn [update_each] in U; [by injection U as <-|].
  destruct (update_at p f t) as [t1| | |] eqn:U1; cbn [rbind] in U; try done.
  rewrite (IH _ _ _ U) by (intros p' P; apply N; by right). destruct (N p (or_introl eq_refl)). by eapply update_at_other.
Qed.
Lemma update_each_here f ps : NoDup ps -> not_nested ps -> forall t t' p old, update_each ps f t = Ok t' -> In p ps -> node_at p t = Some old ->
  exists new, f old = Ok new /\ node_at p t' = Some new.
Proof.
  induction ps as [|p0 ps IH]; intros ND NN t t' p old U I E; [done|]. cbn [update_each] in U. apply NoDup_cons in ND as [NI ND].
  destruct (update_at p0 f t) as [t1| | |] eqn:U1; cbn [rbind] in U; try done. destruct I as [<-|I].
  - destruct (update_at_here _ _ _ _ _ U1 E) as (new & F & N). exists new. split; [done|]. rewrite <- N. eapply update_each_other; [exact U|].
    intros q Q. split; intros P; apply NI.
    + rewrite <- (NN q p0 (or_intror Q) (or_introl eq_refl) P). by apply elem_of_list_In.
    + rewrite (NN p0 q (or_introl eq_refl) (or_intror Q) P). by apply elem_of_list_In.
  - apply (IH ND (fun a b A B => NN a b (or_intror A) (or_intror B)) t1); [done|done|]. rewrite <- E. eapply update_at_other; [exact U1| |].
    + intros P. apply NI. rewrite (NN p0 p (or_introl eq_refl) (or_intror I) P). by apply elem_of_list_In.
    + intros P. apply NI. rewrite <- (NN p p0 (or_intror I) (or_introl eq_refl) P). by apply elem_of_list_In.
Qed.
