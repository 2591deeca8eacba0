(** Proofs about DeleteNode. *)
From stdpp Require Import sets.
From Verif Require Import Prelude GoStrings Format Yaml Heap SpecHeap MergeTree Combine HeapActions
  SpecMerge SpecDelete ProofMerge ProofHeap ProofHeapActions ProofHeapMerge.

(** Invariant in labelled form. *)
Fixpoint cuttable (t : ltree) : Prop :=
  match t with
  | L l i c => (elements (i_kind i) = true \/ Nat.even (length (kids c)) = true) /\
      match c with None => True | Some ts => fold_right (fun t P => cuttable t /\ P) True ts end
  end.
Lemma cuttable_eq l i c : cuttable (L l i c) <->
  (elements (i_kind i) = true \/ Nat.even (length (kids c)) = true) /\ Forall cuttable (kids c).
Proof.
  cbn [cuttable]. destruct c as [ts|]; cbn [kids].
  - assert (H : fold_right (fun t P => cuttable t /\ P) True ts <-> Forall cuttable ts).
    { induction ts as [|t ts IH]; cbn [fold_right]; [split; auto|]. rewrite Forall_cons, IH. reflexivity. }
    rewrite H. reflexivity.
  - split; intros [A _]; split; auto.
Qed.

Fixpoint height_le (d : nat) (t : ltree) : Prop :=
  match d with O => False | S d => Forall (height_le d) (kids (l_content t)) end.

Lemma prune_label sel t : label (prune sel t) = label t.
Proof. destruct t; reflexivity. Qed.
Lemma map_prune_label sel ts : map label (map (prune sel) ts) = map label ts.
Proof. rewrite map_map. apply map_ext. intros. apply prune_label. Qed.

Lemma filter_all {A} (P : A -> Prop) `{forall x, Decision (P x)} l : Forall P l -> base.filter P l = l.
Proof. induction 1 as [|x l Hx _ IH]; [reflexivity|]. rewrite filter_cons_True by exact Hx. f_equal. exact IH. Qed.

Lemma drop_pairs_none {A} (hit : A -> bool) l : Forall (fun x => hit x = false) l -> drop_pairs hit l = l.
Proof.
  induction l as [|x|x y l IH] using list_ind2; intros H; try reflexivity. cbn [drop_pairs].
  apply Forall_cons in H as [Hx H]. apply Forall_cons in H as [Hy H]. rewrite Hx, Hy. cbn. f_equal. f_equal. auto.
Qed.
Lemma drop_pairs_app {A} (hit : A -> bool) a b : Nat.even (length a) = true ->
  drop_pairs hit (a ++ b) = drop_pairs hit a ++ drop_pairs hit b.
Proof.
  induction a as [|x|x y a IH] using list_ind2; intros H; [reflexivity|discriminate|].
  cbn [drop_pairs app]. cbn in H. rewrite IH by exact H. destruct (hit x || hit y); reflexivity.
Qed.

Lemma prune_absent sel t : (forall x, x ∈ flat (kids (l_content t)) -> sel x = false) -> prune sel t = t.
Proof.
  induction t as [l i|l i ts IH] using ltree_ind'; intros H; [reflexivity|]. cbn [prune l_content kids] in *.
  assert (E : map (prune sel) ts = ts).
  { rewrite <- (map_id ts) at 2. apply map_ext_in. intros t Ht. apply elem_of_list_In in Ht.
    rewrite Forall_forall in IH. apply IH; [exact Ht|]. intros x Hx. apply H, elem_of_flat. exists t. split; [exact Ht|].
    destruct t as [l' i' c']. rewrite locs_eq. apply elem_of_list_further. exact Hx. }
  rewrite E. f_equal. f_equal.
  assert (F : Forall (fun t => sel (label t) = false) ts).
  { apply Forall_forall. intros t Ht. apply H, elem_of_flat. exists t. split; [exact Ht|apply label_locs]. }
  destruct (elements (i_kind i)); [apply filter_all; exact F|apply drop_pairs_none; exact F].
Qed.
Lemma map_prune_absent sel ts : (forall x, x ∈ flat ts -> sel x = false) -> map (prune sel) ts = ts.
Proof.
  intros H. rewrite <- (map_id ts) at 2. apply map_ext_in. intros t Ht. apply elem_of_list_In in Ht. apply prune_absent.
  intros x Hx. apply H, elem_of_flat. exists t. split; [exact Ht|].
  destruct t as [l' i' c']. rewrite locs_eq. apply elem_of_list_further. exact Hx.
Qed.

(** Nothing to delete: no step changes the heap. *)
Lemma scan_absent rec pn child k content h ts : forall i rest,
  Forall (reads h) ts -> child ∉ flat ts ->
  (forall t, t ∈ ts -> rec (label t) h = (h, Ok tt)) ->
  h_scan rec pn child k content i (map label ts ++ rest) h = h_scan rec pn child k content (i + length ts) rest h.
Proof.
  induction ts as [|t ts IH]; intros i rest HR HN Hrec.
  - cbn. rewrite Nat.add_0_r. reflexivity.
  - cbn [map app h_scan length]. rewrite flat_cons, not_elem_of_app in HN. destruct HN as [HN1 HN2].
    apply Forall_cons in HR as [HR1 HR2].
    destruct (Nat.eqb_spec (label t) child) as [E|_]; [exfalso; apply HN1; subst; apply label_locs|].
    destruct (reads_root _ _ HR1) as [al A]. rewrite (bind_ok _ _ _ _ _ (get_ok _ _ _ A)). cbn [n_content].
    rewrite (bind_ok _ _ h h tt).
    + rewrite IH; auto; [f_equal; lia|]. intros u Hu. apply Hrec. apply elem_of_list_further. exact Hu.
    + destruct (labels (l_content t)); [|reflexivity]. apply Hrec, elem_of_list_here.
Qed.

Lemma delete_absent d : forall fuel h lt child, d <= fuel -> height_le d lt -> reads h lt ->
  child ∉ flat (kids (l_content lt)) -> h_delete fuel (label lt) child h = (h, Ok tt).
Proof.
  induction d as [|d IH]; intros fuel h lt child Hf Hd HR HN; [destruct Hd|].
  destruct fuel as [|fuel]; [lia|]. destruct lt as [l i c]. cbn [l_content label] in *.
  apply reads_eq in HR as [[al A] HR]. cbn [h_delete]. rewrite (bind_ok _ _ _ _ _ (get_ok _ _ _ A)). cbn [n_content n_info].
  destruct c as [ts|]; cbn [labels kids] in *; [|reflexivity].
  pose proof (scan_absent (fun c => h_delete fuel c child) l child (i_kind i) (map label ts) h ts 0 []) as S.
  rewrite app_nil_r in S. rewrite S; auto.
  intros t Ht. apply IH; [lia| | |].
  - cbn [height_le l_content kids] in Hd. rewrite Forall_forall in Hd. auto.
  - rewrite Forall_forall in HR. auto.
  - intros X. apply HN, elem_of_flat. exists t. split; [exact Ht|]. destruct t as [l' i' c']. rewrite locs_eq.
    apply elem_of_list_further. exact X.
Qed.

Definition is (x : loc) : loc -> bool := Nat.eqb x.
Lemma is_false x y : x <> y -> is x y = false.
Proof. apply Nat.eqb_neq. Qed.

(** The removal itself, on the children. *)
Lemma cut_map (k : kind) (ts : list ltree) pre x post : ts = pre ++ x :: post ->
  (elements k = true \/ Nat.even (length ts) = true) ->
  NoDup (flat ts) ->
  exists gone, cut k (map label ts) (length pre) =
      Some (map label (if elements k then base.filter (fun t => is (label x) (label t) = false) ts
                       else drop_pairs (fun t => is (label x) (label t)) ts)) /\
    ts ≡ₚ (if elements k then base.filter (fun t => is (label x) (label t) = false) ts
           else drop_pairs (fun t => is (label x) (label t)) ts) ++ gone.
Proof.
  intros -> Hev ND.
  assert (Hd : forall t, t ∈ pre \/ t ∈ post -> is (label x) (label t) = false).
  { intros t Ht. apply is_false. intros E. rewrite flat_app, flat_cons in ND. apply NoDup_app in ND as (_ & N2 & N3).
    apply NoDup_app in N3 as (_ & N3 & _). destruct Ht as [Ht|Ht].
    - apply (N2 (label x)); [rewrite E; apply elem_of_flat; exists t; split; [exact Ht|apply label_locs]|].
      apply elem_of_app. left. apply label_locs.
    - apply (N3 (label x)); [apply label_locs|]. rewrite E. apply elem_of_flat. exists t. split; [exact Ht|apply label_locs]. }
  assert (Hx : is (label x) (label x) = true) by apply Nat.eqb_refl.
  assert (Fpre : Forall (fun t => is (label x) (label t) = false) pre) by (apply Forall_forall; auto).
  assert (Fpost : Forall (fun t => is (label x) (label t) = false) post) by (apply Forall_forall; auto).
  unfold cut. unfold elements in *. rewrite map_app. cbn [map].
  destruct (kind_eqb k KSequence || kind_eqb k KDocument) eqn:Hk; cbn [negb orb andb].
  - rewrite filter_app, (filter_all _ pre) by exact Fpre. rewrite filter_cons_False by congruence.
    rewrite (filter_all _ post) by exact Fpost. exists [x]. split.
    + rewrite (proj2 (Nat.ltb_ge _ _)) by (rewrite app_length, map_length; cbn; lia).
      f_equal. rewrite Nat.sub_0_r. rewrite map_app. f_equal.
      * rewrite take_app_alt; [reflexivity|rewrite map_length; reflexivity].
      * rewrite drop_app_ge by (rewrite map_length; lia). rewrite map_length.
        replace (length pre + 1 - length pre) with 1 by lia. reflexivity.
    + rewrite <- (assoc_L (++)). f_equiv. symmetry. apply perm_snoc.
  - destruct Hev as [Hev|Hev]; [discriminate|].
    rewrite app_length in Hev. cbn [length] in Hev.
    destruct (Nat.even (length pre)) eqn:Hp.
    + (* a key *)
      destruct post as [|v post].
      { exfalso. rewrite Nat.add_1_r, Nat.even_succ, <- Nat.negb_even, Hp in Hev. discriminate. }
      rewrite drop_pairs_app by exact Hp. rewrite (drop_pairs_none _ pre) by exact Fpre.
      cbn [drop_pairs]. rewrite Hx. cbn [orb]. apply Forall_cons in Fpost as [_ Fpost].
      rewrite (drop_pairs_none _ post) by exact Fpost. exists [x; v]. split.
      * rewrite (proj2 (Nat.ltb_ge _ _)) by (rewrite app_length, map_length; cbn; lia).
        f_equal. rewrite Nat.sub_0_r. rewrite map_app. f_equal.
        -- rewrite take_app_alt; [reflexivity|rewrite map_length; reflexivity].
        -- rewrite drop_app_ge by (rewrite map_length; lia). rewrite map_length.
           replace (length pre + 2 - length pre) with 2 by lia. reflexivity.
      * rewrite <- (assoc_L (++)). f_equiv. change (x :: v :: post) with ([x; v] ++ post). apply (comm (++)).
    + (* a value *)
      assert (exists pre' kk, pre = pre' ++ [kk]) as (pre' & kk & ->).
      { destruct (exists_last (l := pre)) as (p & q & ->); [intros ->; discriminate|eauto]. }
      rewrite app_length in Hp. cbn [length] in Hp. rewrite Nat.add_1_r, Nat.even_succ, <- Nat.negb_even in Hp.
      apply negb_false_iff in Hp. apply Forall_app in Fpre as [Fpre Fk]. apply Forall_cons in Fk as [Fk _].
      rewrite <- (assoc_L (++) pre'). cbn [app]. rewrite drop_pairs_app by exact Hp.
      rewrite (drop_pairs_none _ pre') by exact Fpre. cbn [drop_pairs]. rewrite Hx, orb_true_r.
      rewrite (drop_pairs_none _ post) by exact Fpost. exists [kk; x]. split.
      * assert (Hlen : length (pre' ++ [kk]) = length pre' + 1) by (rewrite app_length; reflexivity).
        rewrite Hlen. rewrite (proj2 (Nat.ltb_ge _ _)) by (rewrite app_length, map_length, app_length; cbn; lia).
        f_equal. replace (length pre' + 1 - 1) with (length pre') by lia. rewrite map_app. rewrite map_app.
        rewrite <- (assoc_L (++)). f_equal.
        -- rewrite take_app_alt; [reflexivity|rewrite map_length; reflexivity].
        -- rewrite drop_app_ge by (rewrite map_length; lia). rewrite map_length.
           replace (length pre' + 1 + 1 - length pre') with 2 by lia. reflexivity.
      * rewrite <- (assoc_L (++)). f_equiv. change (kk :: x :: post) with ([kk; x] ++ post). apply (comm (++)).
Qed.

Lemma flat_split child ts : child ∈ flat ts -> exists pre x post, ts = pre ++ x :: post /\ child ∈ locs x.
Proof.
  intros H. apply elem_of_flat in H as (x & Hx & Hc). apply elem_of_list_split in Hx as (pre & post & ->). eauto.
Qed.

Lemma h_delete_spec d : forall fuel h lt child,
  d <= fuel -> height_le d lt -> own h [lt] -> cuttable lt ->
  exists h' gs, h_delete fuel (label lt) child h = (h', Ok tt) /\ trans h [lt] h' (prune (is child) lt :: gs).
Proof.
  induction d as [|d IH]; intros fuel h lt child Hf Hd O HC; [destruct Hd|].
  destruct (decide (child ∈ flat (kids (l_content lt)))) as [Hin|Hout].
  2:{ exists h, []. split.
      - apply (delete_absent (S d)); auto. exact (Forall_inv (proj1 O)).
      - rewrite prune_absent; [apply trans_refl; apply O|]. intros x Hx. apply is_false. intros ->. auto. }
  destruct fuel as [|fuel]; [lia|]. destruct lt as [l i c]. destruct (own_root _ _ _ _ O) as [al A].
  cbn [l_content label] in *. destruct c as [ts|]; [|inversion Hin]. cbn [kids] in Hin.
  destruct (own_kids _ _ _ _ _ O) as [OK Hl]. rewrite app_nil_r in OK. cbn [kids] in OK, Hl.
  apply cuttable_eq in HC as [HC1 HC2]. cbn [kids] in *. cbn [height_le l_content kids] in Hd.
  apply flat_split in Hin as (pre & x & post & E & Hx).
  pose proof (proj1 OK) as RK. pose proof (proj2 OK) as NK.
  assert (Hpre : child ∉ flat pre).
  { rewrite E, flat_app, flat_cons in NK. apply NoDup_app in NK as (_ & N & _). intros X. apply (N child X).
    apply elem_of_app. auto. }
  assert (Hpost : child ∉ flat post).
  { rewrite E, flat_app, flat_cons in NK. apply NoDup_app in NK as (_ & _ & N). apply NoDup_app in N as (_ & N & _).
    exact (N child Hx). }
  assert (Hrec : forall h0 t, t ∈ pre \/ t ∈ post -> reads h0 t -> h_delete fuel (label t) child h0 = (h0, Ok tt)).
  { intros h0 t Ht HR. apply (delete_absent d); [lia| |exact HR|].
    - rewrite Forall_forall in Hd. apply Hd. rewrite E. apply elem_of_app. destruct Ht; [left|right; apply elem_of_list_further]; auto.
    - intros X. assert (X' : child ∈ locs t) by (destruct t as [? ? ?]; rewrite locs_eq; apply elem_of_list_further; exact X).
      destruct Ht as [Ht|Ht]; [apply Hpre|apply Hpost]; apply elem_of_flat; eauto. }
  rewrite E in RK. apply Forall_app in RK as [RP RX]. apply Forall_cons in RX as [RX RQ].
  cbn [h_delete]. rewrite (bind_ok _ _ _ _ _ (get_ok _ _ _ A)). cbn [n_content n_info labels].
  assert (S1 : h_scan (fun c => h_delete fuel c child) l child (i_kind i) (map label ts) 0 (map label ts) h =
               h_scan (fun c => h_delete fuel c child) l child (i_kind i) (map label ts) (length pre)
                 (label x :: map label post) h).
  { assert (EL : map label ts = map label pre ++ label x :: map label post) by (rewrite E, map_app; reflexivity).
    generalize (map label ts) at 1 3. intros ct. rewrite EL.
    rewrite scan_absent; auto. intros t Ht. apply Hrec; auto. rewrite Forall_forall in RP. auto. }
  rewrite S1. cbn [h_scan].
  assert (Mpre : map (prune (is child)) pre = pre).
  { apply map_prune_absent. intros y Hy. apply is_false. intros ->. auto. }
  assert (Mpost : map (prune (is child)) post = post).
  { apply map_prune_absent. intros y Hy. apply is_false. intros ->. auto. }
  destruct (Nat.eqb_spec (label x) child) as [Ex|Nx].
  - (* the selected node is a direct child *)
    destruct (cut_map (i_kind i) ts pre x post E HC1 NK) as (gone & Hcut & Hperm).
    rewrite Hcut. rewrite (put_content_ok _ _ _ _ A). cbn [n_info n_alias]. eexists _, gone. split; [reflexivity|].
    assert (Mts : map (prune (is child)) ts = ts).
    { rewrite E, map_app. cbn [map]. rewrite Mpre, Mpost. f_equal. f_equal. apply prune_absent. intros y Hy. apply is_false.
      intros <-. rewrite E, flat_app, flat_cons in NK. apply NoDup_app in NK as (_ & _ & N). apply NoDup_app in N as (N & _).
      destruct x as [lx ix cx]. cbn [label l_content] in *. subst lx. rewrite locs_eq in N. apply NoDup_cons in N as [N _]. auto. }
    cbn [prune]. rewrite Mts. rewrite Ex in *.
    set (ts' := if elements (i_kind i) then _ else _) in *.
    apply (trans_write h l i (Some ts) [] i al (Some ts') gone); [exact O|].
    rewrite app_nil_r. exact Hperm.
  - (* deeper inside x *)
    destruct (reads_root _ _ RX) as [alx Ax]. rewrite (bind_ok _ _ _ _ _ (get_ok _ _ _ Ax)). cbn [n_content].
    assert (OX : own h [x]).
    { split; [constructor; [exact RX|constructor]|]. unfold flat. cbn [map concat]. rewrite app_nil_r.
      rewrite E, flat_app, flat_cons in NK. apply NoDup_app in NK as (_ & _ & N). apply NoDup_app in N as (N & _). exact N. }
    destruct (IH fuel h x child) as (h1 & gs & A1 & T1).
    { lia. } { rewrite Forall_forall in Hd. apply Hd. rewrite E. apply elem_of_app. right. apply elem_of_list_here. }
    { exact OX. } { rewrite Forall_forall in HC2. apply HC2. rewrite E. apply elem_of_app. right. apply elem_of_list_here. }
    assert (A1' : match labels (l_content x) with None => ret tt | Some _ => h_delete fuel (label x) child end h = (h1, Ok tt)).
    { destruct x as [lx ix cx]. cbn [l_content label] in *. destruct cx; cbn [labels]; [exact A1|].
      exfalso. rewrite locs_eq in Hx. apply elem_of_cons in Hx as [->|Hx]; [apply Nx; reflexivity|inversion Hx]. }
    rewrite (bind_ok _ _ _ _ _ A1').
    assert (T : trans h ts h1 ((pre ++ prune (is child) x :: post) ++ gs)).
    { pose proof (act h pre [x] post [] h1 [prune (is child) x] gs) as Z. rewrite !app_nil_r in Z.
      rewrite E in OK |- *. apply Z; [exact OK|exact T1]. }
    assert (RQ1 : Forall (reads h1) post).
    { pose proof (tr_reads _ _ _ _ T) as R. apply Forall_app in R as [R _]. apply Forall_app in R as [_ R].
      apply Forall_cons in R as [_ R]. exact R. }
    pose proof (scan_absent (fun c => h_delete fuel c child) l child (i_kind i) (map label ts) h1 post (S (length pre)) []) as S.
    rewrite app_nil_r in S. rewrite S; auto.
    2:{ intros t Ht. apply Hrec; auto. rewrite Forall_forall in RQ1. auto. }
    cbn [h_scan]. exists h1, gs. split; [reflexivity|]. cbn [prune].
    assert (Mts : map (prune (is child)) ts = pre ++ prune (is child) x :: post).
    { rewrite E, map_app. cbn [map]. rewrite Mpre, Mpost. reflexivity. }
    rewrite Mts.
    assert (Fl : Forall (fun t => is child (label t) = false) (pre ++ prune (is child) x :: post)).
    { apply Forall_forall. intros t Ht. apply is_false. intros ->. apply elem_of_app in Ht as [Ht|Ht].
      - apply Hpre, elem_of_flat. exists t. split; [exact Ht|apply label_locs].
      - apply elem_of_cons in Ht as [Ht|Ht]; [apply Nx; rewrite Ht, prune_label; reflexivity|].
        apply Hpost, elem_of_flat. exists t. split; [exact Ht|apply label_locs]. }
    replace (if elements (i_kind i) then _ else _) with (pre ++ prune (is child) x :: post).
    2:{ destruct (elements (i_kind i)); [rewrite filter_all by exact Fl; reflexivity|rewrite drop_pairs_none by exact Fl; reflexivity]. }
    apply trans_lift; [exact O| |rewrite app_nil_r; exact T].
    rewrite E, !map_app. cbn [map]. rewrite prune_label. reflexivity.
Qed.

(** ** Deleting several nodes *)
Lemma drop_pairs_map {A B} (f : A -> B) (hit : B -> bool) l :
  drop_pairs hit (map f l) = map f (drop_pairs (fun x => hit (f x)) l).
Proof.
  induction l as [|x|x y l IH] using list_ind2; try reflexivity. cbn [drop_pairs map]. rewrite IH.
  destruct (hit (f x) || hit (f y)); reflexivity.
Qed.
Lemma drop_pairs_ext {A} (p q : A -> bool) l : (forall x, p x = q x) -> drop_pairs p l = drop_pairs q l.
Proof. intros H. induction l as [|x|x y l IH] using list_ind2; try reflexivity. cbn [drop_pairs]. rewrite !H, IH. reflexivity. Qed.
Lemma drop_pairs_twice {A} (p q : A -> bool) l :
  drop_pairs p (drop_pairs q l) = drop_pairs (fun x => q x || p x) l.
Proof.
  induction l as [|x|x y l IH] using list_ind2; try reflexivity. cbn [drop_pairs].
  destruct (q x), (q y); cbn [orb drop_pairs]; rewrite ?IH, ?orb_true_r; try reflexivity.
Qed.
Lemma filter_map_label {B} (f : ltree -> B) (P : B -> Prop) `{forall x, Decision (P x)} ts :
  base.filter P (map f ts) = map f (base.filter (fun t => P (f t)) ts).
Proof.
  induction ts as [|t ts IH]; [reflexivity|]. cbn [map]. destruct (decide (P (f t))) as [Hp|Hp].
  - rewrite !filter_cons_True by exact Hp. cbn [map]. rewrite IH. reflexivity.
  - rewrite !filter_cons_False by exact Hp. exact IH.
Qed.
Lemma filter_ext' {A} (P Q : A -> Prop) `{forall x, Decision (P x), forall x, Decision (Q x)} (l : list A) :
  (forall x, P x <-> Q x) -> base.filter P l = base.filter Q l.
Proof.
  intros E. induction l as [|x l IH]; [reflexivity|]. destruct (decide (P x)) as [Hp|Hp].
  - rewrite !filter_cons_True; [rewrite IH; reflexivity|apply E; exact Hp|exact Hp].
  - rewrite !filter_cons_False; [exact IH|rewrite <- E; exact Hp|exact Hp].
Qed.
Lemma filter_twice {A} (P Q : A -> Prop) `{forall x, Decision (P x), forall x, Decision (Q x)} (l : list A) :
  base.filter P (base.filter Q l) = base.filter (fun x => Q x /\ P x) l.
Proof.
  induction l as [|x l IH]; [reflexivity|]. destruct (decide (Q x)) as [HQ|HQ].
  - rewrite (filter_cons_True Q) by exact HQ. destruct (decide (P x)) as [HP|HP].
    + rewrite !filter_cons_True by tauto. rewrite IH. reflexivity.
    + rewrite !filter_cons_False by tauto. exact IH.
  - rewrite (filter_cons_False Q) by exact HQ. rewrite filter_cons_False by tauto. exact IH.
Qed.

Lemma prune_prune p q t : prune p (prune q t) = prune (fun x => q x || p x) t.
Proof.
  induction t as [l i|l i ts IH] using ltree_ind'; [reflexivity|]. cbn [prune]. f_equal. f_equal.
  assert (E : map (prune p) (map (prune q) ts) = map (prune (fun x => q x || p x)) ts).
  { rewrite map_map. apply map_ext_in. intros t Ht. apply elem_of_list_In in Ht. rewrite Forall_forall in IH. auto. }
  destruct (elements (i_kind i)).
  - rewrite <- E, !filter_map_label, filter_twice. f_equal. f_equal. apply filter_ext'. intros x.
    rewrite !prune_label, orb_false_iff. tauto.
  - rewrite <- E, !drop_pairs_map, drop_pairs_twice. f_equal. f_equal. apply drop_pairs_ext.
    intros x. rewrite !prune_label. reflexivity.
Qed.

Lemma prune_ext p q t : (forall x, p x = q x) -> prune p t = prune q t.
Proof.
  intros H. induction t as [l i|l i ts IH] using ltree_ind'; [reflexivity|]. cbn [prune].
  assert (E : map (prune p) ts = map (prune q) ts).
  { apply map_ext_in. intros t Ht. apply elem_of_list_In in Ht. rewrite Forall_forall in IH. auto. }
  rewrite E. f_equal. f_equal. destruct (elements (i_kind i)).
  - apply filter_ext'. intros x. rewrite H. reflexivity.
  - apply drop_pairs_ext. intros x. apply H.
Qed.

Lemma drop_pairs_even {A} (p : A -> bool) l : Nat.even (length l) = true -> Nat.even (length (drop_pairs p l)) = true.
Proof.
  induction l as [|x|x y l IH] using list_ind2; intros H; [reflexivity|discriminate|]. cbn [drop_pairs].
  cbn in H. destruct (p x || p y); [auto|]. cbn. auto.
Qed.
Lemma drop_pairs_sub {A} (p : A -> bool) l x : x ∈ drop_pairs p l -> x ∈ l.
Proof.
  induction l as [|a|a b l IH] using list_ind2; cbn [drop_pairs]; auto. destruct (p a || p b).
  - intros H. do 2 right. auto.
  - intros H. apply elem_of_cons in H as [->|H]; [left|]. apply elem_of_cons in H as [->|H]; [right; left|]. do 2 right. auto.
Qed.

Lemma prune_kids p l i ts t : t ∈ kids (l_content (prune p (L l i (Some ts)))) -> exists t0, t0 ∈ ts /\ t = prune p t0.
Proof.
  cbn [prune l_content kids]. intros H.
  assert (H' : t ∈ map (prune p) ts).
  { destruct (elements (i_kind i)); [apply elem_of_list_filter in H as [_ H]; exact H|apply drop_pairs_sub in H; exact H]. }
  apply elem_of_list_fmap in H' as (t0 & -> & H0). eauto.
Qed.

Lemma prune_cuttable p t : cuttable t -> cuttable (prune p t).
Proof.
  induction t as [l i|l i ts IH] using ltree_ind'; intros H; [exact H|].
  apply cuttable_eq in H as [H1 H2]. cbn [kids] in *. rewrite Forall_forall in IH, H2.
  cbn [prune]. apply cuttable_eq. split.
  - destruct H1 as [H1|H1]; [left; exact H1|]. destruct (elements (i_kind i)); [left; reflexivity|right].
    cbn [kids]. apply drop_pairs_even. rewrite map_length. exact H1.
  - apply Forall_forall. intros t Ht. apply (prune_kids p l i ts) in Ht as (t0 & H0 & ->). auto.
Qed.
Lemma prune_height p d : forall t, height_le d t -> height_le d (prune p t).
Proof.
  induction d as [|d IH]; intros t H; [destruct H|]. destruct t as [l i [ts|]]; [|constructor].
  cbn [height_le] in *. apply Forall_forall. intros t Ht. apply prune_kids in Ht as (t0 & H0 & ->).
  cbn [l_content kids] in H. rewrite Forall_forall in H. auto.
Qed.

Lemma h_delete_all d fuel : d <= fuel -> forall sel h lt,
  height_le d lt -> own h [lt] -> cuttable lt ->
  exists h' gs, loop (h_delete fuel (label lt)) sel h = (h', Ok tt) /\ trans h [lt] h' (prune (mem sel) lt :: gs).
Proof.
  intros Hf. induction sel as [|x sel IH]; intros h lt Hd O HC.
  - exists h, []. split; [reflexivity|]. rewrite prune_absent by reflexivity. apply trans_refl. apply O.
  - destruct (h_delete_spec d fuel h lt x Hf Hd O HC) as (h1 & g1 & A1 & T1).
    destruct (IH h1 (prune (is x) lt)) as (h2 & g2 & A2 & T2).
    { apply prune_height. exact Hd. } { exact (own_head _ _ _ (own_trans _ _ _ _ O T1)). } { apply prune_cuttable. exact HC. }
    rewrite prune_label in A2. exists h2, (g2 ++ g1). cbn [loop]. rewrite (bind_ok _ _ _ _ _ A1). split; [exact A2|].
    rewrite prune_prune in T2.
    replace (prune (mem (x :: sel)) lt) with (prune (fun y => is x y || mem sel y) lt).
    2:{ apply prune_ext. intros y. unfold is, mem. cbn [existsb]. rewrite Nat.eqb_sym. reflexivity. }
    eapply trans_seq; eauto.
Qed.

(** Bridging the stated conditions. *)
Lemma size_height t : height_le (tree_size (erase t)) t.
Proof.
  assert (Mono : forall d t, height_le d t -> forall d', d <= d' -> height_le d' t).
  { induction d as [|d IH]; intros u H d' Hd; [destruct H|]. destruct d' as [|d']; [lia|]. cbn [height_le] in *.
    eapply Forall_impl; [exact H|]. intros v Hv. apply IH; [exact Hv|lia]. }
  induction t as [l i|l i ts IH] using ltree_ind'; cbn [erase tree_size height_le l_content kids]; [constructor|].
  apply Forall_forall. intros t Ht. rewrite Forall_forall in IH. apply (Mono _ _ (IH t Ht)). clear IH.
  induction ts as [|u ts IHts]; [inversion Ht|]. cbn [map fold_right]. apply elem_of_cons in Ht as [->|Ht]; [lia|].
  apply IHts in Ht. lia.
Qed.

Lemma shape_cuttable t : well_paired (erase t) -> branching (erase t) -> cuttable t.
Proof.
  induction t as [l i|l i ts IH] using ltree_ind'; intros W B; apply cuttable_eq; cbn [kids].
  - split; [right; reflexivity|constructor].
  - rewrite erase_eq in *. apply everywhere_some in W as [W1 W2]. apply everywhere_some in B as [B1 B2].
    split.
    + destruct ts as [|t ts]; [right; reflexivity|]. destruct B1 as [K|[K|K]]; [discriminate| | |];
        unfold t_kind in K; cbn [t_info] in K; unfold elements; rewrite K; [left; reflexivity|left; reflexivity|right].
      specialize (W1 K). unfold children in W1. cbn [t_content] in W1. destruct W1 as [ps E].
      assert (L' : length (map erase (t :: ts)) = length (concat (map (fun p : tree * tree => [fst p; snd p]) ps))).
      { f_equal. exact E. }
      rewrite map_length in L'. rewrite L'. clear. induction ps as [|p ps IHp]; [reflexivity|]. cbn. exact IHp.
    + rewrite Forall_forall in *. intros t Ht. apply IH; [exact Ht| |].
      * eapply (proj1 (Forall_forall _ _) W2). apply elem_of_list_fmap. eauto.
      * eapply (proj1 (Forall_forall _ _) B2). apply elem_of_list_fmap. eauto.
Qed.
