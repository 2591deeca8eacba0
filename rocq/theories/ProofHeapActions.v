(** The heap programs of HeapActions.v compute the tree functions of
    MergeTree.v, touch only the target document and copy overlay values. *)
From stdpp Require Import sets.
From Verif Require Import Prelude GoStrings Format Yaml Heap SpecHeap MergeTree Combine HeapActions ProofHeap.

Lemma erase_eq l i c : erase (L l i c) = T i (match c with None => None | Some ts => Some (map erase ts) end).
Proof. destruct c; reflexivity. Qed.
Lemma erase_info t : t_info (erase t) = l_info t.
Proof. destruct t; reflexivity. Qed.

Lemma perm_snoc {A} (x : A) l : l ++ [x] ≡ₚ x :: l.
Proof. symmetry. apply Permutation_cons_append. Qed.

Lemma bind_ok {A B} (m : M A) (f : A -> M B) h h' a : m h = (h', Ok a) -> bind m f h = f a h'.
Proof. unfold bind. intros ->. reflexivity. Qed.

Lemma get_ok h l n : h !! l = Some n -> get l h = (h, Ok n).
Proof. unfold get. intros ->. reflexivity. Qed.

Lemma reads_root h t : reads h t -> exists al, h !! label t = Some (mkNode (l_info t) al (labels (l_content t))).
Proof. destruct t as [l i c]. rewrite reads_eq. intros [H _]. exact H. Qed.

Lemma put_info_ok h l i n : h !! l = Some n -> put_info l i h = (<[l := mkNode i (n_alias n) (n_content n)]> h, Ok tt).
Proof. unfold put_info, bind, get, put. intros ->. reflexivity. Qed.
Lemma put_content_ok h l c n : h !! l = Some n -> put_content l c h = (<[l := mkNode (n_info n) (n_alias n) c]> h, Ok tt).
Proof. unfold put_content, bind, get, put. intros ->. reflexivity. Qed.

(** ** Reading values *)
Lemma value_at_node d ro h l t : value_at d ro h l t ->
  exists n, h !! l = Some n /\ n_info n = t_info t.
Proof. destruct d; [intros []|]. intros (_ & n & A & B & _). eauto. Qed.

Lemma value_at_ext d (ro : loc -> Prop) h ext l t : value_at d ro h l t -> value_at d ro (h ++ ext) l t.
Proof.
  revert l t. induction d as [|d IH]; intros l t; cbn [value_at]; [auto|].
  intros (R & n & A & B & C & D). split; [exact R|]. exists n. split; [apply lookup_app_l_Some; exact A|]. split; [exact B|].
  split.
  - destruct (n_alias n); [|exact I]. destruct C as [t' C]. exists t'. auto.
  - destruct (n_content n), (t_content t); auto. eapply Forall2_impl; [exact D|]. auto.
Qed.

Fixpoint depth_le (d : nat) (t : tree) : Prop :=
  match d with
  | O => False
  | S d => match t_content t with None => True | Some l => Forall (depth_le d) l end
  end.
Lemma value_at_depth d ro h l t : value_at d ro h l t -> depth_le d t.
Proof.
  revert l t. induction d as [|d IH]; intros l t; cbn [value_at depth_le]; [auto|].
  intros (_ & n & _ & _ & _ & D). destruct (t_content t) as [ts|]; [|exact I].
  destruct (n_content n) as [ls|]; [|destruct D]. induction D; constructor; eauto.
Qed.

(** ** Deep copy *)
Definition copies (m : nat) (ro : loc -> Prop) (fuel : nat) : Prop :=
  forall h l t, value_at m ro h l t ->
    exists ext al lc, h_copy_fields fuel l h = (h ++ ext, Ok (mkNode (t_info t) al (labels lc))) /\
      trans h [] (h ++ ext) (kids lc) /\
      t_content t = match lc with None => None | Some ts => Some (map erase ts) end.

Lemma copies_node m ro fuel h l t : copies m ro fuel -> value_at m ro h l t ->
  exists ext lt, h_copy fuel l h = (h ++ ext, Ok (label lt)) /\
      trans h [] (h ++ ext) [lt] /\ erase lt = t.
Proof.
  intros HC HV. destruct (HC h l t HV) as (ext & al & lc & A & T & E).
  exists (ext ++ [mkNode (t_info t) al (labels lc)]), (L (length (h ++ ext)) (t_info t) lc).
  unfold h_copy. rewrite (bind_ok _ _ _ _ _ A). unfold alloc. rewrite (assoc_L (++)). split; [reflexivity|].
  assert (O : own h []) by (split; [constructor|constructor]).
  split.
  - eapply trans_trans; [exact O|exact T|]. apply trans_alloc; [exact (tr_reads _ _ _ _ T)|rewrite app_nil_r; reflexivity].
  - rewrite erase_eq, <- E. destruct t; reflexivity.
Qed.

Lemma each_copy m ro fuel h ls ts : copies m ro fuel -> Forall2 (value_at m ro h) ls ts ->
  exists ext lts, each (h_copy fuel) ls h = (h ++ ext, Ok (map label lts)) /\
    trans h [] (h ++ ext) lts /\ map erase lts = ts.
Proof.
  intros HC H. revert h H. revert ts. induction ls as [|l ls IH]; intros ts h H.
  - apply Forall2_nil_inv_l in H as ->. exists [], []. rewrite app_nil_r. split; [reflexivity|]. split; [|reflexivity].
    apply trans_refl. constructor.
  - apply Forall2_cons_inv_l in H as (t & ts' & H1 & H2 & ->).
    destruct (copies_node _ _ _ h l t HC H1) as (e1 & lt & A1 & B1 & C1).
    destruct (IH ts' (h ++ e1)) as (e2 & lts & A2 & B2 & C2).
    { eapply Forall2_impl; [exact H2|]. intros. apply value_at_ext. assumption. }
    exists (e1 ++ e2), (lt :: lts). cbn [each]. rewrite (bind_ok _ _ _ _ _ A1), (bind_ok _ _ _ _ _ A2).
    unfold ret. rewrite (assoc_L (++)). split; [reflexivity|]. split; [|cbn [map]; congruence].
    assert (O : own h []) by (split; [constructor|constructor]).
    eapply trans_trans; [exact O|exact B1|].
    pose proof (own_trans _ _ _ _ O B1) as O1.
    apply (trans_perm _ ([] ++ [lt]) _ _ (lts ++ [lt])); [reflexivity|apply perm_snoc|].
    apply trans_frame_r; [exact O1|exact B2].
Qed.

Lemma h_copy_spec ro d : forall fuel, d <= fuel -> copies d ro fuel.
Proof.
  induction d as [|d IH]; intros fuel Hf h l t Hv; [destruct Hv|].
  destruct fuel as [|fuel]; [lia|]. assert (HC : copies d ro fuel) by (apply IH; lia).
  destruct Hv as (R & n & A & B & C & D). cbn [h_copy_fields]. rewrite (bind_ok _ _ _ _ _ (get_ok _ _ _ A)).
  assert (Hal : exists e1 al, (match n_alias n with
                | None => ret None
                | Some a => do! x := h_copy_fields fuel a in do! a' := alloc x in ret (Some a')
                end) h = (h ++ e1, Ok al)).
  { destruct (n_alias n) as [a|].
    - destruct C as [t' C]. destruct (HC h a t' C) as (e1 & al' & lc & A1 & _). eexists (e1 ++ [_]), _.
      rewrite (bind_ok _ _ _ _ _ A1). unfold bind, alloc, ret. rewrite <- (assoc_L (++)). reflexivity.
    - exists [], None. rewrite app_nil_r. reflexivity. }
  destruct Hal as (e1 & al & Hal). rewrite (bind_ok _ _ _ _ _ Hal).
  assert (Hc : exists e2 lc, (match n_content n with
               | None => ret None
               | Some ls => do! ls' := each (h_copy fuel) ls in ret (Some ls')
               end) (h ++ e1) = (h ++ e1 ++ e2, Ok (labels lc)) /\ trans (h ++ e1) [] (h ++ e1 ++ e2) (kids lc) /\
               t_content t = match lc with None => None | Some ts => Some (map erase ts) end).
  { destruct (n_content n) as [ls|], (t_content t) as [ts|]; try (exfalso; exact D).
    - destruct (each_copy d ro fuel (h ++ e1) ls ts HC) as (e2 & lts & A2 & B2 & C2).
      { eapply Forall2_impl; [exact D|]. intros. apply value_at_ext. assumption. }
      exists e2, (Some lts). rewrite (bind_ok _ _ _ _ _ A2). unfold ret. rewrite (assoc_L (++)).
      split; [reflexivity|]. split; [exact B2|]. rewrite C2. reflexivity.
    - exists [], None. rewrite app_nil_r. split; [reflexivity|]. split; [|reflexivity]. apply trans_refl. constructor. }
  destruct Hc as (e2 & lc & Hc & T2 & E2). unfold h_copy in Hc. rewrite (bind_ok _ _ _ _ _ Hc).
  exists (e1 ++ e2), al, lc. rewrite B. split; [reflexivity|]. split; [|exact E2].
  assert (T1 : trans h [] (h ++ e1) []).
  { split; [rewrite app_length; lia| |constructor|].
    - intros x Hx _. apply lookup_app_l. exact Hx.
    - exists []. split; [constructor|]. split; [constructor|reflexivity]. }
  eapply trans_trans; [split; [constructor|constructor]|exact T1|exact T2].
Qed.

(** ** Programs acting on one document *)

(** [m], started in [h] where it owns the document [lt], ends in a heap where
    the document with the same root is the outcome [F] of the tree function. *)
Definition agree (F : res tree) (r : res unit) (t : tree) : Prop :=
  match F with
  | Ok t' => r = Ok tt /\ t = t'
  | Err e => r = Err e
  | Panic => r = Panic
  | Fuel => r = Fuel
  end.
Definition performs (m : M unit) (h : heap) (lt : ltree) (F : res tree) : Prop :=
  exists h' r lt' gs, m h = (h', r) /\ trans h [lt] h' (lt' :: gs) /\ label lt' = label lt /\
    agree F r (erase lt').

Lemma performs_ret h lt : own h [lt] -> performs (ret tt) h lt (Ok (erase lt)).
Proof.
  intros [A _]. exists h, (Ok tt), lt, []. split; [reflexivity|]. split; [apply trans_refl; exact A|].
  split; [reflexivity|]. split; reflexivity.
Qed.
Lemma performs_fail h lt e : own h [lt] -> performs (fail e) h lt (Err e).
Proof.
  intros [A _]. exists h, (Err e), lt, []. split; [reflexivity|]. split; [apply trans_refl; exact A|].
  split; reflexivity.
Qed.
Lemma performs_crash h lt : own h [lt] -> performs crash h lt Panic.
Proof.
  intros [A _]. exists h, Panic, lt, []. split; [reflexivity|]. split; [apply trans_refl; exact A|].
  split; reflexivity.
Qed.

Lemma cons_app {A} (x : A) l : x :: l = [x] ++ l.
Proof. reflexivity. Qed.

(** Sequencing. *)
Lemma trans_seq h lt h1 lt1 gs1 h2 lt2 gs2 : own h [lt] ->
  trans h [lt] h1 (lt1 :: gs1) -> trans h1 [lt1] h2 (lt2 :: gs2) -> trans h [lt] h2 (lt2 :: gs2 ++ gs1).
Proof.
  intros O T1 T2. eapply trans_trans; [exact O|exact T1|]. rewrite (cons_app lt1).
  apply (trans_frame_r _ [lt1] _ (lt2 :: gs2) gs1); [|exact T2]. exact (own_trans _ _ _ _ O T1).
Qed.
Lemma own_head h lt gs : own h (lt :: gs) -> own h [lt].
Proof. intros H. apply (own_app_l h [lt] gs). exact H. Qed.
Lemma apart_head ro h lt gs : apart ro h (lt :: gs) -> apart ro h [lt].
Proof. intros H. apply (apart_app_l ro h [lt] gs). exact H. Qed.

Lemma performs_bind m k h lt F G :
  own h [lt] -> performs m h lt F ->
  (forall t1 h1 lt1 gs, F = Ok t1 -> trans h [lt] h1 (lt1 :: gs) -> own h1 [lt1] -> label lt1 = label lt ->
     erase lt1 = t1 -> performs (k tt) h1 lt1 (G t1)) ->
  performs (bind m k) h lt (rbind F G).
Proof.
  intros O (h1 & r & lt1 & gs1 & A & T & HL & Ag) Hk.
  unfold performs, bind. rewrite A. destruct F as [t1|e| |]; cbn [agree rbind] in *.
  - destruct Ag as [-> E]. pose proof (own_head _ _ _ (own_trans _ _ _ _ O T)) as O1.
    destruct (Hk t1 h1 lt1 gs1 eq_refl T O1 HL E) as (h2 & r2 & lt2 & gs2 & A2 & T2 & HL2 & Ag2).
    exists h2, r2, lt2, (gs2 ++ gs1). split; [exact A2|]. split; [eapply trans_seq; eauto|]. split; [congruence|exact Ag2].
  - subst r. exists h1, (Err e), lt1, gs1. auto.
  - subst r. exists h1, Panic, lt1, gs1. auto.
  - subst r. exists h1, Fuel, lt1, gs1. auto.
Qed.

Lemma performs_ext m h lt F F' : F = F' -> performs m h lt F -> performs m h lt F'.
Proof. intros <-. auto. Qed.

(** A read does not change anything. *)
Lemma performs_get {l n k h lt F} : h !! l = Some n -> performs (k n) h lt F -> performs (bind (get l) k) h lt F.
Proof. intros A H. unfold performs in *. rewrite (bind_ok _ _ _ _ _ (get_ok _ _ _ A)). exact H. Qed.

(** Writing the root. *)
Lemma performs_put_info h l i c i' : own h [L l i c] -> performs (put_info l i') h (L l i c) (Ok (erase (L l i' c))).
Proof.
  intros O. pose proof O as [A _]. apply Forall_cons in A as [A _]. apply reads_eq in A as [[al A] _].
  exists (<[l := mkNode i' al (labels c)]> h), (Ok tt), (L l i' c), [].
  split; [rewrite (put_info_ok _ _ _ _ A); reflexivity|].
  split; [apply trans_write; [exact O|reflexivity]|]. split; [reflexivity|]. split; reflexivity.
Qed.

(** Overwriting the root, giving up its children. *)
Lemma performs_put_none h l i c i' al : own h [L l i c] ->
  performs (put l (mkNode i' al None)) h (L l i c) (Ok (T i' None)).
Proof.
  intros O. exists (<[l := mkNode i' al None]> h), (Ok tt), (L l i' None), (kids c).
  split; [reflexivity|]. split; [|split; [reflexivity|split; reflexivity]].
  apply (trans_write h l i c [] i' al None (kids c)); [exact O|]. rewrite app_nil_r. reflexivity.
Qed.
Lemma performs_put_empty h l i c i' al : own h [L l i c] ->
  performs (put l (mkNode i' al (Some []))) h (L l i c) (Ok (T i' (Some []))).
Proof.
  intros O. exists (<[l := mkNode i' al (Some [])]> h), (Ok tt), (L l i' (Some [])), (kids c).
  split; [reflexivity|]. split; [|split; [reflexivity|split; reflexivity]].
  apply (trans_write h l i c [] i' al (Some []) (kids c)); [exact O|]. rewrite app_nil_r. reflexivity.
Qed.

Lemma own_root h l i c : own h [L l i c] -> exists al, h !! l = Some (mkNode i al (labels c)).
Proof. intros [A _]. apply Forall_cons in A as [A _]. apply reads_eq in A as [A _]. exact A. Qed.

(** mergeComments: [n] is any node whose scalar fields are known. *)
Lemma h_merge_comments_spec sed h l i c n nn vs : own h [L l i c] -> h !! n = Some nn ->
  performs (h_merge_comments sed l n vs) h (L l i c) (Ok (erase (L l (merge_comments sed i (n_info nn) vs) c))).
Proof.
  intros O Hn. destruct (own_root _ _ _ _ O) as [al A].
  unfold h_merge_comments. apply (performs_get A). apply (performs_get Hn). apply performs_put_info. exact O.
Qed.

Lemma erase_inj_root lt l i c : label lt = l -> erase lt = erase (L l i c) ->
  exists c', lt = L l i c' /\
    (match c' with None => None | Some ts => Some (map erase ts) end) =
    (match c with None => None | Some ts => Some (map erase ts) end).
Proof. destruct lt as [l' i' c']. cbn [label]. intros ->. rewrite !erase_eq. intros [= -> E]. eauto. Qed.

Lemma apart_lookup ro h lt h' lt' gs n nn :
  trans h [lt] h' (lt' :: gs) -> apart ro h [lt] -> ro n -> h !! n = Some nn -> h' !! n = Some nn.
Proof. intros T A R H. rewrite (apart_frame _ _ _ _ _ n T A R). exact H. Qed.

Lemma h_merge_scalar_spec sed ro h lt n nn vs :
  own h [lt] -> apart ro h [lt] -> ro n -> h !! n = Some nn ->
  performs (h_merge_scalar sed (label lt) n vs) h lt (Ok (merge_scalar sed (erase lt) (n_info nn) vs)).
Proof.
  intros O Ap R Hn. destruct lt as [l i c]. destruct (own_root _ _ _ _ O) as [al A].
  unfold h_merge_scalar. cbn [label]. apply (performs_get A).
  apply (performs_ext _ _ _ (rbind (Ok (erase (L l (merge_comments sed i (n_info nn) vs) c)))
    (fun t => Ok (merge_scalar sed (erase (L l i c)) (n_info nn) vs)))); [reflexivity|].
  apply performs_bind; [exact O|apply h_merge_comments_spec; assumption|].
  intros t1 h1 lt1 gs [= <-] T O1 HL E. apply (erase_inj_root _ _ _ _ HL) in E as (c' & -> & E).
  destruct (own_root _ _ _ _ O1) as [al1 A1]. apply (performs_get A1).
  apply (performs_get (apart_lookup _ _ _ _ _ _ _ _ T Ap R Hn)). cbn [n_info].
  unfold merge_scalar. rewrite erase_eq. cbn [t_info t_kind t_content].
  assert (K : i_kind (merge_comments sed i (n_info nn) vs) = i_kind i).
  { unfold merge_comments. repeat (destruct (nonempty _)); reflexivity. }
  rewrite K. unfold t_kind. cbn [t_info]. destruct (kind_eqb (i_kind i) KScalar).
  - eapply performs_ext; [|apply performs_put_info; exact O1]. rewrite erase_eq, E. reflexivity.
  - apply performs_put_none. exact O1.
Qed.

Lemma h_to_kind_spec k tag h lt : own h [lt] ->
  performs (h_to_kind k tag (label lt)) h lt
    (Ok (if kind_eqb (i_kind (l_info lt)) k then erase lt
         else T (set_value [] (set_tag tag (set_kind k (l_info lt)))) (Some []))).
Proof.
  intros O. destruct lt as [l i c]. destruct (own_root _ _ _ _ O) as [al A]. unfold h_to_kind. cbn [label l_info].
  apply (performs_get A). cbn [n_info]. destruct (kind_eqb (i_kind i) k).
  - apply performs_ret. exact O.
  - apply performs_put_empty. exact O.
Qed.

(** ** Sanitizing owned documents *)
Lemma loop_spec (f : loc -> M unit) (g : tree -> tree) (P : tree -> Prop) :
  (forall h t, own h [t] -> P (erase t) -> exists h' t', f (label t) h = (h', Ok tt) /\ trans h [t] h' [t'] /\
     label t' = label t /\ erase t' = g (erase t)) ->
  forall ts h, own h ts -> Forall P (map erase ts) ->
  exists h' ts', loop f (map label ts) h = (h', Ok tt) /\ trans h ts h' ts' /\
    map label ts' = map label ts /\ map erase ts' = map g (map erase ts).
Proof.
  intros Hf. induction ts as [|t ts IH]; intros h O HP.
  - exists h, []. split; [reflexivity|]. split; [apply trans_refl; constructor|]. split; reflexivity.
  - cbn [map] in *. apply Forall_cons in HP as [HP1 HP2].
    destruct (Hf h t (own_head _ _ _ O) HP1) as (h1 & t' & A1 & T1 & L1 & E1).
    pose proof (trans_frame_r _ [t] _ [t'] ts O T1) as T1'. cbn [app] in T1'.
    pose proof (own_trans _ _ _ _ O T1') as O1.
    destruct (IH h1 (own_app_r _ [t'] ts O1) HP2) as (h2 & ts' & A2 & T2 & L2 & E2).
    exists h2, (t' :: ts'). cbn [loop]. rewrite (bind_ok _ _ _ _ _ A1), A2. split; [reflexivity|].
    split; [|cbn [map]; split; congruence].
    eapply trans_trans; [exact O|exact T1'|].
    apply (trans_perm _ (ts ++ [t']) _ _ (ts' ++ [t'])); [apply perm_snoc|apply perm_snoc|].
    apply trans_frame_r; [|exact T2]. apply (own_perm _ (t' :: ts)); [symmetry; apply perm_snoc|exact O1].
Qed.

Lemma h_sanitize_spec sed d : forall fuel h t, d <= fuel -> own h [t] -> depth_le d (erase t) ->
  exists h' t', h_sanitize fuel sed (label t) h = (h', Ok tt) /\ trans h [t] h' [t'] /\
    label t' = label t /\ erase t' = sanitize sed (erase t).
Proof.
  induction d as [|d IH]; intros fuel h t Hf O D; [destruct D|].
  destruct fuel as [|fuel]; [lia|]. destruct t as [l i c]. destruct (own_root _ _ _ _ O) as [al A].
  cbn [h_sanitize label]. rewrite (bind_ok _ _ _ _ _ (get_ok _ _ _ A)). cbn [n_info n_content].
  (* the recursive part *)
  assert (H1 : exists h1 c1,
     (match i_kind i with
      | KDocument | KMapping | KSequence | KAlias =>
          match labels c with None => ret tt | Some ls => loop (h_sanitize fuel sed) ls end
      | KScalar | KZero => ret tt
      end) h = (h1, Ok tt) /\ trans h [L l i c] h1 [L l i c1] /\
     erase (L l i c1) = T i (match i_kind i with
         | KDocument | KMapping | KSequence | KAlias =>
             match c with Some l => Some (map (sanitize sed) (map erase l)) | None => None end
         | KScalar | KZero => match c with None => None | Some ts => Some (map erase ts) end
         end)).
  { assert (Hstay : forall x, x = ret tt -> exists h1 c1 : _, x h = (h1, Ok tt) /\ trans h [L l i c] h1 [L l i c1] /\ c1 = c).
    { intros x ->. exists h, c. split; [reflexivity|]. split; [apply trans_refl; apply O|reflexivity]. }
    assert (Hrec : exists h1 c1, (match labels c with None => ret tt | Some ls => loop (h_sanitize fuel sed) ls end) h = (h1, Ok tt) /\
       trans h [L l i c] h1 [L l i c1] /\
       erase (L l i c1) = T i (match c with Some l => Some (map (sanitize sed) (map erase l)) | None => None end)).
    { destruct c as [ts|]; cbn [labels].
      - cbn [depth_le erase t_content] in D.
        destruct (loop_spec (h_sanitize fuel sed) (sanitize sed) (depth_le d)) with (ts := ts) (h := h)
          as (h1 & ts' & B1 & T1 & L1 & E1).
        + intros h0 t0 O0 D0. apply IH; auto. lia.
        + apply own_kids in O as [O _]. apply own_app_l in O. exact O.
        + exact D.
        + exists h1, (Some ts'). split; [exact B1|]. split; [|rewrite erase_eq, E1; reflexivity].
          apply trans_lift; [exact O|exact L1|rewrite !app_nil_r; exact T1].
      - destruct (Hstay (ret tt) eq_refl) as (h1 & c1 & B1 & T1 & ->). exists h1, None. auto. }
    destruct (i_kind i); try exact Hrec;
      destruct (Hstay (ret tt) eq_refl) as (h1 & c1 & B1 & T1 & ->); exists h1, c; split; [exact B1| |exact B1|];
      (split; [exact T1|rewrite erase_eq; reflexivity]). }
  destruct H1 as (h1 & c1 & B1 & T1 & E1). rewrite (bind_ok _ _ _ _ _ B1).
  pose proof (own_trans _ _ _ _ O T1) as O1. destruct (own_root _ _ _ _ O1) as [al1 A1].
  rewrite (bind_ok _ _ _ _ _ (get_ok _ _ _ A1)). cbn [n_info].
  rewrite (put_info_ok _ _ _ _ A1). cbn [n_alias n_content].
  eexists _, (L l (sanitize_info sed i) c1). split; [reflexivity|]. split.
  - eapply trans_trans; [exact O|exact T1|]. apply trans_write; [exact O1|reflexivity].
  - split; [reflexivity|]. rewrite erase_eq in E1. injection E1 as E1. rewrite !erase_eq, E1. cbn [sanitize].
    destruct (i_kind i), c; reflexivity.
Qed.

(** ** addNode *)
Lemma h_add_node_spec sed ro d fuel h lt ns ts :
  d <= fuel -> own h [lt] -> Forall2 (value_at d ro h) ns ts ->
  performs (h_add_node fuel sed (label lt) ns) h lt (Ok (add_node sed (erase lt) ts)).
Proof.
  intros Hf O HV. destruct (each_copy d ro fuel h ns ts (h_copy_spec ro d fuel Hf) HV) as (ext & lts & A1 & T1 & E1).
  set (h1 := h ++ ext) in *.
  pose proof (trans_frame_r h [] h1 lts [lt] O T1) as T1'. cbn [app] in T1'.
  assert (O0 : own h []) by (split; constructor).
  pose proof (own_trans _ _ _ _ O T1') as O1.
  destruct (loop_spec (h_sanitize fuel sed) (sanitize sed) (depth_le d)) with (ts := lts) (h := h1)
    as (h2 & lts' & A2 & T2 & L2 & E2).
  { intros h0 t0 Q0 D0. apply (h_sanitize_spec sed d); auto. }
  { apply own_app_l in O1. exact O1. }
  { rewrite E1. clear -HV. induction HV; constructor; eauto using value_at_depth. }
  pose proof (trans_frame_r _ _ _ _ [lt] O1 T2) as T2'.
  pose proof (trans_trans _ _ _ _ _ _ O T1' T2') as T12.
  pose proof (own_trans _ _ _ _ O T12) as O2.
  destruct lt as [l i c].
  assert (P2 : lts' ++ [L l i c] ≡ₚ L l i c :: lts') by apply perm_snoc.
  apply (own_perm _ _ _ P2) in O2.
  destruct O2 as [R2 N2]. pose proof R2 as R2'. apply Forall_cons in R2' as [R3 _]. apply reads_eq in R3 as [[al A3] _].
  set (c' := match c with None => match lts' with [] => None | _ => Some lts' end | Some cs => Some (cs ++ lts') end).
  exists (<[l := mkNode i al (labels c')]> h2), (Ok tt), (L l i c'), [].
  split.
  { unfold h_add_node. rewrite (bind_ok _ _ _ _ _ A1), (bind_ok _ _ _ _ _ A2). cbn [label].
    rewrite (bind_ok _ _ _ _ _ (get_ok _ _ _ A3)). rewrite (put_content_ok _ _ _ _ A3). cbn [n_info n_alias n_content].
    rewrite <- L2. f_equal. f_equal. f_equal. unfold c', append_slice.
    destruct c as [cs|]; cbn [labels]; [rewrite map_app; reflexivity|]. destruct lts'; reflexivity. }
  split.
  { eapply trans_trans; [exact O| |].
    - exact (trans_perm _ _ _ _ _ _ (reflexivity _) P2 T12).
    - apply trans_write; [split; assumption|]. rewrite app_nil_r. unfold c'.
      destruct c as [cs|]; cbn [kids]; [reflexivity|]. destruct lts'; reflexivity. }
  split; [reflexivity|]. split; [reflexivity|].
  rewrite !erase_eq. unfold add_node, c', append_content. rewrite <- E1, <- E2.
  destruct c as [cs|]; [rewrite map_app; reflexivity|]. destruct lts'; reflexivity.
Qed.

(** ** mergeArray *)
Lemma h_merge_array_spec sed ro d fuel h lt n t :
  d <= fuel -> own h [lt] -> apart ro h [lt] -> value_at (S d) ro h n t ->
  performs (h_merge_array fuel sed (label lt) n) h lt (Ok (merge_array sed (erase lt) t)).
Proof.
  intros Hf O Ap (R & nn & A & B & _ & D). unfold h_merge_array, merge_array.
  apply (performs_ext _ _ _ (rbind (Ok (to_seq (erase lt))) (fun o1 => Ok (match t_content t with
     | None => o1
     | Some l => add_node sed (T (merge_comments sed (t_info o1) (t_info t) [t_value o1]) (t_content o1)) l end)))).
  { reflexivity. }
  apply performs_bind; [exact O| |].
  { eapply performs_ext; [|apply h_to_kind_spec; exact O]. unfold to_seq, t_kind. rewrite erase_info. reflexivity. }
  intros t1 h1 lt1 gs [= <-] T1 O1 L1 E1.
  apply (performs_get (apart_lookup _ _ _ _ _ _ _ _ T1 Ap R A)).
  rewrite <- E1, <- L1. clear E1.
  destruct (n_content nn) as [ls|], (t_content t) as [ts|]; try (exfalso; exact D); [|apply performs_ret; exact O1].
  destruct lt1 as [l1 i1 c1]. destruct (own_root _ _ _ _ O1) as [al1 A1].
  cbn [label] in *. apply (performs_get A1). cbn [n_info].
  pose proof (apart_head _ _ _ _ (apart_trans _ _ _ _ _ O T1 Ap)) as Ap1.
  pose proof (apart_lookup _ _ _ _ _ _ _ _ T1 Ap R A) as A'.
  apply (performs_ext _ _ _ (rbind (Ok (erase (L l1 (merge_comments sed i1 (n_info nn) [i_value i1]) c1)))
     (fun x => Ok (add_node sed x ts)))).
  { cbn [rbind]. rewrite !erase_eq, B. reflexivity. }
  apply performs_bind; [exact O1|apply h_merge_comments_spec; assumption|].
  intros t2 h2 lt2 gs2 [= <-] T2 O2 L2 E2. cbn [label] in L2. rewrite <- E2, <- L2.
  apply (h_add_node_spec sed ro d); [exact Hf|exact O2|].
  assert (Fr : forall x, ro x -> h2 !! x = h !! x).
  { intros x Hx. rewrite (apart_frame _ _ _ _ _ x T2 Ap1 Hx). exact (apart_frame _ _ _ _ _ x T1 Ap Hx). }
  eapply Forall2_impl; [exact D|]. intros x y. apply value_at_frame. exact Fr.
Qed.
