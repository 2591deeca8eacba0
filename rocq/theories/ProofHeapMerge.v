(** Refinement of merge, replace and combine. *)
From stdpp Require Import sets.
From Verif Require Import Prelude GoStrings Format Yaml Heap SpecHeap MergeTree Combine HeapActions
  SpecMerge ProofMerge ProofHeap ProofHeapActions.

(** Acting on part of the owned documents. *)
Lemma act h a X b G h' X' gs :
  own h ((a ++ X ++ b) ++ G) -> trans h X h' (X' ++ gs) ->
  trans h ((a ++ X ++ b) ++ G) h' ((a ++ X' ++ b) ++ gs ++ G).
Proof.
  intros O T.
  assert (P : (a ++ X ++ b) ++ G ≡ₚ X ++ (a ++ b ++ G)).
  { rewrite <- !(assoc_L (++)). rewrite !(assoc_L (++)). rewrite (comm (++) a X). reflexivity. }
  assert (P' : (X' ++ gs) ++ (a ++ b ++ G) ≡ₚ (a ++ X' ++ b) ++ gs ++ G).
  { rewrite <- !(assoc_L (++)). rewrite (assoc_L (++) a X'). rewrite (comm (++) a X'). rewrite <- !(assoc_L (++)).
    f_equiv. rewrite (assoc_L (++) gs a). rewrite (comm (++) gs a). rewrite <- !(assoc_L (++)). f_equiv.
    rewrite !(assoc_L (++)). rewrite (comm (++) gs b). reflexivity. }
  eapply trans_perm; [symmetry; exact P|exact P'|]. apply trans_frame_r; [|exact T].
  eapply own_perm; [exact P|exact O].
Qed.

Definition list_agree (F : res (list tree * bool)) (r : res bool) (ts : list tree) : Prop :=
  match F with
  | Ok (ts', b) => r = Ok b /\ ts = ts'
  | Err e => r = Err e
  | Panic => r = Panic
  | Fuel => r = Fuel
  end.
Definition performs_list (m : M bool) (h : heap) (cs : list ltree) (F : res (list tree * bool)) : Prop :=
  exists h' r cs' gs, m h = (h', r) /\ trans h cs h' (cs' ++ gs) /\ map label cs' = map label cs /\
    list_agree F r (map erase cs').

Definition same_ro (ro : loc -> Prop) (h0 h : heap) : Prop := forall x, ro x -> h !! x = h0 !! x.

Lemma same_ro_trans ro h0 h W h' W' : trans h W h' W' -> apart ro h W -> same_ro ro h0 h -> same_ro ro h0 h'.
Proof. intros T A S x Hx. rewrite (apart_frame _ _ _ _ _ x T A Hx). auto. Qed.

Section entries.
  Context (sed : sed_engine) (ro : loc -> Prop) (h0 : heap).
  Context (f : loc -> list N -> M unit) (tf : tree -> list N -> res tree).
  Context (Hf : forall h lt key, own h [lt] -> apart ro h [lt] -> same_ro ro h0 h ->
                 performs (f (label lt) key) h lt (tf (erase lt) key)).
  Context (nk : loc) (nnk : hnode) (Hnk : h0 !! nk = Some nnk) (Rnk : ro nk).

  Lemma h_merge_entries_spec cs : forall h, own h cs -> apart ro h cs -> same_ro ro h0 h ->
    performs_list (h_merge_entries sed f nk (map label cs)) h cs (merge_entries sed tf (n_info nnk) (map erase cs)).
  Proof.
    induction cs as [|k|k v rest IH] using list_ind2; intros h O Ap Sm.
    - exists h, (Ok false), [], []. split; [reflexivity|]. split; [apply trans_refl; constructor|]. split; [reflexivity|].
      split; reflexivity.
    - exists h, (Ok false), [k], []. split; [reflexivity|]. split; [apply trans_refl; apply O|]. split; [reflexivity|].
      split; reflexivity.
    - cbn [map h_merge_entries merge_entries].
      assert (Ok0 : own h [k]) by (apply (own_head _ _ _ O)).
      assert (Ov0 : own h (v :: rest)) by (apply (own_app_r h [k] _ O)).
      assert (Apk : apart ro h [k]) by (apply (apart_head _ _ _ _ Ap)).
      assert (Apv : apart ro h (v :: rest)) by (apply (apart_app_r ro h [k] _ Ap)).
      assert (Hk : exists al, h !! label k = Some (mkNode (l_info k) al (labels (l_content k)))).
      { apply reads_root. apply (Forall_inv (proj1 Ok0)). }
      destruct Hk as [alk Hk].
      assert (Hv : exists al, h !! label v = Some (mkNode (l_info v) al (labels (l_content v)))).
      { apply reads_root. apply (Forall_inv (proj1 Ov0)). }
      destruct Hv as [alv Hv].
      assert (Hn : h !! nk = Some nnk) by (rewrite Sm; auto).
      unfold performs_list. rewrite (bind_ok _ _ _ _ _ (get_ok _ _ _ Hn)), (bind_ok _ _ _ _ _ (get_ok _ _ _ Hk)).
      cbn [n_info]. unfold t_value. rewrite !erase_info.
      destruct (check_for_markers (i_value (n_info nnk)) || seq_eqb (i_value (l_info k)) (i_value (n_info nnk))) eqn:Hm.
      + rewrite (bind_ok _ _ _ _ _ (get_ok _ _ _ Hv)). cbn [n_info].
        set (key := i_value (l_info k)). set (value := i_value (l_info v)).
        (* key comments *)
        destruct (h_merge_comments_spec sed h (label k) (l_info k) (l_content k) nk nnk [value; key])
          as (h1 & r1 & k1 & g1 & A1 & T1 & L1 & [-> E1]); [destruct k; exact Ok0|exact Hn|].
        rewrite (bind_ok _ _ _ _ _ A1).
        assert (T1' : trans h ((k :: v :: rest) ++ []) h1 ((k1 :: v :: rest) ++ g1 ++ [])).
        { apply (act h [] [k] (v :: rest) [] h1 [k1] g1); [cbn [app]; rewrite app_nil_r; exact O|].
          destruct k; exact T1. }
        rewrite !app_nil_r in T1'. pose proof (own_trans _ _ _ _ O T1') as O1.
        pose proof (apart_trans _ _ _ _ _ O T1' Ap) as Ap1.
        pose proof (same_ro_trans _ _ _ _ _ _ T1' Ap Sm) as Sm1.
        (* value *)
        destruct (Hf h1 v key) as (h2 & r2 & v1 & g2 & A2 & T2 & L2 & E2).
        { apply own_app_l, (own_app_r h1 [k1]) in O1. exact (own_head _ _ _ O1). }
        { apply apart_app_l, (apart_app_r ro h1 [k1]) in Ap1. exact (apart_head _ _ _ _ Ap1). }
        { exact Sm1. }
        assert (T2' : trans h1 ((k1 :: v :: rest) ++ g1) h2 ((k1 :: v1 :: rest) ++ g2 ++ g1)).
        { apply (act h1 [k1] [v] rest g1 h2 [v1] g2); assumption. }
        pose proof (trans_trans _ _ _ _ _ _ O T1' T2') as T12.
        pose proof (own_trans _ _ _ _ O T12) as O2.
        pose proof (apart_trans _ _ _ _ _ O T12 Ap) as Ap2.
        pose proof (same_ro_trans _ _ _ _ _ _ T12 Ap Sm) as Sm2.
        assert (EK : erase k1 = T (merge_comments sed (t_info (erase k)) (n_info nnk) [value; key]) (t_content (erase k))).
        { rewrite E1. destruct k; reflexivity. }
        rewrite erase_info in EK. unfold bind at 1. rewrite A2.
        destruct (tf (erase v) key) as [v2|e| |]; cbn [agree rbind] in *.
        * destruct E2 as [-> E2]. destruct (check_for_markers (i_value (n_info nnk))).
          -- (* marker key: also rewrite the key, then the rest *)
             destruct (h_merge_scalar_spec sed ro h2 k1 nk nnk [value; key]) as (h3 & r3 & k2 & g3 & A3 & T3 & L3 & [-> E3]).
             { apply own_app_l in O2. exact (own_head _ _ _ O2). }
             { apply apart_app_l in Ap2. exact (apart_head _ _ _ _ Ap2). }
             { exact Rnk. }
             { rewrite Sm2; auto. }
             cbn [label] in L1. rewrite L1 in A3. rewrite (bind_ok _ _ _ _ _ A3).
             assert (T3' : trans h2 ((k1 :: v1 :: rest) ++ (g2 ++ g1)) h3 ((k2 :: v1 :: rest) ++ g3 ++ g2 ++ g1)).
             { apply (act h2 [] [k1] (v1 :: rest) (g2 ++ g1) h3 [k2] g3); assumption. }
             pose proof (trans_trans _ _ _ _ _ _ O T12 T3') as T13.
             pose proof (own_trans _ _ _ _ O T13) as O3.
             pose proof (apart_trans _ _ _ _ _ O T13 Ap) as Ap3.
             pose proof (same_ro_trans _ _ _ _ _ _ T13 Ap Sm) as Sm3.
             destruct (IH h3) as (h4 & r4 & rest' & g4 & A4 & T4 & L4 & E4).
             { apply own_app_l, (own_app_r h3 [k2; v1]) in O3. exact O3. }
             { apply apart_app_l, (apart_app_r ro h3 [k2; v1]) in Ap3. exact Ap3. }
             { exact Sm3. }
             assert (T4' : trans h3 ((k2 :: v1 :: rest) ++ (g3 ++ g2 ++ g1)) h4 ((k2 :: v1 :: rest') ++ g4 ++ g3 ++ g2 ++ g1)).
             { pose proof (act h3 [k2; v1] rest [] (g3 ++ g2 ++ g1) h4 rest' g4) as Z. rewrite !app_nil_r in Z. apply Z; assumption. }
             pose proof (trans_trans _ _ _ _ _ _ O T13 T4') as T14.
             unfold bind. rewrite A4.
             assert (LL : map label (k2 :: v1 :: rest') = map label (k :: v :: rest)) by (cbn [map]; congruence).
             destruct (merge_entries sed tf (n_info nnk) (map erase rest)) as [[ts b]|e| |]; cbn [list_agree rbind] in *;
               [destruct E4 as [-> E4]|subst r4..]; eexists _, _, (k2 :: v1 :: rest'), (g4 ++ g3 ++ g2 ++ g1);
               (split; [reflexivity|]); (split; [exact T14|]); (split; [exact LL|]); [|reflexivity..].
             split; [reflexivity|]. cbn [map]. rewrite E3, EK, E2, E4. reflexivity.
          -- eexists _, _, (k1 :: v1 :: rest), (g2 ++ g1). split; [reflexivity|]. split; [exact T12|].
             split; [cbn [map label] in *; congruence|]. split; [reflexivity|]. cbn [map]. rewrite EK, E2.
             destruct k; reflexivity.
        * subst r2. eexists _, _, (k1 :: v1 :: rest), (g2 ++ g1). split; [reflexivity|]. split; [exact T12|].
          split; [cbn [map label] in *; congruence|]. reflexivity.
        * subst r2. eexists _, _, (k1 :: v1 :: rest), (g2 ++ g1). split; [reflexivity|]. split; [exact T12|].
          split; [cbn [map label] in *; congruence|]. reflexivity.
        * subst r2. eexists _, _, (k1 :: v1 :: rest), (g2 ++ g1). split; [reflexivity|]. split; [exact T12|].
          split; [cbn [map label] in *; congruence|]. reflexivity.
      + destruct (IH h) as (h4 & r4 & rest' & g4 & A4 & T4 & L4 & E4).
        { apply (own_app_r h [k; v]) in O. exact O. }
        { apply (apart_app_r ro h [k; v]) in Ap. exact Ap. }
        { exact Sm. }
        exists h4, r4, (k :: v :: rest'), g4. split; [exact A4|]. split.
        { pose proof (act h [k; v] rest [] [] h4 rest' g4) as Z. rewrite !app_nil_r in Z. apply Z; assumption. }
        split; [cbn [map]; congruence|].
        destruct (merge_entries sed tf (n_info nnk) (map erase rest)) as [[ts b]|e| |]; cbn [list_agree rbind] in *; try assumption.
        destruct E4 as [-> E4]. split; [reflexivity|]. cbn [map]. rewrite E4. reflexivity.
  Qed.

  (** One pair of the overlay mapping. *)
  Context (fuel d : nat) (Hd : d <= fuel) (nv : loc) (tk tv : tree).
  Context (Vk : value_at d ro h0 nk tk) (Vv : value_at d ro h0 nv tv).

  Lemma h_merge_pair_spec h lt : own h [lt] -> apart ro h [lt] -> same_ro ro h0 h ->
    performs (h_merge_pair fuel sed f nk nv (label lt)) h lt (merge_pair sed tf tk tv (erase lt)).
  Proof.
    intros O Ap Sm. unfold h_merge_pair.
    assert (Ink : n_info nnk = t_info tk).
    { destruct (value_at_node _ _ _ _ _ Vk) as (n' & X & Y). rewrite Hnk in X. injection X as ->. exact Y. }
    apply (performs_ext _ _ _ (rbind (Ok (to_map (erase lt))) (fun o1 =>
       match t_content o1 with
       | None => Ok (add_node sed o1 [tk; tv])
       | Some oc =>
           let! (oc', found) := merge_entries sed tf (t_info tk) oc in
           if (found : bool) then Ok (T (t_info o1) (Some oc'))
           else Ok (add_node sed o1 [tk; tv])
       end))); [reflexivity|].
    apply performs_bind; [exact O| |].
    { eapply performs_ext; [|apply h_to_kind_spec; exact O]. unfold to_map, t_kind. rewrite erase_info. reflexivity. }
    intros t1 h1 lt1 gs [= <-] T1 O1 L1 E1. rewrite <- E1, <- L1. clear E1.
    pose proof (apart_head _ _ _ _ (apart_trans _ _ _ _ _ O T1 Ap)) as Ap1.
    pose proof (same_ro_trans _ _ _ _ _ _ T1 Ap Sm) as Sm1.
    destruct lt1 as [l i c]. destruct (own_root _ _ _ _ O1) as [al A]. cbn [label].
    apply (performs_get A). cbn [n_content]. rewrite erase_eq. cbn [t_content].
    assert (HA : forall h2 lt2, own h2 [lt2] -> same_ro ro h0 h2 ->
       performs (h_add_node fuel sed (label lt2) [nk; nv]) h2 lt2 (Ok (add_node sed (erase lt2) [tk; tv]))).
    { intros h2 lt2 O2 Sm2. apply (h_add_node_spec sed ro d); [exact Hd|exact O2|].
      repeat constructor; apply (value_at_frame ro h0); auto. }
    destruct c as [cs|]; cbn [labels].
    - destruct (h_merge_entries_spec cs h1) as (h2 & r & cs' & g2 & A2 & T2 & L2 & E2).
      { apply own_kids in O1 as [O1 _]. rewrite app_nil_r in O1. exact O1. }
      { apply apart_kids in Ap1. rewrite app_nil_r in Ap1. exact Ap1. }
      { exact Sm1. }
      assert (T2' : trans h1 [L l i (Some cs)] h2 (L l i (Some cs') :: g2)).
      { apply trans_lift; [exact O1|exact L2|rewrite app_nil_r; exact T2]. }
      rewrite <- Ink. unfold performs, bind at 1. rewrite A2.
      destruct (merge_entries sed tf (n_info nnk) (map erase cs)) as [[ts b]|e| |] eqn:HE; cbn [list_agree rbind] in *.
      + destruct E2 as [-> E2]. destruct b.
        * exists h2, (Ok tt), (L l i (Some cs')), g2. split; [reflexivity|]. split; [exact T2'|]. split; [reflexivity|].
          split; [reflexivity|]. rewrite erase_eq, E2. reflexivity.
        * (* nothing found: the entries are unchanged *)
          assert (Hsame : ts = map erase cs).
          { clear -HE. revert ts HE. generalize (map erase cs). intros l0. induction l0 as [|x|x y l0 IH] using list_ind2; cbn [merge_entries]; intros ts.
            - intros [= <-]; reflexivity.
            - intros [= <-]; reflexivity.
            - destruct (check_for_markers (i_value (n_info nnk))); cbn [orb];
                [|destruct (seq_eqb (t_value x) (i_value (n_info nnk)))]; cbn [rbind].
              + destruct (tf y (t_value x)); try discriminate. cbn [rbind].
                destruct (merge_entries sed tf (n_info nnk) l0) as [[]| | |]; discriminate.
              + destruct (tf y (t_value x)); discriminate.
              + destruct (merge_entries sed tf (n_info nnk) l0) as [[ts' b]| | |]; try discriminate.
                cbn [rbind]. intros [= <- ->]. rewrite (IH ts'); reflexivity. }
          pose proof (own_head _ _ _ (own_trans _ _ _ _ O1 T2')) as O2.
          pose proof (same_ro_trans _ _ _ _ _ _ T2' Ap1 Sm1) as Sm2.
          destruct (HA h2 (L l i (Some cs')) O2 Sm2) as (h3 & r3 & lt3 & g3 & A3 & T3 & L3 & E3).
          exists h3, r3, lt3, (g3 ++ g2). split; [exact A3|]. split; [eapply trans_seq; eauto|]. split; [exact L3|].
          rewrite erase_eq in E3. rewrite E2, Hsame in E3. exact E3.
      + subst r. exists h2, (Err e), (L l i (Some cs')), g2. split; [reflexivity|]. split; [exact T2'|]. split; reflexivity.
      + subst r. exists h2, Panic, (L l i (Some cs')), g2. split; [reflexivity|]. split; [exact T2'|]. split; reflexivity.
      + subst r. exists h2, Fuel, (L l i (Some cs')), g2. split; [reflexivity|]. split; [exact T2'|]. split; reflexivity.
    - unfold performs. rewrite (bind_ok _ _ _ h1 false eq_refl).
      specialize (HA h1 (L l i None) O1 Sm1). rewrite erase_eq in HA. exact HA.
  Qed.
End entries.

Lemma performs_merge_pairs sed ro h0 fuel d m :
  d <= fuel ->
  (forall nv tv, value_at d ro h0 nv tv -> forall h lt key, own h [lt] -> apart ro h [lt] -> same_ro ro h0 h ->
     performs (m (label lt) nv key) h lt (merge sed (erase lt) tv [key])) ->
  forall ps ts, Forall2 (value_at d ro h0) ps ts -> forall h lt, own h [lt] -> apart ro h [lt] -> same_ro ro h0 h ->
  performs (h_merge_pairs fuel sed m (label lt) ps) h lt (merge_pairs sed ts (erase lt)).
Proof.
  intros Hd Hm ps. induction ps as [|nk|nk nv ps IH] using list_ind2; intros ts HV h lt O Ap Sm.
  - apply Forall2_nil_inv_l in HV as ->. apply performs_ret. exact O.
  - apply Forall2_cons_inv_l in HV as (tk & ts' & Vk & HV & ->). apply Forall2_nil_inv_l in HV as ->.
    apply performs_ret. exact O.
  - apply Forall2_cons_inv_l in HV as (tk & ts' & Vk & HV & ->).
    apply Forall2_cons_inv_l in HV as (tv & ts'' & Vv & HV & ->).
    cbn [h_merge_pairs merge_pairs]. destruct (value_at_node _ _ _ _ _ Vk) as (nnk & Hnk & Ink).
    assert (Rnk : ro nk) by (destruct d; [destruct Vk|apply Vk]).
    apply performs_bind; [exact O| |].
    + apply (h_merge_pair_spec sed ro h0) with (nnk := nnk) (d := d); auto.
    + intros t1 h1 lt1 gs _ T1 O1 L1 E1. rewrite <- E1, <- L1. apply IH; auto.
      * exact (apart_head _ _ _ _ (apart_trans _ _ _ _ _ O T1 Ap)).
      * exact (same_ro_trans _ _ _ _ _ _ T1 Ap Sm).
Qed.

Lemma h_merge_spec sed ro d : forall fuel h lt n t ks,
  d <= fuel -> own h [lt] -> apart ro h [lt] -> value_at d ro h n t ->
  performs (h_merge fuel sed (label lt) n ks) h lt (merge sed (erase lt) t ks).
Proof.
  induction d as [|d IH]; intros fuel h lt n t ks Hf O Ap V; [destruct V|].
  destruct fuel as [|fuel]; [lia|]. pose proof V as V0. destruct V as (R & nn & A & B & _ & D).
  cbn [h_merge]. apply (performs_get A). destruct t as [ni nc]. cbn [t_info t_content] in *. rewrite B.
  cbn [merge]. destruct (i_kind ni) eqn:K.
  - (* KZero *)
    destruct lt as [l i c]. destruct (own_root _ _ _ _ O) as [al Al]. cbn [label]. apply (performs_get Al). cbn [n_info].
    eapply performs_ext; [|apply performs_put_info; exact O]. rewrite !erase_eq. reflexivity.
  - (* KDocument *)
    destruct lt as [l i c]. destruct (own_root _ _ _ _ O) as [al Al]. cbn [label]. apply (performs_get Al). cbn [n_info n_content].
    rewrite erase_eq. cbn [t_content t_info t_value].
    destruct c as [cs|]; cbn [labels].
    2:{ apply (performs_ret h (L l i None) O). }
    destruct (n_content nn) as [nls|], nc as [nl|]; try (exfalso; exact D).
    2:{ apply (performs_ret h (L l i (Some cs)) O). }
    set (ks' := [i_value i]).
    assert (HC : performs (h_merge_comments sed l n ks') h (L l i (Some cs))
                   (Ok (erase (L l (merge_comments sed i ni ks') (Some cs))))).
    { rewrite <- B. apply h_merge_comments_spec; assumption. }
    destruct HC as (h1 & r1 & lt1 & g1 & A1 & T1 & L1 & [-> E1]). cbn [label] in L1.
    apply (erase_inj_root _ _ _ _ L1) in E1 as (c1 & -> & E1).
    destruct c1 as [cs1|]; [|discriminate]. injection E1 as E1.
    assert (LL : map label cs1 = map label cs).
    { destruct (own_root _ _ _ _ (own_head _ _ _ (own_trans _ _ _ _ O T1))) as [al1 Al1].
      unfold h_merge_comments in A1. rewrite (bind_ok _ _ _ _ _ (get_ok _ _ _ Al)), (bind_ok _ _ _ _ _ (get_ok _ _ _ A)) in A1.
      rewrite (put_info_ok _ _ _ _ Al) in A1. injection A1 as <-. rewrite list_lookup_insert in Al1.
      2:{ apply lookup_lt_is_Some. eauto. }
      injection Al1 as _ Al1. cbn [labels n_content] in Al1. congruence. }
    pose proof (own_head _ _ _ (own_trans _ _ _ _ O T1)) as O1.
    pose proof (apart_head _ _ _ _ (apart_trans _ _ _ _ _ O T1 Ap)) as Ap1.
    unfold performs. rewrite (bind_ok _ _ _ _ _ A1). rewrite <- LL, <- E1.
    assert (Hpanic : exists h' r lt' gs, crash (A := unit) h1 = (h', r) /\ trans h [L l i (Some cs)] h' (lt' :: gs) /\
       label lt' = l /\ agree Panic r (erase lt')).
    { eexists _, _, _, _. split; [reflexivity|]. split; [exact T1|]. split; reflexivity. }
    destruct cs1 as [|o0 orest]; cbn [map]; [exact Hpanic|].
    destruct D as [|n0 t0 nls nl V0' D]; [exact Hpanic|].
    destruct (IH fuel h1 o0 n0 t0 ks') as (h2 & r2 & o1 & g2 & A2 & T2 & L2 & E2).
    { lia. }
    { apply own_kids in O1 as [O1 _]. rewrite app_nil_r in O1. exact (own_head _ _ _ O1). }
    { apply apart_kids in Ap1. rewrite app_nil_r in Ap1. exact (apart_head _ _ _ _ Ap1). }
    { apply (value_at_trans _ _ _ _ _ _ _ _ T1 Ap V0'). }
    assert (T2' : trans h1 [L l (merge_comments sed i ni ks') (Some (o0 :: orest))] h2
                    (L l (merge_comments sed i ni ks') (Some (o1 :: orest)) :: g2)).
    { apply trans_lift; [exact O1|cbn [map]; congruence|].
      pose proof (act h1 [] [o0] orest [] h2 [o1] g2) as Z. cbn [app] in Z. rewrite !app_nil_r in Z. rewrite app_nil_r.
      apply Z; [|exact T2]. apply own_kids in O1 as [O1 _]. rewrite app_nil_r in O1. exact O1. }
    pose proof (trans_seq _ _ _ _ _ _ _ _ O T1 T2') as T12.
    exists h2, r2, (L l (merge_comments sed i ni ks') (Some (o1 :: orest))), (g2 ++ g1).
    split; [exact A2|]. split; [exact T12|]. split; [reflexivity|].
    change (t_value (T i (Some (erase o0 :: map erase orest)))) with (i_value i). fold ks'.
    destruct (merge sed (erase o0) t0 ks'); cbn [agree rbind] in *; try exact E2.
    destruct E2 as [-> E2]. split; [reflexivity|]. rewrite erase_eq. cbn [map]. rewrite E2. reflexivity.
  - (* KSequence *)
    apply (h_merge_array_spec sed ro d); auto. lia.
  - (* KMapping *)
    destruct (n_content nn) as [nls|], nc as [nl|]; try (exfalso; exact D).
    2:{ apply performs_ret. exact O. }
    pose proof (merge_map_eq sed (erase lt) ni nl ks K) as EM. cbn [merge] in EM. rewrite K in EM.
    apply (performs_ext _ _ _ (merge_pairs sed nl (erase lt))); [symmetry; exact EM|].
    apply (performs_merge_pairs sed ro h fuel d); auto; [lia| |intros x _; reflexivity].
    intros nv tv Vv h1 lt1 key O1 Ap1 Sm1. apply IH; auto; [lia|]. apply (value_at_frame ro h); auto.
  - (* KScalar *)
    apply (performs_ext _ _ _ (rbind (Ok (merge_scalar sed (erase lt) ni ks))
       (fun x => Ok (T (set_tag (i_tag ni) (t_info x)) (t_content x))))).
    { cbn [rbind]. destruct (merge_scalar sed (erase lt) ni ks). reflexivity. }
    apply performs_bind; [exact O| |].
    + rewrite <- B. apply (h_merge_scalar_spec sed ro); assumption.
    + intros t1 h1 lt1 gs [= <-] T1 O1 L1 E1. rewrite <- E1, <- L1. destruct lt1 as [l1 i1 c1].
      destruct (own_root _ _ _ _ O1) as [al1 Al1]. cbn [label]. apply (performs_get Al1). cbn [n_info].
      eapply performs_ext; [|apply performs_put_info; exact O1]. rewrite !erase_eq. reflexivity.
  - apply performs_fail. exact O.
Qed.

(** ** ReplaceNode *)
Lemma h_replace_fresh sed ro d fuel h lt n t :
  d <= fuel -> own h [lt] -> value_at d ro h n t ->
  exists h' lt' gs, h_replace_node fuel sed (label lt) n h = (h', Ok tt) /\ trans h [lt] h' (lt' :: gs) /\
    label lt' = label lt /\ erase lt' = replace_node sed (erase lt) t /\
    forall y, y ∈ locs lt' -> y = label lt \/ length h <= y.
Proof.
  intros Hf O V. destruct lt as [l i c]. destruct (own_root _ _ _ _ O) as [al A].
  destruct (h_copy_spec ro d fuel Hf h n t V) as (ext & al2 & c2 & A1 & T1 & E1).
  pose proof (trans_frame_r h [] (h ++ ext) (kids c2) [L l i c] O T1) as T1'. cbn [app] in T1'.
  apply (trans_perm _ _ [L l i c] _ _ (L l i c :: kids c2)) in T1'; [|reflexivity|apply perm_snoc].
  pose proof (own_trans _ _ _ _ O T1') as O1.
  assert (A3 : exists al3, (h ++ ext) !! l = Some (mkNode i al3 (labels c))).
  { apply (own_root _ l i c). exact (own_head _ _ _ O1). }
  destruct A3 as [al3 A3].
  unfold h_replace_node. cbn [label].
  rewrite (bind_ok _ _ _ _ _ (get_ok _ _ _ A)), (bind_ok _ _ _ _ _ A1). cbn [n_info].
  assert (Hput : forall nd hh, put l nd hh = (<[l := nd]> hh, Ok tt)) by reflexivity.
  rewrite (bind_ok _ _ _ _ _ (Hput _ _)).
  set (i' := merge_comments sed i (t_info t) []). set (i3 := set_comments (i_head i') (i_linec i') (i_foot i') (t_info t)).
  rewrite (put_info_ok _ _ i3 (mkNode (t_info t) al2 (labels c2))).
  2:{ apply list_lookup_insert. apply lookup_lt_is_Some. eauto. }
  cbn [n_alias n_content]. rewrite list_insert_insert.
  eexists _, (L l i3 c2), (kids c).
  split; [reflexivity|]. split; [|split; [reflexivity|split]].
  - eapply trans_trans; [exact O|exact T1'|]. apply trans_write; [exact O1|]. apply (comm (++)).
  - rewrite !erase_eq. unfold replace_node. cbn [t_info]. rewrite E1. reflexivity.
  - intros y Y. rewrite locs_eq in Y. apply elem_of_cons in Y as [->|Y]; [by left|right].
    destruct (tr_perm _ _ _ _ T1) as (fr & _ & F & P). rewrite P in Y. cbn in Y. rewrite Forall_forall in F. auto.
Qed.
Lemma h_replace_spec sed ro d fuel h lt n t :
  d <= fuel -> own h [lt] -> value_at d ro h n t ->
  performs (h_replace_node fuel sed (label lt) n) h lt (Ok (replace_node sed (erase lt) t)).
Proof.
  intros Hf O V. destruct (h_replace_fresh sed ro d fuel h lt n t Hf O V) as (h' & lt' & gs & A & B & C & D & _).
  exists h', (Ok tt), lt', gs. split; [exact A|]. split; [exact B|]. split; [exact C|]. split; [reflexivity|exact D].
Qed.

(** ** CombineNode: the node left behind is known even on errors. *)
Lemma h_combine_spec sed ro h lt n nn t :
  own h [lt] -> apart ro h [lt] -> ro n -> h !! n = Some nn -> n_info nn = t_info t ->
  exists h' lt' gs, h_combine_node sed (label lt) n h =
      (h', match snd (combine_node sed (erase lt) t) with None => Ok tt | Some e => Err e end) /\
    trans h [lt] h' (lt' :: gs) /\ label lt' = label lt /\ erase lt' = fst (combine_node sed (erase lt) t).
Proof.
  intros O Ap R Hn Hi. destruct lt as [l i c]. destruct (own_root _ _ _ _ O) as [al A].
  unfold h_combine_node. cbn [label]. rewrite (bind_ok _ _ _ _ _ (get_ok _ _ _ A)), (bind_ok _ _ _ _ _ (get_ok _ _ _ Hn)).
  cbn [n_info]. unfold combine_node. unfold t_kind. rewrite erase_info. cbn [l_info]. rewrite Hi.
  destruct (negb (kind_eqb (i_kind i) KScalar) || negb (kind_eqb (i_kind (t_info t)) KScalar)).
  { exists h, (L l i c), []. split; [reflexivity|]. split; [apply trans_refl; apply O|]. split; reflexivity. }
  destruct (h_merge_comments_spec sed h l i c n nn [] O Hn) as (h1 & r1 & lt1 & g1 & A1 & T1 & L1 & [-> E1]).
  rewrite (bind_ok _ _ _ _ _ A1). cbn [label] in L1. apply (erase_inj_root _ _ _ _ L1) in E1 as (c1 & -> & E1).
  pose proof (own_head _ _ _ (own_trans _ _ _ _ O T1)) as O1.
  destruct (own_root _ _ _ _ O1) as [al1 Al1]. rewrite (bind_ok _ _ _ _ _ (get_ok _ _ _ Al1)). cbn [n_info].
  rewrite Hi in *. set (i1 := merge_comments sed i (t_info t) []) in *.
  assert (Hput : forall v, exists h' lt' gs, put_info l (set_value v i1) h1 = (h', Ok tt) /\
     trans h [L l i c] h' (lt' :: gs) /\ label lt' = l /\ erase lt' = T (set_value v i1) (t_content (erase (L l i c)))).
  { intros v. destruct (performs_put_info h1 l i1 c1 (set_value v i1) O1) as (h2 & r2 & lt2 & g2 & A2 & T2 & L2 & [-> E2]).
    exists h2, lt2, (g2 ++ g1). split; [exact A2|]. split; [eapply trans_seq; eauto|]. split; [exact L2|].
    rewrite E2, !erase_eq. cbn [t_content]. rewrite E1. reflexivity. }
  assert (Hkeep : forall e, exists h' lt' gs, fail (A := unit) e h1 = (h', Err e) /\
     trans h [L l i c] h' (lt' :: gs) /\ label lt' = l /\ erase lt' = T i1 (t_content (erase (L l i c)))).
  { intros e. exists h1, (L l i1 c1), g1. split; [reflexivity|]. split; [exact T1|]. split; [reflexivity|].
    rewrite !erase_eq. cbn [t_content]. rewrite E1. reflexivity. }
  unfold t_value. 
  destruct (seq_eqb (i_tag i1) (lit "!!int")).
  { destruct (atoi (i_value i1)) as [x|]; [destruct (atoi (i_value (t_info t))) as [y|]|]; cbn [fst snd]; auto. }
  destruct (seq_eqb (i_tag i1) (lit "!!bool")).
  { destruct (parse_bool (i_value i1)) as [x|]; [destruct (parse_bool (i_value (t_info t))) as [y|]|]; cbn [fst snd]; auto. }
  cbn [fst snd]. auto.
Qed.
