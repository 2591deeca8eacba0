From stdpp Require Import list_numbers.
From Verif Require Import Prelude GoStrings Files SpecFiles ProofFiles Slices SpecSlices ProofSlices SliceFiles Prepare SpecPrepare ProofPrepare.

Section proofslicefiles.
Context {Ov Dc Nd : Type}.
Notation entry := (entry Ov Dc Nd).
Notation files := (list (list N * slice)).
Implicit Types (m : arrays Ov) (L : list slice) (acc y : files).

(** A slice that fills its array. *)
Definition full m (s : slice) : Prop := sl_len s = cap m s.
Definition apart m (s t : slice) : Prop := sl_arr s = sl_arr t -> full m s /\ full m t.
Fixpoint Sep m L : Prop := match L with [] => True | s :: r => Forall (apart m s) r /\ Sep m r end.

Lemma apart_sym m s t : apart m s t -> apart m t s.
Proof. unfold apart. intros H Heq. by destruct (H (eq_sym Heq)). Qed.
Lemma Sep_mid m a s b : Sep m (a ++ s :: b) <-> Forall (apart m s) (a ++ b) /\ Sep m (a ++ b).
Proof.
  induction a as [|t a IH]; [done|]. simpl. rewrite IH, !Forall_app, !Forall_cons.
  assert (apart m s t <-> apart m t s) by (split; apply apart_sym). rewrite !Forall_app. tauto.
Qed.

Lemma append_cap grow m s xs m' s' t : go_append grow m s xs = (m', s') -> valid m t -> cap m' t = cap m t.
Proof.
  unfold go_append. intros Ha (b & Hb & Hl).
  destruct (Nat.leb_spec (sl_len s + length xs) (cap m s)) as [Hle|Hgt].
  - injection Ha as <- _. destruct (m !! sl_arr s) as [a|] eqn:E; [|done]. unfold cap in *. rewrite E in Hle.
    destruct (decide (sl_arr t = sl_arr s)) as [->|Hne].
    + rewrite list_lookup_insert, E by (by eapply lookup_lt_Some). rewrite !app_length, take_length, drop_length. lia.
    + by rewrite list_lookup_insert_ne.
  - injection Ha as <- _. unfold cap. rewrite lookup_app_l; [done|]. by eapply lookup_lt_Some.
Qed.

(** Appending to one of several slices that are apart. *)
Lemma append_apart grow m f xs m' f' L : go_append grow m f xs = (m', f') -> valid m f ->
  Forall (valid m) L -> Forall (apart m f) L -> Sep m L ->
  valid m' f' /\ contents m' f' = contents m f ++ xs /\
  Forall (fun t => valid m' t /\ contents m' t = contents m t) L /\ Forall (apart m' f') L /\ Sep m' L.
Proof.
  intros Ha Hf HL Hap Hsep. destruct (append_result _ _ _ _ _ _ Ha Hf) as (Hc & Hv & Hlen & _ & Harr).
  assert (Hkeep : Forall (fun t => valid m' t /\ contents m' t = contents m t) L).
  { rewrite Forall_forall in *. intros t Ht. specialize (HL t Ht). specialize (Hap t Ht).
    destruct (append_frame _ _ _ _ _ _ Ha t HL) as [? ?]; [|done].
    destruct (decide (sl_arr t = sl_arr f)) as [Heq|]; [|by left]. right. left. destruct (Hap (eq_sym Heq)) as [Hff Hft].
    unfold full, cap in *. rewrite <- Heq in Hff. lia. }
  assert (Hfull : forall t, In t L -> full m t -> full m' t).
  { intros t Ht Hft. unfold full. rewrite (append_cap _ _ _ _ _ _ t Ha); [done|]. rewrite Forall_forall in HL. by apply HL, elem_of_list_In. }
  split_and!; [done|done|done| |].
  - rewrite Forall_forall in *. intros t Ht Heq.
    assert (Hvt := HL t Ht). destruct Harr as [[Hsame _]|(Hnew & _)].
    + destruct (Hap t Ht ltac:(congruence)) as [Hff Hft]. split; [|apply Hfull; [by apply elem_of_list_In|done]].
      assert (cap m' f' = cap m f) as Hcf.
      { transitivity (cap m' f); [unfold cap; by rewrite Hsame|]. by eapply append_cap. }
      unfold full in *. rewrite Hcf.
      assert (sl_len f' <= cap m' f')%nat as Hle by (destruct Hv as (a & Hb & Hl); unfold cap; by rewrite Hb).
      lia.
    + exfalso. destruct Hvt as (a & Hb & _). apply lookup_lt_Some in Hb. lia.
  - clear Hap Hkeep. induction L as [|s L IH]; [done|]. apply Forall_cons in HL as [_ HL]. destruct Hsep as [Hs Hsep].
    split; [|apply IH; [done|done|intros; apply Hfull; [by right|done]]]. rewrite Forall_forall in *. intros t Ht Heq. destruct (Hs t Ht Heq).
    split; apply Hfull; try done; [by left|right; by apply elem_of_list_In].
Qed.

Lemma get_slice_split p acc f : get_slice p acc = Some f ->
  exists a b, acc = a ++ (p, f) :: b /\ ~ In p (map fst a) /\ forall f', set_slice p f' acc = a ++ (p, f') :: b.
Proof.
  induction acc as [|[q s] acc IH]; [done|]. simpl. destruct (seq_eqb_spec q p) as [->|Hne].
  - intros [= ->]. exists [], acc. split_and!; [done|by intros []|done].
  - intros (a & b & -> & Hn & Hs)%IH. exists ((q, s) :: a), b. split_and!; [done|simpl; tauto|]. intros f'. simpl. by rewrite Hs.
Qed.
Lemma get_slice_none p acc : get_slice p acc = None <-> ~ In p (map fst acc).
Proof.
  induction acc as [|[q s] acc IH]; [simpl; tauto|]. simpl. destruct (seq_eqb_spec q p) as [->|Hne]; [|rewrite IH]; intuition; done.
Qed.

(** The slices stand for the lists of the entries. *)
Definition stands m (e : entry) (x : list N * slice) : Prop :=
  fst x = e_path e /\ contents m (snd x) = map Some (e_overlays e).

Lemma stands_keep m m' es (L : files) : Forall2 (stands m) es L ->
  Forall (fun x => contents m' (snd x) = contents m (snd x)) L -> Forall2 (stands m') es L.
Proof.
  induction 1 as [|e x es L [H1 H2] HF IH]; [constructor|]. intros [Hx HL]%Forall_cons. constructor; [|by apply IH].
  split; [done|congruence].
Qed.
Lemma stands_paths m es (L : files) : Forall2 (stands m) es L -> map fst L = map e_path es.
Proof. induction 1 as [|e x es L [H1 H2] HF IH]; [done|]. simpl. congruence. Qed.

Lemma slice_dups_spec grow (keep : list slice) (y : list entry) : forall m acc ys (es : list entry) m' out,
  Forall2 (stands m) es acc -> Forall2 (stands m) y ys -> NoDup (map fst acc) ->
  let L := map snd (acc ++ ys) in
  Forall (valid m) L -> Sep m L ->
  Forall (valid m) keep -> Forall (fun c => Forall (fun s => sl_arr s <> sl_arr c) L) keep ->
  slice_dups grow m acc ys = (m', out) ->
  Forall2 (stands m') (fold_left step y es) out /\ NoDup (map fst out) /\
  Forall (valid m') (map snd out) /\ Sep m' (map snd out) /\
  Forall (fun c => valid m' c /\ contents m' c = contents m c /\ cap m' c = cap m c) keep /\
  Forall (fun c => Forall (fun s => sl_arr s <> sl_arr c) (map snd out)) keep.
Proof.
  induction y as [|e y IH]; intros m acc ys es m' out Hacc Hys Hnd L HvL HsL Hvk Hk Hrun.
  - apply Forall2_nil_inv_l in Hys as ->. simpl in Hrun. injection Hrun as <- <-. unfold L in *. rewrite app_nil_r in *.
    split_and!; try done. eapply Forall_impl; [exact Hvk|]. done.
  - apply Forall2_cons_inv_l in Hys as ([p s] & ys' & [Hp Hs] & Hys & ->). cbn [fst snd] in Hp, Hs.
    cbn [slice_dups] in Hrun. cbn [fold_left].
    destruct (get_slice p acc) as [f|] eqn:Hg.
    + destruct (get_slice_split _ _ _ Hg) as (a & b & -> & Hpa & Hset).
      destruct (go_append grow m f (contents m s)) as [m1 f'] eqn:Happ. rewrite Hset in Hrun.
      assert (Hpb : ~ In p (map fst b)).
      { rewrite map_app in Hnd. simpl in Hnd. apply NoDup_app in Hnd as (_ & _ & Hnd). apply NoDup_cons in Hnd as [Hnd _].
        intros ?%elem_of_list_In. done. }
      (* the slices other than f *)
      assert (HL : L = map snd a ++ f :: map snd (b ++ (p, s) :: ys')).
      { unfold L. by rewrite !map_app, <- app_assoc. }
      assert (HLother : forall g, map snd ((a ++ (p, g) :: b) ++ ys') = map snd a ++ g :: map snd (b ++ ys')).
      { intros g. by rewrite !map_app, <- app_assoc. }
      rewrite HL in HvL, HsL. apply Sep_mid in HsL as [Hapf HsL].
      assert (Hvf : valid m f) by (rewrite Forall_app, Forall_cons in HvL; tauto).
      assert (HvO : Forall (valid m) (map snd a ++ map snd (b ++ ys'))).
      { rewrite !map_app in *. simpl in HvL. rewrite !Forall_app, !Forall_cons, !Forall_app, !Forall_cons in HvL. rewrite !Forall_app. tauto. }
      assert (HsO : Sep m (map snd a ++ map snd (b ++ ys'))).
      { rewrite map_app in *. simpl in HsL. rewrite app_assoc in HsL. apply Sep_mid in HsL as [_ HsL]. by rewrite <- app_assoc in HsL. }
      assert (HaO : Forall (apart m f) (map snd a ++ map snd (b ++ ys'))).
      { rewrite !map_app in *. simpl in Hapf. rewrite !Forall_app, !Forall_cons in Hapf. rewrite !Forall_app. tauto. }
      assert (Hkf : Forall (fun c => sl_arr f <> sl_arr c /\ Forall (fun t => sl_arr t <> sl_arr c) (map snd a ++ map snd (b ++ ys'))) keep).
      { rewrite HL in Hk. eapply Forall_impl; [exact Hk|]. simpl. intros c. rewrite !map_app. simpl.
        rewrite !Forall_app, !Forall_cons, !Forall_app, !Forall_cons. tauto. }
      destruct (append_apart _ _ _ _ _ _ _ Happ Hvf HvO HaO HsO) as (Hv' & Hc' & Hkeep & Hap' & Hs').
      destruct (append_result _ _ _ _ _ _ Happ Hvf) as (_ & _ & _ & _ & Harr).
      assert (Hkc : Forall (fun c => valid m1 c /\ contents m1 c = contents m c /\ cap m1 c = cap m c) keep).
      { rewrite Forall_forall in *. intros c Hc. specialize (Hvk c Hc). destruct (Hkf c Hc) as [Hne _].
        destruct (append_frame _ _ _ _ _ _ Happ c Hvk) as [? ?]; [left; congruence|]. split_and!; try done. by eapply append_cap. }
      apply Forall2_app_inv_r in Hacc as (ea & eb' & HFa & HFb & ->).
      apply Forall2_cons_inv_r in HFb as (fe & eb & [Hfp Hfc] & HFb & ->). cbn [fst snd] in Hfp, Hfc.
      assert (Hstep : step (ea ++ fe :: eb) e = ea ++ absorb fe e :: eb).
      { unfold step. rewrite (proj2 (existsb_in _ _)).
        2:{ rewrite map_app, in_app_iff. right. left. congruence. }
        rewrite map_app. simpl. rewrite <- Hfp, Hp, seq_eqb_refl.
        rewrite (stands_paths _ _ _ HFa), Hp in Hpa. rewrite (stands_paths _ _ _ HFb), Hp in Hpb.
        assert (Hid : forall l : list entry, ~ In (e_path e) (map e_path l) -> map (fun x => if seq_eqb (e_path x) (e_path e) then absorb x e else x) l = l).
        { induction l as [|x l IHl]; [done|]. simpl. intros Hn. destruct (seq_eqb_spec (e_path x) (e_path e)); [tauto|].
          rewrite IHl by tauto. done. }
        by rewrite !Hid. }
      rewrite Hstep.
      destruct (IH m1 (a ++ (p, f') :: b) ys' (ea ++ absorb fe e :: eb) m' out) as (R1 & R2 & R3 & R4 & R5 & R6).
      * rewrite !Forall_app in Hkeep. destruct Hkeep as [Hka Hkb]. rewrite map_app, Forall_app in Hkb. destruct Hkb as [Hkb Hky].
        apply Forall2_app; [|constructor].
        -- eapply stands_keep; [exact HFa|]. rewrite Forall_map in Hka. eapply Forall_impl; [exact Hka|]. simpl. tauto.
        -- split; [simpl; congruence|]. cbn [snd absorb e_overlays]. rewrite Hc', Hfc, Hs. by rewrite map_app.
        -- eapply stands_keep; [exact HFb|]. rewrite Forall_map in Hkb. eapply Forall_impl; [exact Hkb|]. simpl. tauto.
      * rewrite !Forall_app in Hkeep. destruct Hkeep as [_ Hkb]. rewrite map_app, Forall_app in Hkb. destruct Hkb as [_ Hky].
        eapply stands_keep; [exact Hys|]. rewrite Forall_map in Hky. eapply Forall_impl; [exact Hky|]. simpl. tauto.
      * rewrite map_app in *. exact Hnd.
      * rewrite HLother. apply Forall_app. rewrite Forall_cons. rewrite Forall_app in Hkeep. split_and!; [|done|].
        -- eapply Forall_impl; [exact (proj1 Hkeep)|]. simpl. tauto.
        -- eapply Forall_impl; [exact (proj2 Hkeep)|]. simpl. tauto.
      * rewrite HLother. apply Sep_mid. done.
      * eapply Forall_impl; [exact Hkc|]. simpl. tauto.
      * rewrite HLother. rewrite Forall_forall in *. intros c Hc. destruct (Hkf c Hc) as [Hne Hother].
        rewrite Forall_app in *. rewrite Forall_cons. split_and!; [tauto| |tauto].
        destruct Harr as [[-> _]|(Hnew & _)]; [done|]. rewrite Hnew. destruct (Hvk c Hc) as (arr & Hb & _). apply lookup_lt_Some in Hb. lia.
      * exact Hrun.
      * split_and!; try done. rewrite Forall_forall in *. intros c Hc. destruct (R5 c Hc) as (? & ? & ?), (Hkc c Hc) as (? & ? & ?).
        split_and!; congruence.
    + pose proof (proj1 (get_slice_none _ _) Hg) as Hn.
      assert (Hstep : step es e = es ++ [e]).
      { unfold step. rewrite (proj2 (existsb_notin _ _)); [done|]. rewrite <- Hp, <- (stands_paths _ _ _ Hacc). done. }
      rewrite Hstep. apply (IH m (acc ++ [(p, s)]) ys' (es ++ [e]) m' out).
      * apply Forall2_app; [done|]. constructor; [|constructor]. done.
      * done.
      * rewrite map_app. apply NoDup_app. split_and!; [done| |apply NoDup_singleton].
        intros x Hx Hx'. apply elem_of_list_singleton in Hx'. subst. apply Hn. by apply elem_of_list_In.
      * unfold L in HvL. by rewrite <- app_assoc.
      * unfold L in HsL. by rewrite <- app_assoc.
      * done.
      * unfold L in Hk. by rewrite <- app_assoc.
      * done.
Qed.

(** Common lists in front, from any arrangement of arrays. *)
Lemma common_spec grow m c fl common adhoc owns (op : options Ov) m' out :
  op_overlay op = match adhoc with Some o => Some (Some o) | None => None end ->
  valid m c -> contents m c = map Some common -> full m c ->
  Forall (valid m) fl -> Forall (fun s => sl_arr s <> sl_arr c) fl -> map (contents m) fl = map (map Some) owns ->
  (let (m3, c') := match adhoc with Some o => add_adhoc grow m c o | None => (m, c) end in add_common grow m3 c' fl) = (m', out) ->
  map (contents m') out =
  map (map Some) (map (fun l => common_overlays common op ++ l) (after_sharing (spare_room grow common op) owns)).
Proof.
  intros Hop Hvc Hcc Hfc Hvf Hne Hcf Hrun.
  set (mc := match adhoc with Some _ => _ | None => _ end) in Hrun.
  assert (Hclen : sl_len c = length common).
  { pose proof (contents_length _ _ Hvc) as Hl. rewrite Hcc, map_length in Hl. done. }
  assert (Hmc : valid (fst mc) (snd mc) /\ contents (fst mc) (snd mc) = map Some (common_overlays common op) /\
     (cap (fst mc) (snd mc) - sl_len (snd mc) = spare_room grow common op)%nat /\
     Forall (valid (fst mc)) fl /\ Forall (fun s => sl_arr s <> sl_arr (snd mc)) fl /\ map (contents (fst mc)) fl = map (map Some) owns).
  { unfold mc, common_overlays, spare_room. rewrite Hop. destruct adhoc as [o|]; cbn [fst snd].
    - unfold add_adhoc. destruct (go_append grow m c [Some o]) as [m1 c1] eqn:Happ. cbn [fst snd].
      destruct (append_result _ _ _ _ _ _ Happ Hvc) as (Hr1 & Hr2 & Hr3 & _ & Hr5).
      assert (Hkeep : Forall (fun t => contents m1 t = contents m t /\ valid m1 t) fl).
      { rewrite Forall_forall in *. intros t Ht. apply (append_frame _ _ _ _ _ _ Happ); [by apply Hvf|]. left. by apply Hne. }
      split_and!; [done| | | | |].
      + rewrite Hr1, Hcc, map_app. done.
      + unfold full in Hfc. unfold go_append in Happ. rewrite <- Hfc, Hclen in Happ. cbn [length] in Happ.
        destruct (Nat.leb_spec (length common + 1) (length common)); [lia|].
        pose proof (f_equal fst Happ) as Hm1; pose proof (f_equal snd Happ) as Hc1; cbn [fst snd] in Hm1, Hc1. subst m1 c1.
        unfold cap. cbn [sl_arr sl_len]. rewrite lookup_app_r, Nat.sub_diag by lia. simpl.
        rewrite !app_length, replicate_length, Hcc, map_length. simpl. lia.
      + eapply Forall_impl; [exact Hkeep|]. simpl. tauto.
      + destruct Hr5 as [[-> _]|(Hnew & _)]; [done|]. rewrite Forall_forall in *. intros t Ht. rewrite Hnew.
        destruct (Hvf t Ht) as (a & Hb & _). apply lookup_lt_Some in Hb. lia.
      + rewrite <- Hcf. apply map_ext_in. intros t Ht. rewrite Forall_forall in Hkeep. by apply Hkeep, elem_of_list_In.
    - rewrite app_nil_r. split_and!; try done. unfold full in Hfc. lia. }
  clearbody mc. destruct mc as [m3 c']. cbn [fst snd] in *. destruct Hmc as (Hv & Hc & Hroom & Hvf3 & Hnf & Hmapc).
  destruct (add_common_spec grow c' fl m3 m' out Hv Hvf3 Hnf Hrun) as (Hol & _).
  assert (Hlen : length fl = length owns).
  { rewrite <- (map_length (contents m3) fl), Hmapc. apply map_length. }
  apply list_eq. intros i. rewrite !list_lookup_fmap. unfold after_sharing. rewrite list_lookup_imap.
  destruct (owns !! i) as [own|] eqn:Hi.
  - destruct (fl !! i) as [s|] eqn:Hs; [|apply lookup_ge_None in Hs; apply lookup_lt_Some in Hi; lia].
    destruct (out !! i) as [t|] eqn:Ht; [|apply lookup_ge_None in Ht; apply lookup_lt_Some in Hs; lia].
    cbn [fmap option_fmap option_map]. f_equal.
    rewrite (add_common_exact grow c' fl m3 m' out i s t Hv Hvf3 Hnf Hrun Hs Ht).
    assert (Hcs : contents m3 s = map Some own).
    { pose proof (f_equal (fun l => l !! i) Hmapc) as Hl. cbn beta in Hl. rewrite !list_lookup_fmap, Hs, Hi in Hl. by injection Hl. }
    rewrite Hcs, Hc, Hroom. cbv zeta.
    assert (Hd : map (contents m3) (drop (S i) fl) = map (map Some) (drop (S i) owns)).
    { rewrite <- !skipn_map. by rewrite Hmapc. }
    rewrite Hd. rewrite map_app. f_equal. unfold fits. rewrite map_length.
    destruct (Nat.leb (length own) _); [|done].
    rewrite filter_map_comm.
    rewrite (filter_ext _ (fun l : list Ov => Nat.leb (length l) (spare_room grow common op))) by (intros l; by rewrite map_length).
    by rewrite overwritten_map.
  - rewrite (proj2 (lookup_ge_None out i)); [done|]. apply lookup_ge_None in Hi. lia.
Qed.

(** A new array changes nothing. *)
Lemma new_array m (a : list (option Ov)) s : valid m s -> valid (m ++ [a]) s /\ contents (m ++ [a]) s = contents m s /\ cap (m ++ [a]) s = cap m s.
Proof.
  intros (b & Hb & Hl). assert ((m ++ [a]) !! sl_arr s = Some b) as Hb' by (rewrite lookup_app_l; [done|by eapply lookup_lt_Some]).
  split_and!; [by exists b| |]; [unfold contents|unfold cap]; by rewrite Hb, Hb'.
Qed.

(** The slices of the code end up with the lists of the value-level model. *)
Theorem slice_overlays_spec grow m c (y extra : list entry) ys common adhoc (op : options Ov) m' out :
  op_overlay op = match adhoc with Some o => Some (Some o) | None => None end ->
  Forall2 (stands m) y ys -> Forall (fun e => e_overlays e = []) extra ->
  Forall (valid m) (c :: map snd ys) -> Forall (full m) (c :: map snd ys) ->
  Forall (fun s => sl_arr s <> sl_arr c) (map snd ys) ->
  contents m c = map Some common ->
  slice_overlays grow m c ys (map e_path extra) adhoc = (m', out) ->
  map (contents m') out = map (map Some) (final_overlays grow common adhoc (map e_overlays (fold_left step (fold_left step y [] ++ extra) []))).
Proof.
  intros Hop Hy Hx [Hvc Hv]%Forall_cons [Hfc Hf]%Forall_cons Hne Hcc Hrun.
  rewrite (final_overlays_spec grow common adhoc _ op Hop).
  unfold slice_overlays in Hrun.
  destruct (slice_dups grow m [] ys) as [m1 f1] eqn:H1.
  set (nil := mkSlice (length m1) 0) in *. set (xs := map (fun p => (p, nil)) (map e_path extra)) in *.
  destruct (slice_dups grow (m1 ++ [[]]) [] (f1 ++ xs)) as [m2 f2] eqn:H2.
  assert (Hsep : Sep m (map snd ys)).
  { clear -Hf. induction (map snd ys) as [|s L IH]; [done|]. apply Forall_cons in Hf as [Hs HL]. split; [|by apply IH].
    eapply Forall_impl; [exact HL|]. by intros t Ht _. }
  destruct (slice_dups_spec grow [c] y m [] ys [] m1 f1) as (R1 & R2 & R3 & R4 & R5 & R6);
    [constructor|done|constructor|done|done|by repeat constructor|by repeat constructor|done|].
  apply Forall_singleton in R5 as (Hvc1 & Hcc1 & Hcap1). apply Forall_cons in R6 as [R6 _].
  assert (Hnil : valid (m1 ++ [[]]) nil /\ full (m1 ++ [[]]) nil /\ contents (m1 ++ [[]]) nil = []).
  { assert ((m1 ++ [[]]) !! length m1 = Some []) as Hl by (rewrite lookup_app_r, Nat.sub_diag by lia; done).
    split_and!; [exists []; by split| |]; [unfold full, cap|unfold contents]; cbn [sl_arr sl_len nil]; by rewrite Hl. }
  assert (Hxs : Forall (fun s => s = nil) (map snd xs)).
  { unfold xs. clear. induction extra as [|e l IH]; [constructor|]. simpl. by constructor. }
  assert (Harr1 : Forall (fun s => sl_arr s <> length m1) (map snd f1)).
  { eapply Forall_impl; [exact R3|]. simpl. intros s (b & Hb & _). apply lookup_lt_Some in Hb. lia. }
  destruct (new_array m1 [] c Hvc1) as (Hvc2 & Hcc2 & Hcap2).
  destruct (slice_dups_spec grow [c] (fold_left step y [] ++ extra) (m1 ++ [[]]) [] (f1 ++ xs) [] m2 f2) as (Q1 & Q2 & Q3 & Q4 & Q5 & Q6);
    [constructor| |constructor| | |by repeat constructor| |done|].
  - apply Forall2_app.
    + eapply stands_keep; [exact R1|]. rewrite Forall_map in R3. eapply Forall_impl; [exact R3|]. simpl. intros x Hvx. by apply new_array.
    + unfold xs. clear -Hx Hnil. induction extra as [|e l IH]; [constructor|]. apply Forall_cons in Hx as [He Hl]. simpl. constructor; [|by apply IH].
      split; [done|]. cbn [snd]. rewrite He. apply Hnil.
  - cbn [app]. rewrite map_app, Forall_app. split.
    + eapply Forall_impl; [exact R3|]. simpl. intros x Hvx. by apply new_array.
    + eapply Forall_impl; [exact Hxs|]. simpl. intros s ->. apply Hnil.
  - cbn [app]. rewrite map_app. clear -R3 R4 Hxs Hnil Harr1. revert R3 R4 Harr1.
    induction (map snd f1) as [|s L IH]; simpl; intros R3 R4 Harr1.
    + induction Hxs as [|x l -> Hl IHl]; [done|]. split; [|done]. eapply Forall_impl; [exact Hl|]. simpl. intros t -> _. tauto.
    + apply Forall_cons in R3 as [Hvs R3]. apply Forall_cons in Harr1 as [Has Harr1]. destruct R4 as [Hs R4]. split; [|by apply IH].
      rewrite Forall_app. split.
      * rewrite Forall_forall in *. intros t Ht Heq. destruct (Hs t Ht Heq) as [Hfs Hft]. unfold full in *.
        by rewrite (proj2 (proj2 (new_array m1 [] s Hvs))), (proj2 (proj2 (new_array m1 [] t (R3 t Ht)))).
      * eapply Forall_impl; [exact Hxs|]. simpl. intros t -> Heq. by destruct Has.
  - constructor; [|constructor]. cbn [app]. rewrite map_app, Forall_app. split; [exact R6|]. eapply Forall_impl; [exact Hxs|]. simpl.
    intros s ->. simpl. destruct Hvc1 as (b & Hb & _). apply lookup_lt_Some in Hb. lia.
  - apply Forall_singleton in Q5 as (Hvc3 & Hcc3 & Hcap3). apply Forall_cons in Q6 as [Q6 _].
    apply (common_spec grow m2 c (map snd f2) common adhoc _ op m' out Hop Hvc3); try done; [congruence|unfold full in *; congruence|].
    clear -Q1. induction Q1 as [|e x l l' [_ Hc] HF IH]; [done|]. simpl. by rewrite IH, Hc.
Qed.
End proofslicefiles.
