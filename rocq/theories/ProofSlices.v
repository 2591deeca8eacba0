From Verif Require Import Prelude Slices SpecSlices.

Section proofslices.
Context {A : Type}.
Implicit Types (m : arrays A).

Lemma contents_length m s : valid m s -> length (contents m s) = sl_len s.
Proof. intros (a & Ha & Hl). unfold contents. rewrite Ha, take_length. lia. Qed.

(** What an append leaves alone. *)
Lemma append_frame grow m s xs m' s' : go_append grow m s xs = (m', s') ->
  forall t, valid m t -> (sl_arr t <> sl_arr s \/ (sl_len t <= sl_len s)%nat \/ (cap m s < sl_len s + length xs)%nat) ->
  contents m' t = contents m t /\ valid m' t.
Proof.
  unfold go_append. intros Happ t (a & Ha & Hl) Hside. destruct (Nat.leb_spec (sl_len s + length xs) (cap m s)) as [Hle|Hgt].
  - injection Happ as <- <-. destruct (m !! sl_arr s) as [b|] eqn:Hb.
    + destruct (decide (sl_arr t = sl_arr s)) as [Heq|Hne].
      * assert (b = a) as -> by congruence.
        assert ((sl_len t <= sl_len s)%nat) as Hts by (destruct Hside as [?|[?|?]]; [done|done|lia]).
        assert (Hlk : <[sl_arr s:=take (sl_len s) a ++ xs ++ drop (sl_len s + length xs) a]> m !! sl_arr t
          = Some (take (sl_len s) a ++ xs ++ drop (sl_len s + length xs) a)).
        { rewrite Heq. apply list_lookup_insert. by eapply lookup_lt_Some. }
        unfold contents, valid. rewrite Hlk, Ha. unfold cap in Hle. rewrite Hb in Hle. split.
        -- rewrite take_app_le by (rewrite take_length; lia). rewrite take_take. by rewrite Nat.min_l.
        -- eexists. split; [done|]. rewrite !app_length, take_length, drop_length. lia.
      * unfold contents, valid. rewrite list_lookup_insert_ne by congruence. rewrite Ha. split; [done|]. eauto.
    + unfold contents, valid. rewrite Ha. eauto.
  - injection Happ as <- <-. unfold contents, valid. rewrite lookup_app_l by (by eapply lookup_lt_Some). rewrite Ha. eauto.
Qed.

Lemma append_result grow m s xs m' s' : go_append grow m s xs = (m', s') -> valid m s ->
  contents m' s' = contents m s ++ xs /\ valid m' s' /\ sl_len s' = (sl_len s + length xs)%nat /\
  (length m <= length m')%nat /\
  ((sl_arr s' = sl_arr s /\ length m' = length m) \/
   (sl_arr s' = length m /\ length m' = S (length m) /\ (cap m s < sl_len s + length xs)%nat)).
Proof.
  intros Happ Hv. pose proof (contents_length m s Hv) as Hcl. destruct Hv as (a & Ha & Hl). unfold go_append in Happ.
  destruct (Nat.leb_spec (sl_len s + length xs) (cap m s)) as [Hle|Hgt].
  - rewrite Ha in Happ. injection Happ as <- <-. unfold contents, valid. simpl.
    rewrite list_lookup_insert by (by eapply lookup_lt_Some). rewrite Ha.
    unfold cap in Hle. rewrite Ha in Hle.
    split_and!.
    + rewrite app_assoc, take_app_alt; [done|]. rewrite app_length, take_length. lia.
    + eexists. split; [done|]. rewrite !app_length, take_length, drop_length. lia.
    + done.
    + by rewrite insert_length.
    + left. split; [done|]. by rewrite insert_length.
  - injection Happ as <- <-. unfold contents at 1, valid. simpl. rewrite lookup_app_r, Nat.sub_diag by lia. simpl.
    rewrite !app_length. simpl. split_and!.
    + rewrite take_app_alt; [done|]. rewrite app_length, Hcl. done.
    + eexists. split; [done|]. rewrite !app_length, Hcl. lia.
    + done.
    + lia.
    + right. split_and!; [done|lia|lia].
Qed.

(** The common list's array is not shared with a file's own list. *)
Lemma add_common_spec grow common files : forall m m' out,
  valid m common -> Forall (valid m) files ->
  Forall (fun s => sl_arr s <> sl_arr common) files ->
  add_common grow m common files = (m', out) ->
  length out = length files /\
  (forall t, valid m t -> (sl_arr t <> sl_arr common \/ (sl_len t <= sl_len common)%nat) -> contents m' t = contents m t /\ valid m' t) /\
  (cap m' common = cap m common) /\
  forall i s t, files !! i = Some s -> out !! i = Some t ->
    (sl_len s = 0 \/ cap m common < sl_len common + sl_len s \/
     (forall j s', (i < j)%nat -> files !! j = Some s' -> sl_len s' = 0 \/ cap m common < sl_len common + sl_len s'))%nat ->
    contents m' t = contents m common ++ contents m s.
Proof.
  induction files as [|s files IH]; intros m m' out Hvc Hvf Hne Hadd; simpl in Hadd.
  - injection Hadd as <- <-. split_and!; [done|auto|done|]. intros i s t Hs. by rewrite lookup_nil in Hs.
  - apply Forall_cons in Hvf as [Hvs Hvf]. apply Forall_cons in Hne as [Hns Hne].
    destruct (go_append grow m common (contents m s)) as [m1 s1] eqn:Happ.
    destruct (add_common grow m1 common files) as [m2 rest] eqn:Hrest. injection Hadd as <- <-.
    pose proof (append_frame _ _ _ _ _ _ Happ) as Hfr.
    destruct (append_result _ _ _ _ _ _ Happ Hvc) as (Hc1 & Hv1 & Hl1 & Hlm & Harr).
    rewrite (contents_length m s Hvs) in Hl1, Harr.
    destruct (Hfr common Hvc) as [Hcc Hvc1]; [right; by left|].
    assert (Hvf1 : Forall (valid m1) files).
    { rewrite Forall_forall in Hvf, Hne |- *. intros x Hx. apply (Hfr x (Hvf x Hx)). left. by apply Hne. }
    assert (Hcap : cap m1 common = cap m common).
    { destruct Hvc as (a & Ha & Hla). unfold go_append in Happ.
      destruct (Nat.leb_spec (sl_len common + length (contents m s)) (cap m common)) as [Hle|Hgt].
      - rewrite Ha in Happ. injection Happ as <- _. unfold cap in *. rewrite Ha in Hle.
        rewrite list_lookup_insert by (by eapply lookup_lt_Some). rewrite Ha.
        rewrite !app_length, take_length, drop_length. lia.
      - injection Happ as <- _. unfold cap. rewrite lookup_app_l by (by eapply lookup_lt_Some). done. }
    destruct (IH m1 m2 rest Hvc1 Hvf1 Hne Hrest) as (Hlen & Hkeep & Hcap2 & Hres).
    assert (Hkeep1 : forall t, valid m t -> (sl_arr t <> sl_arr common \/ (sl_len t <= sl_len common)%nat) ->
       contents m1 t = contents m t /\ valid m1 t).
    { intros t Ht Hs. apply Hfr; [done|]. tauto. }
    split_and!.
    + simpl. by rewrite Hlen.
    + intros t Ht Hs. destruct (Hkeep1 t Ht Hs) as [H1 H2]. destruct (Hkeep t H2 Hs) as [H3 H4]. split; congruence.
    + congruence.
    + intros [|i] s0 t Hs Ht Hcase; simpl in Hs, Ht.
      * injection Hs as <-. injection Ht as <-.
        destruct Harr as [[Hsame Hlen1]|(Hnew & Hlen1 & Hgt)].
        -- (* in place *)
           destruct (decide (sl_len s = 0)%nat) as [Hz|Hz].
           { (* nothing written beyond the common part *)
             destruct (Hkeep s1) as [H1 _]; [done|right; lia|]. by rewrite H1. }
           assert (Hle : (sl_len common + sl_len s <= cap m common)%nat).
           { unfold go_append in Happ. rewrite (contents_length m s Hvs) in Happ.
             destruct (Nat.leb_spec (sl_len common + sl_len s) (cap m common)); [done|].
             injection Happ as Hm <-. rewrite <- Hm in Hlen1. rewrite app_length in Hlen1. simpl in Hlen1. lia. }
           destruct Hcase as [?|[?|Hlater]]; [done|lia|].
           (* no later file writes *)
           enough (H : contents m2 s1 = contents m1 s1) by (by rewrite H).
           assert (Hlater' : Forall (fun s' => sl_len s' = 0 \/ cap m1 common < sl_len common + sl_len s')%nat files).
           { rewrite Hcap. apply Forall_lookup. intros j s' Hj. apply (Hlater (S j) s'); [lia|done]. }
           clear -Hlater' Hrest Hv1 Hvc1 Hvf1 Hne Hsame.
           revert m1 m2 rest Hrest Hv1 Hvc1 Hvf1 Hlater'.
           induction files as [|s' files IH]; intros m1 m2 rest Hrest Hv1 Hvc1 Hvf1 Hlater; simpl in Hrest.
           { by injection Hrest as <- _. }
           apply Forall_cons in Hvf1 as [Hvs' Hvf1]. apply Forall_cons in Hne as [Hns' Hne].
           apply Forall_cons in Hlater as [Hl Hlater].
           destruct (go_append grow m1 common (contents m1 s')) as [m3 s3] eqn:Happ.
           destruct (add_common grow m3 common files) as [m4 r4] eqn:Hr4. injection Hrest as <- _.
           pose proof (append_frame _ _ _ _ _ _ Happ) as Hfr.
           assert (Hs1 : contents m3 s1 = contents m1 s1 /\ valid m3 s1 /\ cap m3 common = cap m1 common).
           { pose proof Hvc1 as (a & Ha & Hla). unfold go_append in Happ.
             rewrite (contents_length m1 s' Hvs') in Happ.
             destruct (Nat.leb_spec (sl_len common + sl_len s') (cap m1 common)) as [Hle|Hgt].
             - destruct Hl as [Hz|?]; [|lia]. rewrite Ha in Happ.
               assert (contents m1 s' = []) as Hnil.
               { apply nil_length_inv. rewrite contents_length by done. lia. }
               rewrite Hz, Hnil, Nat.add_0_r in Happ. simpl in Happ. rewrite take_drop in Happ.
               injection Happ as <- _. rewrite list_insert_id by done. done.
             - destruct (Hfr s1 Hv1) as [? ?]; [right; right; by rewrite contents_length|].
               split_and!; try done. injection Happ as <- _. unfold cap.
               rewrite lookup_app_l by (by eapply lookup_lt_Some). done. }
           destruct Hs1 as (H1 & H2 & H3). rewrite <- H1.
           eapply IH; [done|exact Hr4|done| | |].
           { apply (Hfr common Hvc1). right. by left. }
           { rewrite Forall_forall in Hvf1, Hne |- *. intros x Hx. apply (Hfr x (Hvf1 x Hx)). left. by apply Hne. }
           { by rewrite H3. }
        -- destruct (Hkeep s1) as [H1 _]; [done| |by rewrite H1].
           left. rewrite Hnew. destruct Hvc as (a & Ha & _). apply lookup_lt_Some in Ha. lia.
      * assert (Hs' : contents m1 s0 = contents m s0).
        { rewrite Forall_lookup in Hvf, Hne. apply Hkeep1; [by eapply Hvf|]. left. by eapply Hne. }
        rewrite (Hres i s0 t Hs Ht); [by rewrite Hcc, Hs'|]. rewrite Hcap.
        destruct Hcase as [?|[?|Hlater]]; [by left|by right; left|]. right; right. intros j s' Hj Hs''. apply (Hlater (S j) s'); [lia|done].
Qed.

(** The exact result. *)
Lemma overwrite_take {B} n (x y : list B) : take n (overwrite (take n y) x) = take n (overwrite y x).
Proof.
  unfold overwrite. destruct (decide (n <= length x)%nat).
  - by rewrite !take_app_le.
  - rewrite !take_app_ge by lia. f_equal. rewrite !take_drop_commute. rewrite take_take. do 2 f_equal. lia.
Qed.
Lemma overwrites_take {B} n l : forall y : list B, take n (fold_left overwrite l (take n y)) = take n (fold_left overwrite l y).
Proof.
  induction l as [|x l IH]; intros y; cbn [fold_left]; [by rewrite take_take, Nat.min_id|].
  rewrite <- IH, overwrite_take, IH. done.
Qed.
Lemma append_fits grow m s xs a : m !! sl_arr s = Some a -> (sl_len s <= length a)%nat -> (sl_len s + length xs <= length a)%nat ->
  go_append grow m s xs = (<[sl_arr s := take (sl_len s) a ++ overwrite (drop (sl_len s) a) xs]> m, mkSlice (sl_arr s) (sl_len s + length xs)).
Proof.
  intros H L1 L2. unfold go_append, cap, overwrite. rewrite H. destruct (Nat.leb_spec (sl_len s + length xs) (length a)); [|lia].
  by rewrite drop_drop.
Qed.
Lemma add_common_shared grow common files : forall m m' out a,
  m !! sl_arr common = Some a -> (sl_len common <= length a)%nat -> Forall (valid m) files ->
  Forall (fun s => sl_arr s <> sl_arr common) files -> add_common grow m common files = (m', out) ->
  m' !! sl_arr common = Some (take (sl_len common) a ++
    fold_left overwrite (List.filter (fits (length a - sl_len common)) (map (contents m) files)) (drop (sl_len common) a)).
Proof.
  induction files as [|s files IH]; intros m m' out a Ha Hl Hvf Hne Hadd; cbn [add_common] in Hadd.
  - injection Hadd as <- _. cbn. by rewrite take_drop.
  - apply Forall_cons in Hvf as [Hvs Hvf]. apply Forall_cons in Hne as [Hns Hne].
    destruct (go_append grow m common (contents m s)) as [m1 s1] eqn:Happ.
    destruct (add_common grow m1 common files) as [m2 rest] eqn:Hrest. injection Hadd as <- _.
    pose proof (append_frame _ _ _ _ _ _ Happ) as Hfr.
    assert (Hvf1 : Forall (valid m1) files /\ map (contents m1) files = map (contents m) files).
    { clear -Hfr Hvf Hne. induction files as [|x files IH]; [done|]. apply Forall_cons in Hvf as [V Hvf]. apply Forall_cons in Hne as [N Hne].
      destruct (IH Hvf Hne) as [I1 I2]. destruct (Hfr x V) as [C W]; [by left|]. split; [by constructor|]. cbn. by rewrite C, I2. }
    destruct Hvf1 as [Hvf1 Hmap]. cbn [map List.filter]. rewrite <- Hmap. unfold fits at 1.
    destruct (Nat.leb_spec (length (contents m s)) (length a - sl_len common)) as [F|F].
    + rewrite (append_fits _ _ _ _ a) in Happ by (done || lia). injection Happ as <- _.
      assert (La : length (take (sl_len common) a ++ overwrite (drop (sl_len common) a) (contents m s)) = length a).
      { unfold overwrite. rewrite !app_length, take_length, !drop_length. lia. }
      rewrite (IH _ _ _ (take (sl_len common) a ++ overwrite (drop (sl_len common) a) (contents m s)) ltac:(apply list_lookup_insert; by eapply lookup_lt_Some)
        ltac:(lia) Hvf1 Hne Hrest), La.
      assert (Lt : length (take (sl_len common) a) = sl_len common) by (rewrite take_length; lia).
      rewrite take_app_alt, drop_app_alt by done. cbn [fold_left]. done.
    + assert (m1 = m ++ [contents m common ++ contents m s ++ replicate (Nat.max (grow (cap m common) (sl_len common + length (contents m s))) (sl_len common + length (contents m s)) - length (contents m common ++ contents m s)) None]) as ->.
      { unfold go_append in Happ. replace (cap m common) with (length a) in * by (unfold cap; by rewrite Ha).
        destruct (Nat.leb_spec (sl_len common + length (contents m s)) (length a)); [lia|]. injection Happ as <- _. by rewrite <- app_assoc. }
      erewrite IH; [done| |done..|exact Hrest]. rewrite lookup_app_l by (by eapply lookup_lt_Some). done.
Qed.
Lemma add_common_exact grow common : forall files m m' out i s t,
  valid m common -> Forall (valid m) files -> Forall (fun s => sl_arr s <> sl_arr common) files ->
  add_common grow m common files = (m', out) -> files !! i = Some s -> out !! i = Some t ->
  contents m' t = contents m common ++
    (let room := (cap m common - sl_len common)%nat in
     if fits room (contents m s) then overwritten (contents m s) (List.filter (fits room) (map (contents m) (drop (S i) files)))
     else contents m s).
Proof.
  induction files as [|s files IH]; intros m m' out i s0 t Hvc Hvf Hne Hadd Hs Ht; [by rewrite lookup_nil in Hs|].
  pose proof (add_common_spec grow common (s :: files) m m' out Hvc Hvf Hne Hadd) as (_ & _ & _ & Hnofit).
  cbn [add_common] in Hadd. pose proof Hvf as Hvf0. pose proof Hne as Hne0.
  apply Forall_cons in Hvf as [Hvs Hvf]. apply Forall_cons in Hne as [Hns Hne].
  destruct (go_append grow m common (contents m s)) as [m1 s1] eqn:Happ.
  destruct (add_common grow m1 common files) as [m2 rest] eqn:Hrest. injection Hadd as <- <-.
  pose proof (append_frame _ _ _ _ _ _ Happ) as Hfr.
  assert (Hvf1 : Forall (valid m1) files /\ map (contents m1) files = map (contents m) files).
  { clear -Hfr Hvf Hne. induction files as [|x files IH]; [done|]. apply Forall_cons in Hvf as [V Hvf]. apply Forall_cons in Hne as [N Hne].
    destruct (IH Hvf Hne) as [I1 I2]. destruct (Hfr x V) as [C W]; [by left|]. split; [by constructor|]. cbn. by rewrite C, I2. }
  destruct Hvf1 as [Hvf1 Hmap]. destruct (Hfr common Hvc) as [Hcc Hvc1]; [right; by left|].
  pose proof Hvc as (a & Ha & Hla). assert (Hca : cap m common = length a) by (unfold cap; by rewrite Ha).
  destruct i as [|i]; cbn [lookup list_lookup] in Hs, Ht.
  - injection Hs as ->. injection Ht as ->. cbn [drop]. cbn zeta. unfold fits at 1.
    destruct (Nat.leb_spec (length (contents m s0)) (cap m common - sl_len common)) as [F|F].
    + rewrite (append_fits _ _ _ _ a) in Happ by (done || lia). injection Happ as <- <-.
      set (a1 := take (sl_len common) a ++ overwrite (drop (sl_len common) a) (contents m s0)) in *.
      assert (La : length a1 = length a).
      { unfold a1, overwrite. rewrite !app_length, take_length, !drop_length. lia. }
      unfold contents at 1. cbn [sl_arr sl_len].
      rewrite (add_common_shared _ _ _ _ _ _ a1 ltac:(apply list_lookup_insert; by eapply lookup_lt_Some) ltac:(lia) Hvf1 Hne Hrest).
      rewrite Hmap, La, Hca. replace (contents m common) with (take (sl_len common) a) by (unfold contents; by rewrite Ha).
      assert (T1 : take (sl_len common) a1 = take (sl_len common) a) by (unfold a1; rewrite take_app_alt by (rewrite take_length; lia); done).
      assert (D1 : drop (sl_len common) a1 = overwrite (drop (sl_len common) a) (contents m s0)) by (unfold a1; rewrite drop_app_alt by (rewrite take_length; lia); done).
      rewrite T1, D1.
      rewrite take_app_ge by (rewrite take_length; lia). f_equal. rewrite take_length.
      replace (sl_len common + length (contents m s0) - sl_len common `min` length a)%nat with (length (contents m s0)) by lia.
      rewrite drop_0. unfold overwritten. rewrite <- overwrites_take. f_equal. f_equal. unfold overwrite. by rewrite take_app.
    + apply (Hnofit 0 s0 t); [done|done|]. right. left. rewrite (contents_length m s0 Hvs) in F. rewrite Hca in *. lia.
  - assert (Hcs : contents m1 s0 = contents m s0).
    { assert (E : map (contents m1) files !! i = map (contents m) files !! i) by (by rewrite Hmap). change (map ?f ?l) with (f <$> l) in E.
      rewrite !list_lookup_fmap in E. change (files !! i = Some s0) in Hs. rewrite Hs in E. by injection E. }
    assert (Hcap : cap m1 common = cap m common).
    { unfold go_append in Happ. destruct (Nat.leb_spec (sl_len common + length (contents m s)) (cap m common)) as [Hle|Hgt].
      - rewrite Ha in Happ. injection Happ as <- _. unfold cap in *. rewrite Ha in *.
        rewrite list_lookup_insert by (by eapply lookup_lt_Some). rewrite !app_length, take_length, drop_length. lia.
      - injection Happ as <- _. unfold cap. rewrite lookup_app_l by (by eapply lookup_lt_Some). done. }
    rewrite (IH m1 m2 rest i s0 t Hvc1 Hvf1 Hne Hrest Hs Ht). rewrite Hcc, Hcap, Hcs. cbn [drop]. 
    assert (HD : map (contents m1) (drop (S i) files) = map (contents m) (drop (S i) files)).
    { change (map ?f ?l) with (f <$> l) in *. by rewrite !fmap_drop, Hmap. }
    by rewrite HD.
Qed.
End proofslices.
