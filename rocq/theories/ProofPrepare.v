From stdpp Require Import list_numbers.
From Verif Require Import Prelude GoStrings Paths Files SpecFiles ProofFiles Slices SpecSlices ProofSlices Prepare SpecPrepare.

Section proofprepare.
Context {Ov Dc Nd : Type}.
Notation entry := (entry Ov Dc Nd).
Notation inputs := (inputs Ov Dc Nd).
Notation options := (options Ov).
Implicit Types (e : entry) (y : list entry) (w : inputs).

(** ** Expansion does not depend on the fuel *)
Lemma expand_mono f instdir k : forall fuel y i r, expand_loop fuel f instdir y i = r -> r <> Fuel ->
  (fuel <= k)%nat -> expand_loop k f instdir y i = r.
Proof.
  induction k as [|k IH]; intros fuel y i r He Hr Hle.
  - assert (fuel = 0%nat) as -> by lia. done.
  - destruct fuel as [|fuel].
    + simpl in He. simpl. destruct (y !! i); [congruence|done].
    + cbn [expand_loop] in *. destruct (y !! i) as [e|]; [|done].
      destruct (seq_eqb (e_path e) (lit "-")); [by apply (IH fuel); [..|lia]|].
      destruct (fs_stat _ _) as [[]|]; [|by apply (IH fuel); [..|lia]|done].
      destruct (negb _); [done|]. destruct (fs_walk _ _); [|done]. by apply (IH fuel); [..|lia].
Qed.
Lemma expand_det f instdir fuel fuel' y r r' :
  expand_directories fuel f instdir y = r -> expand_directories fuel' f instdir y = r' -> r <> Fuel -> r' <> Fuel -> r = r'.
Proof.
  unfold expand_directories. intros H H' Hr Hr'.
  pose proof (expand_mono f instdir (Nat.max fuel fuel') _ _ _ _ H Hr ltac:(lia)).
  pose proof (expand_mono f instdir (Nat.max fuel fuel') _ _ _ _ H' Hr' ltac:(lia)). congruence.
Qed.

Lemma expand_Ok f instdir fuel y y' : walks_files f instdir -> Forall (dash_is_stdin instdir) y ->
  expand_directories fuel f instdir y = Ok y' ->
  Forall (expandable f) (map (located instdir) y) /\ y' = expanded f instdir y.
Proof.
  intros Hw Hd Hok.
  destruct (all_expandable_dec f (map (located instdir) y)) as [Hex|Hex].
  - split; [done|]. destruct (expand_ok f instdir y Hw [] [] Hex Hd) as [F HF]; [constructor|].
    specialize (HF F (le_n _)). simpl in HF. rewrite app_nil_r in HF.
    pose proof (expand_det f instdir fuel F y _ _ Hok HF ltac:(done) ltac:(done)) as H. injection H as ->. done.
  - exfalso. destruct (expand_err f instdir y [] [] Hex Hd) as (F & er & _ & HF). specialize (HF F (le_n _)).
    simpl in HF. rewrite app_nil_r in HF.
    pose proof (expand_det f instdir fuel F y _ _ Hok HF ltac:(done) ltac:(done)). done.
Qed.
Lemma expand_good f instdir y : walks_files f instdir -> Forall (dash_is_stdin instdir) y ->
  Forall (expandable f) (map (located instdir) y) ->
  exists F, forall fuel, (F <= fuel)%nat -> expand_directories fuel f instdir y = Ok (expanded f instdir y).
Proof.
  intros Hw Hd Hex. destruct (expand_ok f instdir y Hw [] [] Hex Hd) as [F HF]; [constructor|].
  exists F. intros fuel Hf. specialize (HF fuel Hf). simpl in HF. by rewrite app_nil_r in HF.
Qed.

(** ** Reading *)
Lemma Forall2_in {A B} (P Q : A -> B -> Prop) l l' : Forall2 P l l' -> (forall a b, In a l -> P a b -> Q a b) -> Forall2 Q l l'.
Proof.
  induction 1 as [|a b l l' H HF IH]; intros Hi; constructor.
  - apply Hi; [by left|done].
  - apply IH. intros; apply Hi; [by right|done].
Qed.
Definition is_dash (p : list N) : bool := seq_eqb p (lit "-").
Definition dash_once (y : list entry) : Prop := (length (List.filter is_dash (map e_path y)) <= 1)%nat.
Definition docs_for w (used : bool) (p : list N) : option (list Nd) :=
  if is_dash p then (if used then Some [] else in_stdin w) else in_read w p.

Lemma add_docs_nil e : add_docs [] e = e.
Proof. destruct e. unfold add_docs. simpl. by rewrite app_nil_r. Qed.

Lemma docs_for_nodash w used used' p : is_dash p = false -> docs_for w used p = docs_for w used' p.
Proof. unfold docs_for. by intros ->. Qed.

Lemma read_all_spec w y : forall used, dash_once y ->
  match read_all w used y with
  | Ok (y', used') => Forall2 (fun e e' => exists ds, docs_for w used (e_path e) = Some ds /\ e' = add_docs ds e) y y' /\
       used' = used || existsb is_dash (map e_path y)
  | Err _ => exists e, In e y /\ docs_for w used (e_path e) = None
  | _ => False
  end.
Proof.
  induction y as [|e y IH]; intros used Hd.
  - simpl. split; [constructor|by rewrite orb_false_r].
  - cbn [read_all]. unfold read_entry. fold (is_dash (e_path e)). unfold dash_once in Hd. cbn [map List.filter] in Hd.
    destruct (is_dash (e_path e)) eqn:Hde.
    + cbn [length] in Hd.
      assert (Hnone : forall e', In e' y -> is_dash (e_path e') = false).
      { intros e' Hin. destruct (is_dash (e_path e')) eqn:H'; [|done]. exfalso.
        assert (In (e_path e') (List.filter is_dash (map e_path y))) as Hx by (apply filter_In; split; [by apply in_map|done]).
        destruct (List.filter is_dash (map e_path y)); [done|simpl in Hd; lia]. }
      assert (He0 : existsb is_dash (map e_path y) = false).
      { apply not_true_is_false. intros (p & (e' & <- & Hin)%in_map_iff & Hp)%existsb_exists. rewrite Hnone in Hp; done. }
      destruct (if used then Ok (e, true) else _) as [[e1 u1]|er| |] eqn:Hr; cbn [rbind].
      * assert (Hu : u1 = true /\ exists ds, docs_for w used (e_path e) = Some ds /\ e1 = add_docs ds e).
        { destruct used; [injection Hr as <- <-; split; [done|]; exists []; unfold docs_for; rewrite Hde, add_docs_nil; done|].
          destruct (in_stdin w) as [ds|] eqn:Hs; [|done]. injection Hr as <- <-. split; [done|]. exists ds. unfold docs_for. by rewrite Hde. }
        destruct Hu as [-> Hds]. cbn [fst snd]. specialize (IH true). destruct (read_all w true y) as [[y' u']|er| |] eqn:Hy; cbn [rbind fst snd].
        -- destruct IH as [HF ->]; [unfold dash_once; lia|]. split.
           ++ constructor; [done|]. eapply Forall2_in; [exact HF|].
              intros a b Ha (ds & Hd1 & ->). exists ds. split; [|done]. rewrite <- Hd1. apply docs_for_nodash. by apply Hnone.
           ++ simpl. rewrite Hde. by destruct used.
        -- destruct IH as (x & Hx & Hn); [unfold dash_once; lia|]. exists x. split; [by right|]. rewrite <- Hn. apply docs_for_nodash. by apply Hnone.
        -- apply IH. unfold dash_once. lia.
        -- apply IH. unfold dash_once. lia.
      * exists e. split; [by left|]. unfold docs_for. rewrite Hde. destruct used; [done|]. by destruct (in_stdin w).
      * destruct used; [done|]. by destruct (in_stdin w).
      * destruct used; [done|]. by destruct (in_stdin w).
    + destruct (in_read w (e_path e)) as [ds|] eqn:Hr; cbn [rbind fst snd].
      * specialize (IH used Hd). destruct (read_all w used y) as [[y' u']|er| |] eqn:Hy; cbn [rbind fst snd].
        -- destruct IH as [HF ->]. split.
           ++ constructor; [|done]. exists ds. unfold docs_for. by rewrite Hde.
           ++ simpl. by rewrite Hde.
        -- destruct IH as (x & Hx & Hn). exists x. split; [by right|done].
        -- done.
        -- done.
      * exists e. split; [by left|]. unfold docs_for. by rewrite Hde.
Qed.

(** ** Merging what has been merged *)
Lemma dedup_seen seen seen' l : (forall p, In p seen <-> In p seen') -> dedup seen l = dedup seen' l.
Proof.
  revert seen seen'; induction l as [|p l IH]; intros seen seen' H; simpl; [done|].
  assert (existsb (seq_eqb p) seen = existsb (seq_eqb p) seen') as ->.
  { destruct (existsb (seq_eqb p) seen') eqn:E; [apply existsb_in, H; by apply existsb_in in E|].
    apply existsb_notin. rewrite H. by apply existsb_notin in E. }
  destruct (existsb _ seen'); [by apply IH|]. f_equal. apply IH. intros q. simpl. by rewrite H.
Qed.
Lemma dedup_app seen a b : dedup seen (a ++ b) = dedup seen a ++ dedup (seen ++ a) b.
Proof.
  revert seen; induction a as [|p a IH]; intros seen; simpl; [by rewrite app_nil_r|].
  destruct (existsb (seq_eqb p) seen) eqn:E.
  - rewrite IH. f_equal. apply dedup_seen. intros q. rewrite !in_app_iff. simpl. apply existsb_in in E. naive_solver.
  - rewrite IH. simpl. do 2 f_equal. apply dedup_seen. intros q. rewrite !in_app_iff. simpl. rewrite !in_app_iff. tauto.
Qed.
Lemma dedup_In l p : In p (dedup [] l) <-> In p l.
Proof.
  enough (H : forall l seen, In p (dedup seen l) <-> In p l /\ ~ In p seen) by (rewrite H; simpl; tauto).
  clear l. induction l as [|x l IH]; intros seen; simpl; [tauto|].
  destruct (existsb (seq_eqb x) seen) eqn:Hx.
  - apply existsb_in in Hx. rewrite IH. split; [tauto|]. intros [[->|?] ?]; tauto.
  - apply existsb_notin in Hx. simpl. rewrite IH. simpl. split.
    + intros [->|[? ?]]; [split; [by left|done]|]. split; [by right|]. tauto.
    + intros [[->|?] ?]; [by left|]. destruct (decide (x = p)); [by left|]. right. tauto.
Qed.
Lemma dedup_NoDup l : NoDup (dedup [] l).
Proof.
  generalize (@nil (list N)) as seen. induction l as [|p l IH]; intros seen; simpl; [constructor|].
  destruct (existsb _ _) eqn:E; [apply IH|]. constructor; [|apply IH].
  intros Hin%elem_of_list_In.
  enough (H : forall l seen p, In p (dedup seen l) -> ~ In p seen) by (apply H in Hin; apply Hin; by left).
  clear. induction l as [|x l IH]; intros seen p; simpl; [done|].
  destruct (existsb (seq_eqb x) seen) eqn:Hx; [apply IH|]. intros [->|Hin]; [by apply existsb_notin|].
  apply IH in Hin. simpl in Hin. tauto.
Qed.
Lemma dedup_fix seen l : NoDup l -> (forall p, In p l -> ~ In p seen) -> dedup seen l = l.
Proof.
  revert seen; induction l as [|p l IH]; intros seen Hnd Hs; simpl; [done|]. apply NoDup_cons in Hnd as [Hp Hnd].
  rewrite (proj2 (existsb_notin p seen)) by (apply Hs; by left). f_equal. apply IH; [done|].
  intros q Hq [->|Hin]; [by apply Hp, elem_of_list_In|]. apply (Hs q); [by right|done].
Qed.
Lemma dedup_dedup a b : dedup [] (dedup [] a ++ b) = dedup [] (a ++ b).
Proof.
  rewrite !dedup_app. rewrite (dedup_fix [] (dedup [] a)) by (apply dedup_NoDup || (intros ? ? [])).
  f_equal. apply dedup_seen. intros p. simpl. apply dedup_In.
Qed.

Lemma fold_distinct y : NoDup (map e_path y) -> fold_left step y [] = y.
Proof.
  induction y as [|e y IH] using rev_ind; [done|]. rewrite map_app. simpl. intros (Hnd & Hx & _)%NoDup_app.
  rewrite fold_step_snoc, IH by done. unfold step. rewrite (proj2 (existsb_notin (e_path e) (map e_path y))); [done|].
  intros Hin%elem_of_list_In. apply (Hx _ Hin). by left.
Qed.

Lemma last_nonempty_app l l' : last_nonempty (l ++ l') = last_nonempty (last_nonempty l :: l').
Proof.
  induction l as [|x l IH]; simpl; [by destruct (last_nonempty l')|].
  rewrite IH. simpl. destruct (last_nonempty l') as [|c t]; [|done].
  destruct (last_nonempty l); done.
Qed.

Lemma entries_for_paths p y y' (P : entry -> entry -> Prop) :
  Forall2 P y y' -> (forall a b, P a b -> e_path b = e_path a) -> Forall2 P (entries_for p y) (entries_for p y').
Proof.
  intros HF HP. induction HF as [|a b l l' Hab HF IH]; [constructor|]. simpl. rewrite (HP a b Hab).
  destruct (seq_eqb (e_path a) p); [by constructor|done].
Qed.

Definition rd w (used : bool) e e' : Prop := exists ds, docs_for w used (e_path e) = Some ds /\ e' = add_docs ds e.
Lemma rd_path w used e e' : rd w used e e' -> e_path e' = e_path e.
Proof. by intros (? & _ & ->). Qed.
Lemma rd_paths w used y y' : Forall2 (rd w used) y y' -> map e_path y' = map e_path y.
Proof. induction 1 as [|a b l l' H HF IH]; [done|]. simpl. by rewrite IH, (rd_path _ _ _ _ H). Qed.
Lemma rd_same {T} (g : entry -> T) w used y y' : (forall ds e, g (add_docs ds e) = g e) -> Forall2 (rd w used) y y' -> map g y' = map g y.
Proof. intros Hg. induction 1 as [|a b l l' (? & _ & ->) HF IH]; [done|]. simpl. by rewrite IH, Hg. Qed.

Lemma fold_nodup y : NoDup (map e_path (fold_left step y [])).
Proof. rewrite (proj1 (fold_paths y)). apply dedup_NoDup. Qed.

Lemma entries_single p y e : NoDup (map e_path y) -> In e y -> e_path e = p -> entries_for p y = [e].
Proof.
  induction y as [|x y IH]; [done|]. simpl. intros [Hx Hnd]%NoDup_cons [->|Hin] Hp.
  - rewrite Hp, seq_eqb_refl. f_equal. apply entries_for_none. rewrite <- Hp. by intros ?%elem_of_list_In.
  - destruct (seq_eqb_spec (e_path x) p) as [Heq|]; [|by apply IH].
    exfalso. apply Hx. apply elem_of_list_In. rewrite Heq, <- Hp. by apply in_map.
Qed.

Lemma prepared_spec w A A' B B' used :
  Forall2 (rd w false) (fold_left step A []) A' -> Forall2 (rd w used) B B' ->
  used = existsb is_dash (map e_path (fold_left step A [])) ->
  let R := fold_left step (A' ++ B') [] in
  map e_path R = dedup [] (map e_path (A ++ B)) /\
  forall e, In e R -> let G := entries_for (e_path e) (A ++ B) in
    e_overlays e = concat (map e_overlays G) /\ e_documents e = concat (map e_documents G) /\
    e_output e = last_nonempty (map e_output G) /\
    exists first rest ds, G = first :: rest /\ documents_in w (e_path e) = Some ds /\
      e_name e = e_name first /\ e_nodes e = e_nodes first ++ ds.
Proof.
  intros HA HB Hused R. set (A2 := fold_left step A []) in *.
  destruct (fold_paths A) as [HpA _]. fold A2 in HpA.
  split.
  - unfold R. rewrite (proj1 (fold_paths _)), map_app. rewrite (rd_paths _ _ _ _ HA), (rd_paths _ _ _ _ HB), HpA, map_app.
    apply dedup_dedup.
  - intros e He G. destruct (fold_content _ e He) as (H1 & H2 & H3 & f1 & r1 & Hg & Hn & Hno).
    rewrite entries_for_app in H1, H2, H3, Hg. unfold G. rewrite entries_for_app. set (p := e_path e) in *.
    pose proof (entries_for_paths p _ _ _ HA ltac:(apply rd_path)) as HA'.
    pose proof (entries_for_paths p _ _ _ HB ltac:(apply rd_path)) as HB'.
    rewrite map_app, concat_app in H1, H2. rewrite map_app in H3.
    assert (HBo : map e_overlays (entries_for p B') = map e_overlays (entries_for p B)) by (by eapply rd_same).
    assert (HBd : map e_documents (entries_for p B') = map e_documents (entries_for p B)) by (by eapply rd_same).
    assert (HBu : map e_output (entries_for p B') = map e_output (entries_for p B)) by (by eapply rd_same).
    assert (HAo : map e_overlays (entries_for p A') = map e_overlays (entries_for p A2)) by (by eapply rd_same).
    assert (HAd : map e_documents (entries_for p A') = map e_documents (entries_for p A2)) by (by eapply rd_same).
    assert (HAu : map e_output (entries_for p A') = map e_output (entries_for p A2)) by (by eapply rd_same).
    rewrite HAo, HBo in H1. rewrite HAd, HBd in H2. rewrite HAu, HBu in H3.
    rewrite !map_app, !concat_app.
    assert (In p (map e_path A2) \/ ~ In p (map e_path A2)) as [Hin|Hnin].
    { destruct (existsb (seq_eqb p) (map e_path A2)) eqn:E; [left; by apply existsb_in|right; by apply existsb_notin]. }
    + apply in_map_iff in Hin as (a & Hpa & Hina).
      assert (Hsing : entries_for p A2 = [a]) by (apply entries_single; [apply fold_nodup|done|done]).
      destruct (fold_content A a Hina) as (C1 & C2 & C3 & f & r & Hgf & Cn & Cno). rewrite Hpa in C1, C2, C3, Hgf.
      rewrite Hsing in HA', H1, H2, H3. apply Forall2_cons_inv_l in HA' as (a' & l' & (ds & Hds & ->) & Hl' & Heq).
      apply Forall2_nil_inv_l in Hl' as ->.
      simpl in H1, H2, H3. rewrite app_nil_r in H1, H2. rewrite C1 in H1. rewrite C2 in H2.
      split_and!; [done|done| |].
      * rewrite last_nonempty_app, <- C3. exact H3.
      * rewrite Hgf. exists f, (r ++ entries_for p B), ds. split; [done|].
        rewrite Heq in Hg. simpl in Hg. injection Hg as <- _. split_and!.
        -- rewrite <- Hds, Hpa. done.
        -- rewrite Hn. done.
        -- rewrite Hno. cbn [e_nodes add_docs]. by rewrite Cno.
    + rewrite (entries_for_none p A2 Hnin) in HA', H1, H2, H3. apply Forall2_nil_inv_l in HA'.
      assert (HnA : ~ In p (map e_path A)) by (rewrite <- dedup_In, <- HpA; done).
      rewrite (entries_for_none p A HnA). simpl in *. split_and!; [done|done|done|].
      rewrite HA' in Hg. simpl in Hg. rewrite Hg in HB'. apply Forall2_cons_inv_r in HB' as (b & rb & (ds & Hds & Hb) & _ & Heq).
      rewrite Heq. exists b, rb, ds. subst f1. split; [done|]. split_and!.
      * assert (Hpb : e_path b = p).
        { assert (In b (entries_for p B)) as Hb by (rewrite Heq; by left). apply filter_In in Hb as [_ Hb].
          by destruct (seq_eqb_spec (e_path b) p). }
        rewrite Hpb in Hds. rewrite <- Hds. unfold documents_in, docs_for. fold (is_dash p).
        destruct (is_dash p) eqn:Hda; [|done].
        assert (used = false) as ->; [|done]. rewrite Hused. apply not_true_is_false.
        intros (q & Hq & Hqd)%existsb_exists. apply Hnin. unfold is_dash in *.
        destruct (seq_eqb_spec q (lit "-")), (seq_eqb_spec p (lit "-")); try done. replace p with q by congruence. done.
      * done.
      * done.
Qed.

(** ** Overlay lists *)
Lemma omap_Some (l : list Ov) : omap id (map Some l) = l.
Proof.
  induction l as [|x l IH]; [done|]. change (omap id (map Some (x :: l))) with (x :: omap id (map Some l)). by rewrite IH.
Qed.
Lemma overwrite_map {A B} (g : A -> B) x z : overwrite (map g x) (map g z) = map g (overwrite x z).
Proof. unfold overwrite. by rewrite map_app, map_length, skipn_map. Qed.
Lemma overwritten_map {A B} (g : A -> B) own later : overwritten (map g own) (map (map g) later) = map g (overwritten own later).
Proof.
  unfold overwritten. rewrite map_length, <- firstn_map. f_equal.
  revert own; induction later as [|x l IH]; intros own; [done|]. cbn [map fold_left]. by rewrite overwrite_map, IH.
Qed.
Lemma filter_map_comm {A B} (g : A -> B) (f : B -> bool) l : List.filter f (map g l) = map g (List.filter (fun x => f (g x)) l).
Proof. induction l as [|x l IH]; [done|]. simpl. rewrite IH. by destruct (f (g x)). Qed.

Lemma final_overlays_spec grow common adhoc owns (op : options) :
  op_overlay op = match adhoc with Some o => Some (Some o) | None => None end ->
  final_overlays grow common adhoc owns =
  map (fun l => common_overlays common op ++ l) (after_sharing (spare_room grow common op) owns).
Proof.
  intros Hop. unfold final_overlays.
  set (m0 := map Some common :: map (map Some) owns). set (c0 := mkSlice 0 (length common)).
  set (mc := match adhoc with Some _ => _ | None => _ end).
  set (fl := imap _ owns).
  assert (Hfl : forall i own, owns !! i = Some own -> fl !! i = Some (mkSlice (S i) (length own)) /\ m0 !! S i = Some (map Some own)).
  { intros i own Hi. split; [unfold fl; by rewrite list_lookup_imap, Hi|]. unfold m0. simpl. by rewrite list_lookup_fmap, Hi. }
  assert (Hflen : length fl = length owns) by (unfold fl; apply imap_length).
  assert (Hv0 : valid m0 c0) by (exists (map Some common); split; [done|simpl; by rewrite map_length]).
  assert (Hcap0 : cap m0 c0 = length common) by (unfold cap; simpl; by rewrite map_length).
  assert (Hcont0 : contents m0 c0 = map Some common).
  { unfold contents. simpl. rewrite firstn_all2; [done|by rewrite map_length]. }
  assert (Hmc : valid (fst mc) (snd mc) /\ contents (fst mc) (snd mc) = map Some (common_overlays common op) /\
     (cap (fst mc) (snd mc) - sl_len (snd mc) = spare_room grow common op)%nat /\
     (forall i own, owns !! i = Some own -> fst mc !! S i = Some (map Some own)) /\
     (forall i, i < length owns -> sl_arr (snd mc) <> S i)).
  { unfold mc, common_overlays, spare_room. rewrite Hop. destruct adhoc as [o|]; cbn [fst snd].
    - unfold add_adhoc. destruct (go_append grow m0 c0 [Some o]) as [m1 c1] eqn:Happ. cbn [fst snd].
      pose proof Happ as Happ'.
      destruct (append_result _ _ _ _ _ _ Happ Hv0) as (Hr1 & Hr2 & Hr3 & Hr4 & Hr5).
      unfold go_append in Happ'. rewrite Hcap0 in Happ'. cbn [length sl_len c0] in Happ'.
      destruct (Nat.leb_spec (length common + 1) (length common)); [lia|].
      pose proof (f_equal fst Happ') as Hm1; pose proof (f_equal snd Happ') as Hc1; cbn [fst snd] in Hm1, Hc1.
      clear Happ'. subst m1 c1.
      split_and!; [done| | | |].
      + rewrite Hr1, Hcont0, map_app. done.
      + unfold cap. cbn [sl_arr sl_len]. rewrite lookup_app_r, Nat.sub_diag by lia. simpl.
        rewrite !app_length, replicate_length, Hcont0, map_length. simpl. lia.
      + intros i own Hi. rewrite lookup_app_l; [by apply Hfl|]. apply lookup_lt_Some in Hi. unfold m0. simpl. rewrite map_length. lia.
      + intros i Hi. cbn [sl_arr]. unfold m0. simpl. rewrite map_length. lia.
    - rewrite app_nil_r. split_and!; [done|done|rewrite Hcap0; simpl; lia|intros; by apply Hfl|done]. }
  destruct Hmc as (Hv & Hc & Hroom & Harr & Hne). clearbody mc. destruct mc as [m c]. cbn [fst snd] in *.
  destruct (add_common grow m c fl) as [m' out] eqn:Hadd. cbn [fst snd].
  assert (Hvf : Forall (valid m) fl).
  { apply Forall_lookup. intros i s Hs. unfold fl in Hs. rewrite list_lookup_imap in Hs.
    destruct (owns !! i) as [own|] eqn:Hi; [|done]. injection Hs as <-. exists (map Some own). split; [by apply Harr|].
    simpl. by rewrite map_length. }
  assert (Hnf : Forall (fun s => sl_arr s <> sl_arr c) fl).
  { apply Forall_lookup. intros i s Hs. unfold fl in Hs. rewrite list_lookup_imap in Hs.
    destruct (owns !! i) as [own|] eqn:Hi; [|done]. injection Hs as <-. simpl. intros Heq. apply (Hne i); [by eapply lookup_lt_Some|done]. }
  assert (Hcf : forall i own s, owns !! i = Some own -> fl !! i = Some s -> contents m s = map Some own).
  { intros i own s Hi Hs. rewrite (proj1 (Hfl i own Hi)) in Hs. injection Hs as <-. unfold contents. cbn [sl_arr sl_len].
    rewrite (Harr i own Hi). rewrite firstn_all2; [done|by rewrite map_length]. }
  assert (Hmapc : map (contents m) fl = map (map Some) owns).
  { apply list_eq. intros i. rewrite !list_lookup_fmap. destruct (owns !! i) as [own|] eqn:Hi.
    - destruct (Hfl i own Hi) as [Hs _]. rewrite Hs. cbn [fmap option_fmap option_map]. f_equal. by eapply Hcf.
    - rewrite (proj2 (lookup_ge_None fl i)); [done|]. apply lookup_ge_None in Hi. lia. }
  destruct (add_common_spec grow c fl m m' out Hv Hvf Hnf Hadd) as (Hol & _).
  apply list_eq. intros i. rewrite list_lookup_fmap. unfold after_sharing. rewrite list_lookup_fmap, list_lookup_imap.
  destruct (owns !! i) as [own|] eqn:Hi.
  - destruct (Hfl i own Hi) as [Hs _].
    destruct (out !! i) as [t|] eqn:Ht; [|apply lookup_ge_None in Ht; apply lookup_lt_Some in Hs; lia].
    cbn [fmap option_fmap option_map]. f_equal.
    rewrite (add_common_exact grow c fl m m' out i _ t Hv Hvf Hnf Hadd Hs Ht).
    rewrite (Hcf i own _ Hi Hs), Hc, Hroom. cbv zeta.
    rewrite <- skipn_map in *. 
    assert (Hd : map (contents m) (drop (S i) fl) = map (map Some) (drop (S i) owns)).
    { rewrite <- !skipn_map. by rewrite Hmapc. }
    unfold fits at 1. rewrite map_length.
    destruct (Nat.leb (length own) _).
    + rewrite <- omap_Some, map_app. f_equal. f_equal. rewrite skipn_map in Hd || idtac.
      rewrite skipn_map. rewrite Hd. rewrite filter_map_comm.
      rewrite overwritten_map. f_equal. f_equal. apply filter_ext. intros x. unfold fits. by rewrite map_length.
    + by rewrite <- map_app, omap_Some.
  - rewrite (proj2 (lookup_ge_None out i)); [done|]. apply lookup_ge_None in Hi. lia.
Qed.

Lemma after_sharing_none (owns : list (list Ov)) : after_sharing 0 owns = owns.
Proof.
  unfold after_sharing. apply list_eq. intros i. rewrite list_lookup_imap. destruct (owns !! i) as [own|]; [|done]. simpl.
  destruct (Nat.leb_spec (length own) 0); [|done]. assert (own = []) as -> by (destruct own; [done|simpl in *; lia]).
  unfold overwritten. by destruct (fold_left _ _ _).
Qed.

(** ** GetInstructions *)
Lemma base_eq w (op : options) : instructions_dir w op = base_of w op.
Proof. done. Qed.

Lemma dash_located instdir e : dash_is_stdin instdir e -> e_path (located instdir e) = lit "-" -> e_path e = lit "-".
Proof.
  intros [Hd|Hd] H; [done|]. unfold located in H. destruct (seq_eqb_spec (e_path e) (lit "-")) as [|]; [done|]. simpl in H. done.
Qed.
Lemma files_no_dash f instdir d e : walks_files f instdir -> dash_is_stdin instdir d -> is_dir_entry f (located instdir d) = true ->
  In e (files_of f (located instdir d)) -> is_dash (e_path e) = false.
Proof.
  intros Hw Hd Hdir He. unfold files_of in He. destruct (fs_walk f _) as [ps|] eqn:Hps; [|done].
  apply in_map_iff in He as (p & <- & Hp). cbn [e_path].
  assert (e_path d <> lit "-") as Hnd.
  { intros Heq. unfold is_dir_entry, located in Hdir. rewrite Heq, seq_eqb_refl in Hdir. rewrite Heq, seq_eqb_refl in Hdir. done. }
  rewrite located_path in Hps by done. cbn [e_path with_path] in Hps.
  destruct (Hw _ _ _ Hps Hp) as (Hne & _). unfold is_dash. by destruct (seq_eqb_spec p (lit "-")).
Qed.
Lemma dash_once_path w (op : options) : usable w op -> (exists c y, instructions_say w op = Some (c, y)) ->
  dash_once (expanded (in_fs w) (base_of w op) (path_option op)).
Proof.
  intros [Hw Hu] (c & y & Hi). specialize (Hu c y Hi). apply Forall_app in Hu as [_ Hu].
  unfold path_option in *. destruct (op_path op) as [|ch p]; [by vm_compute; lia|].
  set (a := mkEntry _ _ _ _ _ _ _ _ _) in *. apply Forall_cons in Hu as [Ha _].
  unfold expanded. cbn [map List.filter]. destruct (is_dir_entry (in_fs w) (located (base_of w op) a)) eqn:Hdir; cbn [negb app map concat].
  - rewrite app_nil_r. unfold dash_once.
    assert (List.filter is_dash (map e_path (files_of (in_fs w) (located (base_of w op) a))) = []) as ->; [|simpl; lia].
    destruct (List.filter _ _) as [|x l] eqn:E; [done|]. exfalso.
    assert (In x (List.filter is_dash (map e_path (files_of (in_fs w) (located (base_of w op) a))))) as Hx by (rewrite E; by left).
    apply filter_In in Hx as [(e & <- & He)%in_map_iff Hx]. by rewrite (files_no_dash _ _ _ _ Hw Ha Hdir He) in Hx.
  - unfold dash_once. simpl. destruct (is_dash _); simpl; lia.
Qed.
Lemma dash_once_nodup y : NoDup (map e_path y) -> dash_once y.
Proof.
  unfold dash_once. induction (map e_path y) as [|p l IH]; intros Hnd; [simpl; lia|]. apply NoDup_cons in Hnd as [Hp Hnd]. simpl.
  destruct (is_dash p) eqn:Hd; [|by apply IH]. simpl.
  assert (List.filter is_dash l = []) as ->; [|simpl; lia].
  destruct (List.filter is_dash l) as [|x k] eqn:E; [done|]. exfalso.
  assert (In x (List.filter is_dash l)) as Hx by (rewrite E; by left). apply filter_In in Hx as [Hx Hxd].
  apply Hp. apply elem_of_list_In. unfold is_dash in *.
  destruct (seq_eqb_spec p (lit "-")) as [->|]; [|done]. by destruct (seq_eqb_spec x (lit "-")) as [->|].
Qed.

(** Phase one: the files of the instructions file. *)
Lemma read_instructions_Ok fuel w (op : options) common files used : usable w op ->
  read_instructions fuel w op = Ok (common, files, used) ->
  exists y, instructions_say w op = Some (common, y) /\
    Forall (expandable (in_fs w)) (map (located (base_of w op)) y) /\
    Forall2 (rd w false) (fold_left step (expanded (in_fs w) (base_of w op) y) []) files /\
    used = existsb is_dash (map e_path (fold_left step (expanded (in_fs w) (base_of w op) y) [])).
Proof.
  intros [Hw Hu] Hr. unfold read_instructions, instructions_say in *.
  destruct (op_instructions op) as [|c0 p0] eqn:Hop.
  - injection Hr as <- <- <-. exists []. split; [done|]. split; [constructor|]. split; [constructor|done].
  - destruct (in_decode w (c0 :: p0)) as [[cm y]|] eqn:Hdec; [|done].
    specialize (Hu cm y eq_refl). apply Forall_app in Hu as [Hu _].
    rewrite base_eq in Hr. destruct (load_files _ _ _ _) as [[fs us]| | |] eqn:Hl; [|done..]. cbn [rbind fst snd] in Hr.
    injection Hr as <- <- <-. exists y. split; [done|]. unfold load_files in Hl.
    destruct (expand_directories _ _ _ _) as [y1| | |] eqn:He; [|done..]. cbn [rbind] in Hl.
    destruct (expand_Ok _ _ _ _ _ Hw Hu He) as [Hex ->]. split; [done|].
    rewrite merge_duplicates_eq in Hl. cbn [rbind] in Hl.
    pose proof (read_all_spec w (fold_left step (expanded (in_fs w) (base_of w op) y) []) false (dash_once_nodup _ (fold_nodup _))) as Hs.
    rewrite Hl in Hs. destruct Hs as [HF ->]. split; [exact HF|done].
Qed.

Lemma get_instructions_Ok fuel grow w (op : options) R : usable w op ->
  get_instructions fuel grow w op = Ok R ->
  exists common y files, instructions_say w op = Some (common, y) /\
    Forall (expandable (in_fs w)) (map (located (base_of w op)) (y ++ path_option op)) /\
    op_overlay op <> Some None /\
    map e_path files = dedup [] (map e_path (named_inputs w op y)) /\
    (forall e, In e files -> let G := entries_for (e_path e) (named_inputs w op y) in
      e_overlays e = concat (map e_overlays G) /\ e_documents e = concat (map e_documents G) /\
      e_output e = last_nonempty (map e_output G) /\
      exists first rest ds, G = first :: rest /\ documents_in w (e_path e) = Some ds /\
        e_name e = e_name first /\ e_nodes e = e_nodes first ++ ds) /\
    R = zip_with (fun e x => set_final (fst x) (snd x) e) files
          (zip (map (fun l => common_overlays common op ++ l) (after_sharing (spare_room grow common op) (map e_overlays files)))
               (set_output_paths (map (fun e => (e_path e, e_output e)) files))).
Proof.
  intros Hus Hg. unfold get_instructions in Hg.
  destruct (read_instructions fuel w op) as [[[common files] used]| | |] eqn:Hr; [|done..]. cbn [rbind] in Hg.
  destruct (read_instructions_Ok _ _ _ _ _ _ Hus Hr) as (y & Hsay & Hex & HA & Hused).
  pose proof (dash_once_path w op Hus ltac:(eauto)) as Hdo.
  destruct (read_adhoc_path fuel w op files used) as [files'| | |] eqn:Hp; [|done..]. cbn [rbind] in Hg.
  assert (Hph : Forall (expandable (in_fs w)) (map (located (base_of w op)) (path_option op : list entry)) /\
     exists B', Forall2 (rd w used) (expanded (in_fs w) (base_of w op) (path_option op)) B' /\ files' = fold_left step (files ++ B') []).
  { destruct Hus as [Hw Hu]. specialize (Hu common y Hsay). apply Forall_app in Hu as [_ Hu].
    unfold read_adhoc_path, path_option in *. destruct (op_path op) as [|c0 p0] eqn:Hop.
    - injection Hp as <-. split; [constructor|]. exists []. split; [constructor|]. rewrite app_nil_r. symmetry. apply fold_distinct.
      rewrite (rd_paths _ _ _ _ HA). apply fold_nodup.
    - rewrite base_eq in Hp. destruct (expand_directories _ _ _ _) as [y1| | |] eqn:He; [|done..]. cbn [rbind] in Hp.
      unfold adhoc_entry in He. destruct (expand_Ok _ _ _ _ _ Hw Hu He) as [Hex' ->]. split; [done|].
      destruct (read_all _ _ _) as [[B' u']| | |] eqn:Hra; [|done..]. cbn [rbind fst] in Hp.
      rewrite merge_duplicates_eq in Hp. injection Hp as <-. exists B'. split; [|done].
      pose proof (read_all_spec w _ used Hdo) as Hs. rewrite Hra in Hs. by destruct Hs as [HF _]. }
  destruct Hph as (Hex2 & B' & HB & ->).
  destruct (prepared_spec w _ _ _ _ used HA HB Hused) as [Hpaths Hcont].
  set (adhoc := match op_overlay op with Some (Some o) => Some o | _ => None end).
  assert (Hov : op_overlay op <> Some None /\ op_overlay op = match adhoc with Some o => Some (Some o) | None => None end /\
     R = zip_with (fun e x => set_final (fst x) (snd x) e) (fold_left step (files ++ B') [])
       (zip (final_overlays grow common adhoc (map e_overlays (fold_left step (files ++ B') [])))
            (set_output_paths (map (fun e => (e_path e, e_output e)) (fold_left step (files ++ B') []))))).
  { unfold adhoc. destruct (op_overlay op) as [[o|]|]; cbn [rbind] in Hg; [|done|]; injection Hg as <-; done. }
  destruct Hov as (Hov1 & Hov2 & ->). rewrite (final_overlays_spec grow common adhoc _ op Hov2).
  exists common, y, (fold_left step (files ++ B') []). split_and!; [done| |done|exact Hpaths|exact Hcont|done].
  rewrite map_app. apply Forall_app. done.
Qed.

Lemma zip_final_lookup (files : list entry) lists outs i : length lists = length files -> length outs = length files ->
  zip_with (fun e x => set_final (fst x) (snd x) e) files (zip lists outs) !! i =
  match files !! i, lists !! i, outs !! i with
  | Some e, Some l, Some o => Some (set_final l o e)
  | _, _, _ => None
  end.
Proof.
  intros Hl Ho. rewrite lookup_zip_with. destruct (files !! i) as [e|] eqn:He; [|done]. simpl.
  rewrite lookup_zip_with. destruct (lists !! i) as [l|]; [|done]. simpl. by destruct (outs !! i).
Qed.
Lemma set_output_paths_length fs : length (set_output_paths fs) = length fs.
Proof. unfold set_output_paths. by rewrite map_length. Qed.
Lemma after_sharing_length room (owns : list (list Ov)) : length (after_sharing room owns) = length owns.
Proof. unfold after_sharing. apply imap_length. Qed.
End proofprepare.
