From stdpp Require Import list_numbers.
From Verif Require Import Prelude GoStrings Paths Files SpecFiles.

Section prooffiles.
Context {Ov Dc Nd : Type}.
Notation entry := (entry Ov Dc Nd).
Implicit Types (e : entry) (y acc : list entry).

(** ** mergeDuplicates *)
Definition step acc e : list entry :=
  if existsb (seq_eqb (e_path e)) (map e_path acc)
  then map (fun a => if seq_eqb (e_path a) (e_path e) then absorb a e else a) acc
  else acc ++ [e].

Lemma existsb_in p (l : list (list N)) : existsb (seq_eqb p) l = true <-> In p l.
Proof.
  rewrite existsb_exists. split.
  - intros (x & Hx & He). destruct (seq_eqb_spec p x); by subst.
  - intros H. exists p. split; [done|apply seq_eqb_refl].
Qed.
Lemma existsb_notin p (l : list (list N)) : existsb (seq_eqb p) l = false <-> ~ In p l.
Proof. rewrite <- existsb_in. by destruct (existsb _ _). Qed.

Lemma absorb_paths acc e :
  map e_path (map (fun a => if seq_eqb (e_path a) (e_path e) then absorb a e else a) acc) = map e_path acc.
Proof. rewrite map_map. apply map_ext. intros a. by destruct (seq_eqb _ _). Qed.

Lemma step_paths_nodup acc e : NoDup (map e_path acc) -> NoDup (map e_path (step acc e)).
Proof.
  intros H. unfold step. destruct (existsb _ _) eqn:He.
  - by rewrite absorb_paths.
  - apply existsb_notin in He. rewrite map_app. apply NoDup_app. split_and!; [done| |apply NoDup_singleton].
    intros x Hx Hy. apply elem_of_list_singleton in Hy as ->. apply He. by apply elem_of_list_In.
Qed.

Record dup_inv (store : list entry) (kept : list nat) (search : list (list N * nat)) acc : Prop := {
  di_store : Forall2 (fun p a => store !! p = Some a) kept acc;
  di_nodup : NoDup (map e_path acc);
  di_search : forall path q, search_get search path = Some q <->
     exists k a, kept !! k = Some q /\ acc !! k = Some a /\ e_path a = path }.

Lemma search_get_cons pa q search p :
  search_get ((pa, q) :: search) p = if seq_eqb pa p then Some q else search_get search p.
Proof. unfold search_get. simpl. by destruct (seq_eqb pa p). Qed.

Lemma NoDup_path_inj acc k k' a a' : NoDup (map e_path acc) -> acc !! k = Some a -> acc !! k' = Some a' ->
  e_path a = e_path a' -> k = k'.
Proof.
  intros Hnd H H' Hp. eapply NoDup_lookup; [exact Hnd| |].
  - rewrite list_lookup_fmap, H. done.
  - rewrite list_lookup_fmap, H'. simpl. by rewrite Hp.
Qed.

Lemma dup_loop_spec n : forall fuel store kept rest search acc,
  length rest = n -> (n <= fuel)%nat ->
  dup_inv store kept search acc -> NoDup (kept ++ rest) ->
  forall orig, Forall2 (fun p e => store !! p = Some e) rest orig ->
  exists store' kept', dup_loop fuel store (kept ++ rest) (length kept) search = Ok (store', kept') /\
     Forall2 (fun p a => store' !! p = Some a) kept' (fold_left step orig acc).
Proof.
  induction n as [|n IH]; intros fuel store kept rest search acc Hlen Hfuel Hinv Hnd orig Horig.
  - destruct rest; [|done]. apply Forall2_nil_inv_l in Horig as ->. simpl.
    assert ((kept ++ []) !! length kept = None) as Hl by (apply lookup_ge_None_2; rewrite app_nil_r; lia).
    exists store, kept. split; [|apply Hinv].
    destruct fuel; simpl; rewrite Hl; by rewrite app_nil_r.
  - destruct rest as [|p rest]; [done|]. destruct fuel as [|fuel]; [lia|].
    apply Forall2_cons_inv_l in Horig as (e & orig' & He & Horig & ->).
    simpl in Hlen. cbn [dup_loop].
    rewrite (list_lookup_middle kept rest p (length kept) eq_refl), He.
    destruct Hinv as [Hst Hpn Hse].
    destruct (search_get search (e_path e)) as [q|] eqn:Hs.
    + pose proof (proj1 (Hse _ _) Hs) as (k & a & Hk & Ha & Hpa).
      destruct (Forall2_lookup_l _ _ _ _ _ Hst Hk) as (a' & Ha' & Hq). rewrite Ha in Ha'. injection Ha' as <-.
      rewrite Hq.
      assert (Hdrop : take (length kept) (kept ++ p :: rest) ++ drop (S (length kept)) (kept ++ p :: rest) = kept ++ rest).
      { rewrite take_app. f_equal. change (S (length kept)) with (1 + length kept)%nat.
        rewrite Nat.add_comm. rewrite <- drop_drop, drop_app. done. }
      rewrite Hdrop.
      assert (Hstep : step acc e = map (fun a => if seq_eqb (e_path a) (e_path e) then absorb a e else a) acc).
      { unfold step. rewrite (proj2 (existsb_in _ _)); [done|]. rewrite <- Hpa. apply in_map.
        apply elem_of_list_In. by eapply elem_of_list_lookup_2. }
      assert (Hqk : In q kept) by (apply elem_of_list_In; by eapply elem_of_list_lookup_2).
      apply NoDup_app in Hnd as (Hnd1 & Hnd2 & Hnd3). apply NoDup_cons in Hnd3 as [Hpr Hnd3].
      simpl fold_left.
      eapply IH; [lia|lia| |  | ].
      * rewrite Hstep. split.
        -- apply Forall2_lookup. intros j.
           rewrite list_lookup_fmap. destruct (kept !! j) as [r|] eqn:Hj.
           ++ destruct (Forall2_lookup_l _ _ _ _ _ Hst Hj) as (b & Hb & Hrb). rewrite Hb. simpl. constructor.
              destruct (decide (r = q)) as [->|Hrq].
              ** assert (j = k) as -> by (apply (NoDup_lookup kept j k q); done). assert (b = a) as -> by congruence.
                 rewrite Hpa, seq_eqb_refl. apply list_lookup_insert. by eapply lookup_lt_Some.
              ** rewrite list_lookup_insert_ne by done.
                 destruct (seq_eqb_spec (e_path b) (e_path e)) as [Heq|]; [|done].
                 exfalso. apply Hrq. assert (j = k) as -> by (apply (NoDup_path_inj acc j k b a); [done|done|done|congruence]). congruence.
           ++ rewrite (proj2 (lookup_ge_None acc j)); [constructor|].
              apply Forall2_length in Hst. apply lookup_ge_None in Hj. lia.
        -- by rewrite absorb_paths.
        -- intros path q0. rewrite Hse. split.
           ++ intros (k0 & a0 & ? & Ha0 & ?). exists k0. eexists. split_and!; [done| |].
              { rewrite list_lookup_fmap, Ha0. done. }
              destruct (seq_eqb _ _); by subst.
           ++ intros (k0 & a0 & ? & Ha0 & ?). rewrite list_lookup_fmap in Ha0.
              destruct (acc !! k0) as [a1|] eqn:Ha1; [|done]. simpl in Ha0. injection Ha0 as <-.
              exists k0, a1. split_and!; try done. subst path. destruct (seq_eqb _ _); done.
      * apply NoDup_app. split_and!; [done| |done]. intros x Hx Hx2. apply (Hnd2 x Hx). by right.
      * apply Forall2_same_length_lookup. split; [by eapply Forall2_length|].
        intros j x b Hx Hb. destruct (Forall2_lookup_lr _ _ _ _ _ _ Horig Hx Hb).
        rewrite list_lookup_insert_ne; [done|].
        intros ->. apply (Hnd2 x); [by apply elem_of_list_In|]. right. by eapply elem_of_list_lookup_2.
    + assert (Hstep : step acc e = acc ++ [e]).
      { unfold step. rewrite (proj2 (existsb_notin _ _)); [done|]. intros Hin. apply in_map_iff in Hin as (a & Hpa & Hin).
        apply elem_of_list_In, elem_of_list_lookup in Hin as [k Hk].
        destruct (Forall2_lookup_r _ _ _ _ _ Hst Hk) as (q & Hq & _).
        assert (search_get search (e_path e) = Some q) by (apply Hse; eauto). congruence. }
      simpl fold_left.
      replace (kept ++ p :: rest) with ((kept ++ [p]) ++ rest) by (by rewrite <- app_assoc).
      replace (S (length kept)) with (length (kept ++ [p])) by (rewrite app_length; simpl; lia).
      eapply IH; [lia|lia| | |exact Horig].
      * rewrite Hstep. split.
        -- apply Forall2_app; [done|]. by repeat constructor.
        -- rewrite <- Hstep. by apply step_paths_nodup.
        -- intros path q. rewrite search_get_cons.
           destruct (seq_eqb_spec (e_path e) path) as [Hep|Hep].
           ++ split.
              ** intros [= ->]. exists (length kept), e. split_and!; [| |done].
                 { rewrite lookup_app_r, Nat.sub_diag by lia. done. }
                 { apply Forall2_length in Hst. rewrite Hst, lookup_app_r, Nat.sub_diag by lia. done. }
              ** intros (k & a & Hk & Ha & Hpa).
                 destruct (decide (k < length kept)%nat) as [Hlt|Hge].
                 { exfalso. pose proof (Forall2_length _ _ _ Hst). rewrite lookup_app_l in Hk by done. rewrite lookup_app_l in Ha by lia.
                   assert (search_get search (e_path e) = Some q) by (apply Hse; exists k, a; split_and!; congruence). congruence. }
                 { rewrite lookup_app_r in Hk by lia. apply list_lookup_singleton_Some in Hk as [_ ->]. done. }
           ++ rewrite Hse. split.
              ** intros (k & a & Hk & Ha & Hpa). exists k, a. split_and!; [by apply lookup_app_l_Some..|done].
              ** intros (k & a & Hk & Ha & Hpa). exists k, a.
                 pose proof (Forall2_length _ _ _ Hst) as HL.
                 destruct (decide (k < length kept)%nat) as [Hlt|Hge].
                 { rewrite lookup_app_l in Hk by done. rewrite lookup_app_l in Ha by lia. done. }
                 { exfalso. rewrite lookup_app_r in Ha by lia. apply list_lookup_singleton_Some in Ha as [_ ->]. done. }
      * by rewrite <- app_assoc.
Qed.

Lemma mapM_lookup (store : list entry) ps l :
  Forall2 (fun p a => store !! p = Some a) ps l -> mapM (fun p => store !! p) ps = Some l.
Proof. intros H. by apply mapM_Some. Qed.

Theorem merge_duplicates_eq y : merge_duplicates y = Ok (fold_left step y []).
Proof.
  unfold merge_duplicates.
  destruct (dup_loop_spec (length y) (length y) y [] (seq 0 (length y)) [] []) with (orig := y) as (st & k & Heq & HF).
  - by rewrite seq_length.
  - done.
  - split; [constructor|constructor|]. intros path q. split; [done|]. intros (k & a & Hk & _). by rewrite lookup_nil in Hk.
  - apply NoDup_seq.
  - apply Forall2_same_length_lookup. split; [by rewrite seq_length|].
    intros i p e Hp He. apply lookup_seq in Hp as [-> _]. done.
  - simpl in Heq. rewrite Heq. simpl. by rewrite (mapM_lookup _ _ _ HF).
Qed.

(** Facts about the fold. *)
Lemma dedup_snoc seen l p : dedup seen (l ++ [p]) =
  dedup seen l ++ (if existsb (seq_eqb p) (seen ++ l) then [] else [p]).
Proof.
  revert seen; induction l as [|x l IH]; intros seen; simpl.
  - rewrite app_nil_r. by destruct (existsb _ _).
  - destruct (existsb (seq_eqb x) seen) eqn:Hx.
    + rewrite IH. f_equal. apply existsb_in in Hx.
      destruct (existsb (seq_eqb p) (seen ++ x :: l)) eqn:H1.
      * apply existsb_in in H1. rewrite (proj2 (existsb_in p (seen ++ l))); [done|].
        apply in_app_iff. apply in_app_iff in H1 as [?|[->|?]]; auto.
      * apply existsb_notin in H1. rewrite (proj2 (existsb_notin p (seen ++ l))); [done|].
        intros H. apply H1. apply in_app_iff. apply in_app_iff in H as [?|?]; [auto|right; by right].
    + rewrite IH. simpl. f_equal. f_equal.
      destruct (existsb (seq_eqb p) (seen ++ x :: l)) eqn:H1.
      * apply existsb_in in H1. apply in_app_iff in H1 as [H1|[->|H1]].
        -- rewrite (proj2 (existsb_in p (seen ++ l))); [by rewrite orb_true_r|]. apply in_app_iff; auto.
        -- by rewrite seq_eqb_refl.
        -- rewrite (proj2 (existsb_in p (seen ++ l))); [by rewrite orb_true_r|]. apply in_app_iff; auto.
      * apply existsb_notin in H1. rewrite (proj2 (existsb_notin p (seen ++ l))).
        -- destruct (seq_eqb_spec p x) as [->|]; [|done]. exfalso. apply H1, in_app_iff. right; by left.
        -- intros H. apply H1. apply in_app_iff. apply in_app_iff in H as [?|?]; [auto|right; by right].
Qed.

Lemma last_nonempty_snoc l s : last_nonempty (l ++ [s]) = match s with [] => last_nonempty l | _ => s end.
Proof.
  induction l as [|x l IH]; simpl; [by destruct s|]. rewrite IH. by destruct s.
Qed.

Lemma entries_for_app p y y' : entries_for p (y ++ y') = entries_for p y ++ entries_for p y'.
Proof. apply List.filter_app. Qed.

Lemma entries_for_none p y : ~ In p (map e_path y) -> entries_for p y = [].
Proof.
  induction y as [|e y IH]; simpl; [done|]. intros H. destruct (seq_eqb_spec (e_path e) p) as [Heq|].
  - exfalso. apply H. by left.
  - apply IH. intros ?; apply H; by right.
Qed.

Lemma fold_step_snoc y e : fold_left step (y ++ [e]) [] = step (fold_left step y []) e.
Proof. by rewrite fold_left_app. Qed.

Lemma fold_paths y : map e_path (fold_left step y []) = dedup [] (map e_path y) /\
  (forall p, In p (dedup [] (map e_path y)) <-> In p (map e_path y)).
Proof.
  induction y as [|e y IH] using rev_ind; [done|]. destruct IH as [IH1 IH2].
  rewrite fold_step_snoc, map_app. simpl. rewrite dedup_snoc. simpl.
  set (acc := fold_left step y []) in *. unfold step. rewrite IH1.
  assert (existsb (seq_eqb (e_path e)) (dedup [] (map e_path y)) = existsb (seq_eqb (e_path e)) (map e_path y)) as ->.
  { destruct (existsb _ (map e_path y)) eqn:H.
    - apply existsb_in, IH2. by apply existsb_in in H.
    - apply existsb_notin. rewrite IH2. by apply existsb_notin in H. }
  destruct (existsb (seq_eqb (e_path e)) (map e_path y)) eqn:H.
  - rewrite absorb_paths, app_nil_r. split; [done|]. intros p. rewrite in_app_iff, IH2. simpl.
    apply existsb_in in H. split; [auto|]. intros [?|[<-|[]]]; auto.
  - rewrite map_app, IH1. split; [done|]. intros p. rewrite !in_app_iff, IH2. done.
Qed.

Lemma fold_content y a : In a (fold_left step y []) ->
  let G := entries_for (e_path a) y in
  e_overlays a = concat (map e_overlays G) /\ e_documents a = concat (map e_documents G) /\
  e_output a = last_nonempty (map e_output G) /\
  exists first rest, G = first :: rest /\ e_name a = e_name first /\ e_nodes a = e_nodes first.
Proof.
  revert a; induction y as [|e y IH] using rev_ind; [done|]. intros a. rewrite fold_step_snoc.
  destruct (fold_paths y) as [HP HQ]. set (acc := fold_left step y []) in *. unfold step.
  destruct (existsb _ _) eqn:He.
  - intros (b & Hb & Hin)%in_map_iff. specialize (IH b Hin).
    destruct (seq_eqb_spec (e_path b) (e_path e)) as [Hp|Hp].
    + subst a. unfold absorb. cbn [e_overlays e_documents e_output e_name e_nodes e_path].
      rewrite entries_for_app. simpl. rewrite Hp, seq_eqb_refl. rewrite Hp in IH.
      destruct IH as (H1 & H2 & H3 & first & rest & Hg & Hn & Hno).
      cbn zeta. rewrite !map_app, !concat_app. simpl. rewrite !app_nil_r, last_nonempty_snoc, H1, H2.
      split_and!; [done|done| |].
      * destruct (seq_eqb_spec (e_output e) []) as [->|Hne]; [done|]. by destruct (e_output e).
      * rewrite Hg. exists first, (rest ++ [e]). done.
    + subst a. rewrite entries_for_app. simpl. destruct (seq_eqb_spec (e_path e) (e_path b)); [congruence|].
      by rewrite app_nil_r.
  - apply existsb_notin in He. intros [Hin|[<-|[]]]%in_app_iff.
    + assert (e_path a <> e_path e) as Hne.
      { intros Heq. apply He. rewrite <- Heq. by apply in_map. }
      rewrite entries_for_app. simpl. destruct (seq_eqb_spec (e_path e) (e_path a)); [congruence|].
      rewrite app_nil_r. by apply IH.
    + rewrite entries_for_app. simpl. rewrite seq_eqb_refl.
      rewrite (entries_for_none (e_path e) y) by (rewrite <- HQ, <- HP; done). simpl.
      rewrite !app_nil_r. split_and!; [done|done|by destruct (e_output e)|]. by exists e, [].
Qed.

(** ** expandDirectories *)
Lemma located_path instdir e : e_path e <> lit "-" -> located instdir e = with_path (resolve instdir (e_path e)) e.
Proof. intros H. unfold located. by destruct (seq_eqb_spec (e_path e) (lit "-")). Qed.

Lemma drop_middle {A} (pre : list A) x rest : take (length pre) (pre ++ x :: rest) ++ drop (S (length pre)) (pre ++ x :: rest) = pre ++ rest.
Proof.
  rewrite take_app. f_equal. change (S (length pre)) with (1 + length pre)%nat.
  rewrite Nat.add_comm. rewrite <- drop_drop, drop_app. done.
Qed.

(** Scanning entries that are all located, non-directories, changes nothing. *)
Lemma expand_plain f instdir rest : forall fuel pre,
  (length rest <= fuel)%nat ->
  Forall (fun e => e_path e <> lit "-" /\ resolve instdir (e_path e) = e_path e /\ fs_stat f (e_path e) = Some false) rest ->
  expand_loop fuel f instdir (pre ++ rest) (length pre) = Ok (pre ++ rest).
Proof.
  induction rest as [|e rest IH]; intros fuel pre Hlen Hall.
  - assert ((pre ++ []) !! length pre = None) as Hl by (apply lookup_ge_None_2; rewrite app_nil_r; lia).
    destruct fuel; simpl; by rewrite Hl.
  - destruct fuel as [|fuel]; simpl in Hlen; [lia|]. apply Forall_cons in Hall as [(Hd & Hr & Hs) Hall].
    cbn [expand_loop]. rewrite (list_lookup_middle pre rest e (length pre) eq_refl).
    destruct (seq_eqb_spec (e_path e) (lit "-")) as [|_]; [done|].
    assert (with_path (resolve instdir (e_path e)) e = e) as -> by (rewrite Hr; by destruct e). rewrite Hs.
    rewrite insert_app_r_alt, Nat.sub_diag by lia. simpl.
    replace (pre ++ e :: rest) with ((pre ++ [e]) ++ rest) by (by rewrite <- app_assoc).
    replace (S (length pre)) with (length (pre ++ [e])) by (rewrite app_length; simpl; lia).
    apply IH; [lia|done].
Qed.

Lemma expand_ok f instdir todo : walks_files f instdir -> forall pre tail,
  Forall (expandable f) (map (located instdir) todo) ->
  Forall (fun e => e_path e = lit "-" \/ resolve instdir (e_path e) <> lit "-") todo ->
  Forall (fun e => e_path e <> lit "-" /\ resolve instdir (e_path e) = e_path e /\ fs_stat f (e_path e) = Some false) tail ->
  let L := map (located instdir) todo in
  exists F, forall fuel, (F <= fuel)%nat ->
    expand_loop fuel f instdir (pre ++ todo ++ tail) (length pre) =
    Ok (pre ++ List.filter (fun e => negb (is_dir_entry f e)) L ++ tail ++ concat (map (files_of f) (List.filter (is_dir_entry f) L))).
Proof.
  intros Hw. induction todo as [|e todo IH]; intros pre tail Hex Hdash Htail L.
  - exists (length tail). intros fuel Hf. subst L. simpl. rewrite app_nil_r. by apply expand_plain.
  - subst L. simpl in Hex. apply Forall_cons in Hex as [He Hex]. apply Forall_cons in Hdash as [Hda Hdash].
    destruct (decide (e_path e = lit "-")) as [Hd|Hd].
    + (* standard input *)
      destruct (IH (pre ++ [e]) tail Hex Hdash Htail) as [F HF]. exists (S F). intros [|fuel] Hle; [lia|].
      cbn [expand_loop app]. rewrite (list_lookup_middle pre (todo ++ tail) e (length pre) eq_refl).
      rewrite Hd, seq_eqb_refl.
      replace (pre ++ e :: todo ++ tail) with ((pre ++ [e]) ++ todo ++ tail) by (by rewrite <- app_assoc).
      replace (S (length pre)) with (length (pre ++ [e])) by (rewrite app_length; simpl; lia).
      rewrite HF by lia. f_equal.
      assert (located instdir e = e) as Hloc by (unfold located; by rewrite Hd, seq_eqb_refl).
      assert (is_dir_entry f e = false) as Hdir by (unfold is_dir_entry; by rewrite Hd, seq_eqb_refl).
      cbn [map List.filter]. rewrite Hloc, Hdir. cbn [negb]. by rewrite <- app_assoc.
    + set (e' := with_path (resolve instdir (e_path e)) e).
      assert (Hloc : located instdir e = e') by (by apply located_path).
      rewrite Hloc in He.
      assert (Hmid : (pre ++ e :: todo ++ tail) !! length pre = Some e) by (by apply list_lookup_middle).
      assert (Hins : <[ length pre := e' ]> (pre ++ e :: todo ++ tail) = pre ++ e' :: todo ++ tail).
      { rewrite insert_app_r_alt, Nat.sub_diag by lia. done. }
      assert (Hcase : is_dir_entry f e' = false /\ fs_stat f (e_path e') = Some false /\ (True) \/
                      e_path e' = lit "-" \/
                      (e_path e' <> lit "-" /\ fs_stat f (e_path e') = Some true /\ path_ext (e_output e') = [] /\ exists ps, fs_walk f (e_path e') = Some ps)).
      { destruct (decide (e_path e' = lit "-")) as [|Hne]; [by right; left|].
        destruct He as [?|[Hs|Hs]]; [done| |by right; right].
        left. split_and!; [|done|done]. unfold is_dir_entry. rewrite Hs. by rewrite andb_false_r. }
      destruct Hcase as [(Hnd & Hs & _)|[Hda'|(Hne & Hs & Hext & ps & Hwk)]].
      * destruct (IH (pre ++ [e']) tail Hex Hdash Htail) as [F HF]. exists (S F). intros [|fuel] Hle; [lia|].
        cbn [expand_loop app]. rewrite Hmid. destruct (seq_eqb_spec (e_path e) (lit "-")) as [|_]; [done|].
        fold e'. rewrite Hs. rewrite Hins.
        replace (pre ++ e' :: todo ++ tail) with ((pre ++ [e']) ++ todo ++ tail) by (by rewrite <- app_assoc).
        replace (S (length pre)) with (length (pre ++ [e'])) by (rewrite app_length; simpl; lia).
        rewrite HF by lia. f_equal. cbn [map List.filter]. rewrite Hloc, Hnd. cbn [negb]. by rewrite <- app_assoc.
      * (* resolution never yields "-" *)
        exfalso. by destruct Hda.
      * set (new := map (sub_entry e') ps).
        destruct (IH pre (tail ++ new) Hex Hdash) as [F HF].
        { apply Forall_app; split; [done|]. subst new. apply Forall_map. apply Forall_forall. intros p Hp. simpl.
          apply (Hw _ _ _ Hwk). by apply elem_of_list_In. }
        exists (S F). intros [|fuel] Hle; [lia|].
        cbn [expand_loop app]. rewrite Hmid. destruct (seq_eqb_spec (e_path e) (lit "-")) as [|_]; [done|].
        fold e'. rewrite Hs, Hext, Hwk. cbn [seq_eqb negb]. rewrite Hins. fold new.
        replace ((pre ++ e' :: todo ++ tail) ++ new) with (pre ++ e' :: (todo ++ tail ++ new)) by (by rewrite <- app_assoc, <- !app_comm_cons, <- app_assoc).
        rewrite drop_middle. rewrite HF by lia. f_equal. cbn [map List.filter]. rewrite Hloc.
        assert (is_dir_entry f e' = true) as ->.
        { unfold is_dir_entry. rewrite Hs. by destruct (seq_eqb_spec (e_path e') (lit "-")). }
        cbn [negb map concat]. f_equal. f_equal. rewrite <- app_assoc. f_equal.
        subst new. unfold files_of at 2. rewrite Hwk. done.
Qed.

Lemma expandable_dec f e : expandable f e \/
  e_path e <> lit "-" /\ (fs_stat f (e_path e) = None \/
   fs_stat f (e_path e) = Some true /\ (path_ext (e_output e) <> [] \/ fs_walk f (e_path e) = None)).
Proof.
  unfold expandable. destruct (decide (e_path e = lit "-")); [tauto|].
  destruct (fs_stat f (e_path e)) as [[|]|]; [|tauto|tauto].
  destruct (decide (path_ext (e_output e) = [])); [|tauto].
  destruct (fs_walk f (e_path e)) as [ps|]; [left; right; right; eauto|tauto].
Qed.

Lemma all_expandable_dec f y : Forall (expandable f) y \/ ~ Forall (expandable f) y.
Proof.
  induction y as [|e l IH]; [left; constructor|].
  destruct (expandable_dec f e) as [He|He].
  - destruct IH as [IH|IH]; [left; by constructor|right]. by intros [_ ?]%Forall_cons.
  - right. intros [[?|[?|(?&?&?&?)]] _]%Forall_cons; destruct He as (?&[?|(?&[?|?])]); congruence.
Qed.

Lemma expand_err f instdir todo : forall pre tail,
  ~ Forall (expandable f) (map (located instdir) todo) ->
  Forall (fun e => e_path e = lit "-" \/ resolve instdir (e_path e) <> lit "-") todo ->
  exists F er, (er = EFs \/ er = EDirWithFileOutput) /\ forall fuel, (F <= fuel)%nat ->
    expand_loop fuel f instdir (pre ++ todo ++ tail) (length pre) = Err er.
Proof.
  induction todo as [|e todo IH]; intros pre tail Hex Hdash; [by destruct Hex; constructor|].
  apply Forall_cons in Hdash as [Hda Hdash].
  assert (Hmid : (pre ++ e :: todo ++ tail) !! length pre = Some e) by (by apply list_lookup_middle).
  destruct (decide (e_path e = lit "-")) as [Hd|Hd].
  - destruct (IH (pre ++ [e]) tail) as (F & er & Her & HF).
    { intros Hall. apply Hex. simpl. constructor; [|done]. left. unfold located. by rewrite Hd, seq_eqb_refl. }
    { done. }
    exists (S F), er. split; [done|]. intros [|fuel] Hle; [lia|].
    cbn [expand_loop app]. rewrite Hmid, Hd, seq_eqb_refl.
    replace (pre ++ e :: todo ++ tail) with ((pre ++ [e]) ++ todo ++ tail) by (by rewrite <- app_assoc).
    replace (S (length pre)) with (length (pre ++ [e])) by (rewrite app_length; simpl; lia).
    apply HF. lia.
  - set (e' := with_path (resolve instdir (e_path e)) e).
    assert (Hloc : located instdir e = e') by (by apply located_path).
    assert (Hins : <[ length pre := e' ]> (pre ++ e :: todo ++ tail) = pre ++ e' :: todo ++ tail).
    { rewrite insert_app_r_alt, Nat.sub_diag by lia. done. }
    assert (Hne : e_path e' <> lit "-") by (by destruct Hda).
    destruct (expandable_dec f e') as [Hok|(_ & Hbad)].
    + assert (Hrest : ~ Forall (expandable f) (map (located instdir) todo)).
      { intros Hall. apply Hex. simpl. rewrite Hloc. by constructor. }
      destruct Hok as [?|[Hs|(Hs & Hext & ps & Hwk)]]; [done| |].
      * destruct (IH (pre ++ [e']) tail Hrest Hdash) as (F & er & Her & HF).
        exists (S F), er. split; [done|]. intros [|fuel] Hle; [lia|].
        cbn [expand_loop app]. rewrite Hmid. destruct (seq_eqb_spec (e_path e) (lit "-")) as [|_]; [done|].
        fold e'. rewrite Hs, Hins.
        replace (pre ++ e' :: todo ++ tail) with ((pre ++ [e']) ++ todo ++ tail) by (by rewrite <- app_assoc).
        replace (S (length pre)) with (length (pre ++ [e'])) by (rewrite app_length; simpl; lia).
        apply HF. lia.
      * set (new := map (sub_entry e') ps).
        destruct (IH pre (tail ++ new) Hrest Hdash) as (F & er & Her & HF).
        exists (S F), er. split; [done|]. intros [|fuel] Hle; [lia|].
        cbn [expand_loop app]. rewrite Hmid. destruct (seq_eqb_spec (e_path e) (lit "-")) as [|_]; [done|].
        fold e'. rewrite Hs, Hext, Hwk. cbn [seq_eqb negb]. rewrite Hins. fold new.
        replace ((pre ++ e' :: todo ++ tail) ++ new) with (pre ++ e' :: (todo ++ tail ++ new)) by (by rewrite <- app_assoc, <- !app_comm_cons, <- app_assoc).
        rewrite drop_middle. apply HF. lia.
    + destruct Hbad as [Hs|(Hs & Hbad)].
      * exists 1%nat, EFs. split; [by left|]. intros [|fuel] Hle; [lia|].
        cbn [expand_loop app]. rewrite Hmid. destruct (seq_eqb_spec (e_path e) (lit "-")) as [|_]; [done|].
        fold e'. by rewrite Hs.
      * destruct (decide (path_ext (e_output e') = [])) as [Hext|Hext].
        -- destruct Hbad as [?|Hwk]; [done|]. exists 1%nat, EFs. split; [by left|]. intros [|fuel] Hle; [lia|].
           cbn [expand_loop app]. rewrite Hmid. destruct (seq_eqb_spec (e_path e) (lit "-")) as [|_]; [done|].
           fold e'. rewrite Hs, Hext, Hwk. done.
        -- exists 1%nat, EDirWithFileOutput. split; [by right|]. intros [|fuel] Hle; [lia|].
           cbn [expand_loop app]. rewrite Hmid. destruct (seq_eqb_spec (e_path e) (lit "-")) as [|_]; [done|].
           fold e'. rewrite Hs. by destruct (seq_eqb_spec (path_ext (e_output e')) []).
Qed.
End prooffiles.
