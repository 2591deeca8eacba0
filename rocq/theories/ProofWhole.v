From Verif Require Import Prelude GoStrings Format Yaml Heap Overlay Queue PropsQueue Paths Files SpecFiles Slices SpecSlices Prepare SpecPrepare
  Pipeline SpecPipeline Execute SpecExecute ProofSame SpecDocs PropsDocs Decode Flags Template SpecOutcome Whole SpecWhole.

Section rel.
Context (os : list overlay).
(** Numbers and the overlays they stand for. *)
Definition nrel (k : nat) (o : overlay) : Prop := os !! k = Some o.
Definition drel (d : document nat) (d' : document overlay) : Prop := d_path d = d_path d' /\ Forall2 nrel (d_overlays d) (d_overlays d').
Definition erel (e : entry nat (document nat) loc) (e' : entry overlay (document overlay) loc) : Prop :=
  e_name e = e_name e' /\ Forall2 nrel (e_overlays e) (e_overlays e') /\ Forall2 drel (e_documents e) (e_documents e') /\
  e_nodes e = e_nodes e' /\ e_path e = e_path e' /\ e_output e = e_output e'.

Lemma nrel_seq pre l post : os = pre ++ l ++ post -> Forall2 nrel (seq (length pre) (length l)) l.
Proof.
  revert pre. induction l as [|o l IH]; intros pre E; [constructor|]. cbn [length seq]. constructor.
  - unfold nrel. rewrite E, lookup_app_r, Nat.sub_diag by lia. done.
  - specialize (IH (pre ++ [o])). rewrite app_length in IH. cbn [length] in IH. rewrite Nat.add_1_r in IH. apply IH. rewrite E. by rewrite <- app_assoc.
Qed.
Lemma documents_rel ds : forall pre post, os = pre ++ concat (map d_overlays ds) ++ post -> Forall2 drel (number_documents (length pre) ds) ds.
Proof.
  induction ds as [|d ds IH]; intros pre post E; [constructor|]. cbn [number_documents map concat] in *. constructor.
  - split; [done|]. cbn [d_overlays]. eapply (nrel_seq _ _ (concat (map d_overlays ds) ++ post)). by rewrite E, <- app_assoc.
  - rewrite <- app_length. eapply (IH _ post). by rewrite E, <- !app_assoc.
Qed.
Lemma entries_rel y : forall pre post, os = pre ++ concat (map entry_overlays y) ++ post -> Forall2 erel (number_entries (length pre) y) y.
Proof.
  induction y as [|e y IH]; intros pre post E; [constructor|]. cbn [number_entries map concat] in *. constructor.
  - unfold number_entry. split_and!; try done; cbn [e_overlays e_documents].
    + eapply (nrel_seq _ _ (concat (map d_overlays (e_documents e)) ++ concat (map entry_overlays y) ++ post)).
      rewrite E. unfold entry_overlays at 1. by rewrite <- !app_assoc.
    + rewrite <- app_length. eapply (documents_rel _ _ (concat (map entry_overlays y) ++ post)). rewrite E. unfold entry_overlays at 1. by rewrite <- !app_assoc.
  - rewrite <- app_length. eapply (IH _ post). by rewrite E, <- !app_assoc.
Qed.

Lemma filter_rel {A B} (R : A -> B -> Prop) (p : A -> bool) (q : B -> bool) l l' :
  Forall2 R l l' -> (forall a b, R a b -> p a = q b) -> Forall2 R (List.filter p l) (List.filter q l').
Proof. intros F H. induction F as [|a b l l' Hab F IH]; [constructor|]. cbn [List.filter]. rewrite (H a b Hab). destruct (q b); [by constructor|done]. Qed.
Lemma filter_rel' {A B} (R : A -> B -> Prop) (P : A -> Prop) (Q : B -> Prop) `{forall a, Decision (P a)} `{forall b, Decision (Q b)} l l' :
  Forall2 R l l' -> (forall a b, R a b -> P a <-> Q b) -> Forall2 R (base.filter P l) (base.filter Q l').
Proof.
  intros F X. induction F as [|a b l l' Hab F IH]; [constructor|]. rewrite !filter_cons. specialize (X a b Hab).
  destruct (decide (P a)), (decide (Q b)); try tauto. by constructor.
Qed.
Lemma concat_rel {A B C D} (R : A -> B -> Prop) (S : C -> D -> Prop) (f : A -> list C) (g : B -> list D) l l' :
  Forall2 R l l' -> (forall a b, R a b -> Forall2 S (f a) (g b)) -> Forall2 S (concat (map f l)) (concat (map g l')).
Proof. intros F H. induction F as [|a b l l' Hab F IH]; [constructor|]. cbn [map concat]. apply Forall2_app; [by apply H|done]. Qed.

Lemma located_rel d e e' : erel e e' -> erel (located d e) (located d e').
Proof.
  intros (H1 & H2 & H3 & H4 & H5 & H6). unfold located. rewrite H5. destruct (seq_eqb _ _); [by split_and!|]. unfold with_path. by split_and!.
Qed.
Lemma is_dir_rel f e e' : erel e e' -> is_dir_entry f e = is_dir_entry f e'.
Proof. intros (_ & _ & _ & _ & H5 & _). unfold is_dir_entry. by rewrite H5. Qed.
Lemma files_rel f e e' : erel e e' -> Forall2 erel (files_of f e) (files_of f e').
Proof.
  intros (H1 & H2 & H3 & H4 & H5 & H6). unfold files_of. rewrite H5. destruct (fs_walk _ _) as [ps|]; [|constructor].
  induction ps as [|p ps IH]; [constructor|]. cbn [map]. constructor; [|done]. by split_and!.
Qed.
Lemma expanded_rel f d y y' : Forall2 erel y y' -> Forall2 erel (expanded f d y) (expanded f d y').
Proof.
  intros H. assert (L : Forall2 erel (map (located d) y) (map (located d) y')).
  { induction H; cbn [map]; constructor; [by apply located_rel|done]. }
  unfold expanded. apply Forall2_app.
  - eapply filter_rel; [exact L|]. intros a b Hab. by rewrite (is_dir_rel f a b Hab).
  - apply (concat_rel erel erel); [|apply files_rel]. eapply filter_rel; [exact L|]. apply is_dir_rel.
Qed.
Lemma entries_for_rel p y y' : Forall2 erel y y' -> Forall2 erel (entries_for p y) (entries_for p y').
Proof. intros H. eapply filter_rel; [exact H|]. intros a b (_ & _ & _ & _ & -> & _). done. Qed.
Lemma paths_rel y y' : Forall2 erel y y' -> map e_path y = map e_path y'.
Proof. intros H. induction H as [|a b y y' (_ & _ & _ & _ & Hp & _) H IH]; [done|]. cbn [map]. by rewrite Hp, IH. Qed.
Lemma outputs_rel y y' : Forall2 erel y y' -> map e_output y = map e_output y'.
Proof. intros H. induction H as [|a b y y' (_ & _ & _ & _ & _ & Hp) H IH]; [done|]. cbn [map]. by rewrite Hp, IH. Qed.
Lemma place_rel y y' p o : Forall2 erel y y' -> place_of y p o -> place_of y' p o.
Proof.
  intros H (k & H1 & H2). rewrite (paths_rel _ _ H) in H1, H2. exists k. split; [done|]. rewrite <- H2. f_equal. f_equal. apply map_ext. intros q.
  by rewrite (outputs_rel _ _ (entries_for_rel q _ _ H)).
Qed.
Lemma written_rel y y' text b dir w0 w : Forall2 erel y y' -> texts_written y text b dir w0 w -> texts_written y' text b dir w0 w.
Proof.
  intros H (order & places & H1 & H2 & H3). exists order, places. rewrite (paths_rel _ _ H) in H1. split; [done|]. split; [|done].
  eapply Forall2_impl; [exact H2|]. intros p o. by apply place_rel.
Qed.
Lemma overwritten_rel own own' later later' : Forall2 nrel own own' -> Forall2 (Forall2 nrel) later later' -> Forall2 nrel (overwritten own later) (overwritten own' later').
Proof.
  intros HO HL. unfold overwritten. rewrite (Forall2_length _ _ _ HO). apply Forall2_take.
  revert own own' HO. induction HL as [|a b later later' Hab HL IH]; intros own own' HO; [done|]. cbn [fold_left]. apply IH.
  unfold overwrite. rewrite (Forall2_length _ _ _ Hab). apply Forall2_app; [done|by apply Forall2_drop].
Qed.
Lemma after_sharing_rel room owns owns' : Forall2 (Forall2 nrel) owns owns' -> Forall2 (Forall2 nrel) (after_sharing room owns) (after_sharing room owns').
Proof.
  intros H. unfold after_sharing. apply Forall2_lookup. intros i. rewrite !list_lookup_imap. pose proof (proj1 (Forall2_lookup _ _ _) H i) as Hi.
  destruct Hi as [own own' Ho|]; cbn; [|constructor]. constructor. rewrite (Forall2_length _ _ _ Ho). destruct (Nat.leb _ _); [|done].
  apply overwritten_rel; [done|]. eapply filter_rel; [by apply Forall2_drop|]. intros a b Hab. by rewrite (Forall2_length _ _ _ Hab).
Qed.
Lemma own_in_force_rel room y y' p : Forall2 erel y y' -> Forall2 nrel (own_in_force room y p) (own_in_force room y' p).
Proof.
  intros H. unfold own_in_force. rewrite (paths_rel _ _ H). destruct (list_find _ _) as [[k q]|]; [|constructor].
  assert (X : Forall2 (Forall2 nrel) (map (own_overlays y) (dedup [] (map e_path y'))) (map (own_overlays y') (dedup [] (map e_path y')))).
  { induction (dedup [] (map e_path y')) as [|a l IH]; cbn [map]; constructor; [|done].
    apply (concat_rel erel); [by apply entries_for_rel|]. by intros ? ? (_ & ? & _). }
  destruct (proj1 (Forall2_lookup _ _ _) (after_sharing_rel room _ _ X) k) as [own own' Ho|]; [done|constructor].
Qed.
Lemma wants_rel j k o : nrel k o -> wants (index_of os) j k <-> wants o_index j o.
Proof. unfold nrel, wants, index_of. intros ->. done. Qed.

(** *** Running table entries is applying the overlays *)
Section run.
Context (fuel : nat) (sed : sed_engine) (dflt : list N).
Definition fresh_enough (t : list overlay) : Prop :=
  length t = length os /\ forall k o o', t !! k = Some o -> os !! k = Some o' -> resolve_missing dflt o = resolve_missing dflt o'.
Lemma apply_resolved o o' d h : resolve_missing dflt o = resolve_missing dflt o' -> apply_m fuel sed dflt o d h = apply_m fuel sed dflt o' d h.
Proof.
  intros E. rewrite !apply_m_eq. destruct (resolve_fields dflt o) as (Q1 & V1 & A1 & D1 & _ & _). destruct (resolve_fields dflt o') as (Q2 & V2 & A2 & D2 & _ & _).
  rewrite E in *. rewrite <- Q1, <- V1, <- A1, <- D1, Q2, V2, A2, D2. done.
Qed.
Lemma run_all_apply_each ks l d z : Forall2 nrel ks l -> forall t h, fresh_enough t ->
  let '(m, r) := run_all (run_work fuel sed dflt) (map (fun k => mkWork k d z) ks) (h, t) in
  apply_each fuel sed dflt l d h = (fst m, r).
Proof.
  intros F. induction F as [|k o ks l Hk F IH]; intros t h Ht; [done|]. cbn [map run_all apply_each].
  unfold run_work at 1. cbn [snd fst w_overlay w_node]. destruct Ht as [TL T].
  assert (exists o', t !! k = Some o') as [o' Ho']. { apply lookup_lt_is_Some. rewrite TL. by eapply lookup_lt_Some. }
  rewrite Ho'. pose proof (T k o' o Ho' Hk) as RE. pose proof (apply_resolved o' o d h RE) as AM. unfold apply_m in AM.
  pose proof (ProofExecute.apply_overlay fuel sed dflt o' d h) as AO.
  destruct (apply fuel sed dflt o' d h) as [[h1 o1] r1]. destruct (apply fuel sed dflt o d h) as [[h2 o2] r2]. cbn [fst snd] in *. injection AM as <- <-.
  destruct r1 as [[]| | |]; try done. apply IH. split; [by rewrite insert_length|]. intros k2 p p' P P'. destruct (decide (k = k2)) as [<-|NE].
  - rewrite list_lookup_insert in P by (by eapply lookup_lt_Some). injection P as <-. rewrite <- (T k o' p' Ho' P').
    destruct AO as [->| ->]; [done|apply ProofExecute.resolve_idem].
  - rewrite list_lookup_insert_ne in P by done. eauto.
Qed.
Lemma fresh_self : fresh_enough os.
Proof. split; [done|]. intros k o o' H H'. congruence. Qed.
End run.
End rel.
