From Verif Require Import Prelude GoStrings Format Yaml Heap Overlay SpecReach SpecSame ProofSame Queue PropsQueue Paths Render
  Pipeline SpecPipeline ProofPipeline Execute SpecExecute ProofExecute SpecDocs.

Section docs.
Context (fuel : nat) (sed : sed_engine) (dflt : list N) (files : list yfile) (os : list overlay) (h0 : heap).
Hypothesis setup : set_up files os h0.
Context (f : yfile) (Hf : In f files) (Hap : docs_apart h0 f).

Local Notation Run := (run_work fuel sed dflt).
Local Notation own := (on_its_own fuel sed dflt os h0 f).

(** Every document as a file of its own. *)
Definition doc_files : list yfile :=
  imap (fun j d => mkFile [d] [] [mkDocument 0 (meant_for os f j)] []) (yf_nodes f).

Lemma doc_files_lookup j : doc_files !! j = (fun d => mkFile [d] [] [mkDocument 0 (meant_for os f j)] []) <$> (yf_nodes f !! j).
Proof. unfold doc_files. by rewrite list_lookup_imap. Qed.
Lemma doc_files_in g : In g doc_files -> exists j d, yf_nodes f !! j = Some d /\ g = mkFile [d] [] [mkDocument 0 (meant_for os f j)] [].
Proof.
  intros [j Hj]%elem_of_list_In%elem_of_list_lookup. rewrite doc_files_lookup in Hj.
  destruct (yf_nodes f !! j) as [d|] eqn:Hd; [|done]. injection Hj as <-. by exists j, d.
Qed.
Lemma node_in j d : yf_nodes f !! j = Some d -> In d (yf_nodes f).
Proof. intros H. apply elem_of_list_In. by eapply elem_of_list_lookup_2. Qed.

Lemma doc_set_up : set_up doc_files os h0.
Proof.
  destruct setup as [S1 S2 S3 S4 S5 S6 S7]. constructor; try done.
  - intros g d (j & d' & Hj & ->)%doc_files_in [<-|[]]. eapply S2; [exact Hf|]. by eapply node_in.
  - intros g k (j & d' & Hj & ->)%doc_files_in [[]|(e & [<-|[]] & Hk)]. cbn [d_overlays] in Hk.
    unfold meant_for in Hk. apply in_app_iff in Hk as [Hk|Hk].
    + eapply S5; [exact Hf|]. left. apply elem_of_list_In in Hk. apply elem_of_list_filter in Hk as [_ Hk]. by apply elem_of_list_In.
    + eapply S5; [exact Hf|]. right. apply in_concat in Hk as (l & Hl & Hk). apply in_map_iff in Hl as (e & <- & He).
      exists e. split; [|done]. apply elem_of_list_In in He. apply elem_of_list_filter in He as [_ He]. by apply elem_of_list_In.
  - intros i j g g' d e x Hi Hj Hij. rewrite doc_files_lookup in Hi, Hj.
    destruct (yf_nodes f !! i) as [d1|] eqn:H1; [|done]. destruct (yf_nodes f !! j) as [d2|] eqn:H2; [|done].
    injection Hi as <-. injection Hj as <-. intros [<-|[]] [<-|[]]. by eapply Hap.
  - intros g d o v x (j & d' & Hj & ->)%doc_files_in [<-|[]] Ho Hv. eapply S7; eauto. by eapply node_in.
Qed.

Local Notation dworks := (map (file_work os) doc_files).
Definition dwork (j : nat) (d : loc) : list (workload nat loc) := map (fun k => mkWork k d 0) (meant_for os f j).
Lemma dworks_lookup j d : yf_nodes f !! j = Some d -> dworks !! j = Some (dwork j d).
Proof.
  intros Hj. rewrite list_lookup_fmap, doc_files_lookup, Hj. cbn [fmap option_fmap option_map]. f_equal.
  unfold file_work, dwork, queue. cbn [yf_overlays yf_documents yf_nodes queue_from queue_overlays_of queue_documents d_path d_overlays Z.eqb app].
  rewrite app_nil_r, app_nil_r. induction (meant_for os f j) as [|k l IH]; [done|]. simpl. by rewrite IH.
Qed.

(** The number in a workload is for messages only. *)
Lemma run_number k d z z' m : Run (mkWork k d z) m = Run (mkWork k d z') m.
Proof. done. Qed.
Lemma run_all_number ks d z z' m : run_all Run (map (fun k => mkWork k d z) ks) m = run_all Run (map (fun k => mkWork k d z') ks) m.
Proof.
  revert m; induction ks as [|k ks IH]; intros m; [done|]. cbn [map run_all]. rewrite (run_number k d z z').
  destruct (Run _ m) as [m1 [[]| | |]]; [apply IH|done..].
Qed.
Lemma own_dwork j d : own j d = run_all Run (dwork j d) (h0, os).
Proof. apply run_all_number. Qed.

Lemma run_all_app ws ws' m : run_all Run (ws ++ ws') m =
  match run_all Run ws m with (m1, Ok _) => run_all Run ws' m1 | r => r end.
Proof.
  revert m; induction ws as [|w ws IH]; intros m; [done|]. cbn [app run_all].
  destruct (Run w m) as [m1 [[]| | |]]; [apply IH|done..].
Qed.

Lemma work_split (nodes : list loc) (z : nat) : 
  queue_from (fun k => match os !! k with Some o => o_index o | None => None end) (Z.of_nat z) (yf_overlays f) (yf_documents f) nodes =
  concat (imap (fun (i : nat) (d : loc) => map (fun k => mkWork k d (Z.of_nat (z + i))) (meant_for os f (z + i))) nodes).
Proof.
  revert z; induction nodes as [|n nodes IH]; intros z; [done|]. cbn [queue_from imap concat].
  rewrite (queue_overlays_filter (index_of os)), queue_documents_filter. rewrite Nat.add_0_r. unfold meant_for at 1. rewrite map_app, <- app_assoc. do 2 f_equal.
  replace (Z.of_nat z + 1)%Z with (Z.of_nat (S z)) by lia. rewrite IH. f_equal. apply imap_ext. intros i x _. simpl. by rewrite Nat.add_succ_r.
Qed.
Lemma file_work_split : file_work os f = concat (imap (fun j d => map (fun k => mkWork k d (Z.of_nat j)) (meant_for os f j)) (yf_nodes f)).
Proof. unfold file_work, queue. exact (work_split (yf_nodes f) 0). Qed.

Notation View := (view dflt doc_files os).

(** Running the overlays of document [j]. *)
Lemma run_doc j d : yf_nodes f !! j = Some d -> forall ws m q, (forall w, In w ws -> In w (dwork j d)) -> View j m q ->
  exists m' q' r, run_all Run ws m = (m', r) /\ run_all Run ws q = (q', r) /\ View j m' q' /\
    forall i q0, i <> j -> View i m q0 -> View i m' q0.
Proof.
  intros Hj. pose proof (dworks_lookup j d Hj) as Hw. induction ws as [|w ws IH]; intros m q Hin V.
  - exists m, q, (Ok tt). split_and!; try done.
  - cbn [run_all]. destruct (Run w m) as [m1 r] eqn:E.
    destruct (view_own fuel sed dflt doc_files os h0 doc_set_up j _ w m q m1 r Hw (Hin w (or_introl eq_refl)) V E) as (q1 & Eq & V1).
    assert (Hother : forall i q0, i <> j -> View i m q0 -> View i m1 q0).
    { intros i q0 Hij Vi. by eapply (view_other fuel sed dflt doc_files os h0 doc_set_up i j _ w m q0 m1 r Hij Hw (Hin w (or_introl eq_refl)) Vi). }
    rewrite Eq. destruct r as [[]|e| |].
    + destruct (IH m1 q1 (fun w' H => Hin w' (or_intror H)) V1) as (m' & q' & r & R1 & R2 & V' & Ho).
      exists m', q', r. split_and!; try done. intros i q0 Hij Vi. apply Ho; [done|]. by apply Hother.
    + exists m1, q1, (Err e). done.
    + exists m1, q1, Panic. done.
    + exists m1, q1, Fuel. done.
Qed.

(** All documents from number [z] on; the ones before are done. *)
Lemma run_docs : forall nodes z m, drop z (yf_nodes f) = nodes ->
  (forall i d, yf_nodes f !! i = Some d -> View i m (if Nat.ltb i z then fst (own i d) else (h0, os))) ->
  (forall i d, yf_nodes f !! i = Some d -> i < z -> snd (own i d) = Ok tt) ->
  exists m' r, run_all Run (concat (imap (fun (i : nat) (d : loc) => map (fun k => mkWork k d (Z.of_nat (z + i))) (meant_for os f (z + i))) nodes)) m = (m', r) /\
   ((r = Ok tt /\ (forall i d, yf_nodes f !! i = Some d -> snd (own i d) = Ok tt /\ View i m' (fst (own i d)))) \/
    (r <> Ok tt /\ exists j d, yf_nodes f !! j = Some d /\ snd (own j d) = r /\ forall i d', i < j -> yf_nodes f !! i = Some d' -> snd (own i d') = Ok tt)).
Proof.
  induction nodes as [|d nodes IH]; intros z m Hd HV Hok.
  - exists m, (Ok tt). split; [done|]. left. split; [done|]. intros i d Hi.
    assert (i < z).
    { apply lookup_lt_Some in Hi. pose proof (f_equal length Hd) as Hl. rewrite drop_length in Hl. simpl in Hl. lia. }
    split; [by apply Hok|]. specialize (HV i d Hi). destruct (Nat.ltb_spec i z); [done|lia].
  - assert (Hz : yf_nodes f !! z = Some d).
    { pose proof (lookup_drop (yf_nodes f) z 0) as Hl. rewrite Hd, Nat.add_0_r in Hl. by symmetry. }
    cbn [imap concat]. rewrite run_all_app, Nat.add_0_r.
    pose proof (HV z d Hz) as Vz. rewrite Nat.ltb_irrefl in Vz.
    destruct (run_doc z d Hz (dwork z d) m (h0, os) (fun w H => H) Vz) as (m1 & q1 & r & R1 & R2 & V1 & Ho).
    rewrite (run_all_number _ _ (Z.of_nat z) 0%Z). fold (dwork z d). rewrite R1. rewrite <- own_dwork in R2.
    assert (Hnot : r <> Ok tt -> exists m' r0, (m1, r) = (m', r0) /\
       ((r0 = Ok tt /\ (forall i d, yf_nodes f !! i = Some d -> snd (own i d) = Ok tt /\ View i m' (fst (own i d)))) \/
        (r0 <> Ok tt /\ exists j d, yf_nodes f !! j = Some d /\ snd (own j d) = r0 /\ forall i d', i < j -> yf_nodes f !! i = Some d' -> snd (own i d') = Ok tt))).
    { intros Hr. exists m1, r. split; [done|]. right. split; [done|]. exists z, d. split_and!; [done|by rewrite R2|].
      intros i d' Hi Hd'. by apply (Hok i d'). }
    destruct r as [[]|e| |]; [|by apply Hnot..]. clear Hnot.
    replace (imap _ nodes) with (imap (fun i d0 => map (fun k => mkWork k d0 (Z.of_nat (S z + i))) (meant_for os f (S z + i))) nodes).
    2:{ apply imap_ext. intros i x _. simpl. by rewrite Nat.add_succ_r. }
    apply IH.
    + rewrite <- Nat.add_1_r, <- drop_drop, Hd. done.
    + intros i d' Hi. destruct (decide (i = z)) as [->|Hne].
      * assert (d' = d) as -> by congruence. destruct (Nat.ltb_spec z (S z)); [|lia]. by rewrite R2.
      * specialize (HV i d' Hi). apply Ho; [done|]. destruct (Nat.ltb_spec i z), (Nat.ltb_spec i (S z)); try lia; done.
    + intros i d' Hi Hlt. destruct (decide (i = z)) as [->|Hne]; [|apply Hok; [done|lia]].
      assert (d' = d) as -> by congruence. by rewrite R2.
Qed.

Lemma file_docs : exists m r, run_all Run (file_work os f) (h0, os) = (m, r) /\
   ((r = Ok tt /\ (forall i d, yf_nodes f !! i = Some d -> snd (own i d) = Ok tt /\
        forall k, snapshot k (fst m) d = snapshot k (fst (fst (own i d))) d)) \/
    (r <> Ok tt /\ exists j d, yf_nodes f !! j = Some d /\ snd (own j d) = r /\ forall i d', i < j -> yf_nodes f !! i = Some d' -> snd (own i d') = Ok tt)).
Proof.
  rewrite file_work_split.
  destruct (run_docs (yf_nodes f) 0 (h0, os) eq_refl) as (m & r & E & H).
  - intros i d Hi. simpl. apply (start_view dflt doc_files os h0 doc_set_up).
  - intros; lia.
  - exists m, r. split; [exact E|]. destruct H as [[-> H]|H]; [left|by right]. split; [done|].
    intros i d Hi. destruct (H i d Hi) as [Hok V]. split; [done|]. intros k.
    pose proof (view_snapshots dflt doc_files os i _ k _ _ V (eq_trans (doc_files_lookup i) (f_equal _ Hi))) as Hs.
    cbn [fmap option_fmap option_map yf_nodes snapshots] in Hs.
    destruct (snapshot k (fst m) d) as [t|e| |], (snapshot k (fst (fst (own i d))) d) as [t'|e'| |]; simpl in Hs; congruence.
Qed.
End docs.
