(** C49: documents stay well formed. *)
From Verif Require Import Prelude GoStrings Format Yaml Heap HeapActions ActionNames Overlay SpecMerge SpecHeap SpecDelete SpecOverlay SpecHistory
  ProofHeap ProofHeapActions ProofSound ProofForest ProofKeeps Finder Examples ExamplesHeap Deciders Witness PropsDelete.

(** Whatever overlays (merge, replace, delete, combine, inject on missing; with
    document queries or not) are applied successfully to a document whose
    mappings have a value for each key, it remains such a document, still
    rooted at the same node and sharing nothing with the overlay values. *)
Theorem C49_documents_stay_well_formed dflt ro h doc os h' :
  proper h doc -> apart ro h [doc] -> Forall (fit ro h) os -> applied dflt (label doc) h os h' ->
  exists doc', proper h' doc' /\ label doc' = label doc /\ apart ro h' [doc'].
Proof.
  intros (O & W & B) A FO H.
  enough (X : forall gs, own h (doc :: gs) -> apart ro h (doc :: gs) ->
    exists doc' gs', own h' (doc' :: gs') /\ apart ro h' (doc' :: gs') /\ label doc' = label doc /\ sound (erase doc')).
  { destruct (X [] O A) as (doc' & gs' & O' & A' & L' & [W' B']). exists doc'. split; [split; [by eapply own_head|done]|].
    split; [done|]. by eapply apart_head. }
  assert (S : sound (erase doc)) by (split; done). clear O A W B.
  remember (label doc) as node eqn:EN. revert doc EN FO S.
  induction H as [h|h fuel sed o h1 o' os h2 E H IH]; intros doc -> FO S gs O A; [eauto 6|].
  apply Forall_cons in FO as [(FQ & FI & d & t & V & Wt & Bt) FO].
  destruct (apply_keeps fuel sed dflt o ro d t h doc gs h1 o' (Ok tt) FQ FI O A V S (conj Wt Bt) E ltac:(discriminate))
    as (doc1 & gs1 & T & L1 & S1).
  destruct (IH doc1) with (gs := gs1) as (doc2 & gs2 & O2 & A2 & L2 & S2).
  - congruence.
  - eapply Forall_impl; [exact FO|]. intros o2 (FQ2 & FI2 & d2 & t2 & V2 & ?). split; [done|]. split; [done|].
    exists d2, t2. split; [|done]. by eapply value_at_trans.
  - by apply S1.
  - by eapply own_trans.
  - by eapply apart_trans.
  - exists doc2, gs2. split; [done|]. split; [done|]. split; [congruence|done].
Qed.

(** Non-vacuity: merge, inject, replace, combine and delete on the example
    document, all succeeding. *)
Definition ex_history : list overlay :=
  [ex_overlay AMerge q_root ex_val;
   mkOverlay [q_missing] ex_x AMerge [] MInject None None;
   ex_overlay AReplace q_name ex_x; ex_overlay ACombine q_name ex_x; ex_overlay ADelete q_missing ex_x].
Fixpoint play_history (h : heap) (os : list overlay) : option heap :=
  match os with
  | [] => Some h
  | o :: os => match apply 40 no_sed [] o ex_doc h with (h1, _, Ok tt) => play_history h1 os | _ => None end
  end.
Lemma play_history_applied os : forall h h', play_history h os = Some h' -> applied [] ex_doc h os h'.
Proof.
  induction os as [|o os IH]; intros h h'; cbn [play_history]; [intros [= <-]; constructor|].
  destruct (apply 40 no_sed [] o ex_doc h) as [[h1 o1] [[]| | |]] eqn:E; try discriminate.
  intros H. econstructor; [exact E|]. by apply IH.
Qed.
Example C49_applies : exists d ro h', label d = ex_doc /\ proper ex_heap d /\ apart ro ex_heap [d] /\
  Forall (fit ro ex_heap) ex_history /\ applied [] (label d) ex_heap ex_history h' /\
  read 20 h' ex_doc <> read 20 ex_heap ex_doc.
Proof.
  pose (ro := fun x => between (S ex_doc) (length ex_heap) x = true).
  destruct (lread 20 ex_heap ex_doc) as [d|] eqn:E; [|vm_compute in E; discriminate].
  destruct (play_history ex_heap ex_history) as [h'|] eqn:P; [|vm_compute in P; discriminate].
  assert (LD : label d = ex_doc) by (by apply lread_label in E).
  exists d, ro, h'. split; [exact LD|].
  assert (FIT : forall (o : overlay) (v : loc) n, n = length ex_heap -> o_value o = v -> Forall finds_inside (o_queries o) -> o_inject o = None ->
    forall t, vread 20 (between (S ex_doc) n) ex_heap v = Some t ->
    everywhereb node_pairedb t = true -> everywhereb node_branchingb t = true -> fit ro ex_heap o).
  { intros o v n -> Hv FQ HI t Hr W B. split; [done|]. split; [congruence|]. exists 20, t. rewrite Hv.
    split; [by apply vread_value|]. split; [by apply well_paired_ex|by apply branching_ex]. }
  split; [|split; [|split; [|split]]].
  - split; [apply (lread_own 20 _ _ _ E)|split; [apply well_paired_ex|apply branching_ex]];
      vm_compute in E; injection E as <-; [apply (bool_decide_unpack _); vm_compute; exact I|vm_compute; reflexivity..].
  - apply apart_between; [done|]. apply between_all. vm_compute in E. injection E as <-. vm_compute. reflexivity.
  - unfold ex_history. repeat (apply Forall_cons; split; [eapply FIT; [reflexivity|reflexivity|constructor; [apply dotted_inside|constructor]|
      reflexivity|vm_compute; reflexivity..]|]). constructor.
  - rewrite LD. by apply play_history_applied.
  - vm_compute in P. injection P as <-. vm_compute. discriminate.
Qed.

Print Assumptions C49_documents_stay_well_formed.
