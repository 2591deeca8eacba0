(** C85: data races. *)
From stdpp Require Import list_numbers.
From Verif Require ProofExecuteProps ProofPipeline ProofFineExecute ProofFineSame ProofQuery.
From Verif Require Import Prelude GoStrings Format Yaml Heap ActionNames Overlay SpecReach SpecSame SpecActions SpecQuery Fine Queue Paths Render Pipeline Execute SpecExecute
  ProofExecute Finder Examples ExamplesHeap ExamplesPipeline SpecRace.

Section race.
Context (dflt : list N) (files : list yfile) (os : list overlay).
Import ProofFineExecute ProofFineSame.

Lemma reach_related (R : nat -> nat -> Prop) h h' a b x : same R h h' -> R a b -> reach h a x -> exists y, R x y.
Proof.
  intros S AB. induction 1 as [|y n z _ (b' & IH) E P]; [by exists b|].
  destruct (same_node _ _ _ S y b' IH) as (n1 & n2 & E1 & _ & (_ & AL & C)). rewrite E in E1. injection E1 as <-. destruct P as [P|(ls & P & L)].
  - rewrite P in AL. destruct (n_alias n2) as [z'|]; [|done]. by exists z'.
  - rewrite P in C. destruct (n_content n2) as [ls'|]; [|done]. cbn in C. apply elem_of_list_In in L.
    apply elem_of_list_lookup in L as [k L]. destruct (Forall2_lookup_l _ _ _ _ _ C L) as (y' & _ & Y). by exists y'.
Qed.

Lemma psim_access g i m q {A B} (Q : (nat -> nat -> Prop) -> A -> B -> Prop) Rs R (c : prog A) (d : prog B) : psim Rs os dflt Q R c d ->
  linked dflt files os g i m q R Rs ->
  (forall x, writes_node c x -> g x (S i)) /\ (forall x, touches_node (fst m) c x -> g x (S i) \/ g x 0) /\
  (forall k, ~ writes_field c k).
Proof.
  induction 1 as [R x y X|R a b f f' AB F _|R a b f f' AB F _|R a b n1 n2 p p' AB N P _|R n1 n2 f f' N F _|R u a b f f' U AB F _|R p p' P IH|R k f f' F _|R k f f' F _];
    intros L; try (by apply IH; [|done]; intros a b a' b' AB AB'; destruct (li_own _ _ _ _ _ _ _ _ _ L) as [A1 B1 _]; split; intros <-; eauto);
    (split; [|split; [|by intros ? (? & ? & ?)]]);
    try (intros x0 (n & k0 & E); discriminate E);
    try (intros x0 [(n & k0 & E)|[(k0 & E)|(u0 & l0 & k0 & E & RE)]]; discriminate E).
  - intros x [(n & k & E)|[(k & E)|(u & l & k & E & RE)]]; try discriminate. injection E as -> _. left. by eapply (li_mine _ _ _ _ _ _ _ _ _ L).
  - intros x [(n & k & E)|[(k & E)|(u & l & k & E & RE)]]; try discriminate. injection E as -> _. right. by eapply (li_theirs _ _ _ _ _ _ _ _ _ L).
  - intros x (n & k & E). injection E as -> _ _. by eapply (li_mine _ _ _ _ _ _ _ _ _ L).
  - intros x [(n & k & E)|[(k & E)|(u & l & k & E & RE)]]; try discriminate. injection E as -> _ _. left. by eapply (li_mine _ _ _ _ _ _ _ _ _ L).
  - intros x [(n & k & E)|[(k & E)|(u0 & l & k & E & RE)]]; try discriminate. injection E as _ -> _. left.
    destruct (reach_related _ _ _ _ _ _ (li_own _ _ _ _ _ _ _ _ _ L) AB RE) as [y Y]. by eapply (li_mine _ _ _ _ _ _ _ _ _ L).
Qed.
Lemma mid_access g i m c out n : mid dflt files os g i m c out n ->
  owned g (fst m) /\ (forall x, writes_node c x -> g x (S i)) /\ (forall x, touches_node (fst m) c x -> g x (S i) \/ g x 0) /\
  (forall k a r, c = Write k a r -> a = MInject /\ exists o, os !! k = Some o /\ o_missing o = MDefault /\ equal_fold dflt (lit "inject") = true) /\
  forall d x, doc_of files i d -> reach (fst m) d x -> g x (S i).
Proof.
  intros (O & q & d & R & Rs & L & _ & ST). split; [done|].
  assert (DOC : forall d x, doc_of files i d -> reach (fst m) d x -> g x (S i)).
  { intros d0 x D RE. destruct (reach_related _ _ _ _ _ _ (li_own _ _ _ _ _ _ _ _ _ L) (li_docs _ _ _ _ _ _ _ _ _ L d0 D) RE) as [y Y].
    by eapply (li_mine _ _ _ _ _ _ _ _ _ L). }
  destruct ST as [[P _]|(k & oo & f & f' & OO & -> & _ & ST)].
  - destruct (psim_access g i m q _ Rs R c d P L) as (A & B & C). split; [done|]. split; [done|]. split; [|done]. intros k a r ->.
    destruct (C k). by exists a, r.
  - destruct ST as [(-> & (_ & MD & EF) & _)|(-> & _ & _)].
    + split; [by intros x (? & ? & ?)|]. split; [by intros x [(? & ? & ?)|[(? & ?)|(? & ? & ? & ? & ?)]]|]. split; [|done].
      intros k0 a r E. injection E as <- <- _. split; [done|]. by exists oo.
    + split; [by intros x (? & ? & ?)|]. split; [by intros x [(? & ? & ?)|[(? & ?)|(? & ? & ? & ? & ?)]]|]. split; [done|done].
Qed.
Lemma see_access g i m c out n : see dflt files os g i m c out n ->
  (forall x, ~ writes_node c x) /\ (forall x, touches_node (fst m) c x -> g x (S i) \/ g x 0) /\
  (forall k, ~ touches_field c k).
Proof.
  intros (O & q & d & R & Rs & L & _ & P & LK & _). destruct (psim_access g i m q _ Rs R c d P L) as (A & B & C).
  split; [|split; [done|]].
  - intros x (n0 & k & ->). inversion LK.
  - intros k [H|[(r & ->)|(b & r & ->)]]; [by destruct (C k)|inversion LK|inversion LK].
Qed.
Lemma fview_access g i m q : fview dflt files os g i m q -> forall d x, doc_of files i d -> reach (fst m) d x -> g x (S i).
Proof.
  intros (O & R & Rs & L) d x D RE. destruct (reach_related _ _ _ _ _ _ (li_own _ _ _ _ _ _ _ _ _ L) (li_docs _ _ _ _ _ _ _ _ _ L d D) RE) as [y Y].
  by eapply (li_mine _ _ _ _ _ _ _ _ _ L).
Qed.
End race.

Section theorems.
Context (fuel : nat) (sed : sed_engine) (dflt : list N) (enc : nat -> tree -> option (list N)) (dk : disk) (cfg : out_config).
Context (files : list yfile) (os : list overlay) (h0 : heap) (w0 : world).
Local Notation execution := (execution fuel sed dflt enc dk cfg files os h0 w0).

(** C85.  In no state a schedule can lead to are two workers about to access the same
    node, one of them to write it. *)
Theorem C85_no_race_between_workers n s : set_up files os h0 -> execution n s -> crashed s = false ->
  forall i j ti ci pi tj cj pj x, i <> j ->
    workers s !! i = Some (WRun ti ci (HBusy pi)) -> workers s !! j = Some (WRun tj cj (HBusy pj)) ->
    writes_node pi x -> touches_node (fst (memory s)) pj x -> False.
Proof.
  intros SU E NC i j ti ci pi tj cj pj x NE WI WJ A B.
  pose proof (ProofExecuteProps.exec_inv _ _ _ _ _ _ _ _ _ _ SU n s E) as I. unfold ProofPipeline.inv in I. rewrite NC in I. destruct I as (g & ns & b & L).
  pose proof L as LWI; eapply ProofPipeline.workers_file in LWI; [|exact WI]; destruct LWI as (wi & ni & _ & _ & pre & y & q & nb & _ & _ & M & _).
  pose proof L as LWJ; eapply ProofPipeline.workers_file in LWJ; [|exact WJ]; destruct LWJ as (wj & nj & _ & _ & pre' & y' & q' & nb' & _ & _ & M' & _).
  apply mid_access in M as (O & MW & _). apply mid_access in M' as (_ & _ & MT & _).
  apply MW in A. apply MT in B as [B|B]; pose proof (ProofFineExecute.ow_fun _ _ O _ _ _ A B) as X; [|discriminate]. injection X as ->. done.
Qed.

(** Nor a worker and the main goroutine, which reads a finished file to render it. *)
Theorem C85_no_race_with_rendering n s : set_up files os h0 -> execution n s -> crashed s = false ->
  forall i t c p k r x, main s = MPost k r -> workers s !! i = Some (WRun t c (HBusy p)) ->
    (~ writes_node r x) /\ (writes_node p x -> touches_node (fst (memory s)) r x -> False) /\
    (forall o, ~ touches_field r o).
Proof.
  intros SU E NC i t c p k r x MP WI.
  pose proof (ProofExecuteProps.exec_inv _ _ _ _ _ _ _ _ _ _ SU n s E) as I. unfold ProofPipeline.inv in I. rewrite NC in I. destruct I as (g & ns & b & L).
  pose proof L as SC. apply ProofPipeline.l_scan in SC. unfold ProofPipeline.scan_ok in SC. rewrite MP in SC. apply see_access in SC as (S1 & S2 & S3).
  split; [apply S1|]. split; [|apply S3]. intros A B.
  assert (NE : i <> k).
  { intros ->. assert (K : k ∈ ProofPipeline.passed s) by (unfold ProofPipeline.passed; rewrite MP; cbn; apply elem_of_app; right; by left).
    pose proof L as LP. eapply ProofPipeline.l_passed in LP. apply LP in K. congruence. }
  pose proof L as LWI; eapply ProofPipeline.workers_file in LWI; [|exact WI]; destruct LWI as (wi & ni & _ & _ & pre & y & q & nb & _ & _ & M & _).
  apply mid_access in M as (O & MW & _). apply MW in A. apply S2 in B as [B|B]; pose proof (ProofFineExecute.ow_fun _ _ O _ _ _ A B) as X; [|discriminate]. injection X as ->. done.
Qed.

(** More than that: a worker never touches, not even to read it, a node of the documents of
    another file, unless that file's worker has already failed.  So nothing done to the documents of a
    finished file while it is rendered (SetStyle writes to its nodes) can be a race either. *)
Theorem C85_documents_are_private n s : set_up files os h0 -> execution n s -> crashed s = false ->
  forall i t c p k f d x, workers s !! i = Some (WRun t c (HBusy p)) -> i <> k -> files !! k = Some f ->
    (forall e, workers s !! k <> Some (WReturned (Some e))) ->
    In d (yf_nodes f) -> reach (fst (memory s)) d x -> ~ touches_node (fst (memory s)) p x.
Proof.
  intros SU E NC i t c p k f d x WI NE F NF D RE T.
  pose proof (ProofExecuteProps.exec_inv _ _ _ _ _ _ _ _ _ _ SU n s E) as I. unfold ProofPipeline.inv in I. rewrite NC in I. destruct I as (g & ns & b & L).
  pose proof L as LWI; eapply ProofPipeline.workers_file in LWI; [|exact WI]; destruct LWI as (wi & ni & _ & _ & pre & y & q & nb & _ & _ & M & _).
  apply mid_access in M as (O & _ & MT & _). apply MT in T.
  assert (DO : doc_of files k d) by (by exists f).
  assert (G : g x (S k)).
  { pose proof L as LW. eapply ProofPipeline.l_work with (i := k) (ws := file_work os f) in LW; [|by rewrite list_lookup_fmap, F]. destruct LW as (w & nk & WK & _ & OK).
    destruct w as [|todo cl [|pp]| |[e|]]; cbn in OK.
    - destruct OK as [V _]. by eapply fview_access.
    - destruct OK as (? & ? & _ & _ & V & _). by eapply fview_access.
    - destruct OK as (? & ? & ? & ? & _ & _ & V & _). apply mid_access in V as (_ & _ & _ & _ & V). by eapply V.
    - destruct OK as (? & _ & V & _). by eapply fview_access.
    - by destruct (NF e).
    - destruct OK as (? & _ & V & _). by eapply fview_access. }
  destruct T as [T|T]; pose proof (ProofFineExecute.ow_fun _ _ O _ _ _ G T) as X; [|discriminate]. injection X as ->. done.
Qed.

(** Every node a worker is about to access exists, so it cannot be one that another
    worker is just allocating. *)
Theorem C85_accessed_nodes_exist n s : set_up files os h0 -> execution n s -> crashed s = false ->
  forall i t c p x, workers s !! i = Some (WRun t c (HBusy p)) -> touches_node (fst (memory s)) p x -> x < length (fst (memory s)).
Proof.
  intros SU E NC i t c p x WI T.
  pose proof (ProofExecuteProps.exec_inv _ _ _ _ _ _ _ _ _ _ SU n s E) as I. unfold ProofPipeline.inv in I. rewrite NC in I. destruct I as (g & ns & b & L).
  pose proof L as LWI; eapply ProofPipeline.workers_file in LWI; [|exact WI]; destruct LWI as (wi & ni & _ & _ & pre & y & q & nb & _ & _ & M & _).
  apply mid_access in M as (O & _ & MT & _). destruct (MT _ T) as [K|K]; by eapply (ProofFineExecute.ow_valid _ _ O).
Qed.

(** The one thing workers write that is not theirs alone is the onMissing action of an
    overlay, and this happens only if the user gave the overlay none and the default is
    "inject"; the value written is then always the same. *)
Theorem C85_only_shared_write n s : set_up files os h0 -> execution n s -> crashed s = false ->
  forall i t c k a r, workers s !! i = Some (WRun t c (HBusy (Write k a r))) ->
    a = MInject /\ Forall2 cased dflt (lit "inject") /\ exists o, os !! k = Some o /\ o_missing o = MDefault.
Proof.
  intros SU E NC i t c k a r WI.
  pose proof (ProofExecuteProps.exec_inv _ _ _ _ _ _ _ _ _ _ SU n s E) as I. unfold ProofPipeline.inv in I. rewrite NC in I. destruct I as (g & ns & b & L).
  pose proof L as LWI; eapply ProofPipeline.workers_file in LWI; [|exact WI]; destruct LWI as (wi & ni & _ & _ & pre & y & q & nb & _ & _ & M & _).
  apply mid_access in M as (_ & _ & _ & M & _). destruct (M k a r eq_refl) as (-> & o & O & MD & EF).
  split; [done|]. split; [by apply ProofQuery.inject_spelled|]. by exists o.
Qed.
(** So without that default there is no data race at all. *)
Theorem C85_race_free_unless_default_inject n s : set_up files os h0 -> execution n s -> crashed s = false ->
  ~ Forall2 cased dflt (lit "inject") ->
  forall i j ti ci pi tj cj pj, i <> j ->
    workers s !! i = Some (WRun ti ci (HBusy pi)) -> workers s !! j = Some (WRun tj cj (HBusy pj)) ->
    (forall x, writes_node pi x -> ~ touches_node (fst (memory s)) pj x) /\ (forall k, writes_field pi k -> ~ touches_field pj k).
Proof.
  intros SU E NC ND i j ti ci pi tj cj pj NE WI WJ. split.
  - intros x A B. by eapply (C85_no_race_between_workers n s SU E NC i j).
  - intros k (a & r & ->) _. destruct (C85_only_shared_write n s SU E NC i ti ci k a r WI) as (_ & H & _). done.
Qed.
End theorems.

(** *** The race that there is *)
(** Two files without the key zz, one overlay for both that sets it, no onMissing in the
    overlay, and "inject" as the default. *)
Definition race_os : list overlay := [mkOverlay [dotted (lit "zz") [lit "zz"]] ex_x AMerge [] MDefault None None].
Definition race_files : list yfile := [mkFile [ex_doc] [0] [] (lit "a.yaml"); mkFile [two_doc] [0] [] (lit "b.yaml")].
Definition race_play (ms : list move) : option exec_state :=
  plays (begin 20 no_sed (lit "Inject")) tick (scan 20 race_files) peek (emit show ex_disk ex_cfg race_files) (map (file_work race_os) race_files) ms
    (start (map (file_work race_os) race_files) (two_heap, race_os) (mkWorld [] [])).
Lemma race_set_up : set_up race_files race_os two_heap.
Proof. apply set_upb_sound; [by vm_compute|]. constructor; [|constructor]. constructor; [|discriminate|by intros g c []]. constructor; [|constructor]. apply ProofExecuteProps.dotted_good. Qed.
Definition race_schedule : list move := [Main; Main; Main; Producer 0; Producer 1] ++ turns 4.
Definition writing (s : exec_state) (i : nat) : bool :=
  match workers s !! i with Some (WRun _ _ (HBusy (Write 0 MInject _))) => true | _ => false end.
Lemma writing_spec s i : writing s i = true -> exists t c r, workers s !! i = Some (WRun t c (HBusy (Write 0 MInject r))).
Proof.
  unfold writing. destruct (workers s !! i) as [[|t c [|p]| |]|]; try discriminate. destruct p as [| | | | | | |[|k] [] r]; try discriminate. intros _. by exists t, c, r.
Qed.
Lemma race_witness : match race_play race_schedule with Some s => negb (crashed s) && writing s 0 && writing s 1 | None => false end = true.
Proof. by vm_compute. Qed.
Lemma race_execution s : race_play race_schedule = Some s ->
  exists n, execution 20 no_sed (lit "Inject") show ex_disk ex_cfg race_files race_os two_heap (mkWorld [] []) n s.
Proof. apply plays_steps. Qed.
(** Then both workers can be about to write the field of the overlay at the same time:
    the claim "there is no data race" is refuted for this field. *)
Theorem C85_refuted_for_default_inject : exists n s, set_up race_files race_os two_heap /\
  execution 20 no_sed (lit "Inject") show ex_disk ex_cfg race_files race_os two_heap (mkWorld [] []) n s /\ crashed s = false /\
  exists ti ci pi tj cj pj, workers s !! 0 = Some (WRun ti ci (HBusy pi)) /\ workers s !! 1 = Some (WRun tj cj (HBusy pj)) /\
    writes_field pi 0 /\ writes_field pj 0.
Proof.
  pose proof race_witness as Y. pose proof race_execution as X. set (o := race_play race_schedule) in *. clearbody o. destruct o as [s|]; [|discriminate].
  destruct (X s eq_refl) as [n N]. exists n, s. split; [apply race_set_up|]. split; [exact N|]. apply andb_true_iff in Y as [Y W1]. apply andb_true_iff in Y as [C W0].
  split; [by apply negb_true_iff|]. apply writing_spec in W0 as (t & c & r & W0), W1 as (t1 & c1 & r1 & W1).
  exists t, c, (Write 0 MInject r), t1, c1, (Write 0 MInject r1). split; [exact W0|]. split; [exact W1|]. split; by do 2 eexists.
Qed.

(** *** The hypotheses are met: states in which one worker writes a node while the other
    reads one, and in which a worker reads while the other file is being rendered. *)
Definition at_node (s : exec_state) (i : nat) (put : bool) : option loc :=
  match workers s !! i with
  | Some (WRun _ _ (HBusy (Put x _ _))) => if put then Some x else None
  | Some (WRun _ _ (HBusy (Get x _))) => if put then None else Some x
  | _ => None
  end.
Definition busy_schedule : list move := [Main; Main; Main; Producer 0; Producer 1] ++ turns 11 ++ repeat (Worker 0 false) 3.
Example C85_hypotheses_met :
  match played [file_a; file_b] busy_schedule with
  | Some s => negb (crashed s) && bool_decide (at_node s 0 true = Some 2) && bool_decide (at_node s 1 false = Some 16)
  | None => false
  end = true.
Proof. by vm_compute. Qed.
Example C85_hypotheses_met_rendering :
  match played [file_a; file_b] (take 38 schedule_ab) with
  | Some s => negb (crashed s) && match main s with MPost 1 (Get 33 _) => true | _ => false end && bool_decide (at_node s 0 false = Some 14)
  | None => false
  end = true.
Proof. by vm_compute. Qed.
