(** C41-C44, C51: concurrent processing. *)
From Coq Require Import Permutation.
From stdpp Require Import list_numbers.
From Verif Require Import Prelude GoStrings Format Yaml Heap Overlay SpecReach SpecSame Queue Paths Render SpecRender
  Pipeline SpecPipeline ProofPipeline Fine Execute SpecExecute ProofExecute ProofFineExecute ProofExecuteProps Examples ExamplesHeap ExamplesPipeline.

Section theorems.
Context (fuel : nat) (sed : sed_engine) (dflt : list N) (enc : nat -> tree -> option (list N)) (dk : disk) (cfg : out_config).
Context (files : list yfile) (os : list overlay) (h0 : heap) (w0 : world).
Local Notation execution := (execution fuel sed dflt enc dk cfg files os h0 w0).
Local Notation sequential := (sequential fuel sed dflt files os h0).
Local Notation documents_after := (documents_after fuel sed dflt files os h0).
Local Notation write_out := (write_out fuel sed dflt enc dk cfg files os h0).
Local Notation planned := (planned fuel sed dflt enc cfg files os h0).
Local Notation text_of := (text_of fuel sed dflt enc cfg files os h0).
Local Notation works := (map (file_work os) files).

(** C41.  Under every schedule, what has been written so far is what one gets by
    processing each file on its own and writing the results one after the other;
    only the order of the files depends on the schedule. *)
Theorem C41_same_output_as_sequential n s : set_up files os h0 -> execution n s ->
  NoDup (finished s) /\
  (forall i, i ∈ finished s -> exists f, files !! i = Some f /\ snd (sequential i) = Ok tt) /\
  exists r, write_out (finished s) w0 = (outside s, r).
Proof.
  intros SU E. pose proof (exec_inv _ _ _ _ _ _ _ _ _ _ SU n s E) as I. apply inv_world in I as (A & B & r & C).
  split; [done|]. split.
  - intros i I. destruct (B i I) as (ws & q & W & R). apply works_lookup_inv in W as (f & F & ->). exists f. split; [done|].
    unfold SpecExecute.sequential. by rewrite F, R.
  - exists r. unfold rendered in C. by rewrite write_out_spec in C.
Qed.
(** The documents in memory of a file that has been written stay those of the
    sequential run, whatever the other workers still do. *)
Theorem C41_same_documents_as_sequential n s i f : set_up files os h0 -> execution n s -> crashed s = false ->
  i ∈ finished s -> files !! i = Some f ->
  forall k, snapshots k (fst (memory s)) (yf_nodes f) = snapshots k (fst (fst (sequential i))) (yf_nodes f).
Proof.
  intros SU E NC I F k. pose proof (exec_inv _ _ _ _ _ _ _ _ _ _ SU n s E) as L. unfold inv in L. rewrite NC in L. destruct L as (g & ns & b & L).
  apply finished_passed in I. pose proof L as L0. apply l_passed with (i := i) in L0. apply L0 in I. clear L0.
  eapply workers_file in L; [|exact I]. destruct L as (ws & nb & W & _ & q & R & V & _).
  apply works_lookup_inv in W as (f' & F' & ->). rewrite F in F'. injection F' as <-.
  unfold SpecExecute.sequential. rewrite F, R. cbn [fst]. by eapply fview_snapshots.
Qed.

(** C42.  If Execute returns no error, then no overlay of any file failed and
    every rendering was written; so a failure always shows. *)
Theorem C42_success_means_no_failure n s : set_up files os h0 -> execution n s -> crashed s = false -> main s = MReturn None ->
  (forall i, snd (sequential i) = Ok tt) /\ write_out (finished s) w0 = (outside s, Ok tt) /\ forall i, i < length files -> i ∈ finished s.
Proof.
  intros SU E NC M. pose proof (exec_inv _ _ _ _ _ _ _ _ _ _ SU n s E) as I. apply inv_success in I as (A & B & C); [|done..].
  split; [|split].
  - intros i. unfold SpecExecute.sequential. destruct (files !! i) as [f|] eqn:F; [|done].
    destruct (C i _ (works_lookup _ _ i f F)) as [q ->]. done.
  - unfold rendered in B. by rewrite write_out_spec in B.
  - intros i I. rewrite A. apply elem_of_list_In, in_seq. rewrite map_length. lia.
Qed.
(** A file with a failing overlay is never written and spoils the result. *)
Theorem C42_failed_file_never_written n s i : set_up files os h0 -> execution n s -> snd (sequential i) <> Ok tt ->
  i ∉ finished s /\ (crashed s = false -> main s <> MReturn None).
Proof.
  intros SU E NF. split.
  - intros I. destruct (C41_same_output_as_sequential n s SU E) as (_ & B & _). by destruct (B i I) as (f & _ & K).
  - intros NC M. apply NF. by apply (C42_success_means_no_failure n s SU E NC M).
Qed.
(** The error returned is one that an overlay or a write really produced, never
    just "context canceled" from a worker that gave up. *)
Theorem C42_error_is_genuine n s e : set_up files os h0 -> execution n s -> crashed s = false -> main s = MReturn (Some e) ->
  (exists i f, files !! i = Some f /\ snd (sequential i) = Err e) \/ write_out (finished s) w0 = (outside s, Err e).
Proof.
  intros SU E NC M. pose proof (exec_inv _ _ _ _ _ _ _ _ _ _ SU n s E) as I. apply inv_failure with (e := e) in I as [[(i & ws & q & W & R) _]|B]; [..|done|done].
  - left. apply works_lookup_inv in W as (f & F & ->). exists i, f. split; [done|]. unfold SpecExecute.sequential. by rewrite F, R.
  - right. unfold rendered in B. by rewrite write_out_spec in B.
Qed.

(** C43.  No schedule takes more steps than the operations of each file's
    sequential run, seven more for every file, and eight ... *)
Theorem C43_bounded n s : set_up files os h0 -> execution n s ->
  n <= sum_list_with (fun i => file_operations fuel sed dflt files os h0 i + 7) (seq 0 (length files)) + 8.
Proof. intros SU E. rewrite <- budgets_spec. by eapply exec_bounded. Qed.
Local Notation Steps := (steps (begin fuel sed dflt) tick (scan fuel files) peek (emit enc dk cfg files) works).
Local Notation Step := (step (begin fuel sed dflt) tick (scan fuel files) peek (emit enc dk cfg files) works).
Lemma steps_snoc n s s1 s2 : Steps n s s1 -> Step s1 s2 -> Steps (S n) s s2.
Proof. induction 1 as [s|n s sa sb A _ IH]; intros B; [econstructor; [exact B|constructor]|econstructor; eauto]. Qed.
Lemma encode_not_fuel styles docs : encode_nodes enc styles docs <> Fuel.
Proof.
  assert (H : forall docs i k out, encode_loop enc styles i k docs out <> Fuel); [|apply H]. clear docs.
  induction docs as [|d r IH]; intros i k out; cbn [encode_loop]; [done|]. destruct (children d); [done|]. by destruct (enc _ _).
Qed.
(** ... and no schedule gets stuck: as long as no single overlay application runs
    for ever, Execute can go on until it has returned (or panicked). *)
Theorem C43_never_stuck n s : set_up files os h0 ->
  (forall i, snd (sequential i) <> Fuel) -> (forall i, documents_after i <> Fuel) ->
  execution n s -> crashed s = false -> (forall r, main s <> MReturn r) -> exists s', execution (S n) s'.
Proof.
  intros SU NF ND E NC NR. pose proof (exec_inv _ _ _ _ _ _ _ _ _ _ SU n s E) as I.
  assert (P : exists s', Step s s').
  { eapply progress; [..|exact I|].
    - intros. by eapply fine_tick.
    - intros. by apply fine_see_tick.
    - intros i q X. apply (NF i). rewrite <- (alone_seq fuel sed dflt files os h0 i), X. done.
    - intros i w w' X. unfold final in X. rewrite alone_seq in X. unfold post, emit in X. rewrite collect_spec in X.
      specialize (ND i). unfold SpecExecute.documents_after in ND.
      destruct (files !! i) as [f|] eqn:F; [|discriminate]. destruct (snapshots _ _ _) as [ts| | |]; try discriminate; [|done].
      unfold post_process in X. destruct (oc_indent cfg <? 0)%Z; [discriminate|]. pose proof (encode_not_fuel (oc_styles cfg) ts). destruct (encode_nodes _ _ _) as [[|c t]| | |]; try discriminate; [|done].
      destruct (oc_stdout cfg); [by destruct (stdout_ok dk)|]. destruct (can_open _ _); [|discriminate]. by destruct (can_write _ _).
    - intros [C|[r R]]; [congruence|by eapply NR]. }
  destruct P as [s' P]. exists s'. by eapply steps_snoc.
Qed.
(** Together: every execution can be continued to one that has ended. *)
Theorem C43_always_ends n s : set_up files os h0 ->
  (forall i, snd (sequential i) <> Fuel) -> (forall i, documents_after i <> Fuel) ->
  execution n s -> exists n' s', n <= n' /\ execution n' s' /\ (crashed s' = true \/ exists r, main s' = MReturn r).
Proof.
  intros SU NF ND E. set (bound := sum_list_with (fun i => file_operations fuel sed dflt files os h0 i + 7) (seq 0 (length files)) + 8).
  assert (H : forall k n s, bound - n <= k -> execution n s ->
    exists n' s', n <= n' /\ execution n' s' /\ (crashed s' = true \/ exists r, main s' = MReturn r)).
  { clear n s E. induction k as [|k IH]; intros n s K E.
    - destruct (crashed s) eqn:NC; [exists n, s; split_and!; eauto|].
      destruct (main s) as [k1| |i1 sc| |r] eqn:M; try (exists n, s; split_and!; eauto; fail);
        (destruct (C43_never_stuck n s SU NF ND E NC) as [s' E']; [intros ?; rewrite M; discriminate|];
         pose proof (C43_bounded _ _ SU E'); exfalso; lia).
    - destruct (crashed s) eqn:NC; [exists n, s; split_and!; eauto|].
      destruct (main s) as [k1| |i1 sc| |r] eqn:M; try (exists n, s; split_and!; eauto; fail);
        (destruct (C43_never_stuck n s SU NF ND E NC) as [s' E']; [intros ?; rewrite M; discriminate|];
         destruct (IH (S n) s' ltac:(lia) E') as (n' & s'' & L & R); exists n', s''; split; [lia|done]). }
  exact (H (bound - n) n s ltac:(lia) E).
Qed.

(** C44.  Success means every file was rendered exactly once; on standard output
    the renderings appear whole, one after the other. *)
Theorem C44_every_file_exactly_once n s : set_up files os h0 -> execution n s -> crashed s = false -> main s = MReturn None ->
  Permutation (finished s) (seq 0 (length files)) /\
  write_out (finished s) w0 = (outside s, Ok tt) /\
  (oc_stdout cfg = true -> w_stdout (outside s) = w_stdout w0 ++ concat (map text_of (finished s)) /\ w_files (outside s) = w_files w0).
Proof.
  intros SU E NC M. pose proof (exec_inv _ _ _ _ _ _ _ _ _ _ SU n s E) as I. apply inv_success in I as (A & B & C); [|done..].
  rewrite map_length in A. unfold rendered in B. rewrite write_out_spec in B.
  split; [done|]. split; [done|]. intros OS. by destruct (write_out_stdout _ _ _ _ _ _ _ _ _ _ OS _ _ B).
Qed.

(** C51.  After success, with output going to files: a location that is nobody's
    is untouched; every planned location holds the whole text of a file that
    belongs there, and that of the file if only one does. *)
Theorem C51_exactly_the_planned_files n s : set_up files os h0 -> execution n s -> crashed s = false -> main s = MReturn None ->
  oc_stdout cfg = false -> forall name,
  ((forall i text, ~ planned i name text) -> file_content (outside s) name = file_content w0 name) /\
  ((exists i text, planned i name text) -> exists i text, planned i name text /\ file_content (outside s) name = Some text) /\
  (forall i text, planned i name text -> (forall j text', planned j name text' -> j = i) -> file_content (outside s) name = Some text).
Proof.
  intros SU E NC M OS name. destruct (C42_success_means_no_failure n s SU E NC M) as (_ & W & ALL).
  assert (IN : forall i text, planned i name text -> i ∈ finished s).
  { intros i text (f & ts & F & _). apply ALL. by eapply lookup_lt_Some. }
  destruct (write_out_files _ _ _ _ _ _ _ _ _ _ OS _ _ W name) as [(i & t & I & P & FC)|[N FC]].
  - split; [intros X; by destruct (X i t)|]. split; [intros _; by exists i, t|].
    intros j t' PJ U. assert (i = j) as -> by (by eapply U).
    destruct P as (f & ts & F & D & EN & _), PJ as (f' & ts' & F' & D' & EN' & _). congruence.
  - split; [done|]. split; [intros (i & t & P)|intros i t P _]; by destruct (N i t (IN i t P)).
Qed.
End theorems.

(** Non-vacuity: two files with overlays of several kinds, two interleaved
    schedules; both succeed, in different orders, with the same files. *)
Example C41_applies : exists n1 n2 s1 s2,
  set_up [file_a; file_b] two_os two_heap /\
  execution 20 no_sed [] show ex_disk ex_cfg [file_a; file_b] two_os two_heap (mkWorld [] []) n1 s1 /\
  execution 20 no_sed [] show ex_disk ex_cfg [file_a; file_b] two_os two_heap (mkWorld [] []) n2 s2 /\
  (crashed s1 = false /\ main s1 = MReturn None /\ finished s1 = [1; 0]) /\
  (crashed s2 = false /\ main s2 = MReturn None /\ finished s2 = [0; 1]) /\
  file_content (outside s1) (lit "out/a.yaml") = file_content (outside s2) (lit "out/a.yaml") /\
  file_content (outside s1) (lit "out/a.yaml") <> None.
Proof.
  destruct (played [file_a; file_b] schedule_ab) as [s1|] eqn:E1; [|by vm_compute in E1].
  destruct (played [file_a; file_b] schedule_ba) as [s2|] eqn:E2; [|by vm_compute in E2].
  destruct (played_execution _ _ _ E1) as [n1 X1], (played_execution _ _ _ E2) as [n2 X2].
  exists n1, n2, s1, s2. split; [apply two_set_up|]. split; [exact X1|]. split; [exact X2|]. clear X1 X2.
  vm_compute in E1, E2. injection E1 as <-. injection E2 as <-. vm_compute. done.
Qed.

(** The premises of C43 hold there too. *)
Example C43_applies : set_up [file_a; file_b] two_os two_heap /\
  (forall i, snd (sequential 20 no_sed [] [file_a; file_b] two_os two_heap i) <> Fuel) /\
  (forall i, documents_after 20 no_sed [] [file_a; file_b] two_os two_heap i <> Fuel).
Proof.
  split; [apply two_set_up|]. split; intros [|[|i]]; try (vm_compute; discriminate); unfold documents_after, sequential; by rewrite lookup_nil.
Qed.
(** ... and those of C51: both locations are planned, by one file each. *)
Example C51_applies : exists t1 t2,
  planned 20 no_sed [] show ex_cfg [file_a; file_b] two_os two_heap 0 (lit "out/a.yaml") t1 /\
  planned 20 no_sed [] show ex_cfg [file_a; file_b] two_os two_heap 1 (lit "out/b.yaml") t2 /\
  (forall i t, planned 20 no_sed [] show ex_cfg [file_a; file_b] two_os two_heap i (lit "out/a.yaml") t -> i = 0).
Proof.
  eexists _, _. split; [|split].
  - eexists file_a, _. split; [done|]. split; [vm_compute; reflexivity|]. split; [vm_compute; reflexivity|]. split; [done|by vm_compute].
  - eexists file_b, _. split; [done|]. split; [vm_compute; reflexivity|]. split; [vm_compute; reflexivity|]. split; [done|by vm_compute].
  - intros [|[|i]] t (f & ts & F & _ & _ & _ & N); [done| |by destruct i]. injection F as <-. by vm_compute in N.
Qed.

(** A failing overlay in one file: Execute fails under both schedules, but
    whether the other file is written depends on the schedule.  In the first,
    file 0 finishes first; in the second, file 1 fails first and file 0 gives up. *)
Definition schedule_late : list move :=
  [Main; Main; Main] ++
  [Producer 0; Finish 0; Producer 0; Finish 0; Producer 0; Finish 0; Producer 0; Worker 0 false; Worker 0 false; Main; Render;
   Producer 1; Finish 1; Closer; Closer; Main; Main].
Definition schedule_early : list move :=
  [Main; Main; Main] ++
  [Producer 1; Finish 1; Producer 0; Finish 0; Producer 0; Finish 0; Producer 0; Finish 0; Producer 0; Worker 0 false; Worker 0 true;
   Closer; Closer; Main; Main].
Theorem C42_other_files_depend_on_schedule : exists n1 n2 s1 s2 e,
  set_up [file_a; bad_b] two_os two_heap /\
  execution 20 no_sed [] show ex_disk ex_cfg [file_a; bad_b] two_os two_heap (mkWorld [] []) n1 s1 /\
  execution 20 no_sed [] show ex_disk ex_cfg [file_a; bad_b] two_os two_heap (mkWorld [] []) n2 s2 /\
  crashed s1 = false /\ main s1 = MReturn (Some e) /\ finished s1 = [0] /\ file_content (outside s1) (lit "out/a.yaml") <> None /\
  crashed s2 = false /\ main s2 = MReturn (Some e) /\ finished s2 = [] /\ file_content (outside s2) (lit "out/a.yaml") = None.
Proof.
  destruct (played [file_a; bad_b] schedule_late) as [s1|] eqn:E1; [|by vm_compute in E1].
  destruct (played [file_a; bad_b] schedule_early) as [s2|] eqn:E2; [|by vm_compute in E2].
  destruct (played_execution _ _ _ E1) as [n1 X1], (played_execution _ _ _ E2) as [n2 X2].
  exists n1, n2, s1, s2. eexists. split; [apply bad_set_up|]. split; [exact X1|]. split; [exact X2|]. clear X1 X2.
  vm_compute in E1, E2. injection E1 as <-. injection E2 as <-. vm_compute. split_and!; done.
Qed.

(** The premises of C42 and C44 hold: a run with a failing file that returns its error, and one
    without that succeeds, having rendered both files. *)
Example C42_applies : exists n s e,
  set_up [file_a; bad_b] two_os two_heap /\ snd (sequential 20 no_sed [] [file_a; bad_b] two_os two_heap 1) = Err e /\
  execution 20 no_sed [] show ex_disk ex_cfg [file_a; bad_b] two_os two_heap (mkWorld [] []) n s /\
  crashed s = false /\ main s = MReturn (Some e) /\ finished s = [0] /\
  (forall x, write_out 20 no_sed [] show ex_disk ex_cfg [file_a; bad_b] two_os two_heap (finished s) (mkWorld [] []) <> (outside s, Err x)).
Proof.
  destruct (played [file_a; bad_b] schedule_late) as [s1|] eqn:E1; [|by vm_compute in E1].
  destruct (played_execution _ _ _ E1) as [n1 X1]. exists n1, s1. eexists. split; [apply bad_set_up|]. split; [vm_compute; reflexivity|]. split; [exact X1|]. clear X1.
  vm_compute in E1. injection E1 as <-. split_and!; try (vm_compute; reflexivity). intros x. vm_compute. discriminate.
Qed.
Example C44_applies : exists n s,
  set_up [file_a; file_b] two_os two_heap /\
  execution 20 no_sed [] show ex_disk ex_cfg [file_a; file_b] two_os two_heap (mkWorld [] []) n s /\
  crashed s = false /\ main s = MReturn None /\ length (w_files (outside s)) <> 0.
Proof.
  destruct (played [file_a; file_b] schedule_ab) as [s1|] eqn:E1; [|by vm_compute in E1].
  destruct (played_execution _ _ _ E1) as [n1 X1]. exists n1, s1. split; [apply two_set_up|]. split; [exact X1|]. clear X1.
  vm_compute in E1. injection E1 as <-. split_and!; try (vm_compute; reflexivity). vm_compute. discriminate.
Qed.

(** Two files with the same output location: which one survives depends on the
    schedule, although Execute succeeds. *)
Definition same_b : yfile := mkFile [two_doc] [0] [] (lit "a.yaml").
Lemma same_set_up : set_up [file_a; same_b] two_os two_heap.
Proof. apply set_upb_sound; [by vm_compute|apply two_good]. Qed.
Theorem C51_colliding_locations_depend_on_schedule : exists n1 n2 s1 s2,
  set_up [file_a; same_b] two_os two_heap /\
  execution 20 no_sed [] show ex_disk ex_cfg [file_a; same_b] two_os two_heap (mkWorld [] []) n1 s1 /\
  execution 20 no_sed [] show ex_disk ex_cfg [file_a; same_b] two_os two_heap (mkWorld [] []) n2 s2 /\
  crashed s1 = false /\ main s1 = MReturn None /\ crashed s2 = false /\ main s2 = MReturn None /\
  file_content (outside s1) (lit "out/a.yaml") <> file_content (outside s2) (lit "out/a.yaml").
Proof.
  destruct (played [file_a; same_b] schedule_ab) as [s1|] eqn:E1; [|by vm_compute in E1].
  destruct (played [file_a; same_b] schedule_ba) as [s2|] eqn:E2; [|by vm_compute in E2].
  destruct (played_execution _ _ _ E1) as [n1 X1], (played_execution _ _ _ E2) as [n2 X2].
  exists n1, n2, s1, s2. split; [apply same_set_up|]. split; [exact X1|]. split; [exact X2|]. clear X1 X2.
  vm_compute in E1, E2. injection E1 as <-. injection E2 as <-. vm_compute. split_and!; done.
Qed.

Print Assumptions C41_same_output_as_sequential.
Print Assumptions C41_same_documents_as_sequential.
Print Assumptions C42_success_means_no_failure.
Print Assumptions C42_failed_file_never_written.
Print Assumptions C42_error_is_genuine.
Print Assumptions C43_bounded.
Print Assumptions C43_never_stuck.
Print Assumptions C43_always_ends.
Print Assumptions C44_every_file_exactly_once.
Print Assumptions C51_exactly_the_planned_files.
