(** C87: the conditions of the theorems about whole runs, in terms of what is read. *)
From stdpp Require Import list_numbers.
From Verif Require ProofDecode ProofMergeMap ProofMerge.
From Verif Require Import Combine SpecCombine.
From Verif Require Import Prelude GoStrings Format Yaml MergeTree Values SpecMerge Heap SpecHeap ActionNames Overlay SpecReach SpecSame SpecOverlay Queue PropsQueue Paths SpecPaths ProofPaths Files SpecFiles Slices SpecSlices Prepare SpecPrepare ProofPrepare PropsPrepare
  Render SpecRender SpecOutcome Pipeline SpecPipeline Execute SpecExecute SpecDocs PropsDocs Decode SpecDecode PropsDecode Flags Template HeapComments Config PropsConfig Whole SpecWhole ProofUncomment ProofWhole PropsWhole
  SpecMeaning PropsMeaning Main SpecMain PropsMain SpecEnds PropsEnds SpecSane PropsSane SpecRead ProofRead ProofReadShape ProofReadEnds.

Section theorems.
Context {F P : Type} (e : engine F P) (builtin sprig : list N -> option F) (sed : sed_engine).
Context (compile : list N -> option (heap -> loc -> list loc)) (to_int : info -> option Z).
Context (h0 : heap) (z : loc) (s : surroundings).
Local Notation get_ready := (get_ready e builtin sprig sed compile to_int h0 z).
Local Notation prepare := (prepare e builtin sprig sed compile to_int h0 z).
Local Notation instructions_are := (instructions_are e builtin sprig sed compile to_int h0 s).

(** C87.  If the parser makes new nodes for whatever it reads, then the documents that
    Execute starts with are separate from one another and from the values of all
    overlays, and every overlay and every node referred to is there: the conditions of
    all theorems about the concurrent run. *)
Theorem C87_reading_keeps_documents_apart pfuel grow cl h1 os R :
  fresh_nodes s h0 z -> finds_reachable compile -> paths_usable s cl ->
  get_ready pfuel grow s cl = (h1, Ok (os, R)) ->
  let files := map to_file R in
  set_up files os h0 /\ Forall (docs_apart h0) files /\ set_up files os h1 /\ Forall (docs_apart h1) files.
Proof.
  intros FN FR PU G files. destruct (ready _ _ _ _ _ _ _ _ _ _ _ _ _ _ _ G) as [HP WP]. pose proof (wiped_shape _ _ _ WP) as SH.
  destruct (prepared_parts _ _ _ _ _ _ _ _ _ _ _ _ _ _ HP PU) as (W & ND & D & K).
  destruct (set_up_from compile h0 z s FN os R FR W ND D K) as [SU DA]. split; [done|]. split; [done|]. split; [by eapply set_up_shape|].
  eapply Forall_impl; [exact DA|]. intros f. by apply docs_apart_shape.
Qed.

(** If what it makes are trees, and nothing in the instructions contains itself, then the
    run has what C79 (it ends) and C84 (it does not crash) ask of the documents and of the
    values. *)
Theorem C87_reading_is_tidy pfuel grow cl h1 os R :
  fresh_nodes s h0 z -> well_formed s h0 z -> finds_reachable compile -> finds_in_document compile -> paths_usable s cl ->
  get_ready pfuel grow s cl = (h1, Ok (os, R)) ->
  let files := map to_file R in
  tidy files os h1 /\ Forall (sane_file h1) files /\
  Forall (fun o => (forall x n, reach h1 (o_value o) x -> h1 !! x = Some n -> i_kind (n_info n) <> KDocument) /\
                   forall g c q, In g (o_docqueries o) -> In c g -> In q (c_queries c) -> finder_ok q) os.
Proof.
  intros FN WF FR FD PU G files. destruct (C87_reading_keeps_documents_apart pfuel grow cl h1 os R FN FR PU G) as (SU & DA & _).
  destruct (ready _ _ _ _ _ _ _ _ _ _ _ _ _ _ _ G) as [HP WP]. destruct (prepared_parts _ _ _ _ _ _ _ _ _ _ _ _ _ _ HP PU) as (W & ND & D & K).
  destruct (tidy_from compile h0 z s FN WF os R h1 (cl_uncomment cl) FD W D SU DA WP) as (TI & SF & SV). split; [done|]. split; [done|].
  rewrite Forall_forall in *. intros o O. split; [by apply SV|]. intros g c q Gi C Q. pose proof (wr_conditions _ _ _ _ _ (W o O) g c Gi C) as X.
  rewrite Forall_forall in X. apply elem_of_list_In, X in Q. by apply (compiled_good compile FR) in Q as [? _].
Qed.

(** Names in the instructions file are never taken for standard input by mistake. *)
Lemma dash_in_instructions cl : paths_usable s cl ->
  let base := match cl_instructions cl with [] => [] | p => path_dir (path_abs (sr_cwd s) p) end in
  (forall p, cl_instructions cl <> [] -> resolve base p <> lit "-") /\ (cl_path cl = lit "-" \/ resolve base (cl_path cl) <> lit "-").
Proof.
  intros (CWD & _ & DP) base. assert (X : forall p, cl_instructions cl <> [] -> resolve base p <> lit "-").
  { intros p NE. unfold base. destruct (cl_instructions cl) as [|x q]; [done|]. apply resolve_abs, path_dir_abs.
    unfold path_abs. destruct (is_abs (x :: q)) eqn:IA; [by apply clean_abs|by apply join_abs]. }
  split; [done|]. unfold base in *. destruct (cl_instructions cl) as [|x q]; [by apply DP|]. right. by apply X.
Qed.
Lemma no_entries cl i common y : cl_instructions cl = [] -> instructions_are cl i -> instructions_stand_for z i common y -> y = [].
Proof. intros E HI [_ SY]. unfold PropsWhole.instructions_are in HI. rewrite E in HI. subst i. by inversion SY. Qed.
Lemma dash_entries cl i common y : paths_usable s cl -> instructions_are cl i -> instructions_stand_for z i common y ->
  Forall (dash_is_stdin match cl_instructions cl with [] => [] | p => path_dir (path_abs (sr_cwd s) p) end) y.
Proof.
  intros PU HI SF. destruct (dash_in_instructions cl PU) as [X _]. destruct (cl_instructions cl) as [|x q] eqn:CI; [by rewrite (no_entries cl i common y)|].
  apply Forall_forall. intros en _. right. by apply X.
Qed.

(** C70 for everything that can be read: what is written is the meaning of the overlays. *)
Theorem C87_files_hold_the_meaning fuel dflt enc dk cfg w0 pfuel grow cl h1 os R n st :
  fresh_nodes s h0 z -> finds_reachable compile -> paths_usable s cl ->
  get_ready pfuel grow s cl = (h1, Ok (os, R)) ->
  let files := map to_file R in
  execution fuel sed dflt enc dk cfg files os h1 w0 n st -> crashed st = false -> main st = MReturn None ->
  exists i common y adhoc,
    instructions_are cl i /\ instructions_stand_for z i common y /\ flags_say compile h0 z s cl adhoc /\
    (exists text, (forall p, In p (map e_path (all_inputs s cl y)) -> exists ds ts,
       documents s p = Some ds /\ length ts = length ds /\
       (forall j doc t d ro ots, ds !! j = Some (label doc) -> ts !! j = Some t ->
          situated d ro h0 doc (overlays_for (room_left grow common adhoc) common adhoc (all_inputs s cl y) p j) ots ->
          all_plainly sed dflt ots (as_processed cl (erase doc)) ->
          t_apply_each sed dflt ots (as_processed cl (erase doc)) = Ok t) /\
       encode_nodes enc (oc_styles cfg) ts = Ok (text p)) /\
     texts_written (all_inputs s cl y) text (oc_stdout cfg) (oc_dir cfg) w0 (outside st)).
Proof.
  intros FN FR PU G files E C M. destruct (C87_reading_keeps_documents_apart pfuel grow cl h1 os R FN FR PU G) as (SU & DA & _).
  destruct (C70_files_hold_the_meaning e builtin sprig sed compile to_int h0 z fuel dflt enc dk cfg w0 pfuel grow s cl h1 os R n st G (proj1 (proj2 PU)) SU DA E C M)
    as (i & common & y & adhoc & HI & HS & HF & X).
  exists i, common, y, adhoc. split; [done|]. split; [done|]. split; [done|]. exact (X (dash_entries cl i common y PU HI HS) (proj2 (dash_in_instructions cl PU))).
Qed.

(** Reading comes to an end, whatever the command line and the files say (links in a loop
    aside: C34, C55). *)
Theorem C87_reading_ends cl : fresh_nodes s h0 z -> well_formed s h0 z -> paths_usable s cl ->
  exists enough, forall pfuel grow, enough <= pfuel -> snd (get_ready pfuel grow s cl) <> Fuel.
Proof. intros FN WF PU. destruct (ready_outcome e builtin sprig sed compile to_int h0 z s cl FN WF PU) as [k H]. exists k. intros. by apply H. Qed.
(** It ends with the instructions or an error, not in a crash, if the values files hold
    documents, no list in the instructions has a null and every -q says something. *)
Theorem C87_reading_does_not_crash cl : fresh_nodes s h0 z -> well_formed s h0 z -> paths_usable s cl ->
  first_documents s -> queries_said s h0 cl -> (forall i, instructions_are cl i -> no_nulls i) ->
  exists enough, forall pfuel grow, enough <= pfuel -> exists h1,
    (exists os R, get_ready pfuel grow s cl = (h1, Ok (os, R))) \/ exists er, get_ready pfuel grow s cl = (h1, Err er).
Proof.
  intros FN WF PU FD QS NN. destruct (ready_outcome e builtin sprig sed compile to_int h0 z s cl FN WF PU) as [k H]. exists k. intros pfuel grow L.
  destruct (H pfuel grow L) as [A B]. specialize (B FD QS NN). destruct (get_ready pfuel grow s cl) as [h1 [[os R]|er| |]]; cbn [snd] in *; [exists h1; left; eauto|exists h1; right; eauto|done|done].
Qed.

(** *** The whole process *)
Section process.
Context (env cli : list N -> option (list N)) (config_at : list N -> option (list (list N * list N))) (search : option (list N)) (cl : command_line).
Context (number : list N -> Z).
Local Notation boot pfuel grow := (boot e builtin sprig sed compile to_int h0 z pfuel grow s env cli config_at search cl).
Local Notation process fuel pfuel grow := (process e builtin sprig sed compile to_int h0 z fuel pfuel grow s env cli config_at search cl number).

Lemma boot_outcome : fresh_nodes s h0 z -> well_formed s h0 z -> paths_usable s cl ->
  exists enough, forall pfuel grow, enough <= pfuel ->
    boot pfuel grow <> Fuel /\
    (level_known env cli config_at search -> first_documents s -> queries_said s h0 cl -> (forall i, instructions_are cl i -> no_nulls i) -> boot pfuel grow <> Panic).
Proof.
  intros FN WF PU.
  destruct (ready_outcome e builtin sprig sed compile to_int h0 z s (with_uncomment true cl) FN WF PU) as [k1 H1].
  destruct (ready_outcome e builtin sprig sed compile to_int h0 z s (with_uncomment false cl) FN WF PU) as [k2 H2].
  exists (k1 + k2). intros pfuel grow L. unfold Main.boot.
  destruct (queries_settle compile h0 (parse_flag h0 s) (cl_queries cl)) as [Q1 Q2]. destruct (set_queries _ _ _ _); cbn [rbind]; try done.
  destruct (actions_settle compile h0 (parse_flag h0 s) (cl_actions cl) AInvalid) as [A1 A2]. destruct (set_actions _ _ _ _); cbn [rbind]; try done.
  destruct (startup_cases env cli config_at search) as [[v V]|[x V]]; rewrite V; cbn [rbind]; [|done].
  assert (LV : level_known env cli config_at search -> setup_logging (get_string env v (lit "logLevel")) <> Panic).
  { intros (n & I & E). rewrite (setting_get env cli config_at search v "log-level" "logLevel" "warning" V) by (vm_compute; tauto). unfold setup_logging.
    destruct (list_find _ _) as [[i x]|] eqn:LF; [done|]. apply list_find_None in LF. rewrite Forall_forall in LF. exfalso. apply (LF n); [by apply elem_of_list_In|done]. }
  assert (LF : setup_logging (get_string env v (lit "logLevel")) <> Fuel) by (unfold setup_logging; by destruct (list_find _ _) as [[]|]).
  destruct (setup_logging _) as [n| | |]; cbn [rbind]; [|done|split; [done|]; intros X; by destruct (LV X)|done].
  assert (X : exists b, get_bool env v (lit "removeComments") = b) by eauto. destruct X as [b ->].
  assert (Y : let r := snd (get_ready pfuel grow s (with_uncomment b cl)) in r <> Fuel /\
    (first_documents s -> queries_said s h0 cl -> (forall i, instructions_are cl i -> no_nulls i) -> r <> Panic)).
  { destruct b; [exact (H1 pfuel grow ltac:(lia))|exact (H2 pfuel grow ltac:(lia))]. }
  destruct (get_ready pfuel grow s (with_uncomment b cl)) as [h1 r]. cbn [snd] in Y. destruct Y as [Y1 Y2].
  destruct r as [[os R]| | |]; cbn [rbind]; try done. split; [done|]. intros _ FD QS NN. by destruct (Y2 FD QS NN).
Qed.
Lemma boot_parts pfuel grow h1 v os files : boot pfuel grow = Ok (h1, v, os, files) ->
  exists b R, get_ready pfuel grow s (with_uncomment b cl) = (h1, Ok (os, R)) /\ files = map to_file R.
Proof. intros B. destruct (boot_ok _ _ _ _ _ _ _ _ _ _ _ _ _ _ _ _ _ _ _ _ B) as (R & b & _ & _ & _ & _ & G & ->). by exists b, R. Qed.

(** Every process ends with an exit status, for every input that can be read. *)
Theorem C87_process_ends : fresh_nodes s h0 z -> well_formed s h0 z -> finds_reachable compile -> finds_in_document compile -> paths_usable s cl ->
  exists enough, forall pfuel grow, enough <= pfuel -> exists enough', forall fuel, enough' <= fuel -> forall enc dk w0, exists st w,
    process fuel pfuel grow enc dk w0 st w /\ st <= 2.
Proof.
  intros FN WF FR FD PU. destruct (boot_outcome FN WF PU) as [k H]. exists k. intros pfuel grow L.
  apply (C79_process_ends e builtin sprig sed compile to_int h0 z pfuel grow s env cli config_at search cl number); [by apply H|].
  intros h1 v os files (b & R & G & ->)%boot_parts.
  destruct (C87_reading_keeps_documents_apart pfuel grow (with_uncomment b cl) h1 os R FN FR PU G) as (_ & _ & SU & _).
  by destruct (C87_reading_is_tidy pfuel grow (with_uncomment b cl) h1 os R FN WF FR FD PU G) as (TI & _).
Qed.

(** ... and not with a crash (status 2), if the level is known, the indentation is not
    negative, no list in the instructions has a null, every -q says something, every overlay
    has queries (and inject paths, if it has any at all) that find nodes below the document,
    and tops of documents are not deleted when something may be injected. *)
Theorem C87_process_does_not_crash : fresh_nodes s h0 z -> well_formed s h0 z -> finds_reachable compile -> finds_in_document compile -> paths_usable s cl ->
  level_known env cli config_at search -> (0 <= number (indent_setting env cli config_at search))%Z ->
  first_documents s -> queries_said s h0 cl -> (forall i, instructions_are cl i -> no_nulls i) ->
  (forall pfuel grow b h1 os R, get_ready pfuel grow s (with_uncomment b cl) = (h1, Ok (os, R)) ->
     Forall (fun o => sane_paths (o_queries o) /\ forall ip, o_inject o = Some ip -> sane_paths ip) os /\ tops_kept (missing_setting env cli config_at search) os) ->
  exists enough, forall pfuel grow, enough <= pfuel -> exists enough', forall fuel, enough' <= fuel -> forall enc dk w0 st w,
    process fuel pfuel grow enc dk w0 st w -> st = 0 \/ st = 1.
Proof.
  intros FN WF FR FD PU LK IZ FI QS NN SO. destruct (boot_outcome FN WF PU) as [k H]. exists k. intros pfuel grow L. destruct (H pfuel grow L) as [_ NP]. specialize (NP LK FI QS NN).
  destruct (C84_process_status e builtin sprig sed compile to_int h0 z pfuel grow s env cli config_at search cl number) as [k' H']; [|done|].
  - intros h1 v os files (b & R & G & ->)%boot_parts.
    destruct (C87_reading_keeps_documents_apart pfuel grow (with_uncomment b cl) h1 os R FN FR PU G) as (_ & _ & SU & _).
    destruct (C87_reading_is_tidy pfuel grow (with_uncomment b cl) h1 os R FN WF FR FD PU G) as (TI & SF & SV). destruct (SO pfuel grow b h1 os R G) as [S1 S2].
    split; [done|]. split; [done|]. split; [done|]. split; [|done]. rewrite Forall_forall in *. intros o O. destruct (S1 o O) as [A B]. destruct (SV o O) as [C D]. by constructor.
  - exists k'. intros fuel L' enc dk w0 st w PR. by apply (H' fuel L' enc dk w0 st w PR).
Qed.

(** C73 for everything that can be read: after status 0, every input named was processed and
    its text is at its output location. *)
Theorem C87_status_zero_means_done fuel pfuel grow enc dk w0 w :
  fresh_nodes s h0 z -> finds_reachable compile -> paths_usable s cl -> process fuel pfuel grow enc dk w0 0 w ->
  ~ config_unreadable env cli config_at search /\ level_known env cli config_at search /\
  exists b h1 os R cfg,
    (b = true <-> true_text (comments_setting env cli config_at search)) /\ output_settings env cli config_at search number cfg /\
    get_ready pfuel grow s (with_uncomment b cl) = (h1, Ok (os, R)) /\
    let files := map to_file R in
    let enc' := enc (number (indent_setting env cli config_at search)) in
    let dflt := missing_setting env cli config_at search in
    exists i common y adhoc,
    instructions_are cl i /\ instructions_stand_for z i common y /\ flags_say compile h0 z s cl adhoc /\
    (exists text, (forall p, In p (map e_path (all_inputs s cl y)) -> exists ds ts,
       documents s p = Some ds /\
       Forall2 (fun jd t => let '(h, r) := apply_each fuel sed dflt (overlays_for (room_left grow common adhoc) common adhoc (all_inputs s cl y) p (fst jd)) (snd jd) h1 in
                  r = Ok tt /\ snapshot fuel h (snd jd) = Ok t) (imap pair ds) ts /\
       encode_nodes enc' (oc_styles cfg) ts = Ok (text p)) /\
     texts_written (all_inputs s cl y) text (oc_stdout cfg) (oc_dir cfg) w0 w).
Proof.
  intros FN FR PU PR.
  destruct (C73_status_zero_means_done e builtin sprig sed compile to_int h0 z fuel pfuel grow s env cli config_at search cl number enc dk w0 w (proj1 (proj2 PU))) as (A & B & b & h1 & os & R & cfg & n & st & C1 & C2 & C3 & _ & _ & _ & _ & _ & i & common & y & adhoc & D1 & D2 & D3 & D4); [|exact PR|].
  { intros h1 v os files (b & R & G & ->)%boot_parts. by destruct (C87_reading_keeps_documents_apart pfuel grow (with_uncomment b cl) h1 os R FN FR PU G) as (SU & DA & _). }
  split; [done|]. split; [done|]. exists b, h1, os, R, cfg. split; [done|]. split; [done|]. split; [done|]. cbv zeta. exists i, common, y, adhoc. split; [done|]. split; [done|]. split; [done|].
  exact (D4 (dash_entries cl i common y PU D1 D2) (proj2 (dash_in_instructions cl PU))).
Qed.
End process.
End theorems.

(** *** Non-vacuity: the run of PropsWhole.v and PropsMain.v *)
From Verif Require ProofExecuteProps SpecActions.
From Verif Require Import SpecQuery SpecDelete ProofKeeps Finder ProofFinder Deciders Witness PropsDelete Examples ExamplesHeap ExamplesPipeline PropsLocal.
Definition r_s : surroundings := mkSurroundings run_fs (lit "/w") (sr_text w_s) (fun t => if seq_eqb t (lit "v") then Some (doc (mp [sc "k"; sc "v"])) else None)
  (sr_parse w_s) (fun p => if seq_eqb p (lit "/w/a.yaml") then Some [ex_doc] else if seq_eqb p (lit "/w/b.yaml") then Some [two_doc] else None) None.

Lemma r_docs p ds : documents r_s p = Some ds -> p = lit "/w/a.yaml" /\ ds = [ex_doc] \/ p = lit "/w/b.yaml" /\ ds = [two_doc].
Proof.
  unfold documents. cbn [r_s sr_stdin sr_docs]. destruct (seq_eqb p (lit "-")); [done|]. destruct (seq_eqb_spec p (lit "/w/a.yaml")) as [->|_]; [intros [= <-]; auto|].
  destruct (seq_eqb_spec p (lit "/w/b.yaml")) as [->|_]; [intros [= <-]; auto|done].
Qed.
Lemma r_texts t l : sr_parse r_s t = Some (Some l) -> t = lit "text" /\ l = w_doc.
Proof. cbn [r_s sr_parse w_s]. destruct (seq_eqb_spec t (lit "text")) as [->|_]; [intros [= <-]; auto|done]. Qed.
Lemma r_apart a b x : In a [ex_doc; two_doc; w_doc] -> In b [ex_doc; two_doc; w_doc] -> a <> b -> reach w_heap a x -> reach w_heap b x -> False.
Proof.
  assert (C : forall a, In a [ex_doc; two_doc; w_doc] -> complete 30 w_heap a = true) by (intros y [<-|[<-|[<-|[]]]]; by vm_compute).
  intros A B NE. apply (disjointb_sound 30 w_heap a b x); [by apply C|by apply C|].
  destruct A as [<-|[<-|[<-|[]]]]; destruct B as [<-|[<-|[<-|[]]]]; try done; by vm_compute.
Qed.
Lemma r_fresh : fresh_nodes r_s w_heap ex_zero.
Proof.
  assert (DI : forall p ds d, documents r_s p = Some ds -> In d ds -> In d [ex_doc; two_doc; w_doc] /\ d <> w_doc).
  { intros p ds d [[_ ->]|[_ ->]]%r_docs [<-|[]]; (split; [cbn; tauto|by vm_compute]). }
  assert (NE : ex_doc <> two_doc) by (by vm_compute). constructor.
  - apply closedb_sound. by vm_compute.
  - eexists. split; [by vm_compute|]. intros x [X|(ls & X & _)]; discriminate X.
  - intros p ds d [[_ ->]|[_ ->]]%r_docs [<-|[]]; apply Nat.ltb_lt; by vm_compute.
  - intros t l [_ ->]%r_texts. apply Nat.ltb_lt; by vm_compute.
  - intros p q ds es d e x P Q PQ D E RD RE. pose proof (proj1 (DI _ _ _ P D)) as D'. pose proof (proj1 (DI _ _ _ Q E)) as E'. apply (r_apart d e x); try done.
    apply r_docs in P as [[-> ->]|[-> ->]]; apply r_docs in Q as [[-> ->]|[-> ->]]; try done; destruct D as [<-|[]]; destruct E as [<-|[]]; auto.
  - intros p ds i j d e x [[_ ->]|[_ ->]]%r_docs I J N; destruct i as [|i], j as [|j]; cbn in I, J; try done; rewrite ?lookup_nil in *; done.
  - intros p ds d t l x P D [_ ->]%r_texts RD RL. destruct (DI _ _ _ P D) as [D' N]. apply (r_apart d w_doc x); try done. cbn; tauto.
  - intros p ds d P D R. assert (X : ~ In ex_zero (reach_list 30 w_heap d)).
    { apply r_docs in P as [[_ ->]|[_ ->]]; destruct D as [<-|[]]; vm_compute; intuition discriminate. }
    apply X, reach_in; [|done]. apply r_docs in P as [[_ ->]|[_ ->]]; destruct D as [<-|[]]; by vm_compute.
Qed.
Lemma complete_bounded f h : forall l, complete f h l = true -> bounded f h l.
Proof.
  induction f as [|f IH]; intros l C; [discriminate|]. cbn [complete bounded] in *. destruct (h !! l) as [n|]; [|discriminate]. apply andb_true_iff in C as [C1 C2].
  exists n. split; [done|]. intros x [X|(ls & X & I)]; rewrite X in *; [by apply IH|]. rewrite forallb_forall in C2. by apply IH, C2.
Qed.
Lemma r_formed : well_formed r_s w_heap ex_zero.
Proof.
  assert (TS : forall d t, lread 20 w_heap d = Some t -> bool_decide (NoDup (flat [t])) = true -> everywhereb node_pairedb (erase t) && everywhereb node_branchingb (erase t) && kind_eqb (i_kind (l_info t)) KDocument = true ->
    l_content t <> Some [] -> tree_shaped w_heap [d]).
  { intros d t L N P C. exists [t]. split; [cbn; by rewrite (lread_label _ _ _ _ L)|]. split; [split; [constructor; [by eapply lread_reads|constructor]|by apply bool_decide_eq_true in N]|].
    apply andb_true_iff in P as [P K]. apply andb_true_iff in P as [P1 P2]. constructor; [|constructor]. split; [by apply well_paired_ex|]. split; [by apply branching_ex|]. split; [|done].
    by destruct (kind_eqb_spec (i_kind (l_info t)) KDocument). }
  constructor.
  - intros p ds [[_ ->]|[_ ->]]%r_docs; (eapply TS; [by vm_compute|by vm_compute|by vm_compute|by vm_compute]).
  - intros t l [_ ->]%r_texts. assert (C : complete 30 w_heap w_doc = true) by (by vm_compute).
    assert (ALL : forall x n, reach w_heap w_doc x -> w_heap !! x = Some n ->
      (i_kind (n_info n) = KMapping -> Nat.even (length (nodes_below n)) = true) /\
      (nodes_below n <> [] -> i_kind (n_info n) = KDocument \/ i_kind (n_info n) = KSequence \/ i_kind (n_info n) = KMapping) /\
      (x <> w_doc -> i_kind (n_info n) <> KDocument)).
    { assert (X : forallb (fun x => match w_heap !! x with Some n =>
        (negb (kind_eqb (i_kind (n_info n)) KMapping) || Nat.even (length (nodes_below n))) &&
        (match nodes_below n with [] => true | _ => false end || kind_eqb (i_kind (n_info n)) KDocument || kind_eqb (i_kind (n_info n)) KSequence || kind_eqb (i_kind (n_info n)) KMapping) &&
        (Nat.eqb x w_doc || negb (kind_eqb (i_kind (n_info n)) KDocument)) | None => true end) (reach_list 30 w_heap w_doc) = true) by (by vm_compute).
      rewrite forallb_forall in X. intros x n R E. specialize (X x (reach_in _ _ _ _ C R)). rewrite E in X. apply andb_true_iff in X as [X X3]. apply andb_true_iff in X as [X1 X2]. split_and!.
      - intros K. rewrite K in X1. exact X1.
      - intros NE. destruct (nodes_below n); [done|]. destruct (i_kind (n_info n)); cbn in X2; auto; discriminate X2.
      - intros NE K. rewrite K in X3. apply orb_true_iff in X3 as [X3|X3]; [by apply Nat.eqb_eq in X3|discriminate X3]. }
    constructor.
    + exists 30. by apply complete_bounded.
    + intros x n R E. by apply (ALL x n R E).
    + intros x n R E. by apply (ALL x n R E).
    + intros x n R NE E. by apply (ALL x n R E).
  - intros n E. vm_compute in E. injection E as <-. done.
Qed.
Lemma r_finds : finds_reachable w_compile /\ finds_in_document w_compile.
Proof.
  assert (X : forall t f, w_compile t = Some f -> exists names, mkQuery t f = dotted t names).
  { intros t f. unfold w_compile. destruct (seq_eqb_spec t (lit "$")) as [->|_]; [intros [= <-]; by exists []|].
    destruct (seq_eqb_spec t (lit "$.metadata")) as [->|_]; [intros [= <-]; by exists [lit "metadata"]|].
    destruct (seq_eqb_spec t (lit "$.metadata.name")) as [->|_]; [intros [= <-]; by exists [lit "metadata"; lit "name"]|done]. }
  split; intros t f C; destruct (X t f C) as [names ->]; [apply ProofExecuteProps.dotted_good|apply dotted_inside].
Qed.
Lemma r_paths : paths_usable r_s w_cl.
Proof. split; [done|]. split; [intros d ps p Hw; discriminate Hw|done]. Qed.

Local Notation r_instructions_are := (PropsWhole.instructions_are w_engine (fun _ => None) (fun _ => None) no_sed w_compile w_to_int w_heap r_s w_cl).
Local Notation r_ready := (Whole.get_ready w_engine (fun _ => None) (fun _ => None) no_sed w_compile w_to_int w_heap ex_zero).
Lemma r_read i : r_instructions_are i -> read_instructions_file w_engine (fun _ => None) (fun _ => None) no_sed w_compile w_to_int w_heap r_s w_cl = Ok i.
Proof.
  unfold PropsWhole.instructions_are. cbn [cl_instructions w_cl lit]. intros (text & d & c & T & Pa & HD & M).
  unfold read_instructions_file. cbn [cl_instructions w_cl lit]. rewrite T. cbn [rbind]. rewrite Pa. by apply (decode_means w_compile w_to_int w_heap d c).
Qed.
Lemma r_no_nulls i : r_instructions_are i -> no_nulls i.
Proof.
  intros H%r_read. vm_compute in H. injection H as <-. unfold no_nulls. cbn [fst snd]. split.
  - repeat constructor; eexists; (split; [reflexivity|]); constructor.
  - constructor; [|constructor; [|constructor]]; (eexists; split; [reflexivity|]); cbn [e_overlays e_documents]; split.
    + repeat constructor; eexists; (split; [reflexivity|]); constructor.
    + constructor; [|constructor]. eexists. split; [reflexivity|]. cbn [d_overlays]. repeat constructor; eexists; (split; [reflexivity|]); constructor.
    + constructor.
    + constructor.
Qed.
Lemma r_sane pfuel grow b h1 os R : r_ready pfuel grow r_s (with_uncomment b w_cl) = (h1, Ok (os, R)) ->
  Forall (fun o => sane_paths (o_queries o) /\ forall ip, o_inject o = Some ip -> sane_paths ip) os /\ tops_kept (missing_setting m_env m_cli m_config None) os.
Proof.
  intros G. apply ready in G as [HP _].
  assert (X : Forall (fun o => o_inject o = None /\ o_missing o = MDefault /\ exists t names, o_queries o = [mkQuery t (q_find (dotted t names))] /\ t <> []) os).
  { unfold Whole.prepare in HP. apply ProofDecode.rbind_Ok in HP as (fl & Hfl & HP). apply ProofDecode.rbind_Ok in HP as (i & Hi & HP).
    vm_compute in Hfl. injection Hfl as <-. change (read_instructions_file w_engine (fun _ => None) (fun _ => None) no_sed w_compile w_to_int w_heap r_s w_cl = Ok i) in Hi.
    vm_compute in Hi. injection Hi as <-. destruct (plain_instructions _ _) as [[common y]|] eqn:PI; [|done]. apply ProofDecode.rbind_Ok in HP as (R' & _ & [= <- _]).
    vm_compute in PI. injection PI as <- <-. cbn [app map concat entry_overlays e_overlays e_documents d_overlays].
    constructor; [|constructor; [|constructor; [|constructor]]]; (split; [reflexivity|]; split; [reflexivity|]).
    - exists (lit "$"), []. split; [reflexivity|done].
    - exists (lit "$.metadata.name"), [lit "metadata"; lit "name"]. split; [reflexivity|done].
    - exists (lit "$.metadata"), [lit "metadata"]. split; [reflexivity|done]. }
  rewrite Forall_forall in X. split.
  - apply Forall_forall. intros o O. destruct (X o O) as (I & _ & t & names & Q & T). rewrite Q, I. split; [|done]. split; [done|]. constructor; [|constructor]. split; [done|]. apply (dotted_below t names).
  - intros o o' q O [M|[M D]]; apply elem_of_list_In in O; destruct (X o O) as (_ & M' & _); [congruence|]. exfalso.
    assert (N : missing_setting m_env m_cli m_config None = lit "ignore") by (by vm_compute). rewrite N in D. inversion D as [|? ? ? ? _ D1]. inversion D1 as [|? ? ? ? C _]. unfold SpecActions.cased in C. destruct C as [C|[_ C]]; vm_compute in C; discriminate C.
Qed.
Example C87_applies :
  fresh_nodes r_s w_heap ex_zero /\ well_formed r_s w_heap ex_zero /\ finds_reachable w_compile /\ finds_in_document w_compile /\ paths_usable r_s w_cl /\
  first_documents r_s /\ queries_said r_s w_heap w_cl /\ (forall i, r_instructions_are i -> no_nulls i) /\
  level_known m_env m_cli m_config None /\ (0 <= m_number (indent_setting m_env m_cli m_config None))%Z /\
  (forall pfuel grow b h1 os R, r_ready pfuel grow r_s (with_uncomment b w_cl) = (h1, Ok (os, R)) ->
     Forall (fun o => sane_paths (o_queries o) /\ forall ip, o_inject o = Some ip -> sane_paths ip) os /\ tops_kept (missing_setting m_env m_cli m_config None) os) /\
  exists h1 os R, r_ready 10 go_grow r_s w_cl = (h1, Ok (os, R)) /\ map (fun en => (e_path en, e_nodes en)) R = [(lit "/w/a.yaml", [ex_doc]); (lit "/w/b.yaml", [two_doc])] /\ length os = 3.
Proof.
  split; [apply r_fresh|]. split; [apply r_formed|]. split; [apply r_finds|]. split; [apply r_finds|]. split; [apply r_paths|]. split.
  { intros text d. cbn [r_s sr_first]. destruct (seq_eqb text (lit "v")); [|done]. intros [= <-]. split; [done|]. eexists _, []. split; [reflexivity|].
    apply (everywhereb_sound (fun t => negb (kind_eqb (t_kind t) KDocument))); [|by vm_compute]. intros t H K. by rewrite K in H. }
  split; [by intros t []|]. split; [exact r_no_nulls|]. split; [exists "WARNING"%string; split; [cbn; tauto|by vm_compute]|]. split; [by vm_compute|]. split; [exact r_sane|].
  assert (X : match r_ready 10 go_grow r_s w_cl with (_, Ok (os, R)) => map (fun en => (e_path en, e_nodes en)) R = [(lit "/w/a.yaml", [ex_doc]); (lit "/w/b.yaml", [two_doc])] /\ length os = 3 | _ => False end) by (vm_compute; split; reflexivity).
  destruct (r_ready 10 go_grow r_s w_cl) as [h1 [[os R]| | |]]; try done. exists h1, os, R. by destruct X.
Qed.

Print Assumptions C87_reading_keeps_documents_apart.
Print Assumptions C87_reading_is_tidy.
Print Assumptions C87_files_hold_the_meaning.
Print Assumptions C87_reading_ends.
Print Assumptions C87_reading_does_not_crash.
Print Assumptions C87_process_ends.
Print Assumptions C87_process_does_not_crash.
Print Assumptions C87_status_zero_means_done.
