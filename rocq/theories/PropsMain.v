(** C73: the exit status and the settings of a process. *)
From Verif Require Import Prelude GoStrings Format Yaml Heap ActionNames Overlay Fine SpecReach SpecSame ProofExecute ProofExecuteProps Queue PropsQueue Paths SpecPaths Files SpecFiles Slices Prepare SpecPrepare PropsPrepare
  Combine SpecCombine ProofCombine
  Render SpecRender SpecOutcome Pipeline SpecPipeline Execute SpecExecute PropsPipeline SpecDocs PropsDocs Decode SpecDecode PropsDecode Flags Template HeapComments Whole SpecWhole ProofUncomment ProofWhole PropsWhole
  Config PropsConfig Main SpecMain Examples ExamplesHeap ExamplesPipeline.

Lemma fields_from_words s : forall acc, no_space acc ->
  match acc with [] => words s (fields_from s []) | _ => words (rev acc ++ s) (fields_from s acc) end.
Proof.
  induction s as [|c s IH]; intros acc A; cbn [fields_from].
  - destruct acc as [|a acc]; [apply words_none; constructor|]. rewrite app_nil_r. apply (words_last [] (rev (a :: acc))); [constructor| |].
    + unfold no_space in *. by apply Forall_rev.
    + intros X. apply (f_equal length) in X. rewrite rev_length in X. discriminate.
  - destruct (is_space c) eqn:C.
    + assert (X : words s (fields_from s [])) by (apply (IH []); constructor). destruct acc as [|a acc].
      * inversion X as [s0 A0|s0 w A0 A1 A2|s0 w d r ws A0 A1 A2 A3 A4]; subst.
        -- apply words_none. by constructor.
        -- apply (words_last (c :: s0) w); [by constructor|done|done].
        -- apply (words_more (c :: s0) w d r ws); [by constructor|done..].
      * apply (words_more [] (rev (a :: acc)) c s); [constructor| | |done|done].
        -- unfold no_space in *. by apply Forall_rev.
        -- intros Y. apply (f_equal length) in Y. rewrite rev_length in Y. discriminate.
    + destruct acc as [|a acc].
      * apply (IH [c]). by repeat constructor.
      * replace (rev (a :: acc) ++ c :: s) with (rev (c :: a :: acc) ++ s) by (cbn [rev]; by rewrite <- !app_assoc).
        apply (IH (c :: a :: acc)). by constructor.
Qed.
Lemma fields_words s : words s (fields s).
Proof. apply (fields_from_words s []). constructor. Qed.

Section settings.
Context (env cli : list N -> option (list N)) (config_at : list N -> option (list (list N * list N))) (search : option (list N)).
Notation setting := (setting env cli config_at search).

Lemma setting_get v flag key dflt : startup env cli config_at search = Ok v -> In (flag, key, dflt) settings ->
  get_string env v (lit key) = setting flag key dflt.
Proof.
  intros E I. destruct (C46_flag_then_file_then_default env cli config_at search) as [_ X]. destruct (X v E) as [Y _].
  unfold get_string. rewrite (Y flag key dflt I). unfold SpecMain.setting. destruct (cli (lit flag)); [done|].
  destruct (chosen_file env cli search) as [f|]; [|done]. destruct (config_at f) as [c|]; [|done]. by destruct (entry c (lit key)).
Qed.
Lemma bool_get v flag key dflt : startup env cli config_at search = Ok v -> In (flag, key, dflt) settings ->
  get_bool env v (lit key) = true <-> true_text (setting flag key dflt).
Proof.
  intros E I. unfold get_bool. rewrite (setting_get _ _ _ _ E I). pose proof (parse_bool_spec (setting flag key dflt)) as X.
  destruct (parse_bool _) as [[]|]; split; try done.
  - intros _. by apply (X true).
  - intros T1. by apply (X true) in T1.
  - intros T1. by apply (X true) in T1.
Qed.
Lemma out_settings number v : startup env cli config_at search = Ok v -> output_settings env cli config_at search number (out_of env number v).
Proof.
  intros E. unfold out_of. constructor; cbn [oc_stdout oc_dir oc_styles oc_indent].
  - apply (bool_get v _ _ _ E). vm_compute; tauto.
  - apply (setting_get v _ _ _ E). vm_compute; tauto.
  - unfold get_slice. rewrite (setting_get v "output-style" "outputStyle" "[normal]" E) by (vm_compute; tauto). apply fields_words.
  - f_equal. apply (setting_get v _ _ _ E). vm_compute; tauto.
Qed.
Lemma level_get v n : startup env cli config_at search = Ok v -> setup_logging (get_string env v (lit "logLevel")) = Ok n -> level_known env cli config_at search.
Proof.
  intros E. rewrite (setting_get v "log-level" "logLevel" "warning" E) by (vm_compute; tauto). unfold setup_logging.
  destruct (list_find _ _) as [[i x]|] eqn:L; [|done]. intros _. apply list_find_Some in L as (L & F & _).
  exists x. split; [|done]. apply elem_of_list_In. by eapply elem_of_list_lookup_2.
Qed.
Lemma startup_bad : config_unreadable env cli config_at search <-> exists x, startup env cli config_at search = Err x.
Proof.
  destruct (C46_flag_then_file_then_default env cli config_at search) as [A _]. unfold startup, init_config in *. rewrite (chosen env cli search) in *. split.
  - intros (f & F & C). rewrite F, C in *. eauto.
  - intros [x X]. destruct (chosen_file env cli search) as [f|] eqn:F; [|done]. destruct (config_at f) eqn:C; [done|]. by exists f.
Qed.
Lemma startup_cases : (exists v, startup env cli config_at search = Ok v) \/ exists x, startup env cli config_at search = Err x.
Proof. unfold startup, init_config. destruct (match config_flag env cli with [] => search | f => Some f end) as [f|]; [|eauto]. destruct (config_at f); eauto. Qed.
End settings.

Section process.
Context {F P : Type} (e : engine F P) (builtin sprig : list N -> option F) (sed : sed_engine).
Context (compile : list N -> option (heap -> loc -> list loc)) (to_int : info -> option Z).
Context (h0 : heap) (z : loc) (fuel pfuel : nat) (grow : nat -> nat -> nat) (s : surroundings).
Context (env cli : list N -> option (list N)) (config_at : list N -> option (list (list N * list N))) (search : option (list N)) (cl : command_line).
Context (number : list N -> Z) (enc : Z -> nat -> tree -> option (list N)) (dk : disk).
Notation boot := (boot e builtin sprig sed compile to_int h0 z pfuel grow s env cli config_at search cl).
Notation process := (process e builtin sprig sed compile to_int h0 z fuel pfuel grow s env cli config_at search cl number enc dk).
Notation config_unreadable := (config_unreadable env cli config_at search).
Notation level_known := (level_known env cli config_at search).
Notation missing_setting := (missing_setting env cli config_at search).
Notation indent_setting := (indent_setting env cli config_at search).
Notation comments_setting := (comments_setting env cli config_at search).
Notation output_settings := (output_settings env cli config_at search number).

Lemma boot_ok h1 v os files : boot = Ok (h1, v, os, files) -> exists R b,
  Forall (fun t => sr_parse s t <> None) (cl_queries cl ++ cl_actions cl) /\
  startup env cli config_at search = Ok v /\ level_known /\ (b = true <-> true_text comments_setting) /\
  get_ready e builtin sprig sed compile to_int h0 z pfuel grow s (with_uncomment b cl) = (h1, Ok (os, R)) /\ files = map to_file R.
Proof.
  unfold Main.boot. intros H. apply ProofDecode.rbind_Ok in H as (q & Hq & H). apply ProofDecode.rbind_Ok in H as (a & Ha & H).
  apply ProofDecode.rbind_Ok in H as (v' & Hv & H). apply ProofDecode.rbind_Ok in H as (n & Hn & H). cbv zeta in H.
  destruct (get_ready _ _ _ _ _ _ _ _ _ _ _ _) as [h1' r] eqn:G. apply ProofDecode.rbind_Ok in H as ([os' R] & -> & [= -> -> -> <-]).
  exists R, (get_bool env v (lit "removeComments")).
  assert (PF : forall t x, parse_flag h0 s t = Some x -> sr_parse s t <> None) by (intros t x; unfold parse_flag; by destruct (sr_parse s t)).
  split_and!; try done.
  - apply Forall_app. split.
    + clear -Hq PF. revert q Hq. induction (cl_queries cl) as [|t ts IH]; intros q Hq; [constructor|]. cbn [set_queries] in Hq.
      apply ProofDecode.rbind_Ok in Hq as (x & Hx & Hq). apply ProofDecode.rbind_Ok in Hq as (r & Hr & _). constructor; [|by eapply IH].
      unfold set_query in Hx. destruct (parse_flag h0 s t) eqn:PT; [by eapply PF|done].
    + clear -Ha PF. revert Ha. generalize AInvalid. induction (cl_actions cl) as [|t ts IH]; intros a0 Ha; [constructor|]. cbn [set_actions] in Ha.
      destruct (parse_flag h0 s t) as [[c|]|] eqn:PT; [| |done].
      * apply ProofDecode.rbind_Ok in Ha as (x & Hx & Ha). constructor; [by eapply PF|by eapply IH].
      * constructor; [by eapply PF|by eapply IH].
  - by eapply level_get.
  - apply (bool_get _ _ _ _ _ _ _ _ Hv). vm_compute; tauto.
Qed.

Lemma missing_get v : startup env cli config_at search = Ok v -> on_missing_of env v = missing_setting.
Proof. intros E. apply (setting_get _ _ _ _ v _ _ _ E). vm_compute; tauto. Qed.
Lemma indent_get v : startup env cli config_at search = Ok v -> oc_indent (out_of env number v) = number indent_setting.
Proof. intros E. by destruct (out_settings env cli config_at search number v E). Qed.

(** C73.  If the process exits with status 0 then the configuration was readable and the log
    level known; Execute ran with the settings in force; and every input named was
    processed, and the texts written are theirs, each at its place: C67 for the settings in
    force. *)
Theorem C73_status_zero_means_done w0 w :
  let base := match cl_instructions cl with [] => [] | p => path_dir (path_abs (sr_cwd s) p) end in
  walks_files (sr_fs s) base ->
  (forall h1 v os files, boot = Ok (h1, v, os, files) -> set_up files os h0 /\ Forall (docs_apart h0) files) ->
  process w0 0 w ->
  ~ config_unreadable /\ level_known /\
  exists b h1 os R cfg n st,
    (b = true <-> true_text comments_setting) /\ output_settings cfg /\
    get_ready e builtin sprig sed compile to_int h0 z pfuel grow s (with_uncomment b cl) = (h1, Ok (os, R)) /\
    let files := map to_file R in
    execution fuel sed missing_setting (enc (number indent_setting)) dk cfg files os h1 w0 n st /\
    crashed st = false /\ main st = MReturn None /\ outside st = w /\
    (b = false -> h1 = h0) /\
    exists i common y adhoc,
    instructions_are e builtin sprig sed compile to_int h0 s cl i /\ instructions_stand_for z i common y /\ flags_say compile h0 z s cl adhoc /\
    (Forall (dash_is_stdin base) y -> (cl_path cl = lit "-" \/ resolve base (cl_path cl) <> lit "-") ->
     exists text, (forall p, In p (map e_path (all_inputs s cl y)) -> exists ds ts,
       (if seq_eqb p (lit "-") then sr_stdin s else sr_docs s p) = Some ds /\
       Forall2 (fun jd t => let '(h, r) := apply_each fuel sed missing_setting (overlays_for (room_left grow common adhoc) common adhoc (all_inputs s cl y) p (fst jd)) (snd jd) h1 in
                  r = Ok tt /\ snapshot fuel h (snd jd) = Ok t) (imap pair ds) ts /\
       encode_nodes (enc (number indent_setting)) (oc_styles cfg) ts = Ok (text p)) /\
     texts_written (all_inputs s cl y) text (oc_stdout cfg) (oc_dir cfg) w0 w).
Proof.
  intros base HW HS PR. inversion PR as [| |h1 v os files n st B E C M| |]; subst.
  destruct (HS _ _ _ _ B) as [SU HA]. destruct (boot_ok _ _ _ _ B) as (R & b & _ & V & LK & HB & G & ->).
  rewrite (missing_get v V), (indent_get v V) in E. split; [|split; [done|]].
  { intros CU. apply startup_bad in CU as [x X]. by rewrite V in X. }
  destruct (C67_from_texts_to_files e builtin sprig sed compile to_int h0 z fuel missing_setting (enc (number indent_setting)) dk (out_of env number v)
    w0 pfuel grow s (with_uncomment b cl) h1 os R n st G HW SU HA E C M) as [U X].
  exists b, h1, os, R, (out_of env number v), n, st. split; [done|]. split; [by apply out_settings|]. split; [done|]. cbv zeta. split; [done|].
  split; [done|]. split; [done|]. split; [done|]. split; [exact U|]. exact X.
Qed.

(** Inputs are read before anything else happens to them. *)
Lemma prepared_inputs cl' os R : prepare e builtin sprig sed compile to_int h0 z pfuel grow s cl' = Ok (os, R) ->
  let base := match cl_instructions cl' with [] => [] | p => path_dir (path_abs (sr_cwd s) p) end in
  walks_files (sr_fs s) base ->
  exists i common y, instructions_are e builtin sprig sed compile to_int h0 s cl' i /\ instructions_stand_for z i common y /\
    (Forall (dash_is_stdin base) y -> (cl_path cl' = lit "-" \/ resolve base (cl_path cl') <> lit "-") ->
     forall p, In p (map e_path (all_inputs s cl' y)) -> (if seq_eqb p (lit "-") then sr_stdin s else sr_docs s p) <> None).
Proof.
  intros HP base Hwalk. unfold prepare in HP.
  apply ProofDecode.rbind_Ok in HP as (fl & Hfl & HP). apply ProofDecode.rbind_Ok in HP as (i & Hi & HP).
  pose proof (instructions_read _ _ _ _ _ _ _ s cl' i Hi) as HI.
  destruct (plain_instructions z i) as [[common y]|] eqn:Hpl; [|done].
  set (ad := match fl with None => Some None | Some f => match plain_flags z f with Some o => Some (Some o) | None => None end end) in HP.
  destruct ad as [adhoc|] eqn:Had; [|done]. apply ProofDecode.rbind_Ok in HP as (R' & HR & [= <- <-]).
  set (os := common ++ concat (map entry_overlays y) ++ match adhoc with Some o => [o] | None => [] end) in *.
  set (w := mkInputs _ _ _ _ _) in HR. set (op := mkOptions _ _ _) in HR.
  exists i, common, y. split; [done|]. split; [by apply plain_stands_for|]. intros Hdash Hdashp p Hp.
  assert (REL : Forall2 (erel os) (number_entries (length common) y) y) by (by eapply (entries_rel os y common)).
  set (yn := match cl_instructions cl' with [] => [] | _ => number_entries (length common) y end).
  set (cn := match cl_instructions cl' with [] => [] | _ => seq 0 (length common) end).
  assert (SAY : instructions_say w op = Some (cn, yn)).
  { unfold instructions_say, cn, yn. cbn [op op_instructions w in_decode]. by destruct (cl_instructions cl'). }
  assert (REL' : Forall2 (erel os) yn y).
  { unfold yn. unfold instructions_are in HI. destruct (cl_instructions cl'); [|done]. subst i. injection Hpl as <- <-. constructor. }
  assert (BASE : base_of w op = base) by (unfold base_of, base; cbn [op op_instructions w in_cwd]; by destruct (cl_instructions cl')).
  assert (USE : usable w op).
  { split; [by rewrite BASE|]. intros common' y' Hs. rewrite SAY in Hs. injection Hs as <- <-. rewrite BASE. apply Forall_app. split.
    - clear -REL' Hdash. induction REL' as [|a b l l' (_ & _ & _ & _ & Hpa & _) F' IH]; [constructor|]. apply Forall_cons in Hdash as [Hb Hd].
      constructor; [|by apply IH]. unfold dash_is_stdin in *. by rewrite Hpa.
    - unfold path_option. cbn [op op_path]. destruct (cl_path cl') as [|x q] eqn:Hq; [constructor|]. apply Forall_cons. split; [|constructor]. exact Hdashp. }
  assert (OPT : Forall2 (erel os) (path_option op) (match cl_path cl' with [] => [] | p => [mkEntry _ _ _ (lit "StdIn") [] [] [] p (if seq_eqb p (lit "-") then lit "stdin.yaml" else [])] end)).
  { unfold path_option. cbn [op op_path]. destruct (cl_path cl'); repeat constructor. }
  assert (INP : Forall2 (erel os) (named_inputs w op yn) (all_inputs s cl' y)).
  { unfold named_inputs, all_inputs. rewrite BASE. cbn [w in_fs]. apply Forall2_app; by apply expanded_rel. }
  rewrite <- (paths_rel os _ _ INP) in Hp.
  destruct (C56_inputs_loaded_once pfuel grow w op R' USE HR) as (common' & y' & Hs & _ & Hin & _ & Hc).
  rewrite SAY in Hs. injection Hs as <- <-. apply Hin in Hp. apply in_map_iff in Hp as (en & <- & He).
  destruct (Hc en He) as (_ & _ & ds & _ & Hds & _). unfold documents_in in Hds. cbn [w in_stdin in_read] in Hds. by rewrite Hds.
Qed.

(** C73.  What goes wrong before the first overlay is applied never goes unnoticed and leaves
    everything as it was: an unreadable configuration file, an unknown log level, a -q or -a
    that is not YAML, instructions that cannot be read or mean nothing, an input that cannot
    be read. *)
Theorem C73_refused_before_writing w0 st w :
  let base := match cl_instructions cl with [] => [] | p => path_dir (path_abs (sr_cwd s) p) end in
  walks_files (sr_fs s) base ->
  process w0 st w ->
  config_unreadable \/ ~ level_known \/
  (exists t, In t (cl_queries cl ++ cl_actions cl) /\ sr_parse s t = None) \/
  (forall i common y, instructions_are e builtin sprig sed compile to_int h0 s cl i -> instructions_stand_for z i common y ->
     Forall (dash_is_stdin base) y /\ (cl_path cl = lit "-" \/ resolve base (cl_path cl) <> lit "-") /\
     exists p, In p (map e_path (all_inputs s cl y)) /\ (if seq_eqb p (lit "-") then sr_stdin s else sr_docs s p) = None) ->
  st <> 0 /\ w = w0.
Proof.
  intros base HW PR BAD.
  assert (NB : forall h1 v os files, boot <> Ok (h1, v, os, files)).
  { intros h1 v os files B. destruct (boot_ok _ _ _ _ B) as (R & b & PF & V & LK & HB & G & ->). destruct BAD as [CU|[NL|[(t & I & N0)|NI]]].
    - apply startup_bad in CU as [x X]. by rewrite V in X.
    - done.
    - rewrite Forall_forall in PF. apply elem_of_list_In in I. by apply PF in I.
    - destruct (ready _ _ _ _ _ _ _ _ _ _ _ _ _ _ _ G) as [HP _]. destruct (prepared_inputs _ _ _ HP HW) as (i & common & y & HI & HY & X).
      destruct (NI i common y HI HY) as (D1 & D2 & p & Ip & Np). by apply (X D1 D2 p Ip). }
  inversion PR; subst; try (split; [discriminate|reflexivity]); exfalso; by eapply NB.
Qed.

(** A failing overlay shows in the exit status, under every schedule. *)
Theorem C73_failing_overlay_shows w0 st w h1 v os files i :
  boot = Ok (h1, v, os, files) -> set_up files os h1 -> snd (sequential fuel sed missing_setting files os h1 i) <> Ok tt ->
  process w0 st w -> st <> 0.
Proof.
  intros B SU N0 PR ->. inversion PR as [| |h1' v' os' files' n s1 B' E C M| |]; subst. rewrite B in B'. injection B' as <- <- <- <-.
  destruct (boot_ok _ _ _ _ B) as (R & b & PF & V & _). rewrite (missing_get v V) in E.
  by destruct (C42_failed_file_never_written _ _ _ _ _ _ _ _ _ _ n s1 i SU E N0) as [_ X]; apply (X C).
Qed.

(** A process whose overlays all end has an exit status, which is 0, 1 or 2. *)
Theorem C73_ends_with_a_status w0 :
  boot <> Fuel ->
  (forall h1 v os files, boot = Ok (h1, v, os, files) -> set_up files os h1 /\
     forall i, snd (sequential fuel sed missing_setting files os h1 i) <> Fuel /\ documents_after fuel sed missing_setting files os h1 i <> Fuel) ->
  exists st w, process w0 st w /\ st <= 2.
Proof.
  intros NF H. destruct boot as [[[[h1 v] os] files]|x| |] eqn:B; [|exists 1, w0; split; [by eapply process_refused|lia]|exists 2, w0; split; [by eapply process_panic|lia]|done].
  destruct (H _ _ _ _ eq_refl) as [SU NF']. destruct (boot_ok _ _ _ _ B) as (R & b & PF & V & _).
  rewrite <- (missing_get v V) in NF'.
  destruct (C43_always_ends fuel sed (on_missing_of env v) (enc (oc_indent (out_of env number v))) dk (out_of env number v) files os h1 w0 0
    (start (map (file_work os) files) (h1, os) w0) SU (fun i => proj1 (NF' i)) (fun i => proj2 (NF' i)) ltac:(apply steps_none)) as (n' & s' & _ & E & X).
  destruct (crashed s') eqn:C.
  - exists 2, (outside s'). split; [by eapply process_crash|lia].
  - destruct X as [?|[[x|] M]]; [done| |].
    + exists 1, (outside s'). split; [by eapply process_error|lia].
    + exists 0, (outside s'). split; [by eapply process_done|lia].
Qed.

(** A negative indentation is not refused: the process crashes as soon as a file is to be
    rendered, having written nothing. *)
Theorem C73_negative_indent_crashes w0 st w :
  (forall h1 v os files, boot = Ok (h1, v, os, files) -> set_up files os h1) ->
  (number indent_setting < 0)%Z -> process w0 st w ->
  w = w0 /\ (st = 0 -> exists h1 v os, boot = Ok (h1, v, os, [])).
Proof.
  intros SU NEG PR.
  assert (WO : forall dflt enc' cfg files os h1 order, (oc_indent cfg < 0)%Z -> fst (write_out fuel sed dflt enc' dk cfg files os h1 order w0) = w0 /\
    (order <> [] -> snd (write_out fuel sed dflt enc' dk cfg files os h1 order w0) <> Ok tt)).
  { intros dflt enc' cfg files os h1 [|i l] N0; [done|]. cbn [write_out]. destruct (files !! i); [|done].
    destruct (documents_after _ _ _ _ _ _ _) as [ts| | |]; try done. unfold post_process. by rewrite (proj2 (Z.ltb_lt _ _) N0). }
  inversion PR as [| |h1 v os files n s1 B E C M|h1 v os files n s1 x B E C M|h1 v os files n s1 B E C]; subst; try done.
  all: pose proof (SU _ _ _ _ B) as S1; destruct (boot_ok _ _ _ _ B) as (R & b & _ & V & _).
  all: assert (N1 : (oc_indent (out_of env number v) < 0)%Z) by (by rewrite (indent_get v V)).
  all: destruct (C41_same_output_as_sequential _ _ _ _ _ _ _ _ _ _ n s1 S1 E) as (_ & _ & r & W).
  all: destruct (WO _ _ _ _ _ _ _ N1 : fst (write_out fuel sed (on_missing_of env v) (enc (oc_indent (out_of env number v))) dk (out_of env number v) files os h1 (finished s1) w0) = w0 /\ _) as [W1 W2].
  all: rewrite W in W1, W2; cbn [fst snd] in W1, W2; split; [done|]; intros X; try discriminate X.
  exists h1, v, os. rewrite B. do 2 f_equal. destruct (C42_success_means_no_failure _ _ _ _ _ _ _ _ _ _ n s1 S1 E C M) as (_ & W3 & FI).
  rewrite W in W3. injection W3 as ->. destruct files as [|f files]; [done|]. exfalso. apply W2; [|done]. intros Y. rewrite Y in FI. specialize (FI 0). cbn in FI.
  assert (0 ∈ []) as Z0 by (apply FI; lia). by apply elem_of_nil in Z0.
Qed.
End process.

(** *** A concrete process:  yot -i i.yaml -o out  with a configuration file that has
    removeComments: true and indentLevel: 4 *)
Definition m_env (x : list N) : option (list N) := if seq_eqb x (lit "YOT_CONFIG_FILE") then Some (lit "c.yaml") else None.
Definition m_cli (x : list N) : option (list N) := if seq_eqb x (lit "output-directory") then Some (lit "out") else None.
Definition m_config (x : list N) : option (list (list N * list N)) :=
  if seq_eqb x (lit "c.yaml") then Some [(lit "removeComments", lit "true"); (lit "indentLevel", lit "4")] else None.
Definition m_number (x : list N) : Z := match atoi x with Some z => z | None => 0 end.
Definition m_boot := boot w_engine (fun _ => None) (fun _ => None) no_sed w_compile w_to_int w_heap ex_zero 10 go_grow w_s m_env m_cli m_config None w_cl.
Lemma same_boot {A B C D} (a a' : A) (b b' : B) (c c' : C) (d d' : D) : Ok (a, b, c, d) = Ok (a', b', c', d') -> a' = a /\ b' = b /\ c' = c /\ d' = d.
Proof. by intros [= -> -> -> ->]. Qed.
Example C73_applies : exists st w,
  process w_engine (fun _ => None) (fun _ => None) no_sed w_compile w_to_int w_heap ex_zero 20 10 go_grow w_s m_env m_cli m_config None w_cl
    m_number (fun _ => show) ex_disk (mkWorld [] []) st w /\
  st = 0 /\ file_content w (lit "out/a.yaml") <> None /\ file_content w (lit "out/b.yaml") <> None /\
  walks_files (sr_fs w_s) (lit "/w") /\
  (forall h1 v os files, m_boot = Ok (h1, v, os, files) -> set_up files os w_heap /\ Forall (docs_apart w_heap) files /\ set_up files os h1 /\ length files = 2) /\
  true_text (comments_setting m_env m_cli m_config None) /\ m_number (indent_setting m_env m_cli m_config None) = 4%Z /\
  words (style_setting m_env m_cli m_config None) [lit "[normal]"].
Proof.
  destruct m_boot as [[[[h1 v] os] files]| | |] eqn:B; [|by vm_compute in B..].
  pose proof B as B0. destruct (boot_ok _ _ _ _ _ _ _ _ _ _ _ _ _ _ _ _ _ _ _ _ B) as (R & b & PF & V & LK & HB & G & FR).
  assert (TT : true_text (comments_setting m_env m_cli m_config None)). { apply (parse_bool_spec _ true). by vm_compute. }
  assert (b = true) as -> by (by apply HB). change (with_uncomment true w_cl) with w_cl in G.
  destruct (ready _ _ _ _ _ _ _ _ _ _ _ _ _ _ _ G) as [HP WP].
  assert (os = w_os) as ->. { unfold w_os, w_prepared. by rewrite HP. }
  assert (HF : files = [mkFile [ex_doc] [0; 1] [mkDocument 0 [2]] (lit "a.yaml"); mkFile [two_doc] [0] [] (lit "b.yaml")]).
  { rewrite FR. clear -HP. assert (X : match w_prepared with Ok (_, R) => map to_file R | _ => [] end = map to_file R) by (unfold w_prepared; by rewrite HP).
    rewrite <- X. by vm_compute. }
  assert (SU : set_up files w_os w_heap) by (rewrite HF; apply set_upb_sound; [by vm_compute|apply w_good]).
  assert (h1 = w_h1) as ->. { unfold w_h1, w_ready. by rewrite G. }
  assert (S1 : set_up files w_os w_h1) by (eapply set_up_shape; [eapply wiped_shape; exact WP|done]).
  assert (DA : Forall (docs_apart w_heap) files) by (rewrite HF; constructor; [by eapply single_apart|]; constructor; [by eapply single_apart|constructor]).
  set (cfg := out_of m_env m_number v).
  assert (CF : cfg = mkOut false (lit "out") [lit "[normal]"] 4 /\ on_missing_of m_env v = lit "ignore").
  { unfold cfg. vm_compute in V. injection V as <-. split; by vm_compute. }
  destruct CF as [CF ON].
  destruct (plays (begin 20 no_sed (lit "ignore")) tick (scan 20 files) peek (emit show ex_disk (mkOut false (lit "out") [lit "[normal]"] 4) files) (map (file_work w_os) files) schedule_ab
    (start (map (file_work w_os) files) (w_h1, w_os) (mkWorld [] []))) as [st|] eqn:EP; [|rewrite HF in EP; by vm_compute in EP].
  assert (EX : exists n, execution 20 no_sed (lit "ignore") show ex_disk (mkOut false (lit "out") [lit "[normal]"] 4) files w_os w_h1 (mkWorld [] []) n st) by (by apply plays_steps in EP).
  destruct EX as [n EX]. rewrite HF in EP.
  assert (RR : crashed st = false /\ main st = MReturn None /\ file_content (outside st) (lit "out/a.yaml") <> None /\ file_content (outside st) (lit "out/b.yaml") <> None).
  { vm_compute in EP. injection EP as <-. vm_compute. split_and!; done. }
  destruct RR as (R1 & R2 & R3 & R4). exists 0, (outside st). split.
  { eapply process_done; [exact B0| |done|done]. fold cfg. rewrite ON, CF. exact EX. }
  split; [done|]. split; [done|]. split; [done|]. split; [intros d ps p Hw; discriminate Hw|]. split.
  { intros h1 v' os' files' EB. apply same_boot in EB as (-> & _ & -> & ->). split; [exact SU|]. split; [exact DA|]. split; [exact S1|]. by rewrite HF. }
  split; [done|]. split; [by vm_compute|].
  replace [lit "[normal]"] with (fields (style_setting m_env m_cli m_config None)) by (by vm_compute). apply fields_words.
Qed.

(** With -I -1 the same process crashes. *)
Example C73_applies_negative :
  (m_number (indent_setting m_env (fun x => if seq_eqb x (lit "indent-level") then Some (lit "-1") else None) m_config None) < 0)%Z.
Proof. by vm_compute. Qed.
(** With -v=loud in the configuration file, or the file missing, it is refused. *)
Example C73_applies_refused :
  config_unreadable m_env m_cli (fun _ => None) None /\
  ~ level_known m_env m_cli (fun _ => Some [(lit "logLevel", lit "verbose")]) None.
Proof.
  split; [by exists (lit "c.yaml")|]. intros (n & I & E). repeat (destruct I as [<-|I]; [by vm_compute in E|]). destruct I.
Qed.

Print Assumptions C73_status_zero_means_done.
Print Assumptions C73_refused_before_writing.
Print Assumptions C73_failing_overlay_shows.
Print Assumptions C73_ends_with_a_status.
Print Assumptions C73_negative_indent_crashes.
