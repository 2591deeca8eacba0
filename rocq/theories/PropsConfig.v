(** C46, C52, C53: where settings come from. *)
From Verif Require Import Prelude GoStrings Config.

(** The settings the program reads, with the flag that sets each and its
    default: README, "yot --help". *)
Definition settings : list (string * string * string) :=
  [("log-level", "logLevel", "warning"); ("output-directory", "outputDirectory", "./output"); ("stdout", "stdout", "false");
   ("remove-comments", "removeComments", "false"); ("indent-level", "indentLevel", "2"); ("output-style", "outputStyle", "[normal]");
   ("default-on-missing-action", "defaultOnMissingAction", "ignore")]%string.

(** The configuration file that is used: --config, else YOT_CONFIG_FILE, else the
    first one in the search path, else none. *)
Definition chosen_file (env cli : list N -> option (list N)) (search : option (list N)) : option (list N) :=
  let nonempty (x : list N) := match x with [] => search | _ => Some x end in
  match cli (lit "config") with
  | Some x => nonempty x
  | None => match env (lit "YOT_CONFIG_FILE") with Some x => nonempty x | None => search end
  end.

Lemma chosen env cli search : match config_flag env cli with [] => search | f => Some f end = chosen_file env cli search.
Proof.
  unfold config_flag, chosen_file. destruct (cli (lit "config")) as [[|]|]; try done. by destruct (env (lit "YOT_CONFIG_FILE")) as [[|]|].
Qed.

(** Starting fails exactly when a configuration file is chosen that cannot be
    read; otherwise every setting is what the command line says, else what the
    configuration file says, else the default, whatever the environment. *)
Theorem C46_flag_then_file_then_default env cli config_at search :
  match chosen_file env cli search with
  | Some f => match config_at f with None => startup env cli config_at search = Err EFs | Some _ => True end
  | None => True
  end /\
  forall v, startup env cli config_at search = Ok v ->
  let file := match chosen_file env cli search with Some f => match config_at f with Some c => c | None => [] end | None => [] end in
  (forall flag key dflt, In (flag, key, dflt) settings ->
    v_get env v (lit key) =
      match cli (lit flag) with
      | Some x => Some x
      | None => match entry file (lit key) with Some x => Some x | None => Some (lit dflt) end
      end) /\
  (forall f, chosen_file env cli search = Some f -> v_get env v (lit "configFile") = Some f).
Proof.
  unfold startup, init_config. rewrite chosen. split.
  { destruct (chosen_file env cli search) as [f|]; [|done]. by destruct (config_at f). }
  intros v E. set (c := match chosen_file env cli search with Some f => match config_at f with Some c => c | None => [] end | None => [] end).
  assert (O : exists o, v = mkViper o (v_flags (add_flags env cli (mkViper [] [] [] [] [])))
      (v_env (fold_left (fun v p => v_bind_env (fst p) (snd p) v) env_map (mkViper [] [] [] [] []))) c [(lit "outputDirectory", lit "./output")] /\
      (o = [] /\ chosen_file env cli search = None \/ exists f, chosen_file env cli search = Some f /\ o = [(lit "configFile", f)])).
  { subst c. destruct (chosen_file env cli search) as [f|].
    - destruct (config_at f) as [cf|]; [|discriminate]. injection E as <-. eexists. split; [reflexivity|]. right. by exists f.
    - injection E as <-. eexists. split; [reflexivity|]. by left. }
  destruct O as (o & -> & OV). split.
  - intros flag key dflt I.
    assert (NO : forall k, seq_eqb (to_lower (lit "configFile")) (to_lower k) = false -> entry o k = None).
    { intros k K. destruct OV as [[-> _]|(f & _ & ->)]; [done|]. cbn [entry]. by rewrite K. }
    assert (FL : entry (v_flags (add_flags env cli (mkViper [] [] [] [] []))) (lit key) =
      Some (match cli (lit flag) with Some x => (true, x) | None => (false, lit dflt) end) /\
      entry (v_env (fold_left (fun v p => v_bind_env (fst p) (snd p) v) env_map (mkViper [] [] [] [] []))) (lit key) = None /\
      (entry [(lit "outputDirectory", lit "./output")] (lit key) = None \/ entry [(lit "outputDirectory", lit "./output")] (lit key) = Some (lit dflt)) /\
      seq_eqb (to_lower (lit "configFile")) (to_lower (lit key)) = false).
    { repeat (destruct I as [I|I]; [injection I as <- <- <-; split_and!; [vm_compute; reflexivity..|vm_compute; auto|vm_compute; reflexivity]|]). destruct I. }
    destruct FL as (FL & EN & DF & K). unfold v_get. cbn [v_override v_flags v_env v_config v_defaults]. rewrite (NO _ K), FL, EN.
    destruct (cli (lit flag)); [done|]. destruct (entry c (lit key)); [done|]. by destruct DF as [-> | ->].
  - intros f F. destruct OV as [[_ N]|(f' & F' & ->)]; [congruence|]. rewrite F in F'. injection F' as <-. reflexivity.
Qed.

Example C46_applies : exists v,
  let env x := if seq_eqb x (lit "YOT_CONFIG_FILE") then Some (lit "c.yaml") else if seq_eqb x (lit "YOT_STDOUT") then Some (lit "true") else None in
  let cli x := if seq_eqb x (lit "indent-level") then Some (lit "4") else None in
  let config_at x := if seq_eqb x (lit "c.yaml") then Some [(lit "indentlevel", lit "8"); (lit "OutputDirectory", lit "out")] else None in
  startup env cli config_at None = Ok v /\ v_get env v (lit "indentLevel") = Some (lit "4") /\
  v_get env v (lit "outputDirectory") = Some (lit "out") /\ v_get env v (lit "removeComments") = Some (lit "false") /\
  v_get env v (lit "configFile") = Some (lit "c.yaml").
Proof. eexists. cbv zeta. split; [vm_compute; reflexivity|]. split_and!; vm_compute; reflexivity. Qed.

(** The documented environment variables have no effect (BindEnv is called with
    its arguments swapped): two environments that agree on YOT_CONFIG_FILE give
    the same value to every setting. *)
Theorem C46_environment_has_no_effect env env' cli config_at search :
  env (lit "YOT_CONFIG_FILE") = env' (lit "YOT_CONFIG_FILE") ->
  forall v v', startup env cli config_at search = Ok v -> startup env' cli config_at search = Ok v' ->
  forall flag key dflt, In (flag, key, dflt) settings -> v_get env v (lit key) = v_get env' v' (lit key).
Proof.
  intros E v v' H H' flag key dflt I.
  assert (C : chosen_file env cli search = chosen_file env' cli search) by (unfold chosen_file; by rewrite E).
  rewrite (proj1 (proj2 (C46_flag_then_file_then_default env cli config_at search) v H) _ _ _ I).
  rewrite (proj1 (proj2 (C46_flag_then_file_then_default env' cli config_at search) v' H') _ _ _ I). by rewrite C.
Qed.
(** ... so the documented precedence fails: YOT_STDOUT=true does not win over the
    default. *)
Theorem C46_refuted_environment :
  exists env v, env (lit "YOT_STDOUT") = Some (lit "true") /\ startup env (fun _ => None) (fun _ => None) None = Ok v /\
    v_get env v (lit "stdout") = Some (lit "false").
Proof.
  exists (fun x => if seq_eqb x (lit "YOT_STDOUT") then Some (lit "true") else None).
  eexists. split; [reflexivity|]. split; [vm_compute; reflexivity|]. vm_compute; reflexivity.
Qed.

(** The env command prints, for every documented variable, the value in force. *)
Theorem C53_env_command_shows_settings env v variable key :
  In (variable, key) [("YOT_DEFAULT_ON_MISSING_ACTION", "defaultOnMissingAction"); ("YOT_INDENT_LEVEL", "indentLevel");
    ("YOT_LOG_LEVEL", "logLevel"); ("YOT_OUTPUT_DIRECTORY", "outputDirectory"); ("YOT_OUTPUT_STYLE", "outputStyle");
    ("YOT_REMOVE_COMMENTS", "removeComments"); ("YOT_STDOUT", "stdout"); ("YOT_CONFIG_FILE", "configFile")]%string ->
  forall x, v_get env v (lit key) = Some x ->
  env_line env v (lit variable) = lit variable ++ lit "=" ++ [34%N] ++ x ++ [34%N; 10%N].
Proof.
  intros I x X. unfold env_line. do 2 f_equal. f_equal. f_equal. unfold env_value.
  assert (F : List.find (fun p => seq_eqb (fst p) (lit variable)) env_map = Some (lit variable, lit key)).
  { repeat (destruct I as [I|I]; [injection I as <- <-; vm_compute; reflexivity|]). destruct I. }
  rewrite F. cbn [snd]. rewrite X. done.
Qed.

(** Every level name --log-level accepts is understood when logging is set up;
    the same name in the configuration file may crash. *)
Theorem C52_log_flag_never_crashes s t : parse_log_flag s = Some t -> exists n, setup_logging t = Ok n.
Proof.
  unfold parse_log_flag. destruct (List.find _ _) as [l|] eqn:F; [|discriminate].
  apply find_some in F as [I _]. intros E.
  repeat (destruct I as [<-|I]; [injection E as <-; eexists; vm_compute; reflexivity|]). destruct I.
Qed.
Theorem C52_refuted_log_level_in_file :
  exists t, parse_log_flag (lit "verbose") = Some t /\ setup_logging (lit "verbose") = Panic.
Proof. eexists. split; vm_compute; reflexivity. Qed.

Example C52_applies : parse_log_flag (lit "WARN") = Some (lit "warning") /\ setup_logging (lit "warning") = Ok 2.
Proof. split; vm_compute; reflexivity. Qed.
Example C53_applies : exists v,
  let env (_ : list N) := @None (list N) in
  let cli x := if seq_eqb x (lit "indent-level") then Some (lit "4") else None in
  startup env cli (fun _ => None) None = Ok v /\ v_get env v (lit "indentLevel") = Some (lit "4") /\
  env_line env v (lit "YOT_INDENT_LEVEL") = lit "YOT_INDENT_LEVEL=" ++ [34%N] ++ lit "4" ++ [34%N; 10%N].
Proof. eexists. cbv zeta. split; [vm_compute; reflexivity|]. split; vm_compute; reflexivity. Qed.

Print Assumptions C46_flag_then_file_then_default.
Print Assumptions C46_environment_has_no_effect.
Print Assumptions C53_env_command_shows_settings.
Print Assumptions C52_log_flag_never_crashes.
