(** C80: the env command.  C81: the other subcommands. *)
From Verif Require Import Prelude GoStrings Format Yaml Heap ActionNames Overlay Combine SpecCombine ProofCombine Decode Flags Template HeapComments Whole Render Config PropsConfig Main Argv SpecArgv ProofArgv PropsWhole PropsArgv ExamplesHeap Examples.

(** The parser of a subcommand's arguments is the one of the root command (Argv.v). *)
Lemma letters_same s : letters_with all_flags s = parse_letters s.
Proof. induction s as [|c r IH]; [done|]. cbn [letters_with parse_letters]. by rewrite IH. Qed.
Lemma fst_with_flags us r : option_map fst (with_flags us r) = more us (option_map fst r).
Proof. by destruct r as [[]|]. Qed.
Lemma fst_with_word w r : option_map fst (with_word w r) = option_map fst r.
Proof. by destruct r as [[]|]. Qed.
Lemma parse_same args : option_map fst (parse_with all_flags args) = parse_args args.
Proof.
  remember (length args) as k eqn:Ek. assert (length args <= k) as L by lia. clear Ek. revert args L.
  induction k as [|k IH]; intros [|s rest] L; cbn [length] in L; try lia; try done.
  assert (R : option_map fst (parse_with all_flags rest) = parse_args rest) by (apply IH; lia).
  assert (R' : forall x r, rest = x :: r -> option_map fst (parse_with all_flags r) = parse_args r) by (intros x r ->; apply IH; cbn in L; lia).
  cbn [parse_with parse_args]. destruct s as [|a [|b u]]; try (rewrite fst_with_word; exact R).
  destruct (N.eqb a 45); [|rewrite fst_with_word; exact R]. destruct (N.eqb b 45).
  - destruct u as [|c u]; [done|]. destruct (_ || _); [done|]. destruct (split_eq (c :: u)) as [n v]. destruct (long_flag all_flags n) as [f|]; [|done].
    destruct v as [x|]; [rewrite fst_with_flags; by rewrite R|]. destruct (f_bare f); [rewrite fst_with_flags; by rewrite R|].
    destruct rest as [|x r]; [done|]. rewrite fst_with_flags. by rewrite (R' x r).
  - rewrite letters_same. destruct (parse_letters (b :: u)) as [[us [n|]]|]; [|rewrite fst_with_flags; by rewrite R|done].
    destruct rest as [|x r]; [done|]. rewrite fst_with_flags. by rewrite (R' x r).
Qed.

Section yot.
Context {F P : Type} (e : engine F P) (builtin sprig : list N -> option F) (sed : sed_engine).
Context (compile : list N -> option (heap -> loc -> list loc)) (to_int : info -> option Z).
Context (h0 : heap) (z : loc) (fuel pfuel : nat) (grow : nat -> nat -> nat) (s : surroundings).
Context (env : list N -> option (list N)) (config_at : list N -> option (list (list N * list N))) (search : option (list N)).
Context (number : list N -> Z) (enc : Z -> nat -> tree -> option (list N)) (dk : disk).
Context (read_int : list N -> option Z) (show_int : Z -> list N).
Notation yot := (yot e builtin sprig sed compile to_int h0 z fuel pfuel grow s env config_at search number enc dk read_int show_int).
Notation request_of := (request_of compile h0 s read_int show_int).

(** The configuration file in use when no flag is given, and a setting in it. *)
Definition file_in_use : option (list N) := chosen_file env (fun _ => None) search.
Definition in_file (key : list N) : option (list N) :=
  match file_in_use with Some f => match config_at f with Some c => entry c key | None => None end | None => None end.
Definition unreadable : Prop := exists f, file_in_use = Some f /\ config_at f = None.
(** The file has a log level that is not one of the six names. *)
Definition bad_level : Prop := exists x, in_file (lit "logLevel") = Some x /\
  Forall (fun n => equal_fold x (lit n) = false) ["CRITICAL"; "ERROR"; "WARNING"; "NOTICE"; "INFO"; "DEBUG"]%string.

(** The variables of the documentation: the setting and its default. *)
Definition variables : list (string * string * string) :=
  [("YOT_CONFIG_FILE", "configFile", ""); ("YOT_DEFAULT_ON_MISSING_ACTION", "defaultOnMissingAction", "ignore");
   ("YOT_INDENT_LEVEL", "indentLevel", "2"); ("YOT_LOG_LEVEL", "logLevel", "warning"); ("YOT_OUTPUT_DIRECTORY", "outputDirectory", "./output");
   ("YOT_OUTPUT_STYLE", "outputStyle", "[normal]"); ("YOT_REMOVE_COMMENTS", "removeComments", "false"); ("YOT_STDOUT", "stdout", "false")]%string.
(** What is shown: the name of the configuration file in use; for every other variable what
    the file says, else the default. *)
Definition shown (p : string * string * string) : list N :=
  match p with (variable, key, dflt) =>
    if String.eqb variable "YOT_CONFIG_FILE" then default [] file_in_use else default (lit dflt) (in_file (lit key))
  end.
Definition line (name value : list N) : list N := name ++ lit "=" ++ [34%N] ++ value ++ [34%N; 10%N].

Lemma startup_ok v : startup env (fun _ => None) config_at search = Ok v -> ~ unreadable.
Proof.
  intros E (f & F' & C). destruct (C46_flag_then_file_then_default env (fun _ => None) config_at search) as [X _].
  unfold file_in_use in F'. rewrite F', C in X. congruence.
Qed.
Lemma startup_err x : startup env (fun _ => None) config_at search = Err x -> unreadable.
Proof.
  unfold startup, init_config. rewrite chosen. fold file_in_use. destruct file_in_use as [f|] eqn:E; [|done].
  destruct (config_at f) eqn:C; [done|]. intros _. by exists f.
Qed.
Lemma get_setting v flag key dflt : startup env (fun _ => None) config_at search = Ok v -> In (flag, key, dflt) settings ->
  v_get env v (lit key) = Some (default (lit dflt) (in_file (lit key))).
Proof.
  intros E I. destruct (C46_flag_then_file_then_default env (fun _ => None) config_at search) as [_ X].
  destruct (X v E) as [Y _]. rewrite (Y _ _ _ I). unfold in_file, file_in_use. destruct (chosen_file env (fun _ => None) search) as [f|]; [|done].
  destruct (config_at f) as [c|]; [|done]. by destruct (entry c (lit key)).
Qed.
Lemma get_file v : startup env (fun _ => None) config_at search = Ok v -> v_get env v (lit "configFile") = Some (default [] file_in_use).
Proof.
  intros E. destruct (C46_flag_then_file_then_default env (fun _ => None) config_at search) as [_ X]. destruct (X v E) as [_ Y]. unfold file_in_use.
  destruct (chosen_file env (fun _ => None) search) as [f|] eqn:CF; [by apply Y|]. cbn [default].
  unfold startup, init_config in E. rewrite chosen, CF in E. injection E as <-.
  pose proof (chosen env (fun _ => None) search) as C. rewrite CF in C. destruct (config_flag env (fun _ => None)) as [|c r] eqn:CG; [|discriminate C].
  unfold v_get. cbn -[config_flag]. rewrite CG. reflexivity.
Qed.
Lemma shown_line v p : startup env (fun _ => None) config_at search = Ok v -> In p variables ->
  env_line env v (lit (fst (fst p))) = line (lit (fst (fst p))) (shown p).
Proof.
  intros E I. unfold env_line, line. do 3 f_equal. f_equal. unfold env_value.
  assert (Fd : List.find (fun q => seq_eqb (fst q) (lit (fst (fst p)))) env_map = Some (lit (fst (fst p)), lit (snd (fst p))))
    by (repeat (destruct I as [<-|I]; [vm_compute; reflexivity|]); destruct I).
  rewrite Fd. cbn [snd]. destruct (decide (p = ("YOT_CONFIG_FILE", "configFile", "")%string)) as [->|NP].
  { change (lit (snd (fst _))) with (lit "configFile"). by rewrite (get_file v E). }
  assert (S1 : exists flag, In (flag, snd (fst p), snd p) settings)
    by (destruct I as [<-|I]; [done|]; repeat (destruct I as [<-|I]; [eexists; cbn; tauto|]); destruct I).
  destruct S1 as [flag S1]. rewrite (get_setting v _ _ _ E S1).
  assert (S2 : shown p = default (lit (snd p)) (in_file (lit (snd (fst p)))))
    by (destruct I as [<-|I]; [done|]; repeat (destruct I as [<-|I]; [reflexivity|]); destruct I).
  by rewrite S2.
Qed.

Lemma word_strip w rest : word w -> strip_flags (w :: rest) = w :: strip_flags rest.
Proof.
  intros (c & r & -> & ND). cbn [strip_flags]. destruct (seq_eqb_spec (c :: r) [45%N; 45%N]) as [Q|]; [congruence|]. apply N.eqb_neq in ND.
  assert (T : takes_next (c :: r) = false) by (destruct r; [done|]; unfold takes_next; by rewrite ND). by rewrite T, ND.
Qed.
Lemma word_parse t w rest : word w -> parse_with t (w :: rest) = with_word w (parse_with t rest).
Proof. intros (c & r & -> & ND). cbn [parse_with]. apply N.eqb_neq in ND. destruct r; [done|]. by rewrite ND. Qed.
Lemma sub_request us a w rest : written us a -> word w -> In w subcommands -> request_of (a ++ w :: rest) = Ok (RSub w).
Proof.
  intros W WD I. unfold Argv.request_of. rewrite (strip_written _ _ W), (word_strip _ _ WD).
  assert (X : existsb (seq_eqb w) subcommands = true) by (apply existsb_exists; exists w; split; [done|]; by destruct (seq_eqb_spec w w)). by rewrite X.
Qed.
Lemma yot_is_sub us a w rest w0 st w1 : written us a -> word w -> In w subcommands -> yot (a ++ w :: rest) w0 st w1 ->
  sub_process env config_at search w (a ++ w :: rest) w0 st w1.
Proof.
  intros W WD I Y. pose proof (sub_request us a w rest W WD I) as R. inversion Y as [x R'|R'|t R'|t R'|cl cli st' w' R' PR|w' st' w'' R' _ SP]; subst; rewrite R in R'; try discriminate R'.
  by injection R' as <-.
Qed.
Lemma word_lit a t : a <> 45%N -> word (a :: t).
Proof. intros N. by exists a, t. Qed.
Lemma level_cases v : startup env (fun _ => None) config_at search = Ok v ->
  (exists n, setup_logging (get_string env v (lit "logLevel")) = Ok n) \/ (setup_logging (get_string env v (lit "logLevel")) = Panic /\ bad_level).
Proof.
  intros E. assert (G : get_string env v (lit "logLevel") = default (lit "warning") (in_file (lit "logLevel"))).
  { unfold get_string. rewrite (get_setting v "log-level" "logLevel" "warning" E) by (cbn; tauto). done. }
  unfold setup_logging. rewrite G. destruct (list_find _ _) as [[i t]|] eqn:L; [left; eauto|right]. split; [done|].
  apply list_find_None in L. unfold bad_level. destruct (in_file (lit "logLevel")) as [x|]; cbn [default] in L.
  - exists x. split; [done|]. eapply Forall_impl; [exact L|]. intros n X. apply not_true_is_false, X.
  - exfalso. rewrite Forall_forall in L. apply (L "WARNING"%string); [|done]. apply elem_of_list_In. cbn. tauto.
Qed.

(** *** C80: "yot env" prints one line for each documented variable (in any order), with the
    value in force: that of the configuration file in use, else the default.  It writes no
    file.  It fails only if the configuration file in use cannot be read or has a log level
    that is not one of the six names. *)
Theorem C80_env w0 st w : yot [lit "env"] w0 st w ->
  (unreadable /\ st = 1 /\ w = w0) \/
  (bad_level /\ st = 2 /\ w = w0) \/
  (st = 0 /\ w_files w = w_files w0 /\ ~ unreadable /\ exists lines, w_stdout w = w_stdout w0 ++ lines /\
     Permutation lines (map (fun p => line (lit (fst (fst p))) (shown p)) variables)).
Proof.
  intros Y. apply (yot_is_sub [] [] _ []) in Y; [|constructor|by apply word_lit|cbn; tauto]. cbn [app] in Y.
  assert (P0 : parse_with sub_flags (minus_first (lit "env") [lit "env"]) = Some ([], [])) by reflexivity.
  inversion Y as [R|us ws x R H|us ws t R H|us ws b x R H NB S|us ws b v R H NB S A|us ws b v R H NB S A NH L|us b v n order R H NB S WE L O|us b v n name R H NB S WE L|us ws b v t R H NB S A HC];
    subst; try (rewrite P0 in R; try discriminate R; injection R as <-; subst; try discriminate).
  - left. split; [|done]. by eapply startup_err.
  - right. left. split; [|done]. destruct (level_cases v S) as [[n X]|[_ X]]; [congruence|done].
  - right. right. split; [done|]. split; [done|]. split; [by eapply startup_ok|]. cbn [w_stdout]. eexists. split; [reflexivity|].
    assert (E : map (fun p => env_line env v (fst p)) env_map = map (fun p => line (lit (fst (fst p))) (shown p)) variables).
    { transitivity (map (fun p => env_line env v (lit (fst (fst p)))) variables); [reflexivity|]. apply map_ext_in. intros p I. by apply shown_line. }
    rewrite <- E. by apply Permutation_map.
  - destruct HC as [HC|[HC _]]; discriminate HC.
Qed.
(** ... and it always ends. *)
Theorem C80_env_ends w0 : exists st w, yot [lit "env"] w0 st w.
Proof.
  assert (R : request_of [lit "env"] = Ok (RSub (lit "env"))) by reflexivity.
  assert (P0 : parse_with sub_flags (minus_first (lit "env") [lit "env"]) = Some ([], [])) by reflexivity.
  destruct (startup env (fun _ => None) config_at search) as [v|x| |] eqn:S.
  - destruct (level_cases v S) as [[n X]|[X _]].
    + eexists _, _. eapply yot_sub; [exact R|cbn; tauto|]. eapply (sub_env_all _ _ _ _ _ _ []); [exact P0|reflexivity|done|exact S|done|exact X|reflexivity].
    + eexists _, _. eapply yot_sub; [exact R|cbn; tauto|]. eapply (sub_log_panic _ _ _ _ _ _ []); [exact P0|reflexivity|done|exact S|done|done|exact X].
  - eexists _, _. eapply yot_sub; [exact R|cbn; tauto|]. eapply (sub_no_config _ _ _ _ _ _ []); [exact P0|reflexivity|done|exact S].
  - unfold startup, init_config in S. destruct (match config_flag _ _ with [] => _ | _ => _ end) as [f|]; [|done]. by destruct (config_at f).
  - unfold startup, init_config in S. destruct (match config_flag _ _ with [] => _ | _ => _ end) as [f|]; [|done]. by destruct (config_at f).
Qed.

(** *** C80: "yot env NAME" prints the line of that variable; of a name that is none it says
    <nil> (unless the configuration file has a setting without a name) *)
Theorem C80_env_one name w0 st w : word name -> yot [lit "env"; name] w0 st w ->
  (unreadable /\ st = 1 /\ w = w0) \/
  (bad_level /\ st = 2 /\ w = w0) \/
  (st = 0 /\ w_files w = w_files w0 /\ ~ unreadable /\ exists value, w_stdout w = w_stdout w0 ++ [line name value] /\
     (forall p, In p variables -> name = lit (fst (fst p)) -> value = shown p) /\
     ((forall p, In p variables -> name <> lit (fst (fst p))) -> value = default (lit "<nil>") (in_file []))).
Proof.
  intros WD Y. apply (yot_is_sub [] [] _ [name]) in Y; [|constructor|by apply word_lit|cbn; tauto]. cbn [app] in Y.
  assert (P0 : parse_with sub_flags (minus_first (lit "env") [lit "env"; name]) = Some ([], [name])).
  { change (minus_first _ _) with [name]. by rewrite word_parse. }
  inversion Y as [R|us ws x R H|us ws t R H|us ws b x R H NB S|us ws b v R H NB S A|us ws b v R H NB S A NH L|us b v n order R H NB S WE L O|us b v n nm R H NB S WE L|us ws b v t R H NB S A HC];
    subst; try (rewrite P0 in R; try discriminate R; injection R as <-; subst; try discriminate).
  - left. split; [|done]. by eapply startup_err.
  - right. left. split; [|done]. destruct (level_cases v S) as [[n X]|[_ X]]; [congruence|done].
  - right. right. split; [done|]. split; [done|]. split; [by eapply startup_ok|]. cbn [w_stdout]. exists (env_value env v nm). split; [done|]. split.
    + intros p I ->. pose proof (shown_line v p S I) as X. unfold env_line, line in X. do 3 apply app_inv_head in X. by apply app_inv_tail in X.
    + intros NI. unfold env_value. destruct (List.find _ env_map) as [q|] eqn:Fd.
      { exfalso. apply find_some in Fd as [I Q]. destruct (seq_eqb_spec (fst q) nm) as [<-|]; [|done].
        repeat (destruct I as [<-|I]; [|]); try destruct I.
        all: match goal with |- _ => cbn [fst] in NI end.
        1: apply (NI ("YOT_CONFIG_FILE", "configFile", "")%string); [cbn; tauto|done].
        1: apply (NI ("YOT_DEFAULT_ON_MISSING_ACTION", "defaultOnMissingAction", "ignore")%string); [cbn; tauto|done].
        1: apply (NI ("YOT_INDENT_LEVEL", "indentLevel", "2")%string); [cbn; tauto|done].
        1: apply (NI ("YOT_LOG_LEVEL", "logLevel", "warning")%string); [cbn; tauto|done].
        1: apply (NI ("YOT_OUTPUT_DIRECTORY", "outputDirectory", "./output")%string); [cbn; tauto|done].
        1: apply (NI ("YOT_OUTPUT_STYLE", "outputStyle", "[normal]")%string); [cbn; tauto|done].
        1: apply (NI ("YOT_REMOVE_COMMENTS", "removeComments", "false")%string); [cbn; tauto|done].
        1: apply (NI ("YOT_STDOUT", "stdout", "false")%string); [cbn; tauto|done]. }
      unfold startup, init_config in S. rewrite chosen in S. unfold in_file. change (chosen_file env (fun _ => None) search) with file_in_use in S.
      destruct file_in_use as [f|]; [destruct (config_at f) as [c|]; [|done]|]; injection S as <-; unfold v_get; cbn -[entry]; [by destruct (entry c [])|done].
  - destruct HC as [HC|[HC _]]; discriminate HC.
Qed.

(** *** C80: no flag can be given to it (nor to another subcommand), before or after: what
    flags would do to the settings cannot be shown *)
Lemma sub_flag_refused p v a : In p documented -> writes (described_flag p) v a ->
  exists x a', a = x :: a' /\ head x = Some 45%N /\ forall rest, parse_with sub_flags (x :: rest) = None.
Proof.
  intros I W.
  assert (L : long_flag sub_flags (f_name (described_flag p)) = None) by (repeat (destruct I as [<-|I]; [reflexivity|]); destruct I).
  assert (Sh : forall c, f_short (described_flag p) = Some c -> short_flag sub_flags c = None /\ N.eqb c 45 = false).
  { repeat (destruct I as [<-|I]; [intros c [= <-]; split; reflexivity|]). destruct I. }
  assert (NM : exists c n, f_name (described_flag p) = c :: n /\ N.eqb c 45 = false /\ Forall (fun c => N.eqb c 61 = false) (c :: n)).
  { repeat (destruct I as [<-|I]; [eexists _, _; split; [reflexivity|]; split; [reflexivity|]; repeat constructor|]). destruct I. }
  destruct NM as (c & n & NM & NC & NQ). assert (QC : N.eqb c 61 = false) by (by apply Forall_cons in NQ as [? _]).
  inversion W; subst; eexists _, _; (split; [reflexivity|]); (split; [reflexivity|]); intros rest; cbn [app parse_with].
  - rewrite NM in *. change (lit "--") with [45%N; 45%N]. pose proof (split_eq_name (c :: n) v NQ) as S. change (lit "=") with [61%N]. cbn [app] in *. cbn [N.eqb Pos.eqb]. rewrite S, NC, QC, L. done.
  - rewrite NM in *. change (lit "--") with [45%N; 45%N]. cbn [app]. cbn [N.eqb Pos.eqb]. rewrite (split_eq_bare (c :: n) NQ), NC, QC, L. done.
  - rewrite NM in *. change (lit "--") with [45%N; 45%N]. cbn [app]. cbn [N.eqb Pos.eqb]. rewrite (split_eq_bare (c :: n) NQ), NC, QC, L. done.
  - destruct (Sh _ H) as [S1 S2]. change (lit "-") with [45%N]. cbn [app]. cbn [N.eqb Pos.eqb]. rewrite S2. cbn [letters_with]. rewrite S1. done.
  - destruct (Sh _ H) as [S1 S2]. change (lit "-") with [45%N]. cbn [app]. cbn [N.eqb Pos.eqb]. rewrite S2. cbn [letters_with]. rewrite S1. done.
  - destruct (Sh _ H) as [S1 S2]. change (lit "-") with [45%N]. cbn [app]. cbn [N.eqb Pos.eqb]. rewrite S2. cbn [letters_with]. rewrite S1. done.
  - destruct (Sh _ H) as [S1 S2]. change (lit "-") with [45%N]. cbn [app]. cbn [N.eqb Pos.eqb]. rewrite S2. cbn [letters_with]. rewrite S1. done.
Qed.
Lemma sub_flags_refused us a us' b w rest : written us a -> written us' b -> us ++ us' <> [] -> word w ->
  parse_with sub_flags (minus_first w (a ++ w :: b ++ rest)) = None.
Proof.
  intros W W' NE (c & r & -> & ND). inversion W as [|p v x us1 a1 I Wx W1]; subst.
  - cbn [app minus_first]. destruct (seq_eqb_spec (c :: r) (c :: r)); [|done]. inversion W' as [|p v x us1 a1 I Wx W1]; subst; [done|].
    destruct (sub_flag_refused p v x I Wx) as (y & x' & -> & _ & X). apply X.
  - destruct (sub_flag_refused p v x I Wx) as (y & x' & -> & Hd & X). cbn [app minus_first].
    destruct (seq_eqb_spec (c :: r) y) as [<-|]; [cbn in Hd; congruence|]. apply X.
Qed.
Theorem C80_takes_no_flags us a us' b rest w0 st w : written us a -> written us' b -> us ++ us' <> [] ->
  yot (a ++ lit "env" :: b ++ rest) w0 st w -> st = 1 /\ w = w0.
Proof.
  intros W W' NE Y. assert (WD : word (lit "env")) by by apply word_lit. apply (yot_is_sub us a) in Y; [|done|done|cbn; tauto].
  pose proof (sub_flags_refused us a us' b (lit "env") rest W W' NE WD) as P0. inversion Y; subst; try done; congruence.
Qed.
(** ... and no more than one name. *)
Theorem C80_one_name_only x y rest w0 st w : word x -> word y -> ~ (exists z, In z rest /\ head z = Some 45%N) ->
  yot (lit "env" :: x :: y :: rest) w0 st w -> st = 1 /\ w = w0.
Proof.
  intros X Y' NR Y. apply (yot_is_sub [] [] _ (x :: y :: rest)) in Y; [|constructor|by apply word_lit|cbn; tauto]. cbn [app] in Y.
  assert (PR : parse_with sub_flags rest = Some ([], rest)).
  { clear Y. induction rest as [|z0 rest IH]; [done|]. cbn [parse_with].
    assert (N0 : head z0 <> Some 45%N) by (intros Q; apply NR; exists z0; split; [by left|done]).
    assert (IH' : parse_with sub_flags rest = Some ([], rest)) by (apply IH; intros (t & T & Q); apply NR; exists t; split; [by right|done]).
    destruct z0 as [|c [|c' r]]; try (by rewrite IH'). cbn [head] in N0. destruct (N.eqb_spec c 45) as [->|]; [done|]. by rewrite IH'. }
  assert (P0 : parse_with sub_flags (minus_first (lit "env") (lit "env" :: x :: y :: rest)) = Some ([], x :: y :: rest)).
  { change (minus_first _ _) with (x :: y :: rest). rewrite (word_parse _ _ _ X), (word_parse _ _ _ Y'), PR. done. }
  inversion Y as [R|us ws t R H|us ws t R H|us ws b t R H NB S|us ws b v R H NB S A|us ws b v R H NB S A NH L|us b v n order R H NB S WE L O|us b v n nm R H NB S WE L|us ws b v t R H NB S A HC];
    subst; try done; rewrite P0 in R; try discriminate R.
  - injection R as <- <-. discriminate H.
  - injection R as <- <-. discriminate A.
  - injection R as <- <-. destruct HC as [HC|[HC _]]; discriminate HC.
Qed.

(** *** C81: "yot completion SHELL" for the four shells prints a text and writes no file *)
Theorem C81_completion shell w0 st w : In shell [lit "bash"; lit "zsh"; lit "fish"; lit "powershell"] ->
  yot [lit "completion"; shell] w0 st w ->
  (unreadable /\ st = 1 /\ w = w0) \/ (bad_level /\ st = 2 /\ w = w0) \/
  (st = 0 /\ w_files w = w_files w0 /\ w_stdout w0 `prefix_of` w_stdout w).
Proof.
  intros I Y. apply (yot_is_sub [] [] _ [shell]) in Y; [|constructor|by apply word_lit|cbn; tauto]. cbn [app] in Y.
  assert (P0 : parse_with sub_flags (minus_first (lit "completion") [lit "completion"; shell]) = Some ([], [shell]) /\ sub_accepts (lit "completion") [shell] = true).
  { repeat (destruct I as [<-|I]; [split; reflexivity|]). destruct I. }
  destruct P0 as [P0 P1].
  inversion Y as [R|us ws t R H|us ws t R H|us ws b t R H NB S|us ws b v R H NB S A|us ws b v R H NB S A NH L|us b v n order R H NB S WE L O|us b v n nm R H NB S WE L|us ws b v t R H NB S A HC];
    subst; rewrite P0 in R; try discriminate R; try (injection R as <- <-); try discriminate.
  - left. split; [|done]. by eapply startup_err.
  - congruence.
  - right. left. split; [|done]. destruct (level_cases v S) as [[n X]|[_ X]]; [congruence|done].
  - right. right. split; [done|]. split; [done|]. by eexists.
Qed.
(** ... anything but exactly one of the four is refused. *)
Theorem C81_completion_refused words w0 st w : Forall word words -> ~ (exists shell, words = [shell] /\ In shell [lit "bash"; lit "zsh"; lit "fish"; lit "powershell"]) ->
  yot (lit "completion" :: words) w0 st w -> st = 1 /\ w = w0.
Proof.
  intros WS NI Y. apply (yot_is_sub [] [] _ words) in Y; [|constructor|by apply word_lit|cbn; tauto]. cbn [app] in Y.
  assert (P0 : parse_with sub_flags (minus_first (lit "completion") (lit "completion" :: words)) = Some ([], words)).
  { change (minus_first _ _) with words. clear -WS. induction WS as [|x l X _ IH]; [done|]. by rewrite (word_parse _ _ _ X), IH. }
  assert (P1 : sub_accepts (lit "completion") words = false).
  { unfold sub_accepts. cbn [seq_eqb]. change (seq_eqb (lit "completion") (lit "env")) with false. change (seq_eqb (lit "completion") (lit "completion")) with true. cbn iota.
    destruct words as [|x [|]]; [done| |done]. destruct (existsb _ _) eqn:E; [|done]. exfalso. apply NI. exists x. split; [done|].
    apply existsb_exists in E as (t & T & Q). by destruct (seq_eqb_spec x t) as [->|]. }
  inversion Y as [R|us ws t R H|us ws t R H|us ws b t R H NB S|us ws b v R H NB S A|us ws b v R H NB S A NH L|us b v n order R H NB S WE L O|us b v n nm R H NB S WE L|us ws b v t R H NB S A HC];
    subst; try done; rewrite P0 in R; try discriminate R; try (injection R as <- <-); try discriminate.
  - congruence.
  - congruence.
Qed.
(** *** C81: a command line with one of the three words where a flag is expected writes no
    file, whatever else is on it *)
Theorem C81_write_no_file us a word rest w0 st w : written us a -> In word [lit "env"; lit "completion"; lit "help"] ->
  yot (a ++ word :: rest) w0 st w -> w_files w = w_files w0 /\ w_stdout w0 `prefix_of` w_stdout w.
Proof.
  intros W I Y. assert (SpecArgv.word word /\ In word subcommands) as [WD IS].
  { repeat (destruct I as [<-|I]; [split; [by apply word_lit|cbn; tauto]|]). destruct I. }
  apply (yot_is_sub us a) in Y; [|done..]. inversion Y; subst; cbn [w_files w_stdout]; (split; [done|]); try done; by eexists.
Qed.
End yot.

(** Among the documentation's uses of the variables: after YOT_STDOUT=true one expects
    "yot env YOT_STDOUT" to print true; without a configuration file it never does. *)
Section refuted.
Context {F P : Type} (e : engine F P) (builtin sprig : list N -> option F) (sed : sed_engine).
Context (compile : list N -> option (heap -> loc -> list loc)) (to_int : info -> option Z).
Context (h0 : heap) (z : loc) (fuel pfuel : nat) (grow : nat -> nat -> nat) (s : surroundings).
Context (number : list N -> Z) (enc : Z -> nat -> tree -> option (list N)) (dk : disk) (read_int : list N -> option Z) (show_int : Z -> list N).
Theorem C80_refuted_environment config_at w0 st w :
  let env x := if seq_eqb x (lit "YOT_STDOUT") then Some (lit "true") else None in
  yot e builtin sprig sed compile to_int h0 z fuel pfuel grow s env config_at None number enc dk read_int show_int [lit "env"; lit "YOT_STDOUT"] w0 st w ->
  st = 0 /\ w_stdout w = w_stdout w0 ++ [lit "YOT_STDOUT=" ++ [34%N] ++ lit "false" ++ [34%N; 10%N]].
Proof.
  intros env Y. assert (FU : file_in_use env None = None) by reflexivity. apply C80_env_one in Y; [|by apply word_lit].
  destruct Y as [[(f & Q & _) _]|[[(x & Q & _) _]|(-> & _ & _ & value & -> & V & _)]].
  - by rewrite FU in Q.
  - unfold in_file in Q. by rewrite FU in Q.
  - split; [done|]. rewrite (V ("YOT_STDOUT", "stdout", "false")%string); [|cbn; tauto|done]. reflexivity.
Qed.
End refuted.

(** A concrete environment and configuration file. *)
Example C80_applies :
  let env x := if seq_eqb x (lit "YOT_CONFIG_FILE") then Some (lit "c.yaml") else if seq_eqb x (lit "YOT_STDOUT") then Some (lit "true") else None in
  let config_at x := if seq_eqb x (lit "c.yaml") then Some [(lit "indentLevel", lit "8"); (lit "logLevel", lit "Debug")] else None in
  ~ unreadable env config_at None /\ ~ bad_level env config_at None /\
  map (shown env config_at None) variables =
    map lit ["c.yaml"; "ignore"; "8"; "Debug"; "./output"; "[normal]"; "false"; "false"]%string.
Proof.
  cbv zeta. split; [intros (f & E & C); vm_compute in E; injection E as <-; vm_compute in C; discriminate C|]. split.
  - intros (x & E & Fo). vm_compute in E. injection E as <-. rewrite Forall_forall in Fo.
    specialize (Fo "DEBUG"%string ltac:(apply elem_of_list_In; cbn; tauto)). vm_compute in Fo. discriminate Fo.
  - vm_compute. reflexivity.
Qed.
(** A configuration file that exists but cannot be read, and one with a short log level. *)
Example C80_applies_failures :
  unreadable (fun _ => None) (fun _ => None) (Some (lit "yot.config")) /\
  bad_level (fun _ => None) (fun _ => Some [(lit "loglevel", lit "warn")]) (Some (lit "yot.config")).
Proof.
  split; [by exists (lit "yot.config")|]. exists (lit "warn"). split; [reflexivity|]. repeat constructor.
Qed.
(** "yot -i env env", "yot env --stdout YOT_STDOUT". *)
Example C80_applies_flags :
  (exists us a, written us a /\ us <> [] /\ a = [lit "-i"; lit "env"]) /\ (exists us b, written us b /\ us <> [] /\ b = [lit "--stdout"]).
Proof.
  split.
  - exists [(lit "instructions", lit "env")], [lit "-i"; lit "env"]. split; [|done].
    apply (written_more ("instructions", "i", "") (lit "env") [lit "-i"; lit "env"]); [cbn; tauto|by apply (writes_short _ 105%N)|constructor].
  - exists [(lit "stdout", lit "true")], [lit "--stdout"]. split; [|done].
    apply (written_more ("stdout", "s", "true") (lit "true") [lit "--stdout"]); [cbn; tauto|by apply writes_long_bare|constructor].
Qed.
(** "yot completion bash" can end with status 0. *)
Example C81_applies w0 text : sub_process (fun _ => None) (fun _ => None) None (lit "completion") [lit "completion"; lit "bash"] w0 0 (mkWorld (w_stdout w0 ++ [text]) (w_files w0)).
Proof.
  eapply (sub_prints _ _ _ _ _ _ []); [reflexivity|reflexivity|done|reflexivity|reflexivity|]. right. split; [done|]. eexists. vm_compute. reflexivity.
Qed.

Print Assumptions C80_env.
Print Assumptions C80_env_ends.
Print Assumptions C80_env_one.
Print Assumptions C80_takes_no_flags.
Print Assumptions C80_one_name_only.
Print Assumptions C80_refuted_environment.
Print Assumptions C81_completion.
Print Assumptions C81_completion_refused.
Print Assumptions C81_write_no_file.
