(** C77: command lines. *)
From Verif Require Import Prelude GoStrings Format Yaml Heap ActionNames Overlay Combine SpecCombine ProofCombine Decode Flags Template HeapComments Whole Render Config Main Argv SpecStyle ProofStyle SpecArgv ProofArgv PropsWhole ExamplesHeap Examples.

Section request.
Context (compile : list N -> option (heap -> loc -> list loc)) (h0 : heap) (s : surroundings).
Context (read_int : list N -> option Z) (show_int : Z -> list N).
Notation request_of := (request_of compile h0 s read_int show_int).

(** No value is refused by its flag. *)
Record acceptable (us : list (list N * list N)) : Prop := mkAcceptable {
  ac_queries : exists q, set_queries compile h0 (parse_flag h0 s) (given "query" us) = Ok q;
  ac_actions : exists a, set_actions h0 (parse_flag h0 s) AInvalid (given "action" us) = Ok a;
  ac_level : Forall (fun v => parse_log_flag v <> None) (given "log-level" us);
  ac_missing : exists m, missing_flag h0 s (given "default-on-missing-action" us) = Ok m;
  ac_stdout : Forall (fun v => true_text v \/ false_text v) (given "stdout" us);
  ac_indent : Forall (fun v => read_int v <> None) (given "indent-level" us);
  ac_styles : exists ss, styles_asked (given "output-style" us) ss;
  ac_comments : Forall (fun v => true_text v \/ false_text v) (given "remove-comments" us) }.

Definition settled {A} (r : res A) : Prop := match r with Ok _ | Err _ => True | _ => False end.
Lemma settled_bind {A B} (r : res A) (f : A -> res B) : settled r -> (forall a, settled (f a)) -> settled (rbind r f).
Proof. by destruct r; cbn. Qed.
Lemma settled_string l : settled (d_string h0 l).
Proof. unfold d_string. destruct (sight_of h0 l); done. Qed.
Lemma settled_queries vals : settled (set_queries compile h0 (parse_flag h0 s) vals).
Proof.
  induction vals as [|v vals IH]; [done|]. cbn [set_queries]. apply settled_bind; [|intros q; apply settled_bind; [exact IH|done]].
  unfold set_query. destruct (parse_flag h0 s v) as [[c|]|]; try done. unfold d_query. apply settled_bind; [apply settled_string|]. intros [t|]; [|done]. by destruct (compile t).
Qed.
Lemma settled_actions vals : forall a, settled (set_actions h0 (parse_flag h0 s) a vals).
Proof.
  induction vals as [|v vals IH]; intros a; [done|]. cbn [set_actions]. destruct (parse_flag h0 s v) as [[c|]|]; [|apply IH|done].
  apply settled_bind; [|intros x; apply IH]. unfold d_action. apply settled_bind; [apply settled_string|]. intros [t|]; [|done].
  unfold decode_action. by destruct (action_id (to_lower t)).
Qed.
Lemma settled_missings vals : forall a, settled (set_missings h0 (parse_flag h0 s) a vals).
Proof.
  induction vals as [|v vals IH]; intros a; [done|]. cbn [set_missings]. destruct (parse_flag h0 s v) as [[c|]|]; [|apply IH|done].
  apply settled_bind; [|intros x; apply IH]. unfold d_missing. apply settled_bind; [apply settled_string|done].
Qed.
Lemma bools vals : Forall (fun v => parse_bool v <> None) vals <-> Forall (fun v => true_text v \/ false_text v) vals.
Proof.
  split; intros F; (eapply Forall_impl; [exact F|]); intros v H; cbn beta in *; pose proof (parse_bool_spec v) as X.
  - destruct (parse_bool v) as [[]|] eqn:E; [left; by apply (X true)|right; by apply (X false)|done].
  - destruct H as [H|H]; [apply (X true) in H|apply (X false) in H]; by rewrite H.
Qed.
Lemma bool_flag_shown vals : Forall (fun v => parse_bool v <> None) vals ->
  bool_flag vals (option_map format_bool match last vals with Some v => parse_bool v | None => None end).
Proof.
  intros F. split; [by apply bools|]. split; [by intros ->|]. split; intros v -> T; pose proof (parse_bool_spec v) as X.
  - apply (X true) in T. by rewrite T.
  - apply (X false) in T. by rewrite T.
Qed.

Lemma understood us argv : written us argv ->
  (acceptable us /\ exists cl cli, request_of argv = Ok (RRun cl cli) /\ asks h0 s read_int show_int us cl cli) \/
  ((exists x, request_of argv = Err x) /\ ~ acceptable us).
Proof.
  intros W. unfold Argv.request_of. pose proof (strip_written _ _ W []) as ST. pose proof (parse_written _ _ W []) as PA. rewrite app_nil_r in ST, PA.
  rewrite ST, PA. cbn [strip_flags parse_args more]. rewrite app_nil_r. rewrite <- !given_values.
  assert (NH : given "help" us = []) by (clear -W; induction W as [|p v a us argv I _ _ IH]; [done|]; cbn [given]; rewrite IH;
    repeat (destruct I as [<-|I]; [reflexivity|]); destruct I).
  assert (NV : given "version" us = []) by (clear -W; induction W as [|p v a us argv I _ _ IH]; [done|]; cbn [given]; rewrite IH;
    repeat (destruct I as [<-|I]; [reflexivity|]); destruct I).
  rewrite NH, NV. cbn [each_ok fold_left].
  destruct (set_queries _ _ _ _) as [q| | |] eqn:Q; try (pose proof (settled_queries (given "query" us)) as X; rewrite Q in X; done).
  2:{ cbn [rbind]. right. split; [eauto|]. intros A. destruct (ac_queries _ A) as [q' X]. congruence. }
  destruct (set_actions _ _ _ _) as [ac| | |] eqn:AC; try (pose proof (settled_actions (given "action" us) AInvalid) as X; rewrite AC in X; done).
  2:{ cbn [rbind]. right. split; [eauto|]. intros A. destruct (ac_actions _ A) as [q' X]. congruence. }
  cbn [rbind]. unfold log_text. pose proof (each_ok_spec parse_log_flag (given "log-level" us)) as X.
  destruct (each_ok parse_log_flag _) as [level|x| |] eqn:LV; try done.
  2:{ cbn [rbind]. right. split; [eauto|]. intros A. destruct X as (_ & v & I & N). pose proof (ac_level _ A) as Y. rewrite Forall_forall in Y.
      apply elem_of_list_In in I. by destruct (Y v I). }
  destruct X as [L1 L2]. cbn [rbind].
  assert (MT : (exists m mt, missing_flag h0 s (given "default-on-missing-action" us) = Ok m /\ missing_text h0 s (given "default-on-missing-action" us) = Ok mt /\
                  mt = match given "default-on-missing-action" us with [] => None | _ => Some (missing_string m) end) \/
               (exists x, missing_flag h0 s (given "default-on-missing-action" us) = Err x /\ missing_text h0 s (given "default-on-missing-action" us) = Err x)).
  { unfold missing_text. pose proof (settled_missings (given "default-on-missing-action" us) MIgnore) as MS. unfold missing_flag.
    destruct (given "default-on-missing-action" us) as [|v vs]; [left; eexists _, _; split_and!; reflexivity|].
    destruct (set_missings _ _ _ _) as [m|x| |]; try done; [left|right]; eauto. }
  destruct MT as [(m & mt & MF & MT1 & MT2)|(x & MF & MT1)].
  2:{ rewrite MT1. cbn [rbind]. right. split; [eauto|]. intros A. destruct (ac_missing _ A) as [m X]. congruence. }
  rewrite MT1. cbn [rbind]. unfold bool_text, int_text.
  pose proof (each_ok_spec parse_bool (given "stdout" us)) as X. destruct (each_ok parse_bool (given "stdout" us)) as [so|x| |] eqn:SO; try done.
  2:{ cbn [rbind]. right. split; [eauto|]. intros A. destruct X as (_ & v & I & N). pose proof (ac_stdout _ A) as Y. apply bools in Y. rewrite Forall_forall in Y.
      apply elem_of_list_In in I. by destruct (Y v I). }
  destruct X as [S1 S2]. cbn [rbind].
  pose proof (each_ok_spec read_int (given "indent-level" us)) as X. destruct (each_ok read_int (given "indent-level" us)) as [il|x| |] eqn:IL; try done.
  2:{ cbn [rbind]. right. split; [eauto|]. intros A. destruct X as (_ & v & I & N). pose proof (ac_indent _ A) as Y. rewrite Forall_forall in Y.
      apply elem_of_list_In in I. by destruct (Y v I). }
  destruct X as [I1 I2]. cbn [rbind].
  assert (STX : (exists ss st, style_flag (given "output-style" us) = Some ss /\ style_text (given "output-style" us) = Ok st /\
                   st = match given "output-style" us with [] => None | _ => Some (style_flag_text ss) end) \/
                (style_flag (given "output-style" us) = None /\ style_text (given "output-style" us) = Err EDecode)).
  { unfold style_text. destruct (given "output-style" us) as [|v vs]; [left; eexists _, _; split_and!; reflexivity|].
    destruct (style_flag (v :: vs)) as [ss|]; [left|right]; eauto. }
  destruct STX as [(ss & st & SF & ST1 & ST2)|(SF & ST1)].
  2:{ rewrite ST1. cbn [rbind]. right. split; [eauto|]. intros A. destruct (ac_styles _ A) as [ss X]. apply style_flag_asked in X. congruence. }
  rewrite ST1. cbn [rbind].
  pose proof (each_ok_spec parse_bool (given "remove-comments" us)) as X. destruct (each_ok parse_bool (given "remove-comments" us)) as [rc|x| |] eqn:RC; try done.
  2:{ cbn [rbind]. right. split; [eauto|]. intros A. destruct X as (_ & v & I & N). pose proof (ac_comments _ A) as Y. apply bools in Y. rewrite Forall_forall in Y.
      apply elem_of_list_In in I. by destruct (Y v I). }
  destruct X as [C1 C2]. cbn [rbind]. rewrite !decide_False by done.
  assert (AC0 : acceptable us).
  { constructor; eauto.
    + by apply bools.
    + exists ss. by apply style_flag_asked.
    + by apply bools. }
  left. split; [done|]. eexists _, _. split; [reflexivity|]. constructor; cbn [options_of cl_instructions cl_path cl_values cl_queries cl_actions cl_value]; rewrite <- ?given_values; try done.
    + destruct (given "values-file" us); split; done.
    + change (bool_flag (given "stdout" us) (option_map format_bool so)). rewrite S2. by apply bool_flag_shown.
    + change (bool_flag (given "remove-comments" us) (option_map format_bool rc)). rewrite C2. by apply bool_flag_shown.
    + split; [done|]. change (option_map show_int il = match last (given "indent-level" us) with Some v => show_int <$> read_int v | None => None end). rewrite I2. destruct (last (given "indent-level" us)); [|done]. by destruct (read_int _).
    + exists ss. split; [by apply style_flag_asked|done].
    + exists m. done.
Qed.

(** *** C77: a command line in any of the forms flags can be written in is understood as the
    list of the flags' values *)
Theorem C77_understood us argv : written us argv ->
  (acceptable us -> exists cl cli, request_of argv = Ok (RRun cl cli) /\ asks h0 s read_int show_int us cl cli) /\
  (~ acceptable us -> exists x, request_of argv = Err x).
Proof. intros W. destruct (understood us argv W) as [[A X]|[X NA]]; split; done. Qed.

Lemma not_help us argv : written us argv -> given "help" us = [] /\ given "version" us = [].
Proof.
  intros W. split; induction W as [|p v a us argv I _ _ IH]; try done; cbn [given]; rewrite IH;
    repeat (destruct I as [<-|I]; [reflexivity|]); destruct I.
Qed.
(** Two lists of flags that give each flag the same values. *)
Definition same_values (us us' : list (list N * list N)) : Prop :=
  forall p, In p documented -> given (fst (fst p)) us = given (fst (fst p)) us'.

Lemma written_request us argv : written us argv -> forall us' argv', written us' argv' -> same_values us us' -> request_of argv = request_of argv'.
Proof.
  intros W us' argv' W' E. unfold Argv.request_of. pose proof (strip_written _ _ W []) as ST. pose proof (parse_written _ _ W []) as PA. rewrite app_nil_r in ST, PA.
  pose proof (strip_written _ _ W' []) as ST'. pose proof (parse_written _ _ W' []) as PA'. rewrite app_nil_r in ST', PA'.
  rewrite ST, PA, ST', PA'. cbn [strip_flags parse_args more]. rewrite !app_nil_r. unfold options_of. rewrite <- !given_values.
  destruct (not_help _ _ W) as [-> ->]. destruct (not_help _ _ W') as [-> ->].
  unfold same_values in E.
  pose proof (E ("config", "", "")%string ltac:(cbn; tauto)) as E1. pose proof (E ("log-level", "v", "debug")%string ltac:(cbn; tauto)) as E2.
  pose proof (E ("instructions", "i", "")%string ltac:(cbn; tauto)) as E3. pose proof (E ("default-on-missing-action", "", "")%string ltac:(cbn; tauto)) as E4.
  pose proof (E ("output-directory", "o", "")%string ltac:(cbn; tauto)) as E5. pose proof (E ("stdout", "s", "true")%string ltac:(cbn; tauto)) as E6.
  pose proof (E ("indent-level", "I", "")%string ltac:(cbn; tauto)) as E7. pose proof (E ("output-style", "S", "")%string ltac:(cbn; tauto)) as E8.
  pose proof (E ("remove-comments", "", "true")%string ltac:(cbn; tauto)) as E9. pose proof (E ("values-file", "f", "")%string ltac:(cbn; tauto)) as E10.
  pose proof (E ("query", "q", "")%string ltac:(cbn; tauto)) as E11. pose proof (E ("action", "a", "")%string ltac:(cbn; tauto)) as E12.
  pose proof (E ("value", "x", "")%string ltac:(cbn; tauto)) as E13. pose proof (E ("path", "p", "")%string ltac:(cbn; tauto)) as E14.
  cbn [fst] in *. by rewrite E1, E2, E3, E4, E5, E6, E7, E8, E9, E10, E11, E12, E13, E14.
Qed.

(** *** C77: only the values of each flag matter: not the form they are written in, nor the
    order of different flags *)
Theorem C77_forms_and_order us argv us' argv' :
  written us argv -> written us' argv' -> same_values us us' -> request_of argv = request_of argv'.
Proof. intros W W' E. by eapply written_request. Qed.

(** *** C77: what follows a "--" is ignored *)
Theorem C77_dashdash_ignored us a rest : written us a -> request_of (a ++ lit "--" :: rest) = request_of a.
Proof.
  intros W. unfold Argv.request_of. rewrite (strip_written _ _ W), (parse_written _ _ W).
  pose proof (strip_written _ _ W []) as ST. pose proof (parse_written _ _ W []) as PA. rewrite app_nil_r in ST, PA. rewrite ST, PA. reflexivity.
Qed.

(** *** C77: a word where a flag is expected is refused, whatever precedes it and follows *)
Theorem C77_words_refused us a w rest : written us a -> word w -> ~ In w command_words ->
  exists x, request_of (a ++ w :: rest) = Err x.
Proof.
  intros W (c & r & -> & ND) NC. unfold Argv.request_of. rewrite (strip_written _ _ W).
  assert (Y : forall t, c :: r <> t -> seq_eqb (c :: r) t = false) by (intros t H; by destruct (seq_eqb_spec (c :: r) t)).
  assert (X : strip_flags ((c :: r) :: rest) = (c :: r) :: strip_flags rest).
  { cbn [strip_flags]. rewrite Y by congruence. apply N.eqb_neq in ND. assert (T : takes_next (c :: r) = false) by (destruct r; [done|]; unfold takes_next; by rewrite ND).
    by rewrite T, ND. }
  rewrite X. clear X. unfold subcommands. cbn [existsb].
  rewrite !Y by (intros Q; apply NC; rewrite Q; cbn; tauto). cbn. eauto.
Qed.

(** *** C77: letters cannot be combined when the last wants a value in the next argument:
    "-si file" is refused, although "-s -i file" is not *)
Theorem C77_refuted_letters file rest : word file -> ~ In file command_words ->
  (exists x, request_of (lit "-si" :: file :: rest) = Err x) /\
  exists cl cli, request_of [lit "-s"; lit "-i"; file] = Ok (RRun cl cli) /\ cl_instructions cl = file.
Proof.
  intros W NC. split.
  - assert (X : forall r, strip_flags (lit "-si" :: r) = strip_flags r) by done. unfold Argv.request_of. rewrite X.
    pose proof (C77_words_refused [] [] file rest written_none W NC) as [x Y]. unfold Argv.request_of in Y. cbn [app] in Y.
    destruct (strip_flags (file :: rest)) as [|w l] eqn:E; [|eauto].
    exfalso. destruct W as (c & r & -> & ND). cbn [strip_flags] in E.
    destruct (seq_eqb_spec (c :: r) [45%N; 45%N]) as [Q|]; [congruence|]. apply N.eqb_neq in ND.
    assert (T : takes_next (c :: r) = false) by (destruct r; [done|]; unfold takes_next; by rewrite ND). rewrite T, ND in E. done.
  - eexists _, _. split; reflexivity.
Qed.

(** *** C77: --help among other flags *)
Lemma written_app us a us' b : written us a -> written us' b -> written (us ++ us') (a ++ b).
Proof. induction 1 as [|p v x us argv I W _ IH]; intros W'; [done|]. cbn [app]. rewrite <- app_assoc. constructor; auto. Qed.
Lemma help_among us us' c argv : strip_flags argv = [] -> parse_args argv = Some (us ++ (lit "help", lit "true") :: us') -> written (us ++ us') c ->
  (acceptable (us ++ us') -> request_of argv = Ok RHelp) /\ (~ acceptable (us ++ us') -> exists x, request_of argv = Err x).
Proof.
  intros SF PF W. destruct (C77_understood (us ++ us') c W) as [U1 U2].
  pose proof (strip_written _ _ W []) as ST. pose proof (parse_written _ _ W []) as PA. rewrite app_nil_r in ST, PA. cbn [strip_flags parse_args more] in ST, PA. rewrite app_nil_r in PA.
  assert (V : forall n, n <> "help"%string -> In n ["config"; "log-level"; "instructions"; "default-on-missing-action"; "output-directory"; "stdout"; "indent-level"; "output-style"; "remove-comments"; "values-file"; "query"; "action"; "value"; "path"; "version"]%string ->
     values_of n (us ++ (lit "help", lit "true") :: us') = values_of n (us ++ us')).
  { intros n NH In0. unfold values_of. rewrite !filter_app, filter_cons, !map_app. destruct (decide _) as [Q|Q]; [|done].
    exfalso. cbn [fst] in Q. repeat (destruct In0 as [<-|In0]; [try done; vm_compute in Q; discriminate Q|]). destruct In0. }
  assert (H : values_of "help" (us ++ (lit "help", lit "true") :: us') = [lit "true"]).
  { destruct (not_help _ _ W) as [G _]. rewrite <- given_values. clear -G. induction us as [|[m v] us IH]; cbn [given app] in *.
    - rewrite G. rewrite decide_True by done. done.
    - destruct (decide (m = lit "help")); [done|]. by apply IH. }
  assert (E : request_of argv = match request_of c with Ok _ => Ok RHelp | Err x => Err x | Panic => Panic | Fuel => Fuel end).
  { unfold Argv.request_of. rewrite SF, PF, ST, PA.
    rewrite ?(V "config"%string) by (done || (cbn; tauto)).
    rewrite ?(V "log-level"%string) by (done || (cbn; tauto)).
    rewrite ?(V "default-on-missing-action"%string) by (done || (cbn; tauto)).
    rewrite ?(V "output-directory"%string) by (done || (cbn; tauto)).
    rewrite ?(V "stdout"%string) by (done || (cbn; tauto)).
    rewrite ?(V "indent-level"%string) by (done || (cbn; tauto)).
    rewrite ?(V "output-style"%string) by (done || (cbn; tauto)).
    rewrite ?(V "remove-comments"%string) by (done || (cbn; tauto)).
    rewrite ?(V "query"%string) by (done || (cbn; tauto)).
    rewrite ?(V "action"%string) by (done || (cbn; tauto)).
    rewrite ?(V "version"%string) by (done || (cbn; tauto)).
    rewrite H. rewrite <- !given_values. destruct (not_help _ _ W) as [-> ->].
    change (each_ok parse_bool []) with (Ok (@None bool)). change (each_ok parse_bool [lit "true"]) with (Ok (Some true)).
    destruct (set_queries _ _ _ _); [|done..]. destruct (set_actions _ _ _ _); [|done..]. destruct (log_text _); [|done..]. destruct (missing_text _ _ _); [|done..].
    destruct (bool_text (given "stdout" (us ++ us'))); [|done..]. destruct (int_text _ _ _); [|done..]. destruct (style_text _); [|done..]. destruct (bool_text (given "remove-comments" (us ++ us'))); [|done..].
    reflexivity. }
  split.
  - intros A. destruct (U1 A) as (cl & cli & R & _). by rewrite E, R.
  - intros A. destruct (U2 A) as (x & R). rewrite E, R. eauto.
Qed.
(** At the end, wherever the other flags stand. *)
Theorem C77_help us a x : written us a -> acceptable us -> In x [lit "--help"; lit "-h"; lit "--help=true"] -> request_of (a ++ [x]) = Ok RHelp.
Proof.
  intros W A I. assert (P : parse_args [x] = Some [(lit "help", lit "true")] /\ strip_flags [x] = []) by (repeat (destruct I as [<-|I]; [by vm_compute|]); destruct I).
  destruct (help_among us [] a (a ++ [x])) as [X _].
  - by rewrite (strip_written _ _ W), (proj2 P).
  - by rewrite (parse_written _ _ W), (proj1 P).
  - by rewrite app_nil_r.
  - apply X. by rewrite app_nil_r.
Qed.
(** One word after --help is let through (as if it were a value), and flags may follow it:
    they still have to be right. *)
Theorem C77_help_then_word us a x w us' b : written us a -> written us' b -> In x [lit "--help"; lit "-h"] -> word w ->
  (acceptable (us ++ us') -> request_of (a ++ x :: w :: b) = Ok RHelp) /\
  (~ acceptable (us ++ us') -> exists e, request_of (a ++ x :: w :: b) = Err e).
Proof.
  intros W W' I (c & r & -> & ND). pose proof (strip_written _ _ W' []) as ST. pose proof (parse_written _ _ W' []) as PA.
  rewrite app_nil_r in ST, PA. cbn [strip_flags parse_args more] in ST, PA. rewrite app_nil_r in PA. apply N.eqb_neq in ND.
  apply (help_among us us' (a ++ b)); [| |by apply written_app].
  - rewrite (strip_written _ _ W). by repeat (destruct I as [<-|I]; [exact ST|]); destruct I.
  - rewrite (parse_written _ _ W).
    assert (P : parse_args ((c :: r) :: b) = Some us') by (cbn [parse_args]; destruct r; [done|]; by rewrite ND).
    assert (Q : parse_args (x :: (c :: r) :: b) = more [(lit "help", lit "true")] (parse_args ((c :: r) :: b))) by (by repeat (destruct I as [<-|I]; [reflexivity|]); destruct I).
    by rewrite Q, P.
Qed.
(** *** C77: an unknown flag is refused, whatever precedes it and follows (unless a word that
    is a command follows) *)
Definition flag_names : list (list N) := map lit ("help" :: "version" :: map (fun p => fst (fst p)) documented)%string.
Lemma strip_in rest l : (forall y, In y l -> In y rest) -> Forall (fun w => In w rest) (strip_flags l).
Proof.
  remember (length l) as k eqn:Ek. assert (length l <= k) as Lk by lia. clear Ek. revert l Lk.
  induction k as [|k IHk]; intros [|y l] Lk Il; try constructor; cbn [length] in Lk; try lia.
  cbn [strip_flags]. destruct (seq_eqb y _); [constructor|]. destruct (takes_next y).
  { destruct l as [|y2 l]; [constructor|]. apply IHk; [cbn [length] in Lk; lia|]. intros; apply Il; by right; right. }
  destruct y as [|d y]; [apply IHk; [lia|]; intros; apply Il; by right|]. destruct (N.eqb d _); [apply IHk; [lia|]; intros; apply Il; by right|].
  constructor; [apply Il; by left|]. apply IHk; [lia|]. intros; apply Il; by right.
Qed.
Lemma unknown_refused us a arg rest : written us a -> (forall w, In w command_words -> ~ In w rest) ->
  parse_args (arg :: rest) = None -> (exists l, strip_flags (arg :: rest) = strip_flags l /\ forall y, In y l -> In y rest) ->
  exists e, request_of (a ++ arg :: rest) = Err e.
Proof.
  intros W NC PA (l & SF & Il). unfold Argv.request_of. rewrite (strip_written _ _ W), (parse_written _ _ W), SF, PA. cbn [more].
  pose proof (strip_in rest l Il) as Fl. destruct (strip_flags l) as [|w ws]; [by eexists|]. apply Forall_cons in Fl as [Iw _].
  destruct (existsb (seq_eqb w) subcommands) eqn:EX; [|by eexists].
  exfalso. apply existsb_exists in EX as (y & Y & EY). destruct (seq_eqb_spec w y) as [->|]; [|done]. by apply (NC y).
Qed.
Theorem C77_unknown_flag us a n arg rest : written us a ->
  n <> [] -> ~ In 61%N n -> head n <> Some 45%N -> ~ In n flag_names -> (forall w, In w command_words -> ~ In w rest) ->
  arg = lit "--" ++ n \/ (exists v, arg = lit "--" ++ n ++ lit "=" ++ v) ->
  exists e, request_of (a ++ arg :: rest) = Err e.
Proof.
  intros W NE NQ ND NI NC HA.
  assert (NF : long_flag all_flags n = None).
  { unfold long_flag, all_flags. rewrite <- documented_own. destruct (List.find _ _) as [f|] eqn:E; [|done]. exfalso. apply find_some in E as [I E].
    apply NI. destruct (seq_eqb_spec (f_name f) n) as [<-|]; [|done]. unfold flag_names. apply in_app_iff in I as [I|I].
    - apply in_map_iff in I as (p & <- & I). rewrite documented_name. right. right. apply in_map_iff. exists (fst (fst p)). split; [done|]. apply in_map_iff. by exists p.
    - cbn [map] in I. destruct I as [<-|[<-|[]]]; [by left|right; by left]. }
  assert (PN : Forall (fun c => N.eqb c 61 = false) n) by (rewrite Forall_forall; intros c C; apply N.eqb_neq; intros ->; apply NQ; by apply elem_of_list_In).
  destruct n as [|c n]; [done|].
  assert (DC : N.eqb c 45 = false) by (apply N.eqb_neq; intros ->; by apply ND).
  assert (QC : N.eqb c 61 = false) by (by apply Forall_cons in PN as [? _]).
  assert (SF : forall t, exists l, strip_flags ((45%N :: 45%N :: c :: t) :: rest) = strip_flags l /\ forall y, In y l -> In y rest).
  { intros t. cbn [strip_flags]. rewrite not_dashes. destruct (takes_next _).
    - destruct rest as [|y r]; [by exists []|exists r]. split; [done|]. intros; by right.
    - exists rest. done. }
  destruct HA as [->|[v ->]]; apply (unknown_refused us); try done; try apply SF; cbn [parse_args].
  - change (lit "--") with [45%N; 45%N]. cbn [app]. rewrite (split_eq_bare (c :: n) PN), DC, QC. cbn [orb]. by rewrite NF.
  - pose proof (split_eq_name (c :: n) v PN) as S. change (lit "--") with [45%N; 45%N]. change (lit "=") with [61%N]. cbn [app] in *. rewrite S, DC, QC. cbn [orb]. by rewrite NF.
Qed.
(** *** C77: but not before flags with values: "--help -i file" is refused *)
Theorem C77_refuted_help_first file rest : word file -> ~ In file command_words ->
  exists x, request_of (lit "--help" :: lit "-i" :: file :: rest) = Err x.
Proof.
  intros W NC. assert (X : forall r, strip_flags (lit "--help" :: lit "-i" :: r) = strip_flags r) by done. unfold Argv.request_of. rewrite X.
  destruct (C77_words_refused [] [] file rest written_none W NC) as [x Y]. unfold Argv.request_of in Y. cbn [app] in Y.
  destruct (strip_flags (file :: rest)) as [|w l] eqn:E; [|eauto].
  exfalso. destruct W as (c & r & -> & ND). cbn [strip_flags] in E.
  destruct (seq_eqb_spec (c :: r) [45%N; 45%N]) as [Q|]; [congruence|]. apply N.eqb_neq in ND.
  assert (T : takes_next (c :: r) = false) by (destruct r; [done|]; unfold takes_next; by rewrite ND). rewrite T, ND in E. done.
Qed.
End request.

(** *** Processes started with command lines *)
Section yot.
Context {F P : Type} (e : engine F P) (builtin sprig : list N -> option F) (sed : sed_engine).
Context (compile : list N -> option (heap -> loc -> list loc)) (to_int : info -> option Z).
Context (h0 : heap) (z : loc) (fuel pfuel : nat) (grow : nat -> nat -> nat) (s : surroundings).
Context (env : list N -> option (list N)) (config_at : list N -> option (list (list N * list N))) (search : option (list N)).
Context (number : list N -> Z) (enc : Z -> nat -> tree -> option (list N)) (dk : disk).
Context (read_int : list N -> option Z) (show_int : Z -> list N).
Notation yot := (yot e builtin sprig sed compile to_int h0 z fuel pfuel grow s env config_at search number enc dk read_int show_int).

(** *** C77: a process whose arguments are flags either refuses one of their values, and ends
    with status 1 having written nothing, or does what these values ask for *)
Theorem C77_process us argv w0 st w : written us argv -> yot argv w0 st w ->
  (~ acceptable compile h0 s read_int us /\ st = 1 /\ w = w0) \/
  exists cl cli, asks h0 s read_int show_int us cl cli /\
    process e builtin sprig sed compile to_int h0 z fuel pfuel grow s env cli config_at search cl number enc dk w0 st w.
Proof.
  intros W Y.
  inversion Y as [x R|R|text R|text R|cl cli st' w' R PR|? ? ? R _ _]; subst;
    (destruct (understood compile h0 s read_int show_int us argv W) as [(A & cl' & cli' & R' & AS)|[[x' R'] NA]]; rewrite R' in R; try discriminate R).
  - left. done.
  - right. injection R as <- <-. eauto.
Qed.

(** *** C77: a stray word is reported, nothing is written *)
Theorem C77_process_words us a word rest w0 st w : written us a -> SpecArgv.word word -> ~ In word command_words ->
  yot (a ++ word :: rest) w0 st w -> st = 1 /\ w = w0.
Proof.
  intros W WD NC Y. destruct (C77_words_refused compile h0 s read_int show_int us a word rest W WD NC) as [x X].
  inversion Y; subst; rewrite X in *; try discriminate; done.
Qed.

(** *** C77: --help prints a text and writes no file *)
Theorem C77_process_help us a x w0 st w : written us a -> acceptable compile h0 s read_int us -> In x [lit "--help"; lit "-h"; lit "--help=true"] ->
  yot (a ++ [x]) w0 st w -> st = 0 /\ w_files w = w_files w0.
Proof.
  intros W A I Y. pose proof (C77_help compile h0 s read_int show_int us a x W A I) as X.
  inversion Y; subst; rewrite X in *; try discriminate; done.
Qed.
End yot.

(** *** A concrete command line:
      yot -i i.yaml --output-directory=out -s=f -I4 -f a --values-file b -v=WARNING -S dq,flow --remove-comments *)
Definition c_us : list (list N * list N) :=
  map (fun p => (lit (fst p), lit (snd p)))
  [("instructions", "i.yaml"); ("output-directory", "out"); ("stdout", "f"); ("indent-level", "4"); ("values-file", "a"); ("values-file", "b");
   ("log-level", "WARNING"); ("output-style", "dq,flow"); ("remove-comments", "true")]%string.
Definition c_argv : list (list N) :=
  map lit ["-i"; "i.yaml"; "--output-directory=out"; "-s=f"; "-I4"; "-f"; "a"; "--values-file"; "b"; "-v=WARNING"; "-S"; "dq,flow"; "--remove-comments"]%string.
Definition c_argv' : list (list N) :=
  map lit ["--remove-comments"; "--log-level=WARNING"; "-fa"; "-f=b"; "-oout"; "-ii.yaml"; "--indent-level"; "4"; "--stdout=f"; "-S=dq,flow"]%string.
Ltac long_eq := match goal with |- writes ?f ?v _ => exact (writes_long_eq f v) end.
Ltac short_eq c := match goal with |- writes ?f ?v _ => refine (writes_short_eq f c v _ _); done end.
Ltac glued c := match goal with |- writes ?f ?v _ => refine (writes_glued f c v _ _ _ _); try done; intros [k Q]; discriminate Q end.
Lemma c_written : written c_us c_argv.
Proof.
  unfold c_us, c_argv. cbn [map fst snd].
  apply (written_more ("instructions", "i", "") (lit "i.yaml") [lit "-i"; lit "i.yaml"]); [cbn; tauto|by apply (writes_short _ 105%N)|].
  apply (written_more ("output-directory", "o", "") (lit "out") [lit "--output-directory=out"]); [cbn; tauto|long_eq|].
  apply (written_more ("stdout", "s", "true") (lit "f") [lit "-s=f"]); [cbn; tauto|short_eq 115%N|].
  apply (written_more ("indent-level", "I", "") (lit "4") [lit "-I4"]); [cbn; tauto|glued 73%N|].
  apply (written_more ("values-file", "f", "") (lit "a") [lit "-f"; lit "a"]); [cbn; tauto|by apply (writes_short _ 102%N)|].
  apply (written_more ("values-file", "f", "") (lit "b") [lit "--values-file"; lit "b"]); [cbn; tauto|by apply writes_long|].
  apply (written_more ("log-level", "v", "debug") (lit "WARNING") [lit "-v=WARNING"]); [cbn; tauto|short_eq 118%N|].
  apply (written_more ("output-style", "S", "") (lit "dq,flow") [lit "-S"; lit "dq,flow"]); [cbn; tauto|by apply (writes_short _ 83%N)|].
  apply (written_more ("remove-comments", "", "true") (lit "true") [lit "--remove-comments"]); [cbn; tauto|by apply writes_long_bare|].
  constructor.
Qed.
Definition c_us' : list (list N * list N) :=
  map (fun p => (lit (fst p), lit (snd p)))
  [("remove-comments", "true"); ("log-level", "WARNING"); ("values-file", "a"); ("values-file", "b"); ("output-directory", "out"); ("instructions", "i.yaml");
   ("indent-level", "4"); ("stdout", "f"); ("output-style", "dq,flow")]%string.
Lemma c_written' : written c_us' c_argv'.
Proof.
  unfold c_us', c_argv'. cbn [map fst snd].
  apply (written_more ("remove-comments", "", "true") (lit "true") [lit "--remove-comments"]); [cbn; tauto|by apply writes_long_bare|].
  apply (written_more ("log-level", "v", "debug") (lit "WARNING") [lit "--log-level=WARNING"]); [cbn; tauto|long_eq|].
  apply (written_more ("values-file", "f", "") (lit "a") [lit "-fa"]); [cbn; tauto|glued 102%N|].
  apply (written_more ("values-file", "f", "") (lit "b") [lit "-f=b"]); [cbn; tauto|short_eq 102%N|].
  apply (written_more ("output-directory", "o", "") (lit "out") [lit "-oout"]); [cbn; tauto|glued 111%N|].
  apply (written_more ("instructions", "i", "") (lit "i.yaml") [lit "-ii.yaml"]); [cbn; tauto|glued 105%N|].
  apply (written_more ("indent-level", "I", "") (lit "4") [lit "--indent-level"; lit "4"]); [cbn; tauto|by apply writes_long|].
  apply (written_more ("stdout", "s", "true") (lit "f") [lit "--stdout=f"]); [cbn; tauto|long_eq|].
  apply (written_more ("output-style", "S", "") (lit "dq,flow") [lit "-S=dq,flow"]); [cbn; tauto|short_eq 83%N|].
  constructor.
Qed.
Example C77_applies :
  written c_us c_argv /\ acceptable w_compile w_heap w_s atoi c_us /\ written c_us' c_argv' /\ same_values c_us c_us' /\ c_us <> c_us' /\
  (forall show_int, match request_of w_compile w_heap w_s atoi show_int c_argv with
     | Ok (RRun cl cli) => cl_instructions cl = lit "i.yaml" /\ cl_values cl = Some [lit "a"; lit "b"] /\ cli (lit "stdout") = Some (lit "false") /\
         cli (lit "indent-level") = Some (show_int 4%Z) /\ cli (lit "log-level") = Some (lit "warning") /\
         cli (lit "remove-comments") = Some (lit "true") /\ cli (lit "output-style") = Some (lit "[doubleQuoted,flow]") /\ cli (lit "config") = None
     | _ => False
     end).
Proof.
  split; [exact c_written|]. split.
  { constructor.
    - exists []. reflexivity.
    - exists AInvalid. reflexivity.
    - change (given "log-level" c_us) with [lit "WARNING"]. constructor; [|constructor]. by vm_compute.
    - exists MIgnore. reflexivity.
    - change (given "stdout" c_us) with [lit "f"]. constructor; [|constructor]. right. apply (parse_bool_spec _ false). reflexivity.
    - change (given "indent-level" c_us) with [lit "4"]. constructor; [|constructor]. by vm_compute.
    - exists [2; 32]%N. apply style_flag_asked. by vm_compute.
    - change (given "remove-comments" c_us) with [lit "true"]. constructor; [|constructor]. left. apply (parse_bool_spec _ true). reflexivity. }
  split; [exact c_written'|]. split.
  { intros p I. repeat (destruct I as [<-|I]; [by vm_compute|]). destruct I. }
  split; [discriminate|]. intros show_int. vm_compute. repeat split.
Qed.
(** "yot -v debug -i i.yaml" is refused: -v takes its value only after "=". *)
Example C77_applies_words : exists us a, written us a /\ a = [lit "-v"] /\ word (lit "debug") /\ ~ In (lit "debug") command_words.
Proof.
  exists [(lit "log-level", lit "debug")], [lit "-v"]. split; [|split; [done|split]].
  - apply (written_more ("log-level", "v", "debug") (lit "debug") [lit "-v"]); [cbn; tauto|by apply (writes_short_bare _ 118%N)|constructor].
  - eexists _, _. split; [reflexivity|]. discriminate.
  - intros I. repeat (destruct I as [I|I]; [discriminate I|]). destruct I.
Qed.

(** "yot -v -h topic -I4 --stdout" shows the help, "yot -h topic -I4x" is refused, as is
    "yot -v --bogus=1 x". *)
Example C77_applies_help_word :
  (exists us a us' b, written us a /\ written us' b /\ acceptable w_compile w_heap w_s atoi (us ++ us') /\ word (lit "topic") /\
     a ++ lit "-h" :: lit "topic" :: b = map lit ["-v"; "-h"; "topic"; "-I4"; "--stdout"]%string) /\
  (exists us b, written us b /\ ~ acceptable w_compile w_heap w_s atoi us /\ b = [lit "-I4x"]).
Proof.
  split.
  - exists [(lit "log-level", lit "debug")], [lit "-v"], [(lit "indent-level", lit "4"); (lit "stdout", lit "true")], [lit "-I4"; lit "--stdout"].
    split; [|split; [|split; [|split]]].
    + apply (written_more ("log-level", "v", "debug") (lit "debug") [lit "-v"]); [cbn; tauto|by apply (writes_short_bare _ 118%N)|constructor].
    + apply (written_more ("indent-level", "I", "") (lit "4") [lit "-I4"]); [cbn; tauto|glued 73%N|].
      apply (written_more ("stdout", "s", "true") (lit "true") [lit "--stdout"]); [cbn; tauto|by apply writes_long_bare|constructor].
    + cbn [app]. match goal with |- acceptable _ _ _ _ ?u => set (us := u) end. constructor.
      * exists []. reflexivity.
      * exists AInvalid. reflexivity.
      * change (given "log-level" us) with [lit "debug"]. constructor; [|constructor]. by vm_compute.
      * exists MIgnore. reflexivity.
      * change (given "stdout" us) with [lit "true"]. constructor; [|constructor]. left. apply (parse_bool_spec _ true). reflexivity.
      * change (given "indent-level" us) with [lit "4"]. constructor; [|constructor]. by vm_compute.
      * exists [64]%N. apply style_flag_asked. by vm_compute.
      * change (given "remove-comments" us) with (@nil (list N)). constructor.
    + eexists _, _. split; [reflexivity|]. discriminate.
    + reflexivity.
  - exists [(lit "indent-level", lit "4x")], [lit "-I4x"]. split; [|split; [|done]].
    + apply (written_more ("indent-level", "I", "") (lit "4x") [lit "-I4x"]); [cbn; tauto|glued 73%N|constructor].
    + intros A. pose proof (ac_indent _ _ _ _ _ A) as F. change (given "indent-level" [(lit "indent-level", lit "4x")]) with [lit "4x"] in F.
      apply Forall_inv in F. apply F. by vm_compute.
Qed.
Example C77_applies_unknown : let n := lit "bogus" in
  n <> [] /\ ~ In 61%N n /\ head n <> Some 45%N /\ ~ In n flag_names /\ (forall w, In w command_words -> ~ In w [lit "x"]) /\
  lit "--bogus=1" = lit "--" ++ n ++ lit "=" ++ lit "1".
Proof.
  cbn zeta. split; [done|]. split; [|split; [done|split; [|split; [|done]]]].
  - intros I. cbn in I. repeat (destruct I as [I|I]; [discriminate I|]). destruct I.
  - intros I. unfold flag_names in I. cbn [map] in I. repeat (destruct I as [I|I]; [vm_compute in I; discriminate I|]). destruct I.
  - intros w I. repeat (destruct I as [<-|I]; [intros [Q|[]]; discriminate Q|]). destruct I.
Qed.

Print Assumptions C77_understood.
Print Assumptions C77_forms_and_order.
Print Assumptions C77_dashdash_ignored.
Print Assumptions C77_words_refused.
Print Assumptions C77_refuted_letters.
Print Assumptions C77_help.
Print Assumptions C77_help_then_word.
Print Assumptions C77_unknown_flag.
Print Assumptions C77_refuted_help_first.
Print Assumptions C77_process.
Print Assumptions C77_process_words.
Print Assumptions C77_process_help.
