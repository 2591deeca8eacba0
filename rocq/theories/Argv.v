(** The command line: from the arguments of the process to the settings and options of
    Main.v.  The flags are those of internal/commands/flags.go; how cobra v1.1.3 and pflag
    (external) read arguments is modelled from their documentation. *)
From Verif Require Import Prelude GoStrings Format Yaml Heap ActionNames Overlay Queue Paths Files Slices Prepare Combine
  Decode Flags Template HeapComments Whole Render Pipeline Execute SpecExecute PropsDocs Config Main.

(** A flag: its long name, its one-letter name if it has one, and the value it gets when it
    is given without one (pflag's NoOptDefVal; "true" for boolean flags). *)
(* external: pflag, type Flag *)
Record flag := mkFlag { f_name : list N; f_short : option N; f_bare : option (list N) }.
(* external: pflag, the shorthand argument of flags.go:29-34 and the others *)
Definition short (c : string) : option N := match lit c with x :: _ => Some x | [] => None end.
(* one call such as flags.go:44-50 *)
Definition flag_row (p : string * string * string) : flag :=
  match p with (n, c, d) => mkFlag (lit n) (short c) (match lit d with [] => None | x => Some x end) end.

(** flags.go:13-177, root.go:116-125 *)
Definition own_flags : list flag :=
  map flag_row
  [ ("config", "", ""); ("log-level", "v", "debug");                                   (* flags.go:14, 29-36 *)
    ("instructions", "i", ""); ("default-on-missing-action", "", "");                  (* flags.go:125-142 *)
    ("output-directory", "o", ""); ("stdout", "s", "true");                            (* flags.go:44-62 *)
    ("indent-level", "I", ""); ("output-style", "S", ""); ("remove-comments", "", "true"); (* flags.go:78-99 *)
    ("values-file", "f", "");                                                          (* flags.go:115-121 *)
    ("query", "q", ""); ("action", "a", ""); ("value", "x", ""); ("path", "p", "") ]%string. (* flags.go:149-176 *)
(** cobra adds --help (-h) and --version (whose letter is taken) before it parses; -v is the
    log level's. *)
Definition all_flags : list flag := own_flags ++ map flag_row [("help", "h", "true"); ("version", "", "true")]%string.

(* external: pflag FlagSet.Lookup *)
Definition long_flag (t : list flag) (n : list N) : option flag := List.find (fun f => seq_eqb (f_name f) n) t.
(* external: pflag FlagSet.ShorthandLookup *)
Definition short_flag (t : list flag) (c : N) : option flag :=
  List.find (fun f => match f_short f with Some x => N.eqb x c | None => false end) t.

Notation dash := 45%N (only parsing).
Notation equals := 61%N (only parsing).
(** strings.SplitN(s, "=", 2) *)
(* external: pflag parseLongArg *)
Fixpoint split_eq (s : list N) : list N * option (list N) :=
  match s with
  | [] => ([], None)
  | c :: r => if N.eqb c equals then ([], Some r) else match split_eq r with (n, v) => (c :: n, v) end
  end.

(** pflag: the letters of one argument.  The flags given, and the one that still wants its
    value from the next argument.  (A letter that is not ASCII is no flag.) *)
(* external: pflag parseShortArg, parseSingleShortArg *)
Fixpoint parse_letters (s : list N) : option (list (list N * list N) * option (list N)) :=
  match s with
  | [] => Some ([], None)
  | c :: r =>
      match short_flag all_flags c with
      | None => None
      | Some f =>
          match r with
          | e :: x :: v =>
              if N.eqb e equals then Some ([(f_name f, x :: v)], None)                 (* -f=value *)
              else match f_bare f with
                   | Some d => match parse_letters r with Some (us, w) => Some ((f_name f, d) :: us, w) | None => None end
                   | None => Some ([(f_name f, r)], None)                              (* -fvalue *)
                   end
          | _ =>
              match f_bare f with
              | Some d => match parse_letters r with Some (us, w) => Some ((f_name f, d) :: us, w) | None => None end
              | None => match r with [] => Some ([], Some (f_name f)) | _ => Some ([(f_name f, r)], None) end
              end
          end
      end
  end.

(* external: pflag parseArgs, collecting *)
Definition more (us : list (list N * list N)) (r : option (list (list N * list N))) : option (list (list N * list N)) :=
  match r with Some l => Some (us ++ l) | None => None end.
(** pflag's parseArgs: the flags given and their values, in order; None is an error (unknown
    flag, missing value, bad syntax).  Arguments that are no flags are set aside; "--" ends
    the flags. *)
Fixpoint parse_args (args : list (list N)) : option (list (list N * list N)) :=
  match args with
  | [] => Some []
  | s :: rest =>
      match s with
      | a :: b :: t =>
          if N.eqb a dash then
            if N.eqb b dash then
              match t with
              | [] => Some []
              | c :: _ =>
                  if N.eqb c dash || N.eqb c equals then None
                  else match split_eq t with
                       | (n, v) =>
                           match long_flag all_flags n with
                           | None => None
                           | Some f =>
                               match v, f_bare f with
                               | Some x, _ => more [(n, x)] (parse_args rest)
                               | None, Some d => more [(n, d)] (parse_args rest)
                               | None, None => match rest with x :: rest' => more [(n, x)] (parse_args rest') | [] => None end
                               end
                           end
                       end
              end
            else match parse_letters (b :: t) with
                 | None => None
                 | Some (us, None) => more us (parse_args rest)
                 | Some (us, Some n) => match rest with x :: rest' => more (us ++ [(n, x)]) (parse_args rest') | [] => None end
                 end
          else parse_args rest
      | _ => parse_args rest
      end
  end.

(** cobra's stripFlags: the words that are neither flags nor, as far as it can tell, values of
    flags.  It is called before --help and --version exist.  (Its test len(s) == 2 counts
    bytes.) *)
Definition takes_next (s : list N) : bool :=
  match s with
  | a :: b :: t =>
      N.eqb a dash && negb (existsb (N.eqb equals) s) &&
      (if N.eqb b dash then match long_flag own_flags t with Some f => match f_bare f with None => true | Some _ => false end | None => true end
       else match t with
            | [] => (b <? 128)%N && match short_flag own_flags b with Some f => match f_bare f with None => true | Some _ => false end | None => true end
            | _ => false
            end)
  | _ => false
  end.
Fixpoint strip_flags (args : list (list N)) : list (list N) :=
  match args with
  | [] => []
  | s :: rest =>
      if seq_eqb s [dash; dash] then []
      else if takes_next s then match rest with _ :: r => strip_flags r | [] => [] end
      else match s with
           | c :: _ => if N.eqb c dash then strip_flags rest else s :: strip_flags rest
           | [] => strip_flags rest
           end
  end.

(** The values given for a flag, in order. *)
(* the calls of Value.Set made for one flag (external: pflag) *)
Definition values_of (n : string) (us : list (list N * list N)) : list (list N) :=
  map snd (base.filter (fun u => fst u = lit n) us).

Section request.
Context (compile : list N -> option (heap -> loc -> list loc)) (h0 : heap) (s : surroundings).
(** strconv.ParseInt(text, 0, 64) and strconv.Itoa (external). *)
Context (read_int : list N -> option Z) (show_int : Z -> list N).

(** The text each flag prints after it has been set to these values, one after the other:
    None if it was not given, an error if a value was refused. *)
(* external: pflag stringValue.Set *)
Definition as_given (vals : list (list N)) : option (list N) := last vals.
(* external: pflag FlagSet.Set, one call per value *)
Definition each_ok {A} (f : list N -> option A) (vals : list (list N)) : res (option A) :=
  fold_left (fun r v => let! _ := r in match f v with Some a => Ok (Some a) | None => Err EDecode end) vals (Ok None).
(* external: pflag boolValue, flags.go:56-62, 93-99 *)
Definition bool_text (vals : list (list N)) : res (option (list N)) :=
  let! r := each_ok parse_bool vals in Ok (option_map format_bool r).
(* external: pflag intValue, flags.go:78-84 *)
Definition int_text (vals : list (list N)) : res (option (list N)) :=
  let! r := each_ok read_int vals in Ok (option_map show_int r).
(* flags.go:20-34 with enumflag (external) *)
Definition log_text (vals : list (list N)) : res (option (list N)) := each_ok parse_log_flag vals.
(* flags.go:86-91 with enumflag (external) *)
Definition style_text (vals : list (list N)) : res (option (list N)) :=
  match vals with
  | [] => Ok None
  | _ => match style_flag vals with Some ss => Ok (Some (style_flag_text ss)) | None => Err EDecode end
  end.
(* flags.go:137-141, action.go:134-140 *)
Definition missing_text (vals : list (list N)) : res (option (list N)) :=
  match vals with [] => Ok None | _ => let! m := missing_flag h0 s vals in Ok (Some (missing_string m)) end.

(** What the process is asked to do. *)
(* root.go:78-115, 165-171 with cobra (external) *)
Inductive request := RHelp | RVersion | RSub (word : list N) | RRun (cl : command_line) (cli : list N -> option (list N)).

(** root.go:127-130 and cobra's own, two of them hidden *)
Definition subcommands : list (list N) := [lit "completion"; lit "env"; lit "help"; lit "__complete"; lit "__completeNoDesc"].

(* flags.go:115-177 *)
Definition options_of (us : list (list N * list N)) : command_line :=
  mkCommandLine (default [] (as_given (values_of "instructions" us))) (default [] (as_given (values_of "path" us)))
    (match values_of "values-file" us with [] => None | l => Some l end)
    (values_of "query" us) (values_of "action" us) (default [] (as_given (values_of "value" us))) false.

(** cobra's Find, ParseFlags and the tests for --help and --version (external), with the Set
    methods of flags.go's flags.  The options are made of the values of the flags. *)
Definition request_of (argv : list (list N)) : res request :=
  match strip_flags argv with
  | w :: _ => if existsb (seq_eqb w) subcommands then Ok (RSub w) else Err EDecode
  | [] =>
      match parse_args argv with
      | None => Err EDecode
      | Some us =>
          let! _ := set_queries compile h0 (parse_flag h0 s) (values_of "query" us) in
          let! _ := set_actions h0 (parse_flag h0 s) AInvalid (values_of "action" us) in
          let! level := log_text (values_of "log-level" us) in
          let! missing := missing_text (values_of "default-on-missing-action" us) in
          let! out := bool_text (values_of "stdout" us) in
          let! indent := int_text (values_of "indent-level" us) in
          let! style := style_text (values_of "output-style" us) in
          let! comments := bool_text (values_of "remove-comments" us) in
          let! help := each_ok parse_bool (values_of "help" us) in
          let! version := each_ok parse_bool (values_of "version" us) in
          if decide (help = Some true) then Ok RHelp
          else if decide (version = Some true) then Ok RVersion
          else Ok (RRun (options_of us) (fun n =>
            if seq_eqb n (lit "config") then as_given (values_of "config" us)
            else if seq_eqb n (lit "output-directory") then as_given (values_of "output-directory" us)
            else if seq_eqb n (lit "log-level") then level
            else if seq_eqb n (lit "default-on-missing-action") then missing
            else if seq_eqb n (lit "stdout") then out
            else if seq_eqb n (lit "indent-level") then indent
            else if seq_eqb n (lit "output-style") then style
            else if seq_eqb n (lit "remove-comments") then comments
            else None))
      end
  end.
End request.

(** *** The subcommands *)
(** pflag's parseArgs for a command whose flags are [t]: the flags given and the words. *)
Fixpoint letters_with (t : list flag) (s : list N) : option (list (list N * list N) * option (list N)) :=
  match s with
  | [] => Some ([], None)
  | c :: r =>
      match short_flag t c with
      | None => None
      | Some f =>
          match r with
          | e :: x :: v =>
              if N.eqb e equals then Some ([(f_name f, x :: v)], None)
              else match f_bare f with
                   | Some d => match letters_with t r with Some (us, w) => Some ((f_name f, d) :: us, w) | None => None end
                   | None => Some ([(f_name f, r)], None)
                   end
          | _ =>
              match f_bare f with
              | Some d => match letters_with t r with Some (us, w) => Some ((f_name f, d) :: us, w) | None => None end
              | None => match r with [] => Some ([], Some (f_name f)) | _ => Some ([(f_name f, r)], None) end
              end
          end
      end
  end.
Definition with_flags (us : list (list N * list N)) (r : option (list (list N * list N) * list (list N))) :=
  match r with Some (l, ws) => Some (us ++ l, ws) | None => None end.
Definition with_word (w : list N) (r : option (list (list N * list N) * list (list N))) :=
  match r with Some (l, ws) => Some (l, w :: ws) | None => None end.
Fixpoint parse_with (t : list flag) (args : list (list N)) : option (list (list N * list N) * list (list N)) :=
  match args with
  | [] => Some ([], [])
  | s :: rest =>
      match s with
      | a :: b :: u =>
          if N.eqb a dash then
            if N.eqb b dash then
              match u with
              | [] => Some ([], rest)
              | c :: _ =>
                  if N.eqb c dash || N.eqb c equals then None
                  else match split_eq u with
                       | (n, v) =>
                           match long_flag t n with
                           | None => None
                           | Some f =>
                               match v, f_bare f with
                               | Some x, _ => with_flags [(n, x)] (parse_with t rest)
                               | None, Some d => with_flags [(n, d)] (parse_with t rest)
                               | None, None => match rest with x :: rest' => with_flags [(n, x)] (parse_with t rest') | [] => None end
                               end
                           end
                       end
              end
            else match letters_with t (b :: u) with
                 | None => None
                 | Some (us, None) => with_flags us (parse_with t rest)
                 | Some (us, Some n) => match rest with x :: rest' => with_flags (us ++ [(n, x)]) (parse_with t rest') | [] => None end
                 end
          else with_word s (parse_with t rest)
      | _ => with_word s (parse_with t rest)
      end
  end.
(** flags.go: every flag of yot belongs to the root command only (Flags(), not
    PersistentFlags()), so a subcommand has none but the --help cobra gives it. *)
Definition sub_flags : list flag := [flag_row ("help", "h", "true")%string].
(** cobra's argsMinusFirstX *)
Fixpoint minus_first (x : list N) (args : list (list N)) : list (list N) :=
  match args with [] => [] | y :: r => if seq_eqb x y then r else y :: minus_first x r end.
(** completion.go:18-19, env.go:20  Args; cobra's help command takes any. *)
Definition sub_accepts (word : list N) (words : list (list N)) : bool :=
  if seq_eqb word (lit "env") then match words with [] | [_] => true | _ => false end
  else if seq_eqb word (lit "completion") then
    match words with [x] => existsb (seq_eqb x) [lit "bash"; lit "zsh"; lit "fish"; lit "powershell"] | _ => false end
  else true.
Section sub.
Context (env : list N -> option (list N)) (config_at : list N -> option (list (list N * list N))) (search : option (list N)).
(** cobra's execute (external) for the subcommand [word]: the flags, --help, initConfig
    (root.go:39), the number of words, SetupLogging (root.go:95; the help command has its own
    PersistentPreRun), Run.  completion.go:24-47 and env.go:40-49 are the Runs.  None of the
    settings' flags can have been given.  Simplification: what completion and help print is any
    list of texts.  Cobra's hidden commands (__complete, __completeNoDesc) are not modelled: no
    statement is made about them. *)
Inductive sub_process (word : list N) (argv : list (list N)) (w0 : world) : nat -> world -> Prop :=
  | sub_bad_flag : parse_with sub_flags (minus_first word argv) = None -> sub_process word argv w0 1 w0
  | sub_bad_help us ws x : parse_with sub_flags (minus_first word argv) = Some (us, ws) ->
      each_ok parse_bool (values_of "help" us) = Err x -> sub_process word argv w0 1 w0
  | sub_help us ws text : parse_with sub_flags (minus_first word argv) = Some (us, ws) ->
      each_ok parse_bool (values_of "help" us) = Ok (Some true) -> sub_process word argv w0 0 (mkWorld (w_stdout w0 ++ [text]) (w_files w0))
  | sub_no_config us ws b x : parse_with sub_flags (minus_first word argv) = Some (us, ws) ->
      each_ok parse_bool (values_of "help" us) = Ok b -> b <> Some true ->
      startup env (fun _ => None) config_at search = Err x -> sub_process word argv w0 1 w0
  | sub_bad_words us ws b v : parse_with sub_flags (minus_first word argv) = Some (us, ws) ->
      each_ok parse_bool (values_of "help" us) = Ok b -> b <> Some true ->
      startup env (fun _ => None) config_at search = Ok v -> sub_accepts word ws = false -> sub_process word argv w0 1 w0
  | sub_log_panic us ws b v : parse_with sub_flags (minus_first word argv) = Some (us, ws) ->
      each_ok parse_bool (values_of "help" us) = Ok b -> b <> Some true ->
      startup env (fun _ => None) config_at search = Ok v -> sub_accepts word ws = true ->
      word <> lit "help" -> setup_logging (get_string env v (lit "logLevel")) = Panic -> sub_process word argv w0 2 w0
  | sub_env_all us b v n order : parse_with sub_flags (minus_first word argv) = Some (us, []) ->
      each_ok parse_bool (values_of "help" us) = Ok b -> b <> Some true ->
      startup env (fun _ => None) config_at search = Ok v -> word = lit "env" ->
      setup_logging (get_string env v (lit "logLevel")) = Ok n ->
      Permutation order env_map ->                                                      (* env.go:43  the map's order *)
      sub_process word argv w0 0 (mkWorld (w_stdout w0 ++ map (fun p => env_line env v (fst p)) order) (w_files w0))
  | sub_env_one us b v n name : parse_with sub_flags (minus_first word argv) = Some (us, [name]) ->
      each_ok parse_bool (values_of "help" us) = Ok b -> b <> Some true ->
      startup env (fun _ => None) config_at search = Ok v -> word = lit "env" ->
      setup_logging (get_string env v (lit "logLevel")) = Ok n ->
      sub_process word argv w0 0 (mkWorld (w_stdout w0 ++ [env_line env v name]) (w_files w0))
  | sub_prints us ws b v texts : parse_with sub_flags (minus_first word argv) = Some (us, ws) ->
      each_ok parse_bool (values_of "help" us) = Ok b -> b <> Some true ->
      startup env (fun _ => None) config_at search = Ok v -> sub_accepts word ws = true ->
      (word = lit "help" \/ word = lit "completion" /\ exists n, setup_logging (get_string env v (lit "logLevel")) = Ok n) ->
      sub_process word argv w0 0 (mkWorld (w_stdout w0 ++ texts) (w_files w0)).
End sub.

(** main.go:10-14, root.go:165-171: the process started with the arguments [argv].  Help and
    version print a text. *)
Section yot.
Context {F P : Type} (e : engine F P) (builtin sprig : list N -> option F) (sed : sed_engine).
Context (compile : list N -> option (heap -> loc -> list loc)) (to_int : info -> option Z).
Context (h0 : heap) (z : loc) (fuel pfuel : nat) (grow : nat -> nat -> nat) (s : surroundings).
Context (env : list N -> option (list N)) (config_at : list N -> option (list (list N * list N))) (search : option (list N)).
Context (number : list N -> Z) (enc : Z -> nat -> tree -> option (list N)) (dk : disk).
Context (read_int : list N -> option Z) (show_int : Z -> list N).

Inductive yot (argv : list (list N)) (w0 : world) : nat -> world -> Prop :=
  | yot_refused x : request_of compile h0 s read_int show_int argv = Err x -> yot argv w0 1 w0
  | yot_panic : request_of compile h0 s read_int show_int argv = Panic -> yot argv w0 2 w0
  | yot_help text : request_of compile h0 s read_int show_int argv = Ok RHelp -> yot argv w0 0 (mkWorld (w_stdout w0 ++ [text]) (w_files w0))
  | yot_version text : request_of compile h0 s read_int show_int argv = Ok RVersion -> yot argv w0 0 (mkWorld (w_stdout w0 ++ [text]) (w_files w0))
  | yot_run cl cli st w : request_of compile h0 s read_int show_int argv = Ok (RRun cl cli) ->
      process e builtin sprig sed compile to_int h0 z fuel pfuel grow s env cli config_at search cl number enc dk w0 st w -> yot argv w0 st w
  | yot_sub word st w : request_of compile h0 s read_int show_int argv = Ok (RSub word) -> In word [lit "env"; lit "completion"; lit "help"] ->
      sub_process env config_at search word argv w0 st w -> yot argv w0 st w.
End yot.
