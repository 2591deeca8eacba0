(** Model of internal/commands: where the settings the program reads from viper
    come from. *)
From Verif Require Import Prelude GoStrings.

(** An association list with case-insensitive keys, first entry wins.
    github.com/spf13/viper v1.8.1 (external) lower-cases every key.
    Simplification: values are texts; no key contains the delimiter ".". *)
Notation table A := (list (list N * A)) (only parsing).
Fixpoint entry {A} (t : table A) (key : list N) : option A :=
  match t with
  | [] => None
  | (k, v) :: r => if seq_eqb (to_lower k) (to_lower key) then Some v else entry r key
  end.

(** viper's sources (external): Set, BindPFlag (whether the flag was given, and
    its text), BindEnv, the configuration file, SetDefault. *)
Record viper := mkViper {
  v_override : table (list N); v_flags : table (bool * list N); v_env : table (list N);
  v_config : table (list N); v_defaults : table (list N) }.
Definition v_set (k x : list N) (v : viper) : viper :=
  mkViper ((k, x) :: v_override v) (v_flags v) (v_env v) (v_config v) (v_defaults v).
Definition v_bind_flag (k : list N) (f : bool * list N) (v : viper) : viper :=
  mkViper (v_override v) ((k, f) :: v_flags v) (v_env v) (v_config v) (v_defaults v).
(** viper.BindEnv(key, variable): the first argument is the viper key. *)
Definition v_bind_env (k variable : list N) (v : viper) : viper :=
  mkViper (v_override v) (v_flags v) ((k, variable) :: v_env v) (v_config v) (v_defaults v).
Definition v_read (c : table (list N)) (v : viper) : viper :=
  mkViper (v_override v) (v_flags v) (v_env v) c (v_defaults v).
Definition v_set_default (k x : list N) (v : viper) : viper :=
  mkViper (v_override v) (v_flags v) (v_env v) (v_config v) ((k, x) :: v_defaults v).

(** viper.Get (external): the documented order; an environment variable counts
    only if it is set and not empty; a flag that was not given comes last. *)
Definition v_get (env : list N -> option (list N)) (v : viper) (key : list N) : option (list N) :=
  match entry (v_override v) key with
  | Some x => Some x
  | None =>
  match entry (v_flags v) key with
  | Some (true, x) => Some x
  | flag =>
  match (match entry (v_env v) key with Some var => env var | None => None end) with
  | Some (c :: x) => Some (c :: x)
  | _ =>
  match entry (v_config v) key with
  | Some x => Some x
  | None =>
  match entry (v_defaults v) key with
  | Some x => Some x
  | None => match flag with Some (_, x) => Some x | None => None end
  end end end end end.

(** env.go:51-62  envMap *)
Definition env_map : list (list N * list N) :=
  map (fun p => (lit (fst p), lit (snd p)))
  [("YOT_CONFIG_FILE", "configFile"); ("YOT_DEFAULT_ON_MISSING_ACTION", "defaultOnMissingAction");
   ("YOT_INDENT_LEVEL", "indentLevel"); ("YOT_LOG_LEVEL", "logLevel"); ("YOT_OUTPUT_DIRECTORY", "outputDirectory");
   ("YOT_OUTPUT_STYLE", "outputStyle"); ("YOT_REMOVE_COMMENTS", "removeComments"); ("YOT_STDOUT", "stdout")]%string.

(** flags.go:13-146  the flags bound to viper keys: flag, key, default text.
    root.go:33-38 gives the defaults of the enumerations.  The flags that are not
    bound (query, action, value, path, instructions, values-file) are not
    settings. *)
Definition flag_table : list (list N * list N * list N) :=
  map (fun p => (lit (fst (fst p)), lit (snd (fst p)), lit (snd p)))
  [("log-level", "logLevel", "warning"); ("output-directory", "outputDirectory", "./output"); ("stdout", "stdout", "false");
   ("remove-comments", "removeComments", "false"); ("indent-level", "indentLevel", "2"); ("output-style", "outputStyle", "[normal]");
   ("default-on-missing-action", "defaultOnMissingAction", "ignore")]%string.

Section start.
(** The process environment; the flags given on the command line, each with the
    text its Value prints after parsing; the contents of configuration files by
    name (None: cannot be read or parsed) and the first existing one in the
    search path (root.go:62-64; the search itself is viper's). *)
Context (env : list N -> option (list N)) (cli : list N -> option (list N)).
Context (config_at : list N -> option (table (list N))) (search : option (list N)).

(** flags.go:13-146  BindPFlag, after cobra has parsed the command line *)
Definition bind_flag (name key dflt : list N) (v : viper) : viper :=
  v_bind_flag key (match cli name with Some x => (true, x) | None => (false, dflt) end) v.
(** root.go:39, flags.go:14  the --config flag, whose default is the variable *)
Definition config_flag : list N :=
  match cli (lit "config") with
  | Some x => x
  | None => match env (lit "YOT_CONFIG_FILE") with Some x => x | None => [] end
  end.
(** root.go:118-125 AddFlags; flags.go:72 SetDefault *)
Definition add_flags (v : viper) : viper :=
  let v := v_bind_flag (lit "configFile") (match cli (lit "config") with Some _ => true | None => false end, config_flag) v in
  let v := fold_left (fun v p => bind_flag (fst (fst p)) (snd (fst p)) (snd p) v) flag_table v in
  v_set_default (lit "outputDirectory") (lit "./output") v.

(** root.go:48-76  initConfig.  A fatal error is [Err EFs].  Go iterates over the
    map in random order; the keys are distinct, so the order does not matter. *)
Definition init_config (v : viper) : res viper :=
  let v := fold_left (fun v p => v_bind_env (fst p) (snd p) v) env_map v in
  let file := match config_flag with [] => search | f => Some f end in
  match file with
  | None => Ok v
  | Some f =>
      match config_at f with
      | None => Err EFs
      | Some c => Ok (v_set (lit "configFile") f (v_read c v))
      end
  end.

(** root.go:30-46 New followed by the parsing of the command line and OnInitialize *)
Definition startup : res viper := init_config (add_flags (mkViper [] [] [] [] [])).

(** env.go:40-49  one line of the env command for the variable [name].  A missing
    key of a Go map gives the empty text; %v prints nil as "<nil>". *)
Definition env_value (v : viper) (name : list N) : list N :=
  let key := match List.find (fun p => seq_eqb (fst p) name) env_map with Some p => snd p | None => [] end in
  match v_get env v key with Some x => x | None => lit "<nil>" end.
Definition env_line (v : viper) (name : list N) : list N :=
  name ++ lit "=" ++ [34%N] ++ env_value v name ++ [34%N; 10%N].
End start.

(** flags.go:20-27  the names accepted by --log-level, first the one that is
    printed; enumflag (external) compares without regard to letter case. *)
Definition log_levels : list (list (list N)) :=
  map (map lit) [["critical"; "crit"; "c"]; ["error"; "err"; "e"]; ["warning"; "warn"; "w"]; ["notice"; "note"; "n"]; ["info"; "i"];
                 ["debug"; "d"; "verbose"; "v"]]%string.
Definition parse_log_flag (s : list N) : option (list N) :=
  match List.find (fun names => existsb (fun n => equal_fold s n) names) log_levels with
  | Some (first :: _) => Some first
  | _ => None
  end.
(** root.go:142-145  logging.LogLevel (external) knows these names in any letter
    case; an error is a panic. *)
Definition setup_logging (s : list N) : res nat :=
  match list_find (fun n => equal_fold s (lit n) = true) ["CRITICAL"; "ERROR"; "WARNING"; "NOTICE"; "INFO"; "DEBUG"]%string with
  | Some (i, _) => Ok i
  | None => Panic
  end.
