(** The process: from its start to its exit status. *)
From Verif Require Import Prelude GoStrings Format Yaml Heap ActionNames Overlay Queue Paths Files Slices Prepare Combine
  Decode Flags Template HeapComments Whole Render Pipeline Execute SpecExecute PropsDocs Config.

(** strings.Fields (external): the words of a text. *)
Fixpoint fields_from (s word : list N) : list (list N) :=
  match s with
  | [] => match word with [] => [] | _ => [rev word] end
  | c :: r =>
      if is_space c then match word with [] => fields_from r [] | _ => rev word :: fields_from r [] end
      else fields_from r (c :: word)
  end.
Definition fields (s : list N) : list (list N) := fields_from s [].

(** viper.GetString, GetBool, GetStringSlice (external: spf13/viper with spf13/cast): a
    missing setting is "", false, the empty list; so is a text that is not a boolean. *)
Definition get_string (env : list N -> option (list N)) (v : viper) (key : list N) : list N :=
  match v_get env v key with Some x => x | None => [] end.
Definition get_bool (env : list N -> option (list N)) (v : viper) (key : list N) : bool :=
  match parse_bool (get_string env v key) with Some b => b | None => false end.
Definition get_slice (env : list N -> option (list N)) (v : viper) (key : list N) : list (list N) :=
  fields (get_string env v key).

(** The command line with --remove-comments as the settings have it. *)
(* instructions.go:59  viper.GetBool("removeComments") in place of the flag *)
Definition with_uncomment (b : bool) (cl : command_line) : command_line :=
  mkCommandLine (cl_instructions cl) (cl_path cl) (cl_values cl) (cl_queries cl) (cl_actions cl) (cl_value cl) b.

Section process.
Context {F P : Type} (e : engine F P) (builtin sprig : list N -> option F) (sed : sed_engine).
Context (compile : list N -> option (heap -> loc -> list loc)) (to_int : info -> option Z).
(** Memory, the zero node in it, bounds, the growth of slices and what is read: Whole.v. *)
Context (h0 : heap) (z : loc) (fuel pfuel : nat) (grow : nat -> nat -> nat) (s : surroundings).
(** Environment, flags that are settings, configuration files: Config.v; all other flags
    ([cl_uncomment] is not used). *)
Context (env cli : list N -> option (list N)) (config_at : list N -> option (list (list N * list N))) (search : option (list N)) (cl : command_line).
(** The number a text stands for (external, cast.ToInt: 0 if none), the encoder for each
    indentation, what can be written. *)
Context (number : list N -> Z) (enc : Z -> nat -> tree -> option (list N)) (dk : disk).

(** config.go:53, 81, 118, 129  what the output depends on *)
Definition out_of (v : viper) : out_config :=
  mkOut (get_bool env v (lit "stdout")) (get_string env v (lit "outputDirectory")) (get_slice env v (lit "outputStyle"))
    (number (get_string env v (lit "indentLevel"))).
(** onmissing.go:32 *)
Definition on_missing_of (v : viper) : list N := get_string env v (lit "defaultOnMissingAction").

(** root.go:28-76, 132-171 up to the end of GetInstructions (execute.go:21): cobra (external)
    parses the flags, runs initConfig, then SetupLogging (PersistentPreRun), then Execute
    (RunE). *)
Definition boot : res (heap * viper * list overlay * list yfile) :=
  let! _ := set_queries compile h0 (parse_flag h0 s) (cl_queries cl) in
  let! _ := set_actions h0 (parse_flag h0 s) AInvalid (cl_actions cl) in
  let! v := startup env cli config_at search in
  let! _ := setup_logging (get_string env v (lit "logLevel")) in
  let cl1 := with_uncomment (get_bool env v (lit "removeComments")) cl in
  match get_ready e builtin sprig sed compile to_int h0 z pfuel grow s cl1 with
  | (h1, r) => let! (os, R) := r in Ok (h1, v, os, map to_file R)
  end.

(** root.go:166-171  Run, main.go:10-14: a process that has ended with a status, and what it
    left behind.  An error of any kind is status 1 (os.Exit in Run; Fatal, external, does the
    same), a panic in any goroutine status 2 (Go runtime).  A process that does not end has
    no status. *)
Inductive process (w0 : world) : nat -> world -> Prop :=
  | process_refused x : boot = Err x -> process w0 1 w0
  | process_panic : boot = Panic -> process w0 2 w0
  | process_done h1 v os files n st : boot = Ok (h1, v, os, files) ->
      execution fuel sed (on_missing_of v) (enc (oc_indent (out_of v))) dk (out_of v) files os h1 w0 n st ->
      crashed st = false -> main st = MReturn None -> process w0 0 (outside st)
  | process_error h1 v os files n st x : boot = Ok (h1, v, os, files) ->
      execution fuel sed (on_missing_of v) (enc (oc_indent (out_of v))) dk (out_of v) files os h1 w0 n st ->
      crashed st = false -> main st = MReturn (Some x) -> process w0 1 (outside st)
  | process_crash h1 v os files n st : boot = Ok (h1, v, os, files) ->
      execution fuel sed (on_missing_of v) (enc (oc_indent (out_of v))) dk (out_of v) files os h1 w0 n st ->
      crashed st = true -> process w0 2 (outside st).
End process.

(** *** The flag --output-style *)
(** style.go:47-57  FlagMap *)
Definition style_flag_map : list (N * list (list N)) :=
  map (fun p => (fst p, map lit (snd p)))
  [(normal_style, ["normal"; "n"]); (tagged_style, ["tagged"; "tag"; "t"]);
   (double_quoted_style, ["doubleQuoted"; "doubleQuote"; "double"; "dq"]);
   (single_quoted_style, ["singleQuoted"; "singleQoute"; "single"; "sq"]);
   (literal_style, ["literal"; "l"]); (folded_style, ["folded"; "fold"; "fo"]); (flow_style, ["flow"; "fl"])]%string.
(** flags.go:86-92  enumflag.NewSlice with EnumCaseInsensitive (external, thediveo/enumflag):
    each occurrence of the flag is a list of names separated by commas; the first occurrence
    replaces the default, further ones are appended; an unknown name is an error. *)
Definition style_flag_name (s : list N) : option N :=
  match List.find (fun p => existsb (fun n => equal_fold s n) (snd p)) style_flag_map with Some p => Some (fst p) | None => None end.
Fixpoint all_names (l : list (list N)) : option (list N) :=
  match l with
  | [] => Some []
  | n :: r => match style_flag_name n, all_names r with Some x, Some xs => Some (x :: xs) | _, _ => None end
  end.
Definition style_flag (occurrences : list (list N)) : option (list N) :=
  match occurrences with
  | [] => Some [normal_style]
  | _ => all_names (concat (map (split_on 44%N) occurrences))
  end.
(** enumflag's String (external): the first name of each, between brackets. *)
Definition style_flag_text (ss : list N) : list N :=
  let name x := match List.find (fun p => N.eqb (fst p) x) style_flag_map with Some (_, n :: _) => n | _ => [] end in
  [91%N] ++ join_with [44%N] (map name ss) ++ [93%N].

(** *** The flag --default-on-missing-action *)
(** flags.go:138-146, action.go:134-140  OnMissingAction.Set, called once per occurrence,
    starting from Ignore (root.go:34).  yaml.Unmarshal of a text without content, or of a
    null, leaves the action as it is. *)
Fixpoint set_missings (h : heap) (parse : list N -> option (option loc)) (a : missing_action) (vals : list (list N)) : res missing_action :=
  match vals with
  | [] => Ok a
  | v :: r =>
      match parse v with
      | None => Err EDecode
      | Some None => set_missings h parse a r
      | Some (Some c) => let! x := d_missing h c in set_missings h parse (match x with Some b => b | None => a end) r
      end
  end.
Definition missing_flag (h : heap) (s : surroundings) (vals : list (list N)) : res missing_action :=
  set_missings h (parse_flag h s) MIgnore vals.
