(** Command lines as people write them. *)
From Verif Require Import Prelude GoStrings Format Yaml Heap SpecCombine ActionNames Config Whole Main Argv SpecStyle.

(** The ways to give the flag [f] the value [v]. *)
Inductive writes (f : flag) : list N -> list (list N) -> Prop :=
  | writes_long_eq v : writes f v [lit "--" ++ f_name f ++ lit "=" ++ v]                                   (* --flag=value *)
  | writes_long v : f_bare f = None -> writes f v [lit "--" ++ f_name f; v]                                (* --flag value *)
  | writes_long_bare v : f_bare f = Some v -> writes f v [lit "--" ++ f_name f]                            (* --flag *)
  | writes_short_eq c v : f_short f = Some c -> v <> [] -> writes f v [lit "-" ++ [c] ++ lit "=" ++ v]     (* -f=value *)
  | writes_short c v : f_short f = Some c -> f_bare f = None -> writes f v [lit "-" ++ [c]; v]             (* -f value *)
  | writes_glued c v : f_short f = Some c -> f_bare f = None -> v <> [] -> ~ lit "=" `prefix_of` v ->
      writes f v [lit "-" ++ [c] ++ v]                                                                    (* -fvalue *)
  | writes_short_bare c v : f_short f = Some c -> f_bare f = Some v -> writes f v [lit "-" ++ [c]].         (* -f *)

(** The flags of the documentation (flags.go), each with its letter and the value it has when
    given bare. *)
Definition documented : list (string * string * string) :=
  [ ("config", "", ""); ("log-level", "v", "debug"); ("instructions", "i", ""); ("default-on-missing-action", "", "");
    ("output-directory", "o", ""); ("stdout", "s", "true"); ("indent-level", "I", ""); ("output-style", "S", "");
    ("remove-comments", "", "true"); ("values-file", "f", ""); ("query", "q", ""); ("action", "a", ""); ("value", "x", ""); ("path", "p", "") ].
Definition described_flag (p : string * string * string) : flag :=
  match p with (n, c, d) => mkFlag (lit n) (head (lit c)) (match d with EmptyString => None | _ => Some (lit d) end) end.

(** A command line that gives these flags these values, in this order. *)
Inductive written : list (list N * list N) -> list (list N) -> Prop :=
  | written_none : written [] []
  | written_more p v a us argv : In p documented -> writes (described_flag p) v a -> written us argv ->
      written ((lit (fst (fst p)), v) :: us) (a ++ argv).

(** All the values a flag is given, in order. *)
Fixpoint given (n : string) (us : list (list N * list N)) : list (list N) :=
  match us with
  | [] => []
  | (m, v) :: r => if decide (m = lit n) then v :: given n r else given n r
  end.

(** A boolean flag: the last value counts, all have to be booleans. *)
Definition bool_flag (vals : list (list N)) (shown : option (list N)) : Prop :=
  Forall (fun v => true_text v \/ false_text v) vals /\
  (last vals = None -> shown = None) /\
  (forall v, last vals = Some v -> true_text v -> shown = Some (lit "true")) /\
  (forall v, last vals = Some v -> false_text v -> shown = Some (lit "false")).

(** What the process is then asked: the options and the flags that are settings. *)
Record asks (h0 : heap) (s : surroundings) (read_int : list N -> option Z) (show_int : Z -> list N) (us : list (list N * list N)) (cl : command_line) (cli : list N -> option (list N)) : Prop := mkAsks {
  as_instructions : cl_instructions cl = default [] (last (given "instructions" us));
  as_path : cl_path cl = default [] (last (given "path" us));
  as_value : cl_value cl = default [] (last (given "value" us));
  as_queries : cl_queries cl = given "query" us;
  as_actions : cl_actions cl = given "action" us;
  as_values : match cl_values cl with Some l => l | None => [] end = given "values-file" us /\ (cl_values cl = None <-> given "values-file" us = []);
  as_config : cli (lit "config") = last (given "config" us);
  as_output : cli (lit "output-directory") = last (given "output-directory" us);
  as_stdout : bool_flag (given "stdout" us) (cli (lit "stdout"));
  as_comments : bool_flag (given "remove-comments" us) (cli (lit "remove-comments"));
  as_indent : Forall (fun v => read_int v <> None) (given "indent-level" us) /\
    cli (lit "indent-level") = match last (given "indent-level" us) with Some v => show_int <$> read_int v | None => None end;
  (** as in C52, C74 and C75 *)
  as_level : Forall (fun v => parse_log_flag v <> None) (given "log-level" us) /\
    cli (lit "log-level") = match last (given "log-level" us) with Some v => parse_log_flag v | None => None end;
  as_styles : exists ss, styles_asked (given "output-style" us) ss /\
    cli (lit "output-style") = match given "output-style" us with [] => None | _ => Some (style_flag_text ss) end;
  as_missing : exists m, missing_flag h0 s (given "default-on-missing-action" us) = Ok m /\
    cli (lit "default-on-missing-action") = match given "default-on-missing-action" us with [] => None | _ => Some (missing_string m) end }.

(** A word: not empty, and it does not begin with a dash. *)
Definition word (w : list N) : Prop := exists c r, w = c :: r /\ c <> 45%N.
(** The words that are commands of their own: completion and env (docs), help and the shell's. *)
Definition command_words : list (list N) := [lit "completion"; lit "env"; lit "help"; lit "__complete"; lit "__completeNoDesc"].
