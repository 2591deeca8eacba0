(** Settings, as the user gives them, and what stops a process before it starts. *)
From Verif Require Import Prelude GoStrings Yaml Heap Overlay SpecCombine Decode SpecDecode Render Config PropsConfig Whole SpecWhole.

Section settings.
Context (env cli : list N -> option (list N)) (config_at : list N -> option (list (list N * list N))) (search : option (list N)).

(** The configuration file chosen cannot be read. *)
Definition config_unreadable : Prop := exists f, chosen_file env cli search = Some f /\ config_at f = None.

(** The value in force: that of the flag, else that in the configuration file, else the
    default. *)
Definition setting (flag key dflt : string) : list N :=
  match cli (lit flag) with
  | Some x => x
  | None =>
      match chosen_file env cli search with
      | Some f => match config_at f with
                  | Some c => match entry c (lit key) with Some x => x | None => lit dflt end
                  | None => lit dflt
                  end
      | None => lit dflt
      end
  end.

Definition stdout_setting : list N := setting "stdout" "stdout" "false".
Definition directory_setting : list N := setting "output-directory" "outputDirectory" "./output".
Definition style_setting : list N := setting "output-style" "outputStyle" "[normal]".
Definition indent_setting : list N := setting "indent-level" "indentLevel" "2".
Definition comments_setting : list N := setting "remove-comments" "removeComments" "false".
Definition missing_setting : list N := setting "default-on-missing-action" "defaultOnMissingAction" "ignore".
Definition level_setting : list N := setting "log-level" "logLevel" "warning".

(** The log level is one of the six full names, in any letter case. *)
Definition level_known : Prop :=
  exists n, In n ["CRITICAL"; "ERROR"; "WARNING"; "NOTICE"; "INFO"; "DEBUG"]%string /\ equal_fold level_setting (lit n) = true.

(** A text without white space, and the words of a text. *)
Definition no_space (s : list N) : Prop := Forall (fun c => is_space c = false) s.
Definition all_space (s : list N) : Prop := Forall (fun c => is_space c = true) s.
Inductive words : list N -> list (list N) -> Prop :=
  | words_none s : all_space s -> words s []
  | words_last s w : all_space s -> no_space w -> w <> [] -> words (s ++ w) [w]
  | words_more s w c r ws : all_space s -> no_space w -> w <> [] -> is_space c = true -> words r ws -> words (s ++ w ++ c :: r) (w :: ws).

(** How the output is to be written. *)
Record output_settings (number : list N -> Z) (cfg : out_config) : Prop := mkOutputSettings {
  os_stdout : oc_stdout cfg = true <-> true_text stdout_setting;
  os_dir : oc_dir cfg = directory_setting;
  os_styles : words style_setting (oc_styles cfg);
  os_indent : oc_indent cfg = number indent_setting }.
End settings.
