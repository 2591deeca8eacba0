(** Model of reading the instructions file: internal/instructions/template.go and
    ReadInstructionFile (instructions.go:70-110). *)
From Verif Require Import Prelude GoStrings Format Yaml Heap MergeTree Values.

(** text/template (external).  [F]: functions; [P]: parsed templates.  [tp_syntax] is the
    parser without its check of function names, [tp_calls] the names of the functions
    a template calls, [tp_exec] executes a template: looking up the functions, on the
    values (None: no values, the untyped nil). *)
Record engine (F P : Type) := mkEngine {
  tp_syntax : list N -> option P;
  tp_calls : P -> list (list N);
  tp_exec : (list N -> option F) -> P -> option tree -> option (list N) }.
Arguments mkEngine {F P}. Arguments tp_syntax {F P}. Arguments tp_calls {F P}. Arguments tp_exec {F P}.

Section template.
Context {F P : Type} (e : engine F P).
(** The functions text/template defines itself, and sprig.FuncMap() (external). *)
Context (builtin sprig : list N -> option F).

(** Go template.ParseFiles on one file: a call of a function that is not defined at this
    point is an error. *)
(* external; called at template.go:16 *)
Definition parse_files (defined : list N -> option F) (text : list N) : option P :=
  match tp_syntax e text with
  | None => None
  | Some t => if forallb (fun n => match defined n with Some _ => true | None => false end) (tp_calls e t) then Some t else None
  end.
(** Go Template.Funcs: added functions come before those defined by text/template. *)
(* external; called at template.go:21 *)
Definition add_funcs (more defined : list N -> option F) : list N -> option F :=
  fun n => match more n with Some f => Some f | None => defined n end.

(** template.go:15-30  renderInstructionsTemplate, given the text of the file: the file is
    parsed (line 16) before sprig's functions are added (line 21). *)
Definition render_instructions (text : list N) (values : option tree) : res (list N) :=
  match parse_files builtin text with
  | None => Err EDecode
  | Some t =>
      match tp_exec e (add_funcs sprig builtin) t values with
      | Some out => Ok out
      | None => Err EDecode
      end
  end.

(** Reading a file (external), and the first document in a text (external: None if there
    is none or if it is not YAML). *)
Context (read_text : list N -> option (list N)) (first_doc : list N -> option tree).

(** values.go:13-35  reading the values files *)
Fixpoint read_values (fs : list (list N)) : res (list tree) :=
  match fs with
  | [] => Ok []
  | f :: r =>
      match read_text f with
      | None => Err EFs
      | Some text =>
          match first_doc text with
          | None => Err EDecode
          | Some d => let! ds := read_values r in Ok (d :: ds)
          end
      end
  end.
(** instructions.go:87-104  the text that is decoded.  [vfiles]: None without -f.
    Simplification: the instructions file is not standard input. *)
Definition instructions_text (sed : sed_engine) (path : list N) (vfiles : option (list (list N))) : res (list N) :=
  match vfiles with
  | Some fs =>
      let! ds := read_values fs in
      let! v := get_values sed ds in
      match read_text path with
      | None => Err EFs
      | Some text => render_instructions text v
      end
  | None => match read_text path with None => Err EFs | Some text => Ok text end
  end.
End template.
