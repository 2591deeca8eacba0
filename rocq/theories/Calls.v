(** What doPostProcessing asks of the operating system, call by call, for runs that are
    killed on the way. *)
From Verif Require Import Prelude GoStrings Yaml Paths Render SpecRender.

(** config.go:75-100, 60-72: the calls that change something outside.  Making the output
    directory is left out ([world] has no directories). *)
Inductive call :=
  | CPrint (text : list N)                (* a write to standard output *)
  | COpen (name : list N)                 (* OpenFile with O_CREATE and O_TRUNC *)
  | CWrite (name part : list N)           (* a write to the file opened *)
  | CClose (name : list N) (ok : bool).   (* and whether the system reports an error *)

(** The operating system (external): a write adds to what the file holds. *)
Definition effect (c : call) (w : world) : world :=
  match c with
  | CPrint t => mkWorld (w_stdout w ++ [t]) (w_files w)
  | COpen n => mkWorld (w_stdout w) ((n, []) :: w_files w)
  | CWrite n p => mkWorld (w_stdout w) ((n, (match file_content w n with Some t => t | None => [] end) ++ p) :: w_files w)
  | CClose _ _ => w
  end.
Definition effects (cs : list call) (w : world) : world := fold_left (fun w c => effect c w) cs w.

Section calls.
Context (enc : nat -> tree -> option (list N)).

(** config.go:37-72  doPostProcessing with openOutputFile: the calls made and the result.
    The text may be written in any number of parts (os.File.Write, external, goes on after a
    short write); a write that fails may have written a part.  The name of the file is
    printed by one call whose error is ignored (config.go:97), and so is an error of Close
    (config.go:59, utils.go:28-32). *)
Inductive performs (cfg : out_config) (nodes : list tree) (output : list N) : list call -> res unit -> Prop :=
  | does_panic : (oc_indent cfg < 0)%Z -> performs cfg nodes output [] Panic
  | does_not_encode e : (0 <= oc_indent cfg)%Z -> encode_nodes enc (oc_styles cfg) nodes = Err e -> performs cfg nodes output [] (Err e)
  | does_nothing : (0 <= oc_indent cfg)%Z -> encode_nodes enc (oc_styles cfg) nodes = Ok [] -> performs cfg nodes output [] (Ok tt)
  | does_print text parts : (0 <= oc_indent cfg)%Z -> encode_nodes enc (oc_styles cfg) nodes = Ok text -> text <> [] -> oc_stdout cfg = true ->
      concat parts = text -> performs cfg nodes output (map CPrint parts) (Ok tt)
  | does_not_print text parts rest : (0 <= oc_indent cfg)%Z -> encode_nodes enc (oc_styles cfg) nodes = Ok text -> text <> [] -> oc_stdout cfg = true ->
      concat parts ++ rest = text -> performs cfg nodes output (map CPrint parts) (Err EFs)
  | does_not_open text : (0 <= oc_indent cfg)%Z -> encode_nodes enc (oc_styles cfg) nodes = Ok text -> text <> [] -> oc_stdout cfg = false ->
      performs cfg nodes output [] (Err EFs)
  | does_write text parts shown ok : (0 <= oc_indent cfg)%Z -> encode_nodes enc (oc_styles cfg) nodes = Ok text -> text <> [] -> oc_stdout cfg = false ->
      concat parts = text -> let name := output_file (oc_dir cfg) output in (exists unshown, shown ++ unshown = name ++ [10%N]) ->
      performs cfg nodes output (COpen name :: CPrint shown :: map (CWrite name) parts ++ [CClose name ok]) (Ok tt)
  | does_not_write text parts rest shown ok : (0 <= oc_indent cfg)%Z -> encode_nodes enc (oc_styles cfg) nodes = Ok text -> text <> [] -> oc_stdout cfg = false ->
      concat parts ++ rest = text -> let name := output_file (oc_dir cfg) output in (exists unshown, shown ++ unshown = name ++ [10%N]) ->
      performs cfg nodes output (COpen name :: CPrint shown :: map (CWrite name) parts ++ [CClose name ok]) (Err EFs).
End calls.
