(** Model of internal/instructions/values.go: combining values files. *)
From Verif Require Import Prelude Format Yaml MergeTree.

(** values.go:13-51  getValues, between reading and re-encoding.  [docs] are the
    first documents of the values files, in command line order (a file that
    cannot be read or holds no document is an error before that).
    Simplification: the final yaml.Marshal/Unmarshal round trip (external) is
    not modelled; the result is the node it starts from. *)
Definition get_values (sed : sed_engine) (docs : list tree) : res (option tree) :=
  match docs with
  | [] => Ok None
  | d :: rest => let! r := merge_node sed d rest in Ok (Some r)
  end.
