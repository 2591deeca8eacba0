(** Removing comments in place, before any overlay is applied. *)
From Verif Require Import Prelude Yaml Heap.

(* yamlfile.go:187-190  the three assignments of removeCommentsFromNode *)
Definition clear_node (n : hnode) : hnode := mkNode (set_comments [] [] [] (n_info n)) (n_alias n) (n_content n).
(** yamlfile.go:182-194  removeCommentsFromNode: the comments of every node below [l] are
    set to "", those of [l] itself stay.  Alias pointers are not followed.  Out of fuel:
    the node contains itself, and the recursion has no end. *)
Fixpoint h_uncomment (fuel : nat) (l : loc) : M unit :=
  match fuel with
  | O => stuck
  | S f =>
      do! n := get l in
      match n_content n with
      | None => ret tt
      | Some ls => loop (fun c => do! m := get c in do! _ := put c (clear_node m) in h_uncomment f c) ls
      end
  end.
(** instructions.go:58-66  for every document of every file *)
Definition h_uncomment_all (fuel : nat) (files : list (list loc)) : M unit :=
  loop (fun nodes => loop (h_uncomment fuel) nodes) files.
