(** The overlay given on the command line (-q, -a, -x), and nil entries of yamlFiles. *)
From Verif Require Import Prelude GoStrings Yaml Heap ActionNames Overlay Queue Paths Files Decode.

Section flags.
Context (compile : list N -> option (heap -> loc -> list loc)) (h : heap).
(** yaml.v3's parser on the text of a flag (external): None is a syntax error, [Some None]
    no document at all, [Some (Some c)] a document with content [c]. *)
Context (parse : list N -> option (option loc)).

(** query.go:102-111  Queries.Set, called once per -q.  [None]: the zero Query, with a nil
    path, that a text without content leaves behind. *)
Definition set_query (val : list N) : res (option query) :=
  match parse val with
  | None => Err EDecode
  | Some None => Ok None
  | Some (Some c) => d_query compile h c
  end.
Fixpoint set_queries (vals : list (list N)) : res (list (option query)) :=
  match vals with
  | [] => Ok []
  | v :: r => let! q := set_query v in let! qs := set_queries r in Ok (q :: qs)
  end.
(** action.go:77-83  Action.Set, called once per -a *)
Fixpoint set_actions (a : action) (vals : list (list N)) : res action :=
  match vals with
  | [] => Ok a
  | v :: r =>
      match parse v with
      | None => Err EDecode
      | Some None => set_actions a r
      | Some (Some c) => let! x := d_action h c in set_actions (match x with Some b => b | None => a end) r
      end
  end.
(** flags.go:146-176 and config.go:171-185: without -q there is no overlay.  -x is "" unless
    given. *)
Record flag_overlay := mkFlagOverlay { fo_query : list (option query); fo_value : option loc; fo_action : action }.
Definition read_flags (qs : list (list N)) (acts : list (list N)) (value : list N) : res (option flag_overlay) :=
  let! q := set_queries qs in
  let! a := set_actions AInvalid acts in
  match q with
  | [] => Ok None
  | _ => match parse value with
         | None => Err EDecode
         | Some c => Ok (Some (mkFlagOverlay q c a))
         end
  end.
End flags.

Section nil_entries.
Context {Ov Dc Nd : Type}.
Notation entry := (entry Ov Dc Nd).

(** yamlfile.go:111-156  expandDirectories as in Files.v, on pointers: a nil entry (None) is
    dereferenced at line 117. *)
Fixpoint expand_pointers (fuel : nat) (f : fs) (instdir : list N) (y : list (option entry)) (i : nat) : res (list (option entry)) :=
  match y !! i with
  | None => Ok y
  | Some None => Panic
  | Some (Some e) =>
      match fuel with
      | O => Fuel
      | S k =>
          if seq_eqb (e_path e) (lit "-") then expand_pointers k f instdir y (S i) else
          let e' := with_path (resolve instdir (e_path e)) e in
          let y' := <[ i := Some e' ]> y in
          match fs_stat f (e_path e') with
          | None => Err EFs
          | Some false => expand_pointers k f instdir y' (S i)
          | Some true =>
              if negb (seq_eqb (path_ext (e_output e')) []) then Err EDirWithFileOutput else
              match fs_walk f (e_path e') with
              | None => Err EFs
              | Some ps =>
                  let y2 := y' ++ map (fun p => Some (sub_entry e' p)) ps in
                  expand_pointers k f instdir (take i y2 ++ drop (S i) y2) i
              end
          end
      end
  end.
End nil_entries.
