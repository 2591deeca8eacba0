(** Model of internal/actions/action.go and of the defaults applied when an
    overlay is decoded. *)
From Verif Require Import Prelude GoStrings.

(** action.go:20-33 *)
Inductive action := AInvalid | AMerge | AReplace | ADelete | ACombine.
(** action.go:89-98 *)
Inductive missing_action := MDefault | MIgnore | MInject.

(** action.go:35-45  Action.String *)
Definition action_string (a : action) : list N :=
  match a with
  | AInvalid => [] | AMerge => lit "merge" | AReplace => lit "replace"
  | ADelete => lit "delete" | ACombine => lit "combine"
  end.

(** action.go:56-62  the toID map (a missing key gives the zero value Invalid) *)
Definition action_id (y : list N) : action :=
  if seq_eqb y (lit "merge") then AMerge
  else if seq_eqb y (lit "replace") then AReplace
  else if seq_eqb y (lit "delete") then ADelete
  else if seq_eqb y (lit "combine") then ACombine
  else AInvalid.

(** action.go:47-71  Action.UnmarshalYAML, after the scalar has been decoded to
    the string [y]. *)
Definition decode_action (y : list N) : res action :=
  match action_id (to_lower y) with
  | AInvalid => Err EInvalidAction
  | a => Ok a
  end.

(** action.go:100-108  OnMissingAction.String *)
Definition missing_string (a : missing_action) : list N :=
  match a with MDefault => lit "default" | MIgnore => lit "ignore" | MInject => lit "inject" end.

(** action.go:110-128  OnMissingAction.UnmarshalYAML: never an error *)
Definition decode_missing (y : list N) : missing_action :=
  let y := to_lower y in
  if seq_eqb y (lit "ignore") then MIgnore else if seq_eqb y (lit "inject") then MInject else MDefault.

(** overlay.go:90-95  the defaults at the end of Overlay.UnmarshalYAML: a Go
    switch runs the first matching case only, so the action is defaulted only
    when the name is not empty.  [query] is o.Query.String(). *)
Definition decode_defaults (name query : list N) (a : action) : list N * action :=
  match name with
  | [] => (query, a)
  | _ => (name, match action_string a with [] => AMerge | _ => a end)
  end.
