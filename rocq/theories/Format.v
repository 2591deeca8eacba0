(** Model of internal/actions/markers.go and internal/actions/format.go. *)
From Verif Require Import Prelude GoStrings.

(** markers.go:10-21  The five format markers. *)
Inductive marker := MValue | MLine | MHead | MFoot | MKey.

Definition marker_letter (m : marker) : N :=
  match m with
  | MValue => ch "v" | MLine => ch "l" | MHead => ch "h" | MFoot => ch "f" | MKey => ch "k"
  end.
Definition pct : N := ch "%".
Definition marker_text (m : marker) : list N := [pct; marker_letter m].

(** The order of the marker lists at markers.go:24-30, format.go:41-47 and
    format.go:57-63. *)
Definition markers : list marker := [MValue; MLine; MHead; MFoot; MKey].

(** markers.go:23-37  checkForMarkers *)
Definition check_for_markers (s : list N) : bool :=
  existsb (fun m => contains s (marker_text m)) markers.

(** The sed library (github.com/rwtodd/Go.Sed), external.  [None]: the command
    does not parse (sed.New fails).  Otherwise running it on a value gives an
    output and whether RunString reported an error. *)
Definition sed_engine := list N -> option (list N -> list N * bool).

Definition newline : list N := [10%N].

(** format.go:105-120  processSedCommand.  The error it returns is only logged
    (format.go:92-95), so the model returns just the text. *)
Definition process_sed (sed : sed_engine) (command value : list N) : list N :=
  match sed command with
  | None => value
  | Some run =>
      match run value with
      | (out, true) => out
      | (out, false) => trim_prefix (trim_suffix out newline) newline
      end
  end.

(** The five values substituted for the markers, in the order v,l,h,f,k. *)
(* format.go:15, 56: the variadic argument of format and doFormat, in the order of format.go:57-63 *)
Record fvals := mkFvals { fv_value : list N; fv_line : list N; fv_head : list N;
                          fv_foot : list N; fv_key : list N }.
(* format.go:65-71  valueMap *)
Definition fval (v : fvals) (m : marker) : list N :=
  match m with
  | MValue => fv_value v | MLine => fv_line v | MHead => fv_head v
  | MFoot => fv_foot v | MKey => fv_key v
  end.

(** format.go:40-54  sanitizeValues: for each marker in turn, delete all its
    occurrences from the value. *)
Definition sanitize_value (s : list N) : list N :=
  fold_left (fun acc m => replace_all acc (marker_text m) []) markers s.
Definition sanitize_values (v : fvals) : fvals :=
  mkFvals (sanitize_value (fv_value v)) (sanitize_value (fv_line v))
          (sanitize_value (fv_head v)) (sanitize_value (fv_foot v))
          (sanitize_value (fv_key v)).

(** A match of the regular expression of format.go:73,
    (%[vklfh])({(.*?)})? : the matched text, the marker and the command ("" when
    the optional group is absent). *)
Record rmatch := mkMatch { m_text : list N; m_marker : marker; m_command : list N }.

Definition marker_of (c : N) : option marker :=
  find (fun m => ceq c (marker_letter m)) markers.

(** The lazily matched command between braces: everything up to the first "}",
    with no newline in between ("." does not match a newline). *)
(* format.go:73  the group "command" of the regular expression *)
Fixpoint scan_command (s : list N) : option (list N) :=
  match s with
  | [] => None
  | c :: r =>
      if ceq c (ch "}") then Some []
      else if ceq c 10 then None
      else match scan_command r with Some w => Some (c :: w) | None => None end
  end.

(** The match starting exactly at the beginning of [s], if any. *)
(* format.go:73, 75  one match *)
Definition match_at (s : list N) : option rmatch :=
  match s with
  | p :: c :: r =>
      if ceq p pct then
        match marker_of c with
        | None => None
        | Some m =>
            match r with
            | b :: r' =>
                if ceq b (ch "{") then
                  match scan_command r' with
                  | Some w => Some (mkMatch (p :: c :: b :: w ++ [ch "}"]) m w)
                  | None => Some (mkMatch [p; c] m [])
                  end
                else Some (mkMatch [p; c] m [])
            | [] => Some (mkMatch [p; c] m [])
            end
        end
      else None
  | _ => None
  end.

(** format.go:75  re.FindAllStringSubmatch(s, -1): leftmost non-overlapping
    matches. *)
Fixpoint find_all (skip : nat) (s : list N) : list rmatch :=
  match s with
  | [] => []
  | _ :: r =>
      match skip with
      | S k => find_all k r
      | O => match match_at s with
             | Some m => m :: find_all (length (m_text m) - 1) r
             | None => find_all 0 r
             end
      end
  end.

(** format.go:86-99  What one match is replaced by. *)
Definition match_value (sed : sed_engine) (v : fvals) (m : rmatch) : list N :=
  match m_command m with
  | [] => fval v (m_marker m)
  | cmd => process_sed sed cmd (fval v (m_marker m))
  end.

(** format.go:56-103  doFormat: the matches are computed on the initial string;
    each is then substituted at the first occurrence of its text in the
    current string. *)
Definition do_format (sed : sed_engine) (s : list N) (v : fvals) : list N :=
  fold_left (fun acc m => replace_first acc (m_text m) (match_value sed v m))
            (find_all 0 s) s.

(** format.go:15-19  format *)
Definition format (sed : sed_engine) (s : list N) (v : fvals) : list N :=
  do_format sed s (sanitize_values v).
