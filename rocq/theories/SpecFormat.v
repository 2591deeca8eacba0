(** Specification vocabulary for format markers, independent of the model of
    format.go (only the marker names and the type of the sed library are shared). *)
From Verif Require Import Prelude Format.

(** [s] contains the two-character text of some marker. *)
Definition marker_in (s : list N) : Prop :=
  exists a m b, s = a ++ marker_text m ++ b.

(** A format string seen as literal text interleaved with markers, each with an
    optional command in braces. *)
Inductive piece :=
  | Text (t : list N)
  | Mark (m : marker) (cmd : option (list N)).

Definition piece_src (p : piece) : list N :=
  match p with
  | Text t => t
  | Mark m None => marker_text m
  | Mark m (Some c) => marker_text m ++ [ch "{"] ++ c ++ [ch "}"]
  end.
Definition src (ps : list piece) : list N := concat (map piece_src ps).

(** What a command makes of a text: the text itself if the command is not valid,
    otherwise the library's output, without one newline at its end and one at its
    start (unless the library reported an error). *)
Definition without_first_newline (s : list N) : list N :=
  match s with 10%N :: r => r | _ => s end.
Definition without_last_newline (s : list N) : list N := rev (without_first_newline (rev s)).
Definition after_command (sed : sed_engine) (c s : list N) : list N :=
  match sed c with
  | None => s
  | Some run =>
      match run s with
      | (out, true) => out
      | (out, false) => without_first_newline (without_last_newline out)
      end
  end.

(** What the user expects in place of each piece: literal text is copied, a
    marker becomes the original text, run through its command if it has one. *)
Definition piece_out (sed : sed_engine) (orig : marker -> list N) (p : piece) : list N :=
  match p with
  | Text t => t
  | Mark m None => orig m
  | Mark m (Some []) => orig m
  | Mark m (Some c) => after_command sed c (orig m)
  end.
Definition expected (sed : sed_engine) (orig : marker -> list N) (ps : list piece) : list N :=
  concat (map (piece_out sed orig) ps).

(** A command is any text without "}" and without newline. *)
Definition command_ok (c : list N) : Prop := ch "}" ∉ c /\ 10%N ∉ c.

(** The cutting into pieces is the intended one: literals hold no marker and
    are not adjacent, a bare marker is not followed by a complete {command}. *)
Fixpoint pieces_ok (ps : list piece) : Prop :=
  match ps with
  | [] => True
  | Text t :: r =>
      ~ marker_in t /\ (match r with Text _ :: _ => False | _ => True end) /\ pieces_ok r
  | Mark m (Some c) :: r => command_ok c /\ pieces_ok r
  | Mark m None :: r =>
      (~ exists c b, src r = [ch "{"] ++ c ++ [ch "}"] ++ b /\ command_ok c) /\ pieces_ok r
  end.
