(** What a run leaves behind: the texts of its inputs, written one after the other. *)
From Coq Require Import Permutation.
From Verif Require Import Prelude GoStrings Paths Files SpecFiles Prepare SpecPrepare Render.

(** The world after the text of an input has been written to its place: printed, or stored
    under the name the place stands for, which is then printed.  Nothing happens if there is
    no text. *)
Definition with_text (stdout : bool) (dir : list N) (w : world) (place text : list N) : world :=
  match text with
  | [] => w
  | _ =>
      if stdout then mkWorld (w_stdout w ++ [text]) (w_files w)
      else mkWorld (w_stdout w ++ [output_file dir place ++ lit "
"]) ((output_file dir place, text) :: w_files w)
  end.
Fixpoint with_texts (stdout : bool) (dir : list N) (w : world) (l : list (list N * list N)) : world :=
  match l with [] => w | (place, text) :: r => with_texts stdout dir (with_text stdout dir w place text) r end.

(** Every input is written once, at its place, in some order; nothing else happens. *)
Definition texts_written {Ov Dc Nd} (all : list (entry Ov Dc Nd)) (text : list N -> list N) (stdout : bool) (dir : list N) (w0 w : world) : Prop :=
  exists order places, Permutation order (dedup [] (map e_path all)) /\ Forall2 (place_of all) order places /\
    w = with_texts stdout dir w0 (zip places (map text order)).

(** The input [p] has a text, and its place is the file [name]. *)
Definition goes_to {Ov Dc Nd} (all : list (entry Ov Dc Nd)) (text : list N -> list N) (dir name p : list N) : Prop :=
  exists o, place_of all p o /\ text p <> [] /\ output_file dir o = name.
