(** The value of --output-style, as its documentation describes it. *)
From Verif Require Import Prelude.

(** The names and the styles they mean (the numbers are those of style.go:19-27).
    "singleQoute" is misspelt in the program. *)
Definition style_names : list (string * N) :=
  [("normal", 64); ("n", 64); ("tagged", 1); ("tag", 1); ("t", 1);
   ("doubleQuoted", 2); ("doubleQuote", 2); ("double", 2); ("dq", 2);
   ("singleQuoted", 4); ("singleQoute", 4); ("single", 4); ("sq", 4);
   ("literal", 8); ("l", 8); ("folded", 16); ("fold", 16); ("fo", 16); ("flow", 32); ("fl", 32)]%string%N.
(** The same letter, in any case. *)
Definition same_letter (a b : N) : Prop :=
  a = b \/ (65 <= a <= 90 /\ b = a + 32)%N \/ (65 <= b <= 90 /\ a = b + 32)%N.
Definition names_style (s : list N) (st : N) : Prop :=
  exists n, In (n, st) style_names /\ Forall2 same_letter s (lit n).
(** [s] is these names with commas between them. *)
Inductive comma_list : list N -> list (list N) -> Prop :=
  | comma_one n : ~ In 44%N n -> comma_list n [n]
  | comma_more n r ns : ~ In 44%N n -> comma_list r ns -> comma_list (n ++ 44%N :: r) (n :: ns).
(** The styles asked for by all occurrences of the flag, in order; the normal style without any. *)
Definition styles_asked (occurrences : list (list N)) (ss : list N) : Prop :=
  occurrences = [] /\ ss = [64%N] \/
  occurrences <> [] /\ exists lists, Forall2 comma_list occurrences lists /\ Forall2 names_style (concat lists) ss.
