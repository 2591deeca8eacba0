(** Specification vocabulary for combine: decimal numerals and booleans. *)
From Verif Require Import Prelude Yaml.
Local Open Scope Z_scope.

(** [numeral s z]: the digit string [s] denotes [z] (leading zeros allowed). *)
Inductive numeral : list N -> Z -> Prop :=
  | numeral_one d : 0 <= d < 10 -> numeral [Z.to_N (48 + d)] d
  | numeral_more s z d : numeral s z -> 0 <= d < 10 -> numeral (s ++ [Z.to_N (48 + d)]) (10 * z + d).

(** [decimal s z]: [s] is an optionally signed numeral denoting [z]. *)
Inductive decimal : list N -> Z -> Prop :=
  | decimal_plain s z : numeral s z -> decimal s z
  | decimal_plus s z : numeral s z -> decimal (ch "+" :: s) z
  | decimal_minus s z : numeral s z -> decimal (ch "-" :: s) (- z).

(** The spelling a user expects: no "+", no leading zero. *)
Definition canonical (s : list N) : Prop :=
  s = lit "0" \/
  exists d r, s = d :: r /\ (49 <= d <= 57)%N \/ s = ch "-" :: d :: r /\ (49 <= d <= 57)%N.

Definition int64 (z : Z) : Prop := - 2 ^ 63 <= z < 2 ^ 63.

(** Accepted spellings of the booleans. *)
Definition true_text (s : list N) : Prop :=
  s ∈ [lit "1"; lit "t"; lit "T"; lit "true"; lit "TRUE"; lit "True"].
Definition false_text (s : list N) : Prop :=
  s ∈ [lit "0"; lit "f"; lit "F"; lit "false"; lit "FALSE"; lit "False"].
Definition bool_text (s : list N) (b : bool) : Prop := if b then true_text s else false_text s.
