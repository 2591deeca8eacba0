(** White space, as Unicode lists it (and Go's unicode.IsSpace): the statements about
    paths and about settings speak of blanks and words. *)
From Verif Require Import Prelude GoStrings.

(** Tab to carriage return, space, next line, no-break space, and the wide and narrow spaces
    and separators. *)
Definition white_space (c : N) : Prop :=
  (9 <= c <= 13 \/ c = 32 \/ c = 133 \/ c = 160 \/ c = 5760 \/ 8192 <= c <= 8202 \/
   c = 8232 \/ c = 8233 \/ c = 8239 \/ c = 8287 \/ c = 12288)%N.
