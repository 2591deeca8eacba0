(** Go slices as far as addCommonOverlays needs them: a slice is a window on a
    backing array; append writes in place when the capacity allows. *)
From Verif Require Import Prelude.

Section slices.
Context {A : Type}.

(** The backing arrays.  An array cell that has not been written holds None. *)
Notation arrays := (list (list (option A))).

(** A slice header: array, length.  Simplification: the slices of the modelled
    code all start at offset 0 of their array, so the capacity is the array's
    size.  A nil slice is a slice on an array of size 0. *)
(* Go slices (external: language specification), for instructions.go:113-117 *)
Record slice := mkSlice { sl_arr : nat; sl_len : nat }.

(* the built-in cap (external: language specification) *)
Definition cap (m : arrays) (s : slice) : nat := match m !! sl_arr s with Some a => length a | None => 0 end.

(** The elements of a slice. *)
(* s[0:len(s)] (external: language specification) *)
Definition contents (m : arrays) (s : slice) : list (option A) :=
  match m !! sl_arr s with Some a => take (sl_len s) a | None => [] end.

(** Go's built-in append(s, xs...).  [grow old need] is the capacity chosen by the
    runtime; it is at least [need]. *)
(* the built-in append (external: language specification), instructions.go:115 and config.go:181 *)
Definition go_append (grow : nat -> nat -> nat) (m : arrays) (s : slice) (xs : list (option A)) : arrays * slice :=
  let n := length xs in
  if Nat.leb (sl_len s + n) (cap m s) then
    (match m !! sl_arr s with
     | Some a => <[ sl_arr s := take (sl_len s) a ++ xs ++ drop (sl_len s + n) a ]> m
     | None => m
     end, mkSlice (sl_arr s) (sl_len s + n))
  else
    let used := contents m s ++ xs in
    let total := Nat.max (grow (cap m s) (sl_len s + n)) (sl_len s + n) in
    (m ++ [used ++ replicate (total - length used) None], mkSlice (length m) (sl_len s + n)).

(** instructions.go:113-117  addCommonOverlays: for every file,
    yf.Overlays = append(i.CommonOverlays, yf.Overlays...) *)
Fixpoint add_common (grow : nat -> nat -> nat) (m : arrays) (common : slice) (files : list slice) : arrays * list slice :=
  match files with
  | [] => (m, [])
  | s :: rest =>
      let '(m1, s1) := go_append grow m common (contents m s) in
      let '(m2, rest') := add_common grow m1 common rest in
      (m2, s1 :: rest')
  end.

(** config.go:181  the command line overlay is appended to the common ones *)
Definition add_adhoc (grow : nat -> nat -> nat) (m : arrays) (common : slice) (o : A) : arrays * slice :=
  go_append grow m common [Some o].
End slices.
Notation arrays A := (list (list (option A))).

(** The growth of Go's runtime for small slices of pointers: twice the old
    capacity, or what is needed if that is more (runtime.growslice; rounding up
    to allocation classes only increases it). *)
(* external: runtime.growslice *)
Definition go_grow (old need : nat) : nat := Nat.max need (2 * old).
