(** The Overlays slices of the input files while duplicates are merged.  Prepare.v
    treats these lists as values; this file shows that the slices of the code have
    the same contents. *)
From Verif Require Import Prelude GoStrings Files Slices.

Section slicefiles.
Context {Ov : Type}.
Notation files := (list (list N * slice)).

(** yamlfile.go:158-179  mergeDuplicates, the Overlays field only: files are given by
    path and slice.  [acc]: the files kept so far. *)
Fixpoint get_slice (p : list N) (acc : files) : option slice :=
  match acc with
  | [] => None
  | (q, s) :: r => if seq_eqb q p then Some s else get_slice p r
  end.
Fixpoint set_slice (p : list N) (s' : slice) (acc : files) : files :=
  match acc with
  | [] => []
  | (q, s) :: r => if seq_eqb q p then (q, s') :: r else (q, s) :: set_slice p s' r
  end.
Fixpoint slice_dups (grow : nat -> nat -> nat) (m : arrays Ov) (acc y : files) : arrays Ov * files :=
  match y with
  | [] => (m, acc)
  | (p, s) :: r =>
      match get_slice p acc with
      | None => slice_dups grow m (acc ++ [(p, s)]) r
      | Some f =>
          let (m', f') := go_append grow m f (contents m s) in
          slice_dups grow m' (set_slice p f' acc) r
      end
  end.

(** instructions.go:27-56 on slices: the duplicates among the entries [y] of the
    instructions file are merged, the files of -p join (config.go:147-167; the
    paths [extra], all with a nil list), duplicates are merged again, -q's overlay
    joins the common ones and the common ones are put in front. *)
Definition slice_overlays (grow : nat -> nat -> nat) (m : arrays Ov) (c : slice) (y : files) (extra : list (list N)) (adhoc : option Ov)
    : arrays Ov * list slice :=
  let (m1, f1) := slice_dups grow m [] y in
  let nil := mkSlice (length m1) 0 in
  let (m2, f2) := slice_dups grow (m1 ++ [[]]) [] (f1 ++ map (fun p => (p, nil)) extra) in
  let (m3, c') := match adhoc with Some o => add_adhoc grow m2 c o | None => (m2, c) end in
  add_common grow m3 c' (map snd f2).
End slicefiles.
