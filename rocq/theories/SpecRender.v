(** Specification vocabulary for the output side. *)
From Verif Require Import Prelude Yaml SpecMerge Render.

(** Two trees that agree on everything but comments / but styles. *)
Inductive same_but (f : info -> info) : tree -> tree -> Prop :=
  | sb_leaf i j : f i = f j -> same_but f (T i None) (T j None)
  | sb_branch i j l m : f i = f j -> Forall2 (same_but f) l m -> same_but f (T i (Some l)) (T j (Some m)).
Definition but_comments : tree -> tree -> Prop := same_but (set_comments [] [] []).
Definition but_style : tree -> tree -> Prop := same_but (set_style_i 0%N).

(** The documents that still have content. *)
Definition live (docs : list tree) : list tree := List.filter (fun d => negb (match children d with [] => true | _ => false end)) docs.

(** The encodings of documents [k], [k+1], ... *)
Fixpoint encodings (enc : nat -> tree -> option (list N)) (k : nat) (docs : list tree) : option (list N) :=
  match docs with
  | [] => Some []
  | d :: r => match enc k d, encodings enc (S k) r with Some s, Some t => Some (s ++ t) | _, _ => None end
  end.

(** The bit of a style constant in a node's style. *)
Definition has_style (st : N) (s : N) : Prop := exists k, st = (2 ^ k)%N /\ N.testbit s k = true.
Definition style_constants : list N := [1; 2; 4; 8; 16; 32; 64]%N.

(** What the file at [name] holds. *)
Definition file_content (w : world) (name : list N) : option (list N) :=
  match List.find (fun x => seq_eqb (fst x) name) (w_files w) with Some x => Some (snd x) | None => None end.
