(** When two merges can be done as one. *)
From Verif Require Import Prelude Yaml SpecMerge.

(** Nowhere does the second value put a sequence or (non-empty) mapping where the first one
    has something of another kind. *)
Inductive follows : val -> val -> Prop :=
  | follows_scalar m t s : follows m (VScalar t s)
  | follows_sequence t l t' l' : follows (VSeq t l) (VSeq t' l')
  | follows_nothing m t : follows m (VMap t [])
  | follows_mapping t l t' l' :
      (forall k v w, In (k, v) l -> In (k, w) l' -> follows v w) -> follows (VMap t l) (VMap t' l').

(** No mapping (outside of sequences) has a key twice. *)
Fixpoint unique_keys (v : val) : Prop :=
  match v with
  | VMap _ l => NoDup (map fst l) /\ fold_right (fun p r => unique_keys (snd p) /\ r) True l
  | _ => True
  end.
