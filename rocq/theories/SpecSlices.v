(** Specification of the lists shared by several files when the common overlay
    list has spare capacity. *)
From Verif Require Import Prelude Slices.

(** Writing the list [new] over the front of [old]. *)
Definition overwrite {A} (old new : list A) : list A := new ++ drop (length new) old.

(** What remains of [own] once the lists [later] have been written over it, one
    after the other. *)
Definition overwritten {A} (own : list A) (later : list (list A)) : list A :=
  take (length own) (fold_left overwrite later own).

(** A slice whose elements lie within its array. *)
Definition valid {A} (m : arrays A) (s : slice) : Prop := exists a, m !! sl_arr s = Some a /\ (sl_len s <= length a)%nat.

(** The list [x] fits into [room] places. *)
Definition fits {A} (room : nat) (x : list (option A)) : bool := Nat.leb (length x) room.
