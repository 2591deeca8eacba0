(** What running the files one after the other means. *)
From Verif Require Import Prelude.

Section sequential.
Context {Mem Work World : Type}.
Context (run : Work -> Mem -> Mem * res unit).
Context (post : nat -> Mem -> World -> World * res unit).

(** Applying the workloads of one file in order, stopping at the first that does
    not succeed. *)
Fixpoint run_all (ws : list Work) (m : Mem) : Mem * res unit :=
  match ws with
  | [] => (m, Ok tt)
  | w :: r => match run w m with
              | (m1, Ok _) => run_all r m1
              | (m1, Err e) => (m1, Err e)
              | (m1, Panic) => (m1, Panic)
              | (m1, Fuel) => (m1, Fuel)
              end
  end.

(** Rendering the files [order] one after the other; [final i] is the memory in
    which file [i] is rendered. *)
Fixpoint render_all (final : nat -> Mem) (order : list nat) (w : World) : World * res unit :=
  match order with
  | [] => (w, Ok tt)
  | i :: r => match post i (final i) w with
              | (w1, Ok _) => render_all final r w1
              | (w1, Err e) => (w1, Err e)
              | (w1, Panic) => (w1, Panic)
              | (w1, Fuel) => (w1, Fuel)
              end
  end.
End sequential.
