(** The Go heap restricted to yaml.v3 nodes, and a state monad over it.

    A node is identified by its address.  Addresses are positions in a list;
    allocation appends, so an address stays valid for ever (Go's garbage
    collector only frees nodes nobody can name).  A computation keeps the heap
    it reached when it fails: Go code that returns an error leaves its earlier
    writes in place. *)
From Verif Require Import Prelude Yaml.

Notation loc := nat (only parsing).

(** yaml.v3 Node: the scalar fields, the Alias pointer and Content.
    Simplification: a Content slice is its list of elements; no two nodes share
    a backing array (each slice is made by the decoder, by reprint, by append
    on the node's own slice, or by a literal). *)
Record hnode := mkNode { n_info : info; n_alias : option loc; n_content : option (list loc) }.

Notation heap := (list hnode) (only parsing).

Definition M (A : Type) : Type := heap -> heap * res A.
Definition ret {A} (a : A) : M A := fun h => (h, Ok a).
Definition fail {A} (e : err) : M A := fun h => (h, Err e).
Definition crash {A} : M A := fun h => (h, Panic).
Definition stuck {A} : M A := fun h => (h, Fuel).
Definition bind {A B} (m : M A) (f : A -> M B) : M B :=
  fun h => match m h with
           | (h', Ok a) => f a h'
           | (h', Err e) => (h', Err e)
           | (h', Panic) => (h', Panic)
           | (h', Fuel) => (h', Fuel)
           end.
Notation "'do!' x := m 'in' k" := (bind m (fun x => k))
  (at level 200, x pattern, m at level 100, k at level 200, right associativity).

(** Dereferencing an invalid address is a crash (nil pointer dereference). *)
(* reading *n, as in merge.go:39 (models Go itself) *)
Definition get (l : loc) : M hnode :=
  fun h => (h, match h !! l with Some n => Ok n | None => Panic end).
(* writing *n, as in replace.go:21 (models Go itself) *)
Definition put (l : loc) (n : hnode) : M unit := fun h => (<[l := n]> h, Ok tt).
(** A new node (&yaml.Node{...}). *)
(* &yaml.Node{...}, as in path.go:145-158 (models Go itself) *)
Definition alloc (n : hnode) : M loc := fun h => (h ++ [n], Ok (length h)).

(** Assigning scalar fields / the Content field of *l. *)
(* as in merge.go:74 *)
Definition put_info (l : loc) (i : info) : M unit :=
  do! n := get l in put l (mkNode i (n_alias n) (n_content n)).
(* as in delete.go:52 *)
Definition put_content (l : loc) (c : option (list loc)) : M unit :=
  do! n := get l in put l (mkNode (n_info n) (n_alias n) c).

(** A loop collecting results. *)
(* a range loop, as in merge.go:206 (models Go itself) *)
Fixpoint each {A B} (f : A -> M B) (l : list A) : M (list B) :=
  match l with
  | [] => ret []
  | a :: r => do! b := f a in do! bs := each f r in ret (b :: bs)
  end.
(** A loop for its effects, stopping at the first failure. *)
(* a range loop, as in overlay.go:59 (models Go itself) *)
Fixpoint loop {A} (f : A -> M unit) (l : list A) : M unit :=
  match l with
  | [] => ret tt
  | a :: r => do! _ := f a in loop f r
  end.
