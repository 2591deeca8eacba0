(** A concrete heap with one document and some overlay values, and overlays on
    it, used to show that hypotheses are satisfiable. *)
From Verif Require Import Prelude GoStrings Format Yaml Heap MergeTree HeapActions Builder ActionNames Overlay Finder Examples.

Definition value_of {A} (d : A) (r : res A) : A := match r with Ok a => a | _ => d end.
Definition put_tree (t : tree) (h : heap) : heap * loc := let (h', r) := h_alloc t h in (h', value_of 0 r).

(** The document  apiVersion/metadata/ports  (see Examples.v), the value
    {metadata: .., ports: .., kind: ..}, the scalar "x" and an unset node. *)
Definition eh1 := put_tree (doc ex_o) [].
Definition eh2 := put_tree ex_n (fst eh1).
Definition eh3 := put_tree (sc "x") (fst eh2).
Definition eh4 := put_tree (T (mkInfo KZero 0 [] [] [] [] [] [] 0 0) None) (fst eh3).
Definition ex_heap : heap := fst eh4.
Definition ex_doc : loc := snd eh1.
Definition ex_val : loc := snd eh2.
Definition ex_x : loc := snd eh3.
Definition ex_zero : loc := snd eh4.

Definition q_metadata : query := dotted (lit "$.metadata") [lit "metadata"].
Definition q_root : query := dotted (lit "$") [].
Definition q_name : query := dotted (lit "$.metadata.name") [lit "metadata"; lit "name"].
Definition q_missing : query := dotted (lit "$.metadata.annotations.a") [lit "metadata"; lit "annotations"; lit "a"].

Definition ex_overlay (a : action) (q : query) (v : loc) : overlay := mkOverlay [q] v a [] MDefault None None.

(** The document read back as a tree. *)
Fixpoint read (fuel : nat) (h : heap) (l : loc) : option tree :=
  match fuel, h !! l with
  | S f, Some n =>
      match n_content n with
      | None => Some (T (n_info n) None)
      | Some ls => match mapM (read f h) ls with Some ts => Some (T (n_info n) (Some ts)) | None => None end
      end
  | _, _ => None
  end.
Definition run (o : overlay) : option tree * res unit :=
  let '(h, _, r) := apply 20 no_sed [] o ex_doc ex_heap in (read 20 h ex_doc, r).
