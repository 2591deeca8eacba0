(** One document of a file, processed with nothing else around. *)
From Verif Require Import Prelude Format Yaml Heap Overlay SpecReach Queue PropsQueue Fine Execute SpecPipeline.

Section specdocs.
Context (fuel : nat) (sed : sed_engine) (dflt : list N) (os : list overlay) (h0 : heap).

(** The documentIndex of overlay number [k]. *)
Definition index_of (k : nat) : option (list Z) := match os !! k with Some o => o_index o | None => None end.

(** The overlays meant for document number [j] of a file: those of its list that
    want it, then those of the documents entries for it. *)
Definition meant_for (f : yfile) (j : nat) : list nat :=
  base.filter (wants index_of (Z.of_nat j)) (yf_overlays f) ++
  concat (map d_overlays (base.filter (fun e => d_path e = Z.of_nat j) (yf_documents f))).

(** Applying them to document [d] in the memory Execute starts with. *)
Definition on_its_own (f : yfile) (j : nat) (d : loc) : shared * res unit :=
  run_all (run_work fuel sed dflt) (map (fun k => mkWork k d (Z.of_nat j)) (meant_for f j)) (h0, os).

(** The decoder gives every document of a stream nodes of its own. *)
Definition docs_apart (f : yfile) : Prop := forall i j d e x,
  yf_nodes f !! i = Some d -> yf_nodes f !! j = Some e -> i <> j -> reach h0 d x -> reach h0 e x -> False.
End specdocs.
