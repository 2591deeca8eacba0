(** Model of queueOverlays: which overlay is applied to which document, in which
    order. *)
From Verif Require Import Prelude.

Section queue.
(** [Ov] stands for pointers to overlays, [Nd] for pointers to documents;
    [index] gives an overlay's documentIndex (overlay.go:23), nil or a list. *)
Context {Ov Nd : Type} (index : Ov -> option (list Z)).

(** instructions/document.go:9-13  Document *)
Record document := mkDocument { d_path : Z; d_overlays : list Ov }.

(** overlays/workstream.go:12-17  a workload (the file path is used in messages only) *)
Record workload := mkWork { w_overlay : Ov; w_node : Nd; w_index : Z }.

(** overlay.go:44-56  CheckDocumentIndex *)
Definition check_document_index (o : Ov) (i : Z) : bool :=
  match index o with
  | None => true
  | Some l => existsb (fun x => Z.eqb i x) l
  end.

(** yamlfile.go:41-45  the loop over the file's overlays *)
Fixpoint queue_overlays_of (os : list Ov) (n : Nd) (i : Z) : list workload :=
  match os with
  | [] => []
  | o :: r => if check_document_index o i then mkWork o n i :: queue_overlays_of r n i else queue_overlays_of r n i
  end.

(** yamlfile.go:49-51 *)
Fixpoint queue_all_of (os : list Ov) (n : Nd) (i : Z) : list workload :=
  match os with [] => [] | o :: r => mkWork o n i :: queue_all_of r n i end.

(** yamlfile.go:47-53, document.go:16-18  the loop over the documents entries *)
Fixpoint queue_documents (ds : list document) (n : Nd) (i : Z) : list workload :=
  match ds with
  | [] => []
  | d :: r => if Z.eqb (d_path d) i then queue_all_of (d_overlays d) n i ++ queue_documents r n i else queue_documents r n i
  end.

(** yamlfile.go:39-57  queueOverlays: the workloads sent, in order *)
Fixpoint queue_from (i : Z) (os : list Ov) (ds : list document) (nodes : list Nd) : list workload :=
  match nodes with
  | [] => []
  | n :: rest => queue_overlays_of os n i ++ queue_documents ds n i ++ queue_from (i + 1) os ds rest
  end.
Definition queue (os : list Ov) (ds : list document) (nodes : list Nd) : list workload := queue_from 0 os ds nodes.
End queue.
Arguments document : clear implicits.
Arguments workload : clear implicits.
