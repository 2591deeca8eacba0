(** Execute on the shared heap: the transition system of Pipeline.v with Apply and
    doPostProcessing filled in. *)
From Verif Require Import Prelude GoStrings Format Yaml Heap Overlay Fine Queue Paths Render Pipeline.

(** yamlfile.go:21-34  a file after GetInstructions: its documents, its overlays
    (common overlays included; positions in the table of overlays), its documents
    entries, its output path. *)
Record yfile := mkFile { yf_nodes : list loc; yf_overlays : list nat; yf_documents : list (document nat); yf_output : list N }.

(** yamlfile.go:39-57 *)
Definition file_work (os : list overlay) (f : yfile) : list (workload nat loc) :=
  queue (fun k => match os !! k with Some o => o_index o | None => None end) (yf_overlays f) (yf_documents f) (yf_nodes f).

(** workstream.go:48  o.Overlay.Apply(o.Node), as a sequence of operations on the
    memory shared by the workers; the operations of different workers interleave. *)
Definition begin (fuel : nat) (sed : sed_engine) (dflt : list N) (w : workload nat loc) : prog unit :=
  p_apply fuel sed dflt (w_overlay w) (w_node w).
(** The same without interruption (ProofExecute.v: begin_finish). *)
(* workstream.go:48 *)
Definition run_work (fuel : nat) (sed : sed_engine) (dflt : list N) (w : workload nat loc) (m : shared) : shared * res unit :=
  match snd m !! w_overlay w with
  | None => (m, Panic)
  | Some o =>
      match apply fuel sed dflt o (w_node w) (fst m) with
      | (h, o', r) => ((h, <[w_overlay w := o']> (snd m)), r)
      end
  end.

(** What the encoder sees of a node: its fields and those of the nodes below it.
    The Alias pointer is not followed (an alias is written as its name, which is
    the Value field).  [Fuel]: the node contains itself. *)
(* config.go:132, yaml.v3 encode.go, encoder.node (external) *)
Fixpoint snapshot (fuel : nat) (h : heap) (l : loc) : res tree :=
  match fuel with
  | O => Fuel
  | S f =>
      match h !! l with
      | None => Panic
      | Some n =>
          match n_content n with
          | None => Ok (T (n_info n) None)
          | Some ls =>
              let! ts := (fix go (ls : list loc) : res (list tree) :=
                            match ls with
                            | [] => Ok []
                            | x :: r => let! t := snapshot f h x in let! ts := go r in Ok (t :: ts)
                            end) ls in
              Ok (T (n_info n) (Some ts))
          end
      end
  end.
(* config.go:120-138  the loop over the documents *)
Fixpoint snapshots (fuel : nat) (h : heap) (ls : list loc) : res (list tree) :=
  match ls with
  | [] => Ok []
  | x :: r => let! t := snapshot fuel h x in let! ts := snapshots fuel h r in Ok (t :: ts)
  end.


(** The same, one read of a node at a time. *)
(* config.go:132, yaml.v3 encode.go, encoder.node (external) *)
Fixpoint p_snapshot (fuel : nat) (l : loc) : prog tree :=
  match fuel with
  | O => pstuck
  | S f =>
      do? n := pget l in
      match n_content n with
      | None => pret (T (n_info n) None)
      | Some ls =>
          do? ts := (fix go (ls : list loc) : prog (list tree) :=
                       match ls with
                       | [] => pret []
                       | x :: r => do? t := p_snapshot f x in do? ts := go r in pret (t :: ts)
                       end) ls in
          pret (T (n_info n) (Some ts))
      end
  end.
(* config.go:120-138  the loop over the documents *)
Fixpoint p_snapshots (fuel : nat) (ls : list loc) : prog (list tree) :=
  match ls with
  | [] => pret []
  | x :: r => do? t := p_snapshot fuel x in do? ts := p_snapshots fuel r in pret (t :: ts)
  end.

(** config.go:37-72 for file number [i]: the reads, done by the main goroutine
    while the workers of other files go on; the next of them; and what is then
    encoded and written.  Simplifications: everything is read before anything is
    encoded (the encoder's work on one document follows its reads of that document
    and writes to a private buffer); SetStyle's writes to the nodes (which nobody
    reads afterwards) are part of the text, not of the heap. *)
Definition scan (fuel : nat) (files : list yfile) (i : nat) : prog (list tree) :=
  match files !! i with Some f => p_snapshots fuel (yf_nodes f) | None => pcrash end.
Definition peek (p : prog (list tree)) (m : shared) : prog (list tree) + res (list tree) := snd (tick p m).
Definition emit (enc : nat -> tree -> option (list N)) (d : disk) (cfg : out_config) (files : list yfile)
    (i : nat) (r : res (list tree)) (w : world) : world * res unit :=
  match files !! i with
  | None => (w, Panic)
  | Some f =>
      match r with
      | Ok ts => post_process enc d cfg ts (yf_output f) w
      | Err e => (w, Err e)
      | Panic => (w, Panic)
      | Fuel => (w, Fuel)
      end
  end.

(** The shape of the state of Execute. *)
Notation exec_state := (state (list hnode * list overlay)%type (workload nat loc) (prog unit) (prog (list tree)) world) (only parsing).
