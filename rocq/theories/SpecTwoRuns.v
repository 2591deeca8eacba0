(** Two runs side by side. *)
From Verif Require Import Prelude GoStrings Format Yaml Heap Overlay SpecMerge SpecHeap SpecReach SpecSame Queue Paths Files SpecFiles Slices Prepare SpecPrepare
  Render SpecRender SpecOutcome Pipeline Execute SpecExecute PropsDocs Decode SpecDecode Flags Template Whole SpecWhole PropsWhole SpecMeaning PropsMeaning SpecRead.

(** Everything a run depends on except the meaning of sed expressions, the default for missing
    paths and the encoder: template engine, path library, memory, files and texts, command
    line, limits, growth of slices, disk, output settings, and what was there before. *)
Record circumstances := mkCircumstances {
  c_functions : Type; c_parsed : Type; c_engine : engine c_functions c_parsed; c_builtin : list N -> option c_functions; c_sprig : list N -> option c_functions;
  c_compile : list N -> option (heap -> loc -> list loc); c_to_int : info -> option Z; c_heap : heap; c_zero : loc;
  c_world : surroundings; c_cl : command_line; c_pfuel : nat; c_grow : nat -> nat -> nat; c_fuel : nat; c_disk : disk; c_cfg : out_config; c_before : world }.

Section runs.
Context (sed : sed_engine) (dflt : list N) (enc : nat -> tree -> option (list N)).
(** A run under these circumstances, with some schedule, succeeded and left [w]. *)
Definition succeeds (c : circumstances) (w : world) : Prop :=
  fresh_nodes (c_world c) (c_heap c) (c_zero c) /\ finds_reachable (c_compile c) /\ paths_usable (c_world c) (c_cl c) /\
  exists h1 os R n st,
    get_ready (c_engine c) (c_builtin c) (c_sprig c) sed (c_compile c) (c_to_int c) (c_heap c) (c_zero c) (c_pfuel c) (c_grow c) (c_world c) (c_cl c) = (h1, Ok (os, R)) /\
    execution (c_fuel c) sed dflt enc (c_disk c) (c_cfg c) (map to_file R) os h1 (c_before c) n st /\
    crashed st = false /\ main st = MReturn None /\ outside st = w.
(** What the user asked for: common overlays, entries and the overlay of the command line. *)
Definition asked (c : circumstances) (common : list overlay) (y : list (entry overlay (document overlay) loc)) (adhoc : option overlay) : Prop :=
  exists i, instructions_are (c_engine c) (c_builtin c) (c_sprig c) sed (c_compile c) (c_to_int c) (c_heap c) (c_world c) (c_cl c) i /\
    instructions_stand_for (c_zero c) i common y /\ flags_say (c_compile c) (c_heap c) (c_zero c) (c_world c) (c_cl c) adhoc.
(** The document number [j] of input [p] is the tree [t], and the overlays in force
    for it are the functions [ots]. *)
Definition has_document (c : circumstances) (common : list overlay) (y : list (entry overlay (document overlay) loc)) (adhoc : option overlay)
    (p : list N) (j : nat) (t : tree) (ots : list toverlay) : Prop :=
  exists ds doc depth ro, documents (c_world c) p = Some ds /\ ds !! j = Some (label doc) /\ t = as_processed (c_cl c) (erase doc) /\
    situated depth ro (c_heap c) doc (overlays_for (room_left (c_grow c) common adhoc) common adhoc (all_inputs (c_world c) (c_cl c) y) p j) ots /\ all_plainly sed dflt ots t.
Definition document_count (c : circumstances) (p : list N) (n : nat) : Prop := exists ds, documents (c_world c) p = Some ds /\ length ds = n.

(** An overlay has nothing to do in a document: its document query rules the document out, or
    its queries find nothing there and it does not inject. *)
Definition idle (t : tree) (o : toverlay) : Prop :=
  tqualifies (to_docqueries o) t = false \/ found (to_queries o) t = [] /\ injects dflt o = false.
(** The document number [j] of input [p] is the tree [t], and every overlay in force for it is idle. *)
Definition left_alone (c : circumstances) (common : list overlay) (y : list (entry overlay (document overlay) loc)) (adhoc : option overlay)
    (p : list N) (j : nat) (t : tree) : Prop :=
  exists ds doc depth ro ots, documents (c_world c) p = Some ds /\ ds !! j = Some (label doc) /\ t = as_processed (c_cl c) (erase doc) /\
    situated depth ro (c_heap c) doc (overlays_for (room_left (c_grow c) common adhoc) common adhoc (all_inputs (c_world c) (c_cl c) y) p j) ots /\ Forall (idle t) ots.
End runs.
