(** What a whole run should amount to, in terms of overlays instead of table entries. *)
From Verif Require Import Prelude GoStrings Format Yaml Heap Overlay Queue Paths Files SpecFiles PropsQueue Prepare SpecPrepare ActionNames Decode SpecDecode Whole.

(** Applying overlays to a document, one after the other. *)
Fixpoint apply_each (fuel : nat) (sed : sed_engine) (dflt : list N) (os : list overlay) (d : loc) (h : heap) : heap * res unit :=
  match os with
  | [] => (h, Ok tt)
  | o :: r =>
      match apply fuel sed dflt o d h with
      | (h', _, Ok _) => apply_each fuel sed dflt r d h'
      | (h', _, bad) => (h', bad)
      end
  end.

Notation file_entry := (entry overlay (document overlay) loc) (only parsing).
(** The overlays meant for document number [j] of the input [p]: the common ones, that of
    the command line and those of all mentions of [p], as far as their documentIndex
    admits [j]; then those of the documents entries for [j] of all mentions. *)
Definition meant_overlays (common : list overlay) (adhoc : option overlay) (all : list file_entry) (p : list N) (j : nat) : list overlay :=
  base.filter (wants o_index (Z.of_nat j)) (common ++ match adhoc with Some o => [o] | None => [] end ++ own_overlays all p) ++
  concat (map d_overlays (base.filter (fun e => d_path e = Z.of_nat j) (concat (map e_documents (entries_for p all))))).

(** The overlays in force for it are the same, except that an own list of [p] may have been
    overwritten by that of a later input if there is room behind the common overlays ([room]
    elements: the runtime leaves some only if an overlay of the command line was appended;
    C31, C57, C90). *)
Definition room_left (grow : nat -> nat -> nat) (common : list overlay) (adhoc : option overlay) : nat :=
  match adhoc with Some _ => grow (length common) (length common + 1) - (length common + 1) | None => 0 end.
Definition overlays_for (room : nat) (common : list overlay) (adhoc : option overlay) (all : list file_entry) (p : list N) (j : nat) : list overlay :=
  base.filter (wants o_index (Z.of_nat j)) (common ++ match adhoc with Some o => [o] | None => [] end ++ own_in_force room all p) ++
  concat (map d_overlays (base.filter (fun e => d_path e = Z.of_nat j) (concat (map e_documents (entries_for p all))))).

(** The inputs of a run: those of the instructions, with directories expanded, then -p. *)
Definition all_inputs (s : surroundings) (cl : command_line) (y : list file_entry) : list file_entry :=
  let base := match cl_instructions cl with [] => [] | p => path_dir (path_abs (sr_cwd s) p) end in
  expanded (sr_fs s) base y ++
  expanded (sr_fs s) base
    match cl_path cl with
    | [] => []
    | p => [mkEntry _ _ _ (lit "StdIn") [] [] [] p (if seq_eqb p (lit "-") then lit "stdin.yaml" else [])]
    end.

(** *** Decoded instructions as overlays *)
(** A list of pointers, none of them nil, to things that stand for those of the other list. *)
Definition no_nil {A B} (R : A -> B -> Prop) (l : list (option A)) (l' : list B) : Prop :=
  Forall2 (fun x b => exists a, x = Some a /\ R a b) l l'.
Section stands_for.
(** The zero node, the value of what has no value. *)
Context (z : loc).
Definition value_is (v : option loc) (l : loc) : Prop := match v with Some x => l = x | None => l = z end.
Definition condition_is (c : raw_condition) (c' : condition) : Prop :=
  c_queries c' = rc_query c /\ value_is (rc_value c) (c_value c').
(** The overlay with the queries, value, action, document queries, onMissing and
    documentIndex that were written. *)
Record overlay_is (o : raw_overlay) (o' : overlay) : Prop := mkOverlayIs {
  oi_queries : match ro_query o with Some qs => o_queries o' = qs | None => o_queries o' = [] end;
  oi_value : value_is (ro_value o) (o_value o');
  oi_action : o_action o' = ro_action o;
  oi_docqueries : no_nil (no_nil condition_is) (ro_docqueries o) (o_docqueries o');
  oi_missing : o_missing o' = ro_missing o;
  oi_inject : o_inject o' = ro_inject o;
  oi_index : o_index o' = ro_index o }.
Definition document_is (d : document (option raw_overlay)) (d' : document overlay) : Prop :=
  d_path d' = d_path d /\ no_nil overlay_is (d_overlays d) (d_overlays d').
Record entry_is (e : entry (option raw_overlay) (option (document (option raw_overlay))) loc) (e' : entry overlay (document overlay) loc) : Prop := mkEntryIs {
  ei_name : e_name e' = e_name e;
  ei_path : e_path e' = e_path e;
  ei_output : e_output e' = e_output e;
  ei_nodes : e_nodes e' = e_nodes e;
  ei_overlays : no_nil overlay_is (e_overlays e) (e_overlays e');
  ei_documents : no_nil document_is (e_documents e) (e_documents e') }.
Definition instructions_stand_for (i : list (option raw_overlay) * list (option raw_entry))
    (common : list overlay) (y : list (entry overlay (document overlay) loc)) : Prop :=
  no_nil overlay_is (fst i) common /\ no_nil entry_is (snd i) y.
End stands_for.

(** *** The overlay of the command line *)
Section command_line_overlay.
Context (compile : list N -> option (heap -> loc -> list loc)) (h : heap) (z : loc) (s : surroundings).
(** The text of a flag is a YAML document with root [c]; it is one without a root, or empty. *)
Definition flag_holds (t : list N) (c : loc) : Prop :=
  exists d n rest, sr_parse s t = Some (Some d) /\ h !! d = Some n /\ n_content n = Some (c :: rest).
Definition flag_empty (t : list N) : Prop :=
  sr_parse s t = Some None \/
  exists d, sr_parse s t = Some (Some d) /\ forall n c rest, h !! d = Some n -> n_content n <> Some (c :: rest).
(** Each -q is a query; the last -a that says something counts; -x is the value. *)
Definition flags_say (cl : command_line) (adhoc : option overlay) : Prop :=
  match adhoc with
  | None => cl_queries cl = []
  | Some o =>
      cl_queries cl <> [] /\
      Forall2 (fun t q => exists c, flag_holds t c /\ means_query h compile c q) (cl_queries cl) (o_queries o) /\
      (let silent t := flag_empty t \/ exists c, flag_holds t c /\ is_null h c in
       o_action o = AInvalid /\ Forall silent (cl_actions cl) \/
       exists pre t post c, cl_actions cl = pre ++ t :: post /\ flag_holds t c /\ means_action h c (o_action o) /\ Forall silent post) /\
      (flag_holds (cl_value cl) (o_value o) \/ flag_empty (cl_value cl) /\ o_value o = z) /\
      o_docqueries o = [] /\ o_missing o = MDefault /\ o_inject o = None /\ o_index o = None
  end.
End command_line_overlay.
