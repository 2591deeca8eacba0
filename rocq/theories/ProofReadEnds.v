(** Reading ends, and does not crash. *)
From Verif Require ProofDecode ProofMergeMap ProofMerge.
From Verif Require Import Prelude GoStrings Format Yaml MergeTree Values SpecMerge Heap SpecHeap ActionNames Overlay SpecReach SpecSame SpecOverlay Queue PropsQueue Paths SpecPaths ProofPaths Files SpecFiles Slices SpecSlices Prepare SpecPrepare ProofPrepare PropsPrepare
  Pipeline SpecPipeline Execute SpecExecute SpecDocs PropsDocs Decode SpecDecode PropsDecode Flags Template HeapComments Whole SpecWhole ProofUncomment ProofWhole PropsWhole
  SpecRead ProofRead ProofReadShape.

Section lemmas.
Context {F P : Type} (e : engine F P) (builtin sprig : list N -> option F) (sed : sed_engine).
Context (compile : list N -> option (heap -> loc -> list loc)) (to_int : info -> option Z).
Context (h0 : heap) (z : loc) (s : surroundings).

Lemma merge_no_fuel n : forall o ks, merge sed o n ks <> Fuel.
Proof.
  assert (ME : forall f nk oc, (forall ov k, f ov k <> Fuel) -> merge_entries sed f nk oc <> Fuel).
  { intros f nk oc Hf. induction oc as [|x|x y oc IH] using ProofMerge.list_ind2; cbn [merge_entries]; try done.
    specialize (Hf y (t_value x)). destruct (check_for_markers _), (seq_eqb _ _); cbn [orb]; destruct (f y (t_value x)); cbn [rbind]; try done; by destruct (merge_entries sed f nk oc) as [[? ?]| | |]. }
  assert (MP : forall f nk nv o, (forall ov k, f ov k <> Fuel) -> merge_pair sed f nk nv o <> Fuel).
  { intros f nk nv o Hf. unfold merge_pair. destruct (t_content (to_map o)) as [oc|]; [|done]. specialize (ME f (t_info nk) oc Hf).
    destruct (merge_entries sed f (t_info nk) oc) as [[? []]| | |]; done. }
  induction n as [i|i l IH] using tree_ind'; intros o ks.
  - cbn [merge]. destruct (i_kind i); try done; [by destruct (t_content o)|]. by destruct (merge_scalar sed o i ks).
  - destruct (i_kind i) eqn:Ek.
    4: { rewrite ProofMerge.merge_map_eq by exact Ek. clear Ek. revert o. induction l as [|x|nk nv ps IHp] using ProofMerge.list_ind2; intros o; cbn [merge_pairs]; try done.
      apply Forall_cons in IH as [_ IH]. apply Forall_cons in IH as [IHv IH]. specialize (MP (fun ov key => merge sed ov nv [key]) nk nv o (fun ov k => IHv ov [k])).
      destruct (merge_pair _ _ _ _ _); try done. cbn [rbind]. by apply IHp. }
    all: cbn [merge]; rewrite Ek; try done.
    + destruct (t_content o) as [[|o0 orest]|]; try done. destruct l as [|n0 l]; [done|]. apply Forall_cons in IH as [I _]. specialize (I o0 [t_value o]).
      by destruct (merge sed o0 n0 [t_value o]).
    + by destruct (merge_scalar sed o i ks).
Qed.

Lemma merge_node_no_fuel ns : forall o, merge_node sed o ns <> Fuel.
Proof.
  unfold merge_node. assert (X : forall acc, acc <> Fuel -> fold_left (fun acc n => let! x := acc in merge sed x n []) ns acc <> Fuel); [|intros o; by apply X].
  induction ns as [|n ns IH]; intros acc A; cbn [fold_left]; [done|]. apply IH. destruct acc as [x| | |]; cbn [rbind]; try done. apply merge_no_fuel.
Qed.
Lemma read_values_settles fs : ProofDecode.settles (read_values (sr_text s) (sr_first s) fs).
Proof.
  induction fs as [|f fs IH]; [apply ProofDecode.settles_ok|]. cbn [read_values]. destruct (sr_text s f); [|apply ProofDecode.settles_err].
  destruct (sr_first s _); [|apply ProofDecode.settles_err]. apply ProofDecode.settles_bind; [done|]. intros; apply ProofDecode.settles_ok.
Qed.
Lemma text_no_fuel path vf : instructions_text e builtin sprig (sr_text s) (sr_first s) sed path vf <> Fuel.
Proof.
  unfold instructions_text. destruct vf as [fs|]; [|by destruct (sr_text s path)].
  destruct (read_values_settles fs) as [_ NF]. destruct (read_values _ _ fs) as [ds| | |]; try done. cbn [rbind].
  destruct (get_values sed ds) as [v| | |] eqn:G; cbn [rbind]; try done.
  - destruct (sr_text s path); [|done]. unfold render_instructions. destruct (_ : option P); [|done]. by destruct (_ : option (list N)).
  - unfold get_values in G. destruct ds as [|d ds]; [done|]. destruct (merge_node sed d ds) eqn:M; try done. by apply merge_node_no_fuel in M.
Qed.

(** With values files that are documents, no panic. *)
Lemma merge_documents ns : Forall (fun d => t_kind d = KDocument /\ exists top rest, t_content d = Some (top :: rest) /\ everywhere (fun t => t_kind t <> KDocument) top) ns ->
  forall o, (exists top rest, t_content o = Some (top :: rest)) -> merge_node sed o ns <> Panic.
Proof.
  unfold merge_node. assert (X : forall ns acc, (forall er, acc = Err er -> True) -> (exists er, acc = Err er) -> fold_left (fun acc n => let! x := acc in merge sed x n []) ns acc <> Panic).
  { clear. induction ns as [|n ns IH]; intros acc _ [er ->]; cbn [fold_left rbind]; [done|]. apply IH; eauto. }
  induction 1 as [|n ns (K & top & rest & C & T) _ IH]; intros o (ot & orest & CO); cbn [fold_left]; [done|]. cbn [rbind].
  destruct n as [i c]. cbn [t_kind t_info] in K. unfold t_kind in K. cbn [t_info t_content] in *. subst c.
  cbn [merge]. rewrite K, CO. pose proof (ProofMergeMap.merge_outcome sed top T ot [t_value o]) as Y.
  destruct (merge sed ot top [t_value o]) as [r|er| |]; cbn [rbind]; try done.
  - apply IH. eauto.
  - apply X; eauto.
Qed.
Lemma text_no_panic path vf : first_documents s -> instructions_text e builtin sprig (sr_text s) (sr_first s) sed path vf <> Panic.
Proof.
  intros FD. unfold instructions_text. destruct vf as [fs|]; [|by destruct (sr_text s path)].
  destruct (read_values_settles fs) as [NP _]. destruct (read_values _ _ fs) as [ds| | |] eqn:V; try done. cbn [rbind].
  assert (AD : Forall (fun d => exists text, sr_first s text = Some d) ds).
  { clear -V. revert ds V. induction fs as [|f fs IH]; intros ds V; cbn [read_values] in V; [by injection V as <-|].
    destruct (sr_text s f); [|done]. destruct (sr_first s _) eqn:D; [|done]. apply ProofDecode.rbind_Ok in V as (ds' & V & [= <-]). constructor; [eauto|by apply IH]. }
  assert (AD' : Forall (fun d => t_kind d = KDocument /\ exists top rest, t_content d = Some (top :: rest) /\ everywhere (fun t => t_kind t <> KDocument) top) ds).
  { eapply Forall_impl; [exact AD|]. intros d [text D]. by apply FD in D. }
  destruct (get_values sed ds) as [v| | |] eqn:G; cbn [rbind]; try done.
  - destruct (sr_text s path); [|done]. unfold render_instructions. destruct (_ : option P); [|done]. by destruct (_ : option (list N)).
  - unfold get_values in G. destruct ds as [|d ds]; [done|]. apply Forall_cons in AD' as [(_ & t & r & C & _) AD'].
    destruct (merge_node sed d ds) eqn:M; try done. by eapply merge_documents in M; eauto.
Qed.

Lemma decode_settles d : (forall l, d = Some l -> l < length h0) -> ProofDecode.settles (decode_instructions compile to_int h0 d).
Proof.
  intros IN. unfold decode_instructions. destruct d as [l|]; [|apply ProofDecode.settles_err]. destruct (lookup_lt_is_Some_2 h0 l (IN l eq_refl)) as [n ->].
  destruct (i_kind (n_info n)); try apply ProofDecode.settles_err. destruct (n_content n) as [[|c r]|]; try apply ProofDecode.settles_err.
  apply ProofDecode.settles_bind; [apply (ProofDecode.d_instructions_spec h0 compile to_int c)|]. intros; apply ProofDecode.settles_ok.
Qed.
Lemma queries_settle parse qs : ProofDecode.settles (set_queries compile h0 parse qs).
Proof.
  induction qs as [|t qs IH]; [apply ProofDecode.settles_ok|]. cbn [set_queries]. apply ProofDecode.settles_bind; [|intros; apply ProofDecode.settles_bind; [done|intros; apply ProofDecode.settles_ok]].
  unfold set_query. destruct (parse t) as [[c|]|]; [|apply ProofDecode.settles_ok|apply ProofDecode.settles_err]. apply (ProofDecode.d_query_spec h0 compile c).
Qed.
Lemma actions_settle parse acts : forall a, ProofDecode.settles (set_actions h0 parse a acts).
Proof.
  induction acts as [|t acts IH]; intros a; [apply ProofDecode.settles_ok|]. cbn [set_actions]. destruct (parse t) as [[c|]|]; [|done|apply ProofDecode.settles_err].
  apply ProofDecode.settles_bind; [apply (ProofDecode.d_action_spec h0 compile c)|done].
Qed.
Lemma flags_settle parse qs acts value : ProofDecode.settles (read_flags compile h0 parse qs acts value).
Proof.
  unfold read_flags. apply ProofDecode.settles_bind; [apply queries_settle|]. intros q _. apply ProofDecode.settles_bind; [apply actions_settle|]. intros a _.
  destruct q; [apply ProofDecode.settles_ok|]. destruct (parse value); [apply ProofDecode.settles_ok|apply ProofDecode.settles_err].
Qed.

(** Nothing is nil. *)
Lemma all_some_total {A B} (f : A -> option B) l : Forall (fun x => exists a, x = Some a /\ f a <> None) l -> all_some f l <> None.
Proof.
  induction 1 as [|x l (a & -> & H) _ IH]; cbn [all_some]; [done|]. destruct (f a); [|done]. by destruct (all_some f l).
Qed.
Lemma overlay_total o : Forall (fun g => exists cs, g = Some cs /\ Forall (fun c => c <> None) cs) (ro_docqueries o) -> plain_overlay z o <> None.
Proof.
  intros H. unfold plain_overlay. destruct (all_some (all_some (plain_condition z)) (ro_docqueries o)) eqn:E; [done|]. exfalso. revert E. apply all_some_total.
  eapply Forall_impl; [exact H|]. intros g (cs & -> & C). exists cs. split; [done|]. apply all_some_total. eapply Forall_impl; [exact C|]. intros [c|]; [|done]. intros _. by exists c.
Qed.
Lemma no_nulls_plain i : no_nulls i -> plain_instructions z i <> None.
Proof.
  intros [H1 H2].
  assert (OV : forall l : raw_overlays, Forall (fun x => exists o, x = Some o /\ Forall (fun g => exists cs, g = Some cs /\ Forall (fun c => c <> None) cs) (ro_docqueries o)) l -> all_some (plain_overlay z) l <> None).
  { intros l Hl. apply all_some_total. eapply Forall_impl; [exact Hl|]. intros x (o & -> & G). exists o. split; [done|]. by apply overlay_total. }
  unfold plain_instructions. specialize (OV _ H1) as O1. destruct (all_some (plain_overlay z) (fst i)); [|done].
  destruct (all_some (plain_entry z) (snd i)) eqn:E; [done|]. exfalso. revert E. apply all_some_total. eapply Forall_impl; [exact H2|].
  intros x (en & -> & A & B). exists en. split; [done|]. unfold plain_entry. specialize (OV _ A). destruct (all_some (plain_overlay z) (e_overlays en)); [|done].
  destruct (all_some (plain_document z) (e_documents en)) eqn:E; [done|]. exfalso. revert E. apply all_some_total. eapply Forall_impl; [exact B|].
  intros y (d & -> & D). exists d. split; [done|]. unfold plain_document. apply overlay_total in D || idtac.
  assert (X : all_some (plain_overlay z) (d_overlays d) <> None).
  { apply all_some_total. eapply Forall_impl; [exact D|]. intros x (o & -> & G). exists o. split; [done|]. by apply overlay_total. }
  by destruct (all_some (plain_overlay z) (d_overlays d)).
Qed.
Lemma said_plain cl f : queries_said s h0 cl -> read_flags compile h0 (parse_flag h0 s) (cl_queries cl) (cl_actions cl) (cl_value cl) = Ok (Some f) -> plain_flags z f <> None.
Proof.
  intros QS H. unfold read_flags in H. apply ProofDecode.rbind_Ok in H as (q & Hq & H). apply ProofDecode.rbind_Ok in H as (a & _ & H).
  assert (f = mkFlagOverlay q (fo_value f) (fo_action f)) as -> by (destruct q; [done|]; destruct (parse_flag h0 s (cl_value cl)); [|done]; by injection H as <-).
  unfold plain_flags. cbn [fo_query]. assert (X : all_some (fun q0 : query => Some q0) q <> None); [|by destruct (all_some _ q)].
  apply all_some_total. clear H. unfold queries_said in QS. revert q Hq. induction (cl_queries cl) as [|t ts IH]; intros q Hq; cbn [set_queries] in Hq; [by injection Hq as <-|].
  apply ProofDecode.rbind_Ok in Hq as (x & Hx & Hq). apply ProofDecode.rbind_Ok in Hq as (r & Hr & [= <-]). constructor; [|apply IH; [|done]; intros t' T'; apply QS; by right].
  destruct (QS t ltac:(by left)) as [NE NN]. unfold set_query, parse_flag in Hx. destruct (sr_parse s t) as [[l|]|] eqn:Pa; [| |done].
  - unfold content_of in Hx. destruct (h0 !! l) as [n|] eqn:L.
    + destruct (n_content n) as [[|c rest]|] eqn:C.
      * exfalso. apply NE. right. exists l. split; [done|]. intros n' c r' N' C'. congruence.
      * destruct (ProofDecode.d_query_spec h0 compile c) as (_ & N1 & _). destruct x as [x|]; [by exists x|]. apply N1 in Hx. exfalso. apply (NN c); [|done]. by exists l, n, rest.
      * exfalso. apply NE. right. exists l. split; [done|]. intros n' c r' N' C'. congruence.
    + exfalso. apply NE. right. exists l. split; [done|]. intros n' c r' N' C'. congruence.
  - exfalso. apply NE. by left.
Qed.

(** The inputs of a run can be looked up. *)
Lemma inputs_usable cl common (y : list (entry nat (document nat) loc)) adhoc : paths_usable s cl ->
  usable (mkInputs (sr_fs s) (sr_cwd s) (sr_docs s) (sr_stdin s) (fun _ => Some (common, y))) (mkOptions (cl_instructions cl) (cl_path cl) adhoc : options nat).
Proof.
  intros (CWD & Hwalk & DP). set (w := mkInputs _ _ _ _ _). set (op := mkOptions _ _ _).
  set (base := match cl_instructions cl with [] => [] | p => path_dir (path_abs (sr_cwd s) p) end) in *.
  assert (BASE : base_of w op = base) by (unfold base_of, base; cbn [op op_instructions w in_cwd]; by destruct (cl_instructions cl)).
  assert (DASH : forall p, p = lit "-" \/ resolve base p <> lit "-" \/ (cl_instructions cl = [])).
  { intros p. unfold base. destruct (cl_instructions cl) as [|x q] eqn:CI; [auto|]. right. left. apply resolve_abs, path_dir_abs.
    unfold path_abs. destruct (is_abs (x :: q)) eqn:IA; [by apply clean_abs|by apply join_abs]. }
  split; [by rewrite BASE|]. intros common' y' Hs. rewrite BASE. apply Forall_app. split.
  - unfold instructions_say in Hs. cbn [op op_instructions w in_decode] in Hs. destruct (cl_instructions cl) as [|x q] eqn:CI; [injection Hs as <- <-; constructor|].
    apply Forall_forall. intros en _. unfold dash_is_stdin. destruct (DASH (e_path en)) as [?|[?|?]]; auto; done.
  - unfold path_option. cbn [op op_path]. destruct (cl_path cl) as [|x q] eqn:Hq; [constructor|]. apply Forall_cons. split; [|constructor].
    unfold dash_is_stdin. cbn [e_path]. destruct (DASH (x :: q)) as [?|[?|CI]]; auto. unfold base. rewrite CI. by apply DP.
Qed.

(** Removing comments ends, at a point that depends only on what the inputs are. *)
Lemma trees_of ps : well_formed s h0 z -> exists tss, forall R : list (entry nat (document nat) loc), map e_path R = ps -> (forall en, In en R -> documents s (e_path en) = Some (e_nodes en)) ->
  map (map label) tss = map e_nodes R /\ Forall (Forall (reads h0)) tss.
Proof.
  intros WF. induction ps as [|p ps [tss IH]]; [exists []; intros [|]; done|]. destruct (documents s p) as [ds|] eqn:D.
  - destruct (wf_docs _ _ _ WF p ds D) as (docs & L & [O _] & _). exists (docs :: tss). intros [|en R] [= <- EP] HD. destruct (IH R EP) as [A B]; [intros en' I; apply HD; by right|].
    rewrite HD in D by (by left). injection D as <-. cbn [map]. split; [by rewrite L, A|by constructor].
  - exists []. intros [|en R] [= <- EP] HD. by rewrite HD in D by (by left).
Qed.

Theorem ready_outcome cl : fresh_nodes s h0 z -> well_formed s h0 z -> paths_usable s cl ->
  exists enough, forall pfuel grow, enough <= pfuel ->
    let r := snd (get_ready e builtin sprig sed compile to_int h0 z pfuel grow s cl) in
    r <> Fuel /\
    (first_documents s -> queries_said s h0 cl -> (forall i, instructions_are e builtin sprig sed compile to_int h0 s cl i -> no_nulls i) -> r <> Panic).
Proof.
  intros FN WF PU.
  assert (PD : forall pfuel grow os R, prepare e builtin sprig sed compile to_int h0 z pfuel grow s cl = Ok (os, R) ->
    forall en, In en R -> documents s (e_path en) = Some (e_nodes en)).
  { intros pfuel grow os R H. by destruct (prepared_parts _ _ _ _ _ _ _ _ _ _ _ _ _ _ H PU) as (_ & _ & D & _). }
  destruct (flags_settle (parse_flag h0 s) (cl_queries cl) (cl_actions cl) (cl_value cl)) as [FP FF].
  assert (IF : read_instructions_file e builtin sprig sed compile to_int h0 s cl <> Fuel /\ (first_documents s -> read_instructions_file e builtin sprig sed compile to_int h0 s cl <> Panic)).
  { unfold read_instructions_file. destruct (cl_instructions cl) as [|x p]; [done|]. pose proof (text_no_fuel (x :: p) (cl_values cl)) as T1. pose proof (text_no_panic (x :: p) (cl_values cl)) as T2.
    destruct (instructions_text _ _ _ _ _ _ _ _) as [text| | |]; cbn [rbind]; [|done|split; [done|]; intros X; by destruct (T2 X)|done].
    destruct (sr_parse s text) as [d|] eqn:SP; [|done]. destruct (decode_settles d) as [A B]; [|done]. intros l ->. by eapply (fn_texts _ _ _ FN). }
  unfold get_ready, prepare in *. destruct (read_flags _ _ _ _ _ _) as [fl| | |] eqn:FL; cbn [rbind snd]; [|by exists 0..].
  destruct (read_instructions_file _ _ _ _ _ _ _ _ _) as [i| | |] eqn:RI; cbn [rbind snd]; [|by exists 0| |by destruct (proj1 IF)].
  2: { exists 0. intros pfuel grow _. split; [done|]. intros X _ _. by destruct (proj2 IF X). }
  - pose proof (instructions_read _ _ _ _ _ _ _ s cl i RI) as HI.
    destruct (plain_instructions z i) as [[common y]|] eqn:PI; [|exists 0; intros pfuel grow _; cbn [snd]; split; [done|]; intros _ _ NN _; by apply (no_nulls_plain i (NN i HI))].
    destruct fl as [f|]; [destruct (plain_flags z f) as [o|] eqn:PF|].
    2: { exists 0. intros pfuel grow _. cbn [snd]. split; [done|]. intros _ QS _ _. by apply (said_plain cl f QS FL). }
    all: set (w := mkInputs _ _ _ _ _) in *; set (op := mkOptions _ _ _) in *.
    all: assert (USE : usable w op) by (by apply inputs_usable).
    all: destruct (C58_all_or_error w op USE) as [F1 H1].
    all: destruct (instructions_say w op) as [[cs ys]|] eqn:SAY;
      [|exists F1; intros pfuel grow L; destruct (H1 pfuel grow L) as [[[R G] _]|[[er G] _]]; rewrite G in *; cbn [rbind snd]; [|done];
        destruct (C56_inputs_loaded_once pfuel grow w op R USE G) as (? & ? & X & _); congruence].
    all: destruct (trees_of (dedup [] (map e_path (named_inputs w op ys))) WF) as [tss TS].
    all: destruct (uncomment_all_ends tss) as [F2 H2].
    all: exists (F1 + F2); intros pfuel grow L; destruct (H1 pfuel grow ltac:(lia)) as [[[R G] _]|[[er G] _]]; [|rewrite G; cbn [rbind snd]; done].
    all: eassert (PD' : forall en, In en R -> documents s (e_path en) = Some (e_nodes en)) by
      (pose proof (PD pfuel grow) as X; cbn [rbind] in X; rewrite PI in X; try rewrite PF in X; unfold w, op in G; rewrite G in X; exact (X _ R eq_refl)).
    all: rewrite G; cbn [rbind].
    all: destruct (cl_uncomment cl); [|done].
    all: destruct (C56_inputs_loaded_once pfuel grow w op R USE G) as (cs' & ys' & X & EP & _); rewrite SAY in X; injection X as <- <-.
    all: destruct (TS R EP PD') as [T1 T2]; destruct (H2 pfuel h0 h0 ltac:(lia) (shape_refl h0) T2) as [h' U]; rewrite T1 in U.
    all: unfold bind; rewrite U; done.
Qed.
End lemmas.
