(** C69, C70: overlays are functions on document trees. *)
From Verif Require Import Prelude GoStrings Format Yaml Heap HeapActions Builder ActionNames Overlay SpecMerge SpecHeap SpecDelete SpecQuery SpecReach SpecSame SpecOverlay
  ProofHeap ProofHeapActions ProofMerge ProofSound Finder ProofFinder ProofInject SpecInject SpecMeaning ProofMeaning ProofAliasFree ProofMeaningApply ProofMeaningKeys
  ProofExecute ProofExecuteProps Queue PropsQueue Paths SpecPaths Files SpecFiles Slices Prepare SpecPrepare
  Render SpecRender SpecOutcome Pipeline SpecPipeline Execute SpecExecute SpecDocs PropsDocs Decode SpecDecode PropsDecode Flags Template HeapComments Whole SpecWhole ProofUncomment ProofWhole
  ProofForest PropsWhole Deciders Examples ExamplesHeap Witness PropsDelete PropsReplace.
From Verif Require Import MergeTree.

(** Where the theorem speaks: a document [doc] of [h] (a tree, nothing shared,
    mappings with as many keys as values), overlays [os] whose values lie
    elsewhere, and their meanings [ots].  Document queries compare values only if
    no node has an Alias pointer. *)
Record situated (d : nat) (ro : loc -> Prop) (h : heap) (doc : ltree)
    (os : list overlay) (ots : list toverlay) : Prop := mkSituated {
  un_proper : proper h doc;
  un_apart : apart ro h [doc];
  un_means : Forall2 (means d ro h) os ots;
  un_values : Forall (fun ot => well_paired (to_value ot) /\ branching (to_value ot)) ots;
  un_aliases : Forall without_values ots \/ alias_free h }.
(** ... and no overlay merges into a node inside one it has merged into already.  (Replacing, combining,
    deleting and injecting need no such condition.) *)
Record understood (sed : sed_engine) (dflt : list N) (d : nat) (ro : loc -> Prop) (h : heap) (doc : ltree)
    (os : list overlay) (ots : list toverlay) : Prop := mkUnderstood {
  un_situated : situated d ro h doc os ots;
  un_plainly : all_plainly sed dflt ots (erase doc) }.

(** The run ends as the function on trees says: with its tree in the document, with its
    error, or with a crash; other nodes are untouched. *)
Definition behaves_as (meaning : res tree) (h : heap) (doc : ltree) (h' : heap) (r : res unit) (doc' : ltree) : Prop :=
  label doc' = label doc /\ own h' [doc'] /\ (forall l, l < length h -> l ∉ flat [doc] -> h' !! l = h !! l) /\
  match meaning with
  | Ok t => r = Ok tt /\ erase doc' = t
  | Err e => r = Err e
  | Panic => r = Panic
  | Fuel => False
  end.

Lemma t_apply_each_no_fuel sed dflt ots : forall t, t_apply_each sed dflt ots t <> Fuel.
Proof.
  induction ots as [|o ots IH]; intros t; cbn [t_apply_each]; [done|]. pose proof (t_apply_no_fuel sed dflt o t) as X.
  destruct (t_apply sed dflt o t); cbn [rbind]; [apply IH|done..].
Qed.
Lemma edits_behave F h doc h' r doc' gs : own h [doc] -> trans h [doc] h' (doc' :: gs) -> label doc' = label doc -> agree F r (erase doc') -> F <> Fuel ->
  behaves_as F h doc h' r doc'.
Proof.
  intros O T L A N. split; [done|]. split; [|split; [by apply T|]].
  - eapply own_head. exact (own_trans _ _ _ _ O T).
  - destruct F; cbn [agree] in A; try done.
Qed.

(** *** C69: what a list of overlays does to a document is a function of its tree *)
Theorem C69_overlays_are_functions_on_trees sed dflt d ro h doc os ots : understood sed dflt d ro h doc os ots ->
  exists enough, forall fuel, enough <= fuel -> exists h' r doc',
    apply_each fuel sed dflt os (label doc) h = (h', r) /\
    behaves_as (t_apply_each sed dflt ots (erase doc)) h doc h' r doc'.
Proof.
  intros [[(O & W & B) A ME SV AF] PL].
  destruct (each_meaning sed dflt ro d os ots h doc [] O A (conj W B) ME SV AF PL) as [F H]. exists F. intros fuel Hf.
  destruct (H fuel Hf) as (h' & r & doc' & gs & E & T & L & AG & _). exists h', r, doc'. split; [done|].
  eapply edits_behave; try done. apply t_apply_each_no_fuel.
Qed.
(** The same of any run that ends. *)
Theorem C69_every_run_that_ends sed dflt d ro h doc os ots fuel h' r : understood sed dflt d ro h doc os ots ->
  apply_each fuel sed dflt os (label doc) h = (h', r) -> r <> Fuel ->
  exists doc', behaves_as (t_apply_each sed dflt ots (erase doc)) h doc h' r doc'.
Proof.
  intros [[(O & W & B) A ME SV AF] PL] E N.
  destruct (each_any_fuel sed dflt ro d os ots h doc fuel h' r O A (conj W B) ME SV AF PL E N) as (doc' & gs & T & L & AG & _).
  exists doc'. eapply edits_behave; try done. apply t_apply_each_no_fuel.
Qed.
(** One overlay. *)
Theorem C69_one_overlay sed dflt d ro h doc o ot : understood sed dflt d ro h doc [o] [ot] ->
  exists enough, forall fuel, enough <= fuel -> exists h' o' r doc',
    apply fuel sed dflt o (label doc) h = (h', o', r) /\ behaves_as (t_apply sed dflt ot (erase doc)) h doc h' r doc'.
Proof.
  intros [[(O & W & B) A ME SV AF] PL]. inversion ME as [|? ? ? ? M1 _]; subst. apply Forall_cons in SV as [SV _]. destruct PL as [PL _].
  assert (AF1 : without_values ot \/ alias_free h) by (destruct AF as [F|]; [apply Forall_cons in F as [? _]; by left|by right]).
  destruct (apply_meaning sed dflt o ot ro d h doc [] O A (conj W B) SV M1 AF1 PL) as [F H]. exists F. intros fuel Hf.
  destruct (H fuel Hf) as (h' & o' & r & doc' & gs & E & T & L & AG & _). exists h', o', r, doc'. split; [done|].
  eapply edits_behave; try done. apply t_apply_no_fuel.
Qed.
(** Documents that look the same are treated the same, wherever their nodes and the
    overlays' values are stored. *)
Theorem C69_only_the_tree_matters sed dflt d1 ro1 h1 doc1 os1 d2 ro2 h2 doc2 os2 ots fuel1 fuel2 h1' r1 h2' r2 :
  understood sed dflt d1 ro1 h1 doc1 os1 ots -> understood sed dflt d2 ro2 h2 doc2 os2 ots -> erase doc1 = erase doc2 ->
  apply_each fuel1 sed dflt os1 (label doc1) h1 = (h1', r1) -> r1 <> Fuel ->
  apply_each fuel2 sed dflt os2 (label doc2) h2 = (h2', r2) -> r2 <> Fuel ->
  r1 = r2 /\
  (r1 = Ok tt -> exists doc1' doc2', label doc1' = label doc1 /\ label doc2' = label doc2 /\
     own h1' [doc1'] /\ own h2' [doc2'] /\ erase doc1' = erase doc2').
Proof.
  intros U1 U2 EQ E1 N1 E2 N2.
  destruct (C69_every_run_that_ends _ _ _ _ _ _ _ _ _ _ _ U1 E1 N1) as (doc1' & L1 & O1 & _ & X1).
  destruct (C69_every_run_that_ends _ _ _ _ _ _ _ _ _ _ _ U2 E2 N2) as (doc2' & L2 & O2 & _ & X2).
  rewrite <- EQ in X2. destruct (t_apply_each sed dflt ots (erase doc1)).
  - destruct X1 as [-> X1], X2 as [-> X2]. split; [done|]. intros _. exists doc1', doc2'. split_and!; try done. congruence.
  - rewrite X1, X2. split; [done|]. discriminate.
  - rewrite X1, X2. split; [done|]. discriminate.
  - done.
Qed.
(** Key paths are queries on trees. *)
Theorem C69_key_paths_are_queries_on_trees text names : computes (Finder.dotted text names) (key_query text names).
Proof. apply dotted_computes. Qed.
(** ... and the position they give is that of the node with this path of keys. *)
Theorem C69_key_paths_find_the_node text names t c rest : t_kind t = KDocument -> children t = c :: rest ->
  map (fun p => node_at p t) (tq_find (key_query text names) t) = match tree_at names c with Some v => [Some v] | None => [] end.
Proof.
  intros K C. cbn [key_query tq_find]. rewrite K, C.
  assert (X : forall names c, match key_position names c with Some p => node_at p c | None => None end = tree_at names c /\
     (key_position names c = None <-> tree_at names c = None)).
  { clear. induction names as [|k r IH]; intros c; cbn [key_position tree_at]; [done|].
    destruct (t_kind c); try done.
    assert (KI : match key_index k (children c) with Some j => exists v, children c !! j = Some v /\ lookup_key k (children c) = Some v
       | None => lookup_key k (children c) = None end).
    { generalize (children c). clear. induction l as [|x|x y ts IH] using list_pair_ind; [done|done|]. unfold lookup_key in *. cbn [key_index pairs lookup_pairs].
      destruct (decide (t_value x = k)) as [E|E].
      - exists y. done.
      - destruct (key_index k ts) as [j|]; cbn [fmap option_fmap option_map].
        + destruct IH as (v & H1 & H2). exists v. done.
        + done. }
    destruct (key_index k (children c)) as [j|].
    - destruct KI as (v & Hv & ->). rewrite Hv. destruct (IH v) as [IH1 IH2]. destruct (key_position r v) as [p|]; cbn [fmap option_fmap option_map].
      + split; [cbn [node_at]; by rewrite Hv|]. split; [discriminate|]. intros E. by apply IH2 in E.
      + split; [done|]. split; [|done]. intros _. by apply IH2.
    - by rewrite KI. }
  destruct (X names c) as [X1 X2]. destruct (key_position names c) as [p|].
  - cbn [map node_at]. rewrite C. change ((c :: rest) !! 0) with (Some c). cbn beta iota. rewrite X1. destruct (tree_at names c) as [v|]; [done|]. discriminate (proj2 X2 eq_refl).
  - by rewrite <- X1.
Qed.

(** *** C70: a whole run writes what the overlays mean *)
Section whole.
Context {F P : Type} (e : engine F P) (builtin sprig : list N -> option F) (sed : sed_engine).
Context (compile : list N -> option (heap -> loc -> list loc)) (to_int : info -> option Z).
Context (h0 : heap) (z : loc).
Local Notation instructions_are := (instructions_are e builtin sprig sed compile to_int h0).

(** What is decoded from an input, as far as the overlays see it. *)
Definition as_processed (cl : command_line) (t : tree) : tree := if cl_uncomment cl then remove_comments t else t.

(** A document of a file, after the removal of comments. *)
Lemma document_ready pfuel grow s cl h1 os R k f j doc d ro ov ots :
  get_ready e builtin sprig sed compile to_int h0 z pfuel grow s cl = (h1, Ok (os, R)) ->
  set_up (map to_file R) os h0 -> Forall (docs_apart h0) (map to_file R) ->
  map to_file R !! k = Some f -> yf_nodes f !! j = Some (label doc) -> Forall (fun o => In o os) ov ->
  situated d ro h0 doc ov ots ->
  exists doc', label doc' = label doc /\ erase doc' = as_processed cl (erase doc) /\ situated d ro h1 doc' ov ots.
Proof.
  intros HG SU HA Hk Hj HO [(O & W & B) A ME SV AF]. destruct (ready _ _ _ _ _ _ _ _ _ _ _ _ _ _ _ HG) as [_ WP]. pose proof (wiped_shape _ _ _ WP) as SH.
  set (P' := fun x => cl_uncomment cl = true /\ _) in WP.
  assert (ME1 : Forall2 (means d ro h1) ov ots).
  { eapply ProofPrepare.Forall2_in; [exact ME|]. intros o ot Ho M. eapply means_wiped; [exact WP| |exact M]. intros v x V X [_ (f' & d' & F1 & D1 & B1)].
    eapply (su_values_apart _ _ _ SU f' d' o v x); try done; [|by apply below_reach]. rewrite Forall_forall in HO. apply HO. by apply elem_of_list_In. }
  assert (AF1 : Forall without_values ots \/ alias_free h1) by (destruct AF; [by left|right; by eapply alias_free_shape]).
  unfold as_processed. destruct (cl_uncomment cl) eqn:CU.
  - assert (NL : ~ P' (label doc)).
    { intros [_ (f' & d' & F1 & D1 & B1)]. destruct (decide (d' = label doc)) as [->|NE].
      - destruct O as [OR ND]. inversion OR as [|? ? R1 _]; subst. apply (below_locs _ _ _ R1) in B1. destruct doc as [l i c]. cbn [label l_content] in *.
        unfold flat in ND. cbn [map concat] in ND. rewrite app_nil_r, locs_eq in ND. by apply NoDup_cons in ND as [? _].
      - apply elem_of_list_In, elem_of_list_lookup in F1 as [k' F1]. apply elem_of_list_In, elem_of_list_lookup in D1 as [j' D1].
        apply below_reach in B1. destruct (decide (k' = k)) as [->|NK].
        + assert (f' = f) as -> by congruence. assert (NJ : j' <> j) by congruence. rewrite Forall_forall in HA.
          eapply (HA f (elem_of_list_lookup_2 _ _ _ Hk) j' j); try done. constructor.
        + eapply (su_apart _ _ _ SU k' k f' f d' (label doc) (label doc)); try done; [| |constructor]; apply elem_of_list_In; by eapply elem_of_list_lookup_2. }
    assert (O1 : own h1 [l_uncomment doc]).
    { apply (own_uncomment P' h0 h1 [doc] WP O); [by constructor|]. intros doc0 x [<-|[]] Bx. split; [done|]. exists f, (label doc).
      split; [apply elem_of_list_In; by eapply elem_of_list_lookup_2|]. split; [apply elem_of_list_In; by eapply elem_of_list_lookup_2|done]. }
    exists (l_uncomment doc). split; [apply uncomment_label|]. split; [apply uncomment_erase|]. constructor; try done.
    + split; [done|]. rewrite uncomment_erase. split; [by apply uncomment_paired|by apply uncomment_branching].
    + intros l R1. destruct (A l R1) as [A1 A2]. destruct SH as [-> _]. split; [done|]. unfold flat in *. cbn [map concat] in *. by rewrite uncomment_locs.
  - assert (h1 = h0) as ->. { unfold get_ready in HG. rewrite CU in HG. destruct (prepare _ _ _ _ _ _ _ _ _ _ _ _) as [[]| | |]; try discriminate. by injection HG. }
    exists doc. split; [done|]. split; [done|]. by constructor.
Qed.

(** If a run succeeds, the tree rendered for a document is the meaning of the overlays
    meant for it, applied to the tree decoded (less its comments if they are to be removed);
    and what has been written is the texts of these trees, each input's once, at its place
    (C88). *)
Theorem C70_files_hold_the_meaning fuel dflt enc dk cfg w0 pfuel grow s cl h1 os R n st :
  get_ready e builtin sprig sed compile to_int h0 z pfuel grow s cl = (h1, Ok (os, R)) ->
  let files := map to_file R in
  let base := match cl_instructions cl with [] => [] | p => path_dir (path_abs (sr_cwd s) p) end in
  walks_files (sr_fs s) base ->
  set_up files os h0 -> Forall (docs_apart h0) files ->
  execution fuel sed dflt enc dk cfg files os h1 w0 n st -> crashed st = false -> main st = MReturn None ->
  exists i common y adhoc,
    instructions_are s cl i /\ instructions_stand_for z i common y /\ flags_say compile h0 z s cl adhoc /\
    (Forall (dash_is_stdin base) y -> (cl_path cl = lit "-" \/ resolve base (cl_path cl) <> lit "-") ->
     exists text, (forall p, In p (map e_path (all_inputs s cl y)) -> exists ds ts,
       (if seq_eqb p (lit "-") then sr_stdin s else sr_docs s p) = Some ds /\
       (* the tree rendered for document [j] of the input is the meaning of the overlays meant for it *)
       length ts = length ds /\
       (forall j doc t d ro ots, ds !! j = Some (label doc) -> ts !! j = Some t ->
          situated d ro h0 doc (overlays_for (room_left grow common adhoc) common adhoc (all_inputs s cl y) p j) ots ->
          all_plainly sed dflt ots (as_processed cl (erase doc)) ->
          t_apply_each sed dflt ots (as_processed cl (erase doc)) = Ok t) /\
       encode_nodes enc (oc_styles cfg) ts = Ok (text p)) /\
     (* and the texts of these trees are what has been written *)
     texts_written (all_inputs s cl y) text (oc_stdout cfg) (oc_dir cfg) w0 (outside st)).
Proof.
  intros HG files base HW SU HA E NC M. destruct (ready _ _ _ _ _ _ _ _ _ _ _ _ _ _ _ HG) as [HP WP]. pose proof (wiped_shape _ _ _ WP) as SH.
  assert (HA1 : Forall (docs_apart h1) files) by (eapply Forall_impl; [exact HA|]; intros f; by apply docs_apart_shape).
  destruct (from_texts_to_files e builtin sprig sed compile to_int h0 z h1 fuel dflt enc dk cfg w0 pfuel grow s cl os R n st HP HW (set_up_shape _ _ _ _ SH SU) HA1 E NC M)
    as (i & common & y & adhoc & H1 & H2 & H3 & H4).
  exists i, common, y, adhoc. split; [done|]. split; [done|]. split; [done|]. intros G2 G3. destruct (H4 G2 G3) as (text & X & Y). exists text. split; [|done]. intros p Hp.
  destruct (X p Hp) as (k & f & ds & ts & K1 & KN & KO & K2 & K3 & K4). clear X. exists ds, ts. split; [done|].
  split; [|split; [|done]].
  { apply Forall2_length in K3. by rewrite imap_length in K3. }
  intros j doc t d ro ots Dj Tj SI PL.
  destruct (document_ready pfuel grow s cl h1 os R k f j doc d ro _ ots HG SU HA K1 ltac:(by rewrite KN) (KO j) SI) as (doc1 & L1 & E1 & S1).
  assert (U : understood sed dflt d ro h1 doc1 (overlays_for (room_left grow common adhoc) common adhoc (all_inputs s cl y) p j) ots) by (constructor; [done|by rewrite E1]).
  rewrite <- L1 in Dj. rewrite <- E1.
  assert (IJ : imap pair ds !! j = Some (j, label doc1)) by (by rewrite list_lookup_imap, Dj).
  pose proof (Forall2_lookup_lr _ _ _ _ _ _ K3 IJ Tj) as X. cbn [fst snd] in X.
  destruct (apply_each fuel sed dflt _ (label doc1) h1) as [h' r] eqn:EA. destruct X as [-> SN].
  destruct (C69_every_run_that_ends _ _ _ _ _ _ _ _ _ _ _ U EA ltac:(discriminate)) as (doc' & L & O & _ & B).
  destruct (t_apply_each sed dflt ots (erase doc1)) as [t'| | |]; try discriminate; [|done]. destruct B as [_ <-].
  rewrite <- L in SN. apply (f_equal Ok). symmetry. eapply snapshot_erase; [|exact SN]. destruct O as [O _]. by inversion O.
Qed.
End whole.

(** *** Concrete cases *)
Fixpoint inside_outb (ps : list (list nat)) : bool :=
  match ps with [] => true | p :: r => forallb (fun q => negb (SpecMeaning.below p q)) r && inside_outb r end.
Lemma inside_outb_sound ps : inside_outb ps = true -> inside_out ps.
Proof.
  induction ps as [|p r IH]; [done|]. cbn [inside_outb inside_out]. rewrite andb_true_iff, forallb_forall. intros [H1 H2]. split; [|auto].
  intros q Q. specialize (H1 q Q). by destruct (SpecMeaning.below p q).
Qed.
Definition plainlyb (o : toverlay) (t : tree) : bool :=
  if tqualifies (to_docqueries o) t then match to_action o with AMerge | AInvalid => inside_outb (found (to_queries o) t) | _ => true end else true.
Fixpoint all_plainlyb (sed : sed_engine) (dflt : list N) (os : list toverlay) (t : tree) : bool :=
  match os with
  | [] => true
  | o :: r => plainlyb o t && match t_apply sed dflt o t with Ok t' => all_plainlyb sed dflt r t' | _ => true end
  end.
Lemma all_plainlyb_sound sed dflt os : forall t, all_plainlyb sed dflt os t = true -> all_plainly sed dflt os t.
Proof.
  induction os as [|o os IH]; intros t; cbn [all_plainlyb all_plainly]; [done|]. rewrite andb_true_iff. intros [H1 H2]. split.
  - unfold plainlyb in H1. unfold plainly. intros Q. rewrite Q in H1. destruct (to_action o); try done; by apply inside_outb_sound.
  - intros t' E. rewrite E in H2. by apply IH.
Qed.
Lemma alias_free_ex h : forallb (fun n => noneb (n_alias n)) h = true -> alias_free h.
Proof. rewrite forallb_forall. intros H l n Hl. apply noneb_sound, H, elem_of_list_In. by eapply elem_of_list_lookup_2. Qed.

Definition ex_tq (q : query) (names : list (list N)) : tquery := key_query (q_text q) names.
Definition tq_name := ex_tq q_name [lit "metadata"; lit "name"].
Definition tq_root := ex_tq q_root [].
Definition tq_missing := ex_tq q_missing [lit "metadata"; lit "annotations"; lit "a"].
(** Set metadata.name to x if there is one; if it is x, merge {metadata: .., ports: .., kind: ..};
    inject x at metadata.annotations.a. *)
Definition ex_os : list overlay :=
  [ mkOverlay [q_name] ex_x AReplace [[mkCondition [q_missing] ex_zero]; [mkCondition [q_name] ex_zero]] MDefault None None;
    mkOverlay [q_root] ex_val AMerge [[mkCondition [q_name] ex_x]] MDefault None None;
    mkOverlay [q_missing] ex_x AMerge [] MInject None None ].
Definition ex_ots : list toverlay :=
  [ mkTOverlay [tq_name] (sc "x") AReplace [[mkTCondition [tq_missing] None]; [mkTCondition [tq_name] None]] MDefault None;
    mkTOverlay [tq_root] ex_n AMerge [[mkTCondition [tq_name] (Some (sc "x"))]] MDefault None;
    mkTOverlay [tq_missing] (sc "x") AMerge [] MInject None ].
Lemma ex_value l t : vread 20 (between (Datatypes.S ex_doc) (length ex_heap)) ex_heap l = Some t -> value_at 20 ex_ro ex_heap l t.
Proof. apply vread_value. Qed.
Example C69_applies :
  understood no_sed [] 20 ex_ro ex_heap ex_tree ex_os ex_ots /\
  exists t, t_apply_each no_sed [] ex_ots (erase ex_tree) = Ok t /\ t <> erase ex_tree /\
    map (fun p => node_at p t) (found [tq_missing] t) = [Some (sc "x")] /\
    map (fun p => option_map t_value (node_at p t)) (found [tq_name] t) = [Some (lit "api")].
Proof.
  assert (C : forall text names, computes (Finder.dotted text names) (key_query text names)) by (intros; apply dotted_computes).
  assert (VX : value_at 20 ex_ro ex_heap ex_x (sc "x")) by (apply ex_value; vm_compute; reflexivity).
  assert (VV : value_at 20 ex_ro ex_heap ex_val ex_n) by (apply ex_value; vm_compute; reflexivity).
  assert (CN : SpecMeaning.means_condition 20 ex_ro ex_heap (mkCondition [q_name] ex_zero) (mkTCondition [tq_name] None)).
  { split; [repeat constructor; apply C|]. split; [vm_compute; reflexivity|]. vm_compute. reflexivity. }
  assert (CM : SpecMeaning.means_condition 20 ex_ro ex_heap (mkCondition [q_missing] ex_zero) (mkTCondition [tq_missing] None)).
  { split; [repeat constructor; apply C|]. split; [vm_compute; reflexivity|]. vm_compute. reflexivity. }
  assert (CX : SpecMeaning.means_condition 20 ex_ro ex_heap (mkCondition [q_name] ex_x) (mkTCondition [tq_name] (Some (sc "x")))).
  { split; [repeat constructor; apply C|]. split; [vm_compute; reflexivity|]. split; [exact VX|]. vm_compute. discriminate. }
  split.
  - constructor; [constructor|].
    + split; [exact (proj1 (proj1 C16_applies))|]. split; [apply well_paired_ex|apply branching_ex]; vm_compute; reflexivity.
    + exact (proj1 (proj2 (proj1 C16_applies))).
    + apply Forall2_cons. split; [|apply Forall2_cons; split; [|apply Forall2_cons; split; [|constructor]]].
      * split; [repeat constructor; apply C|]. split; [exact VX|]. split; [done|]. split; [|done].
        repeat (apply Forall2_cons; split); try apply Forall2_nil; done.
      * split; [repeat constructor; apply C|]. split; [exact VV|]. split; [done|]. split; [|done].
        repeat (apply Forall2_cons; split); try apply Forall2_nil; done.
      * split; [repeat constructor; apply C|]. split; [exact VX|]. split; [done|]. split; [|done]. constructor.
    + repeat (apply Forall_cons; split); try apply Forall_nil; try exact I; (split; [apply well_paired_ex|apply branching_ex]); vm_compute; reflexivity.
    + right. apply alias_free_ex. vm_compute. reflexivity.
    + apply all_plainlyb_sound. vm_compute. reflexivity.
  - destruct (t_apply_each no_sed [] ex_ots (erase ex_tree)) as [t| | |] eqn:E; [|vm_compute in E; discriminate..].
    exists t. split; [done|]. vm_compute in E. injection E as <-. split; [vm_compute; discriminate|]. split; vm_compute; reflexivity.
Qed.

(** docs/sections/useCasesForKubernetes.md, addLabels.yaml, on a Deployment: the query spec.selector
    finds the node around the one of spec.selector.matchLabels, after it. *)
Definition l_labels (ts : list tree) : tree := mp ([sc "app"; sc "web"] ++ ts).
Definition l_doc (new outer : list tree) : tree := doc (mp
  [ sc "metadata"; mp [sc "labels"; l_labels new];
    sc "spec"; mp [ sc "selector"; mp ([sc "matchLabels"; l_labels new] ++ outer);
                    sc "template"; mp [sc "metadata"; mp [sc "labels"; l_labels new]] ] ]).
Definition l_new : list tree := [sc "app.kubernetes.io/owner"; sc "Jeff Smith"; sc "app.kubernetes.io/purpose"; sc "static-webpage"].
Definition l_heap1 := put_tree (l_doc [] []) [].
Definition l_heap2 := put_tree (mp l_new) (fst l_heap1).
Definition l_heap : heap := fst l_heap2.
Definition l_tree : ltree := match lread 20 l_heap (snd l_heap1) with Some t => t | None => L 0 (mk KZero [] []) None end.
Definition l_ro (x : loc) : bool := between (Datatypes.S (snd l_heap1)) (length l_heap) x.
Definition l_paths : list (list N * list (list N)) :=
  [ (lit "metadata.labels", [lit "metadata"; lit "labels"]);
    (lit "spec.template.metadata.labels", [lit "spec"; lit "template"; lit "metadata"; lit "labels"]);
    (lit "spec.selector.matchLabels", [lit "spec"; lit "selector"; lit "matchLabels"]);
    (lit "spec.selector", [lit "spec"; lit "selector"]) ].
Definition l_overlay : overlay := mkOverlay (map (fun p => Finder.dotted (fst p) (snd p)) l_paths) (snd l_heap2) AMerge [] MDefault None None.
Definition l_toverlay : toverlay := mkTOverlay (map (fun p => key_query (fst p) (snd p)) l_paths) (mp l_new) AMerge [] MDefault None.
Lemma l_tree_read : lread 20 l_heap (snd l_heap1) = Some l_tree.
Proof. vm_compute. reflexivity. Qed.
Example C69_applies_nested :
  understood no_sed [] 20 (fun x => l_ro x = true) l_heap l_tree [l_overlay] [l_toverlay] /\
  erase l_tree = l_doc [] [] /\ t_apply no_sed [] l_toverlay (erase l_tree) = Ok (l_doc l_new l_new).
Proof.
  split; [|split; vm_compute; reflexivity]. constructor; [constructor|].
  - split; [apply (lread_own 20 _ _ _ l_tree_read), (bool_decide_unpack _); vm_compute; exact I|].
    split; [apply well_paired_ex|apply branching_ex]; vm_compute; reflexivity.
  - apply apart_between; [done|]. apply between_all. vm_compute. reflexivity.
  - apply Forall2_cons. split; [|by apply Forall2_nil].
    split; [repeat (apply Forall2_cons; split; [apply dotted_computes|]); by apply Forall2_nil|].
    split; [apply vread_value; vm_compute; reflexivity|]. split; [done|]. split; [by apply Forall2_nil|]. done.
  - apply Forall_cons. split; [|apply Forall_nil; exact I]. split; [apply well_paired_ex|apply branching_ex]; vm_compute; reflexivity.
  - left. repeat constructor.
  - apply all_plainlyb_sound. vm_compute. reflexivity.
Qed.

(** The run of C67_applies: document 0 of a.yaml, whose overlays merge {k: v}, set the
    name to x and delete the metadata. *)
Definition w_tree : ltree := match lread 20 w_heap ex_doc with Some t => t | None => L 0 (mk KZero [] []) None end.
Definition w_ro (x : loc) : bool := between (Datatypes.S ex_doc) (length w_heap) x.
Definition w_ots : list toverlay :=
  [ mkTOverlay [key_query (lit "$") []] (mp [sc "k"; sc "v"]) AInvalid [] MDefault None;
    mkTOverlay [key_query (lit "$.metadata.name") [lit "metadata"; lit "name"]] (sc "x") AReplace [] MDefault None;
    mkTOverlay [key_query (lit "$.metadata") [lit "metadata"]] (T (mkInfo KZero 0 [] [] [] [] [] [] 0 0) None) ADelete [] MDefault None ].
Lemma w_tree_read : lread 20 w_heap ex_doc = Some w_tree.
Proof. vm_compute. reflexivity. Qed.
Example C70_applies : exists i common y,
  instructions_are w_engine (fun _ => None) (fun _ => None) no_sed w_compile w_to_int w_heap w_s w_cl i /\
  instructions_stand_for ex_zero i common y /\
  sr_docs w_s (lit "/w/a.yaml") = Some [label w_tree] /\ In (lit "/w/a.yaml") (map e_path (all_inputs w_s w_cl y)) /\
  situated 20 (fun x => w_ro x = true) w_heap w_tree (overlays_for (room_left go_grow common None) common None (all_inputs w_s w_cl y) (lit "/w/a.yaml") 0) w_ots /\
  all_plainly no_sed [] w_ots (as_processed w_cl (erase w_tree)) /\
  exists t, t_apply_each no_sed [] w_ots (as_processed w_cl (erase w_tree)) = Ok t /\ found [key_query (lit "$.metadata") [lit "metadata"]] t = [] /\
    map (fun p => node_at p t) (found [key_query (lit "$.k") [lit "k"]] t) = [Some (sc "v")].
Proof.
  destruct (read_instructions_file w_engine (fun _ => None) (fun _ => None) no_sed w_compile w_to_int w_heap w_s w_cl) as [i| | |] eqn:EI; [|by vm_compute in EI..].
  pose proof (instructions_read _ _ _ _ _ _ _ _ _ _ EI) as HI.
  destruct (plain_instructions ex_zero i) as [[common y]|] eqn:EY; [|vm_compute in EI; injection EI as <-; by vm_compute in EY].
  exists i, common, y. split; [done|]. split; [by apply plain_stands_for|]. split; [vm_compute; reflexivity|]. split.
  { vm_compute in EI. injection EI as <-. vm_compute in EY. injection EY as <- <-. left. by vm_compute. }
  assert (C : forall q text names, q_text q = text -> q_find q = q_find (Finder.dotted text names) -> computes q (key_query text names)).
  { intros q text names E1 E2. destruct (dotted_computes text names) as [_ X]. split; [done|]. by rewrite E2. }
  assert (MO : exists q1 q2 q3 v1 v2 v3, overlays_for (room_left go_grow common None) common None (all_inputs w_s w_cl y) (lit "/w/a.yaml") 0 =
    [mkOverlay [q1] v1 AInvalid [] MDefault None None; mkOverlay [q2] v2 AReplace [] MDefault None None; mkOverlay [q3] v3 ADelete [] MDefault None None] /\
    (q_text q1 = lit "$" /\ q_find q1 = q_find (Finder.dotted (lit "$") [])) /\
    (q_text q2 = lit "$.metadata.name" /\ q_find q2 = q_find (Finder.dotted (lit "$.metadata.name") [lit "metadata"; lit "name"])) /\
    (q_text q3 = lit "$.metadata" /\ q_find q3 = q_find (Finder.dotted (lit "$.metadata") [lit "metadata"])) /\
    vread 20 w_ro w_heap v1 = Some (mp [sc "k"; sc "v"]) /\ vread 20 w_ro w_heap v2 = Some (sc "x") /\
    vread 20 w_ro w_heap v3 = Some (T (mkInfo KZero 0 [] [] [] [] [] [] 0 0) None)).
  { vm_compute in EI. injection EI as <-. vm_compute in EY. injection EY as <- <-. do 6 eexists. split; [vm_compute; reflexivity|].
    split; [split; reflexivity|]. split; [split; reflexivity|]. split; [split; reflexivity|]. split; [|split]; vm_compute; reflexivity. }
  destruct MO as (q1 & q2 & q3 & v1 & v2 & v3 & -> & [T1 F1] & [T2 F2] & [T3 F3] & V1 & V2 & V3).
  split.
  - constructor.
    + split; [apply (lread_own 20 _ _ _ w_tree_read), (bool_decide_unpack _); vm_compute; exact I|].
      split; [apply well_paired_ex|apply branching_ex]; vm_compute; reflexivity.
    + apply apart_between; [done|]. apply between_all. vm_compute. reflexivity.
    + apply Forall2_cons. split; [|apply Forall2_cons; split; [|apply Forall2_cons; split; [|constructor]]].
      * split; [repeat constructor; by apply C|]. split; [by apply vread_value|]. split; [done|]. split; [constructor|]. done.
      * split; [repeat constructor; by apply C|]. split; [by apply vread_value|]. split; [done|]. split; [constructor|]. done.
      * split; [repeat constructor; by apply C|]. split; [by apply vread_value|]. split; [done|]. split; [constructor|]. done.
    + repeat (apply Forall_cons; split); try apply Forall_nil; try exact I; (split; [apply well_paired_ex|apply branching_ex]); vm_compute; reflexivity.
    + left. repeat constructor.
  - split; [apply all_plainlyb_sound; vm_compute; reflexivity|]. destruct (t_apply_each no_sed [] w_ots (as_processed w_cl (erase w_tree))) as [t| | |] eqn:E; [|vm_compute in E; discriminate..].
    exists t. split; [done|]. vm_compute in E. injection E as <-. split; vm_compute; reflexivity.
Qed.

Print Assumptions C69_overlays_are_functions_on_trees.
Print Assumptions C69_every_run_that_ends.
Print Assumptions C69_one_overlay.
Print Assumptions C69_only_the_tree_matters.
Print Assumptions C69_key_paths_are_queries_on_trees.
Print Assumptions C69_key_paths_find_the_node.
Print Assumptions C70_files_hold_the_meaning.
