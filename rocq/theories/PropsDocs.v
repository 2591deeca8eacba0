(** C59, C60: documents do not influence each other; a whole run. *)
From Coq Require Import Permutation.
From stdpp Require Import list_numbers.
From Verif Require Import Prelude GoStrings Format Yaml Heap Overlay SpecReach SpecSame Queue PropsQueue Paths SpecPaths Files SpecFiles Slices Prepare SpecPrepare ProofPrepare PropsFiles PropsPrepare
  Render SpecRender SpecOutcome Pipeline SpecPipeline Execute SpecExecute ProofExecute ProofExecuteProps PropsPipeline SpecDocs ProofDocs Examples ExamplesHeap ExamplesPipeline.

Section theorems.
Context (fuel : nat) (sed : sed_engine) (dflt : list N) (enc : nat -> tree -> option (list N)) (dk : disk) (cfg : out_config).
Context (files : list yfile) (os : list overlay) (h0 : heap) (w0 : world).
Local Notation sequential := (sequential fuel sed dflt files os h0).
Local Notation on_its_own := (on_its_own fuel sed dflt os h0).

(** C59.  Processing a file comes down to processing each of its documents on its
    own: it succeeds exactly if that succeeds for every document, every document
    then has the content it would have had alone, and otherwise the failure is that
    of the first document that fails alone. *)
Theorem C59_documents_independent i f : set_up files os h0 -> files !! i = Some f -> docs_apart h0 f ->
  (snd (sequential i) = Ok tt <-> forall j d, yf_nodes f !! j = Some d -> snd (on_its_own f j d) = Ok tt) /\
  (snd (sequential i) = Ok tt -> forall j d k, yf_nodes f !! j = Some d ->
     snapshot k (fst (fst (sequential i))) d = snapshot k (fst (fst (on_its_own f j d))) d) /\
  (snd (sequential i) <> Ok tt -> exists j d, yf_nodes f !! j = Some d /\ snd (on_its_own f j d) = snd (sequential i) /\
     forall j' d', j' < j -> yf_nodes f !! j' = Some d' -> snd (on_its_own f j' d') = Ok tt).
Proof.
  intros SU F A. assert (FI : In f files) by (apply elem_of_list_In; by eapply elem_of_list_lookup_2).
  destruct (file_docs fuel sed dflt files os h0 SU f FI A) as (m & r & E & H).
  assert (SQ : sequential i = (m, r)) by (unfold SpecExecute.sequential; by rewrite F).
  rewrite SQ. cbn [fst snd]. destruct H as [[-> H]|[NE (j & d & J & R & B)]].
  - split_and!; [split; [|done]|..]; try done.
    + intros _ j d J. by apply H.
    + intros _ j d k J. by apply H.
  - split_and!; [split|..].
    + intros X. by destruct NE.
    + intros X. specialize (X j d J). congruence.
    + intros X. by destruct NE.
    + intros _. exists j, d. by split_and!.
Qed.

(** ... so the texts written for a file are those of its documents processed alone. *)
Theorem C59_rendered_documents i f ts : set_up files os h0 -> files !! i = Some f -> docs_apart h0 f ->
  snd (sequential i) = Ok tt ->
  (documents_after fuel sed dflt files os h0 i = Ok ts <->
   Forall2 (fun jd t => snapshot fuel (fst (fst (on_its_own f (fst jd) (snd jd)))) (snd jd) = Ok t) (imap pair (yf_nodes f)) ts).
Proof.
  intros SU F A SQ. destruct (C59_documents_independent i f SU F A) as (_ & K & _). specialize (K SQ).
  unfold documents_after. rewrite F.
  assert (X : forall l z ts, (forall j d, l !! j = Some d -> yf_nodes f !! (z + j) = Some d) ->
    (snapshots fuel (fst (fst (sequential i))) l = Ok ts <->
     Forall2 (fun jd t => snapshot fuel (fst (fst (on_its_own f (fst jd) (snd jd)))) (snd jd) = Ok t) (imap (fun j d => (z + j, d)) l) ts)).
  { induction l as [|d l IH]; intros z ts' HL.
    - cbn [snapshots imap]. split; [intros [= <-]; constructor|by intros ->%Forall2_nil_inv_l].
    - cbn [snapshots imap]. pose proof (HL 0 d eq_refl) as Hd. rewrite Nat.add_0_r in *. rewrite (K _ _ fuel Hd).
      assert (HL' : forall j d, l !! j = Some d -> yf_nodes f !! (S z + j) = Some d).
      { intros j x Hx. replace (S z + j) with (z + S j) by lia. by apply HL. }
      assert (EQ : imap ((fun j x => (z + j, x)) ∘ S) l = imap (fun j x => (S z + j, x)) l).
      { apply imap_ext. intros j x _. cbn. f_equal. lia. }
      rewrite EQ. split.
      + destruct (snapshot fuel (fst (fst (on_its_own f z d))) d) as [t| | |] eqn:ES; try discriminate. cbn [rbind].
        destruct (snapshots _ _ l) as [ts2| | |] eqn:E2; try discriminate. cbn [rbind]. intros [= <-].
        constructor; [done|]. by apply IH.
      + intros (t & ts2 & Ht & H2 & ->)%Forall2_cons_inv_l. cbn [fst snd] in Ht. rewrite Ht. cbn [rbind].
        apply IH in H2; [|done]. by rewrite H2. }
  apply (X (yf_nodes f) 0 ts). done.
Qed.
End theorems.

(** *** A whole run *)
(** The file a prepared entry stands for (both are the YamlFile of yamlfile.go:21-34). *)
Definition to_file (e : entry nat (document nat) loc) : yfile := mkFile (e_nodes e) (e_overlays e) (e_documents e) (e_output e).

(** The overlays in force for document number [j] of the input [p]: the common ones, that
    of the command line and those of all mentions of [p] (as far as their documentIndex
    admits [j]), then those of the documents entries for [j] of all mentions.  ([room] is
    the room left behind the list of common overlays; if there is some, the overlays of one
    input can be overwritten by those of another: C31, C57.) *)
Definition meant_by (os : list overlay) (room : nat) (common : list nat) (op : options nat) (all : list (entry nat (document nat) loc)) (p : list N) (j : nat) : list nat :=
  base.filter (wants (index_of os) (Z.of_nat j)) (common_overlays common op ++ own_in_force room all p) ++
  concat (map d_overlays (base.filter (fun e => d_path e = Z.of_nat j) (concat (map e_documents (entries_for p all))))).

Lemma written_out fuel sed dflt enc dk cfg files os h0 l : forall w0 w, write_out fuel sed dflt enc dk cfg files os h0 l w0 = (w, Ok tt) ->
  exists texts places, Forall2 (fun i text => exists f ts, files !! i = Some f /\ documents_after fuel sed dflt files os h0 i = Ok ts /\ encode_nodes enc (oc_styles cfg) ts = Ok text) l texts /\
    Forall2 (fun i o => exists f, files !! i = Some f /\ yf_output f = o) l places /\
    w = with_texts (oc_stdout cfg) (oc_dir cfg) w0 (zip places texts).
Proof.
  induction l as [|i l IH]; intros w0 w; cbn [write_out].
  - intros [= <-]. exists [], []. repeat constructor.
  - destruct (files !! i) as [f|] eqn:F; [|done]. destruct (documents_after _ _ _ _ _ _ i) as [ts| | |] eqn:D; try done.
    destruct (post_process enc dk cfg ts (yf_output f) w0) as [w1 [[]| | |]] eqn:P; try done. intros H.
    destruct (IH _ _ H) as (texts & places & H1 & H2 & H3). unfold post_process in P. destruct (oc_indent cfg <? 0)%Z; [done|].
    destruct (encode_nodes enc (oc_styles cfg) ts) as [text| | |] eqn:E; try done.
    exists (text :: texts), (yf_output f :: places). split; [constructor; [by exists f, ts|done]|]. split; [constructor; [by exists f|done]|].
    rewrite H3. cbn [zip zip_with with_texts]. f_equal. unfold with_text. destruct text as [|c r]; [by injection P|].
    destruct (oc_stdout cfg).
    + destruct (stdout_ok dk); [|done]. by injection P.
    + destruct (can_open dk _); [|done]. destruct (can_write dk _); [|done]. by injection P.
Qed.

(** C60.  Suppose preparation and processing succeed.  Then every input named is one of the
    files processed; the documents rendered for it are those stored in it, each with the
    overlays meant for it applied in order, as if it were alone; and what has been written
    is the texts of these documents, each input's once, at its place (C88).  ([h0] holds the decoded documents and overlay values; with
    comments to be removed, after their removal.) *)
Theorem C60_whole_run fuel sed dflt enc dk cfg os h0 w0 pfuel grow w op R n s :
  usable w op -> get_instructions pfuel grow w op = Ok R ->
  (forall common y, instructions_say w op = Some (common, y) -> Forall (fun e => e_nodes e = []) y) ->
  let files := map to_file R in
  set_up files os h0 -> Forall (docs_apart h0) files ->
  execution fuel sed dflt enc dk cfg files os h0 w0 n s -> crashed s = false -> main s = MReturn None ->
  exists common y, instructions_say w op = Some (common, y) /\ exists text,
  (forall p, In p (map e_path (named_inputs w op y)) -> exists i f ds ts,
    files !! i = Some f /\ i ∈ finished s /\ documents_in w p = Some ds /\ yf_nodes f = ds /\
    documents_after fuel sed dflt files os h0 i = Ok ts /\
    Forall2 (fun jd t => let '(m, r) := run_all (run_work fuel sed dflt)
                            (map (fun k => mkWork k (snd jd) (Z.of_nat (fst jd))) (meant_by os (spare_room grow common op) common op (named_inputs w op y) p (fst jd))) (h0, os) in
               r = Ok tt /\ snapshot fuel (fst m) (snd jd) = Ok t) (imap pair ds) ts /\
    encode_nodes enc (oc_styles cfg) ts = Ok (text p)) /\
  texts_written (named_inputs w op y) text (oc_stdout cfg) (oc_dir cfg) w0 (outside s).
Proof.
  intros Hu Hg Hsay files SU HA E NC M.
  destruct (C56_inputs_loaded_once pfuel grow w op R Hu Hg) as (common & y & Hs & Hps & Hin & Hnd & Hc).
  destruct (C56_output_paths pfuel grow w op R Hu Hg) as (common' & y' & Hs' & Hout).
  rewrite Hs in Hs'. injection Hs' as <- <-.
  destruct (C57_exact_overlays pfuel grow w op R Hu Hg) as (common' & y' & Hs' & Ho).
  rewrite Hs in Hs'. injection Hs' as <- <-. pose proof (Hsay common y Hs) as Hnodes.
  exists common, y. split; [done|]. set (all := named_inputs w op y) in *.
  assert (Hall : Forall (fun e => e_nodes e = []) all).
  { assert (Hx : forall z, Forall (fun e : entry nat (document nat) loc => e_nodes e = []) z -> Forall (fun e => e_nodes e = []) (expanded (in_fs w) (base_of w op) z)).
    { intros z Hz. unfold expanded. apply Forall_app. rewrite !Forall_forall in *. split.
      - intros e He%elem_of_list_In. apply filter_In in He as [He _]. apply in_map_iff in He as (e0 & <- & He0).
        specialize (Hz e0 (proj2 (elem_of_list_In _ _) He0)). unfold located. by destruct (seq_eqb _ _).
      - intros e He%elem_of_list_In. apply in_concat in He as (l & Hl & He). apply in_map_iff in Hl as (e0 & <- & _).
        unfold files_of in He. destruct (fs_walk _ _); [|done]. by apply in_map_iff in He as (q & <- & _). }
    unfold all, named_inputs. apply Forall_app. split; [by apply Hx|]. apply Hx. unfold path_option. destruct (op_path op); repeat constructor. }
  destruct (C42_success_means_no_failure fuel sed dflt enc dk cfg files os h0 w0 n s SU E NC M) as (Hseq & Hw & Hfin).
  destruct (C44_every_file_exactly_once fuel sed dflt enc dk cfg files os h0 w0 n s SU E NC M) as (Hperm & _ & _).
  destruct (written_out _ _ _ _ _ _ _ _ _ _ _ _ Hw) as (texts & places & Htx & Hpl & Hout').
  set (tx := fun i => match documents_after fuel sed dflt files os h0 i with Ok ts => match encode_nodes enc (oc_styles cfg) ts with Ok t => t | _ => [] end | _ => [] end).
  assert (Etx : texts = map tx (finished s)).
  { clear -Htx. induction Htx as [|i t l l' (f & ts & F & D & X) H IH]; [done|]. cbn [map]. unfold tx at 1. by rewrite D, X, IH. }
  assert (Htx' : forall i, i ∈ finished s -> exists ts, documents_after fuel sed dflt files os h0 i = Ok ts /\ encode_nodes enc (oc_styles cfg) ts = Ok (tx i)).
  { intros i Hi. apply elem_of_list_lookup in Hi as [k Hi]. destruct (Forall2_lookup_l _ _ _ _ _ Htx Hi) as (t & _ & f & ts & F & D & X). exists ts. split; [done|].
    unfold tx. by rewrite D, X. }
  set (text := fun p => match list_find (fun e => e_path e = p) R with Some (i, _) => tx i | None => [] end).
  assert (Htext : forall i e, R !! i = Some e -> text (e_path e) = tx i).
  { intros i e Hi. unfold text. destruct (list_find _ R) as [[k e']|] eqn:Lf.
    - apply list_find_Some in Lf as (Hk & Hpe & _). f_equal. eapply (NoDup_lookup (map e_path R)); [exact Hnd| |].
      + rewrite list_lookup_fmap, Hk. cbn. by rewrite Hpe.
      + by rewrite list_lookup_fmap, Hi.
    - apply list_find_None in Lf. rewrite Forall_forall in Lf. exfalso. apply (Lf e); [by eapply elem_of_list_lookup_2|done]. }
  exists text. split; cycle 1.
  { set (at_ := fun i => match R !! i with Some e => e_path e | None => [] end).
    assert (Hat : map at_ (seq 0 (length R)) = map e_path R).
    { apply list_eq. intros i. rewrite !list_lookup_fmap. destruct (decide (i < length R)%nat) as [Hl|Hl].
      - rewrite lookup_seq_lt by done. cbn. unfold at_. destruct (R !! i) eqn:Ri; [done|]. apply lookup_ge_None in Ri. lia.
      - rewrite lookup_seq_ge by lia. rewrite lookup_ge_None_2 by lia. done. }
    exists (map at_ (finished s)), places. split; [|split].
    - fold all. rewrite <- Hps, <- Hat. apply Permutation_map. by rewrite Hperm; unfold files; rewrite map_length.
    - clear -Hpl Hps Hout. unfold files in Hpl. induction Hpl as [|i o l l' (f & F & <-) H IH]; [constructor|]. cbn [map]. constructor; [|done].
      unfold place_of. fold all. rewrite <- Hps. exists i. rewrite <- Hout. rewrite !list_lookup_fmap in *. unfold at_.
      destruct (R !! i) as [e|]; [|done]. cbn in *. injection F as <-. by split.
    - rewrite Hout', Etx. f_equal. f_equal. rewrite map_map. apply map_ext_in. intros i Hi. unfold at_. destruct (R !! i) as [e|] eqn:Ri; [by rewrite (Htext i e)|].
      exfalso. apply elem_of_list_In, elem_of_list_lookup in Hi as [k Hi]. destruct (Forall2_lookup_l _ _ _ _ _ Hpl Hi) as (o & _ & f & F & _).
      unfold files in F. rewrite list_lookup_fmap, Ri in F. done. }
  intros p Hp. apply Hin in Hp. apply in_map_iff in Hp as (e & <- & He).
  destruct (Hc e He) as (first & rest & ds & Hgr & Hds & Hno & Hdo).
  assert (Hfirst : e_nodes first = []).
  { rewrite Forall_forall in Hall. apply Hall. apply elem_of_list_In. apply (filter_In (fun x => seq_eqb (e_path x) (e_path e))).
    change (In first (entries_for (e_path e) all)). rewrite Hgr. by left. }
  rewrite Hfirst in Hno. simpl in Hno.
  apply elem_of_list_In, elem_of_list_lookup in He as [i Hi]. pose proof (elem_of_list_lookup_2 _ _ _ Hi) as He. apply elem_of_list_In in He.
  set (f := to_file e). assert (F : files !! i = Some f) by (unfold files; by rewrite list_lookup_fmap, Hi).
  assert (FA : docs_apart h0 f).
  { rewrite Forall_forall in HA. apply HA. by eapply elem_of_list_lookup_2. }
  assert (Hifin : i ∈ finished s) by (apply Hfin; by eapply lookup_lt_Some).
  destruct (Htx' i Hifin) as (ts & Hts & Hen). rewrite (Htext i e Hi).
  exists i, f, ds, ts. split_and!; try done.
  pose proof (proj1 (C59_rendered_documents fuel sed dflt files os h0 i f ts SU F FA (Hseq i)) Hts) as H2.
    assert (Hown : e_overlays e = common_overlays common op ++ own_in_force (spare_room grow common op) all (e_path e)).
    { assert (X : map e_overlays R !! i = Some (e_overlays e)) by (by rewrite list_lookup_fmap, Hi). fold all in Ho. rewrite Ho, list_lookup_fmap, Hps in X.
      unfold own_in_force. destruct (list_find _ (dedup [] (map e_path all))) as [[k q]|] eqn:Lf.
      - apply list_find_Some in Lf as (Hk & -> & _). assert (k = i) as ->.
        { eapply (NoDup_lookup (dedup [] (map e_path all))); [apply dedup_NoDup|exact Hk|]. by rewrite <- Hps, list_lookup_fmap, Hi. }
        destruct (after_sharing _ _ !! i); [by injection X|done].
      - apply list_find_None in Lf. rewrite Forall_forall in Lf. exfalso. apply (Lf (e_path e)); [|done].
        rewrite <- Hps. apply elem_of_list_In. by apply in_map. }
    assert (Hmeant : forall j, meant_for os f j = meant_by os (spare_room grow common op) common op all (e_path e) j).
    { intros j. unfold meant_for, meant_by. cbn [f to_file yf_overlays yf_documents]. rewrite Hown, Hdo, Hgr. done. }
    cbn [f to_file yf_nodes] in H2. rewrite Hno in H2.
    destruct (C59_documents_independent fuel sed dflt files os h0 i f SU F FA) as ((Hok & _) & _ & _). specialize (Hok (Hseq i)).
    eapply Forall2_in; [exact H2|]. intros [j d] t Hjd. cbn [fst snd]. intros Hsnap.
    assert (Hj : yf_nodes f !! j = Some d).
    { cbn [f to_file yf_nodes]. rewrite Hno. apply elem_of_list_In, elem_of_list_lookup in Hjd as [k Hk].
      rewrite list_lookup_imap in Hk. destruct (ds !! k) as [d'|] eqn:Hd; [|done]. cbn in Hk. injection Hk as -> ->. done. }
    specialize (Hok j d Hj). unfold on_its_own in Hok, Hsnap. rewrite Hmeant in Hok, Hsnap.
    destruct (run_all _ _ _) as [m r]. done.
Qed.

(** *** The hypotheses can be met *)
Definition both : yfile := mkFile [ex_doc; two_doc] [0] [mkDocument 0 [1; 2]] (lit "a.yaml").
Lemma apart_pair : docs_apart two_heap both.
Proof.
  intros i j d e x Hi Hj Hij.
  assert (X : forall x, reach two_heap ex_doc x -> reach two_heap two_doc x -> False).
  { intros y. apply (disjointb_sound 30); by vm_compute. }
  destruct i as [|[|i]]; destruct j as [|[|j]]; simpl in Hi, Hj; try done; injection Hi as <-; injection Hj as <-; intros; by eapply X.
Qed.
Lemma single_apart h f d : yf_nodes f = [d] -> docs_apart h f.
Proof. intros E [|i] [|j] d1 d2 x; rewrite E; simpl; intros; done. Qed.
Lemma both_set_up : set_up [both] two_os two_heap.
Proof. apply set_upb_sound; [by vm_compute|apply two_good]. Qed.
Example C59_applies : set_up [both] two_os two_heap /\ docs_apart two_heap both /\
  snd (sequential 20 no_sed [] [both] two_os two_heap 0) = Ok tt /\
  meant_for two_os both 0 = [0; 1; 2] /\ meant_for two_os both 1 = [0].
Proof. split; [apply both_set_up|]. split; [apply apart_pair|]. split_and!; by vm_compute. Qed.

(** /w/i.yaml: common overlay 0; a.yaml with overlay 1 and a documents entry with overlay
    2; b.yaml. *)
Definition run_fs : fs := mkFs (fun p => if existsb (seq_eqb p) [lit "/w/a.yaml"; lit "/w/b.yaml"] then Some false else None) (fun _ => None).
Definition run_w : inputs nat (document nat) loc := mkInputs run_fs (lit "/w")
  (fun p => if seq_eqb p (lit "/w/a.yaml") then Some [ex_doc] else Some [two_doc]) None
  (fun _ => Some ([0], [mkEntry _ _ _ [] [1] [mkDocument 0 [2]] [] (lit "a.yaml") []; mkEntry _ _ _ [] [] [] [] (lit "b.yaml") []])).
Definition run_op : options nat := mkOptions (lit "i.yaml") [] None.
Example C60_applies : exists R n s,
  usable run_w run_op /\ get_instructions 10 go_grow run_w run_op = Ok R /\
  (forall common y, instructions_say run_w run_op = Some (common, y) -> spare_room go_grow common run_op = 0 /\ Forall (fun e => e_nodes e = []) y) /\
  set_up (map to_file R) two_os two_heap /\ Forall (docs_apart two_heap) (map to_file R) /\
  execution 20 no_sed [] show ex_disk ex_cfg (map to_file R) two_os two_heap (mkWorld [] []) n s /\
  crashed s = false /\ main s = MReturn None /\
  file_content (outside s) (lit "out/a.yaml") <> None /\ file_content (outside s) (lit "out/b.yaml") <> None.
Proof.
  destruct (get_instructions 10 go_grow run_w run_op) as [R| | |] eqn:HR; [|by vm_compute in HR..].
  assert (HF : map to_file R = [file_a; file_b]) by (vm_compute in HR; injection HR as <-; by vm_compute).
  destruct (played [file_a; file_b] schedule_ab) as [s|] eqn:E1; [|by vm_compute in E1].
  destruct (played_execution _ _ _ E1) as [n X1]. exists R, n, s. rewrite HF.
  split; [|split; [reflexivity|split; [|split; [apply two_set_up|split; [|split; [exact X1|]]]]]].
  - split.
    + intros d ps p Hw. discriminate Hw.
    + intros common y [= <- <-]. repeat (apply Forall_cons; split); try (right; by vm_compute). apply Forall_nil. exact I.
  - intros common y [= <- <-]. split; [by vm_compute|]. by repeat constructor.
  - constructor; [by eapply single_apart|]. constructor; [by eapply single_apart|constructor].
  - vm_compute in E1. injection E1 as <-. vm_compute. done.
Qed.

Print Assumptions C59_documents_independent.
Print Assumptions C59_rendered_documents.
Print Assumptions C60_whole_run.
