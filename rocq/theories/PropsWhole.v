(** C67: a whole run, from the texts read to the files written. *)
From Verif Require Import Prelude GoStrings Format Yaml Heap ActionNames Overlay SpecReach SpecSame Finder ProofFinder ProofExecute ProofExecuteProps Queue PropsQueue Paths SpecPaths Files SpecFiles Slices Prepare SpecPrepare
  Render SpecRender SpecOutcome Pipeline SpecPipeline Execute SpecExecute SpecDocs PropsDocs Decode SpecDecode PropsDecode Flags Template HeapComments Whole SpecWhole ProofUncomment ProofWhole
  Examples ExamplesHeap ExamplesPipeline.

Lemma all_some_in {A B} (f : A -> option B) l l' b : all_some f l = Some l' -> In b l' -> exists a, In (Some a) l /\ f a = Some b.
Proof.
  revert l'; induction l as [|[a|] l IH]; intros l'; cbn [all_some]; [by intros [= <-]| |done].
  destruct (f a) as [b0|] eqn:E; [|done]. destruct (all_some f l) as [bs|] eqn:E2; [|done]. intros [= <-] [<-|Hb].
  - exists a. split; [by left|done].
  - destruct (IH bs eq_refl Hb) as (a' & Ha & Hf). exists a'. split; [by right|done].
Qed.
Lemma file_without_nodes h compile to_int c i e : means_instructions h compile to_int c i -> In (Some e) (snd i) -> e_nodes e = [].
Proof.
  intros [[_ ->]|(_ & _ & Hf)]; [done|]. intros Hin. destruct Hf as [(v & _ & [[_ Hz]|[_ (ls & _ & HP)]])|[_ Hz]]; [by rewrite Hz in Hin| |by rewrite Hz in Hin].
  unfold pointers in HP. apply elem_of_list_In, elem_of_list_lookup in Hin as [k Hk]. destruct (Forall2_lookup_r _ _ _ _ _ HP Hk) as (l & _ & [[_ ?]|(_ & a & [= <-] & Hm)]); [done|].
  by destruct Hm as (_ & _ & _ & _ & _ & _ & ?).
Qed.

Section theorem.
Context {F P : Type} (e : engine F P) (builtin sprig : list N -> option F) (sed : sed_engine).
Context (compile : list N -> option (heap -> loc -> list loc)) (to_int : info -> option Z).
Context (h0 : heap) (z : loc).

(** Where the instructions come from: nowhere without -i; otherwise the document in the
    text of the file (rendered if -f is given) means them. *)
Definition instructions_are (s : surroundings) (cl : command_line) (i : list (option raw_overlay) * list (option raw_entry)) : Prop :=
  match cl_instructions cl with
  | [] => i = ([], [])
  | p => exists text d c, instructions_text e builtin sprig (sr_text s) (sr_first s) sed p (cl_values cl) = Ok text /\
      sr_parse s text = Some (Some d) /\ holds_document h0 d c /\ means_instructions h0 compile to_int c i
  end.
Lemma plain_list {A B} (f : A -> option B) (R : A -> B -> Prop) : (forall a b, f a = Some b -> R a b) ->
  forall l l', all_some f l = Some l' -> no_nil R l l'.
Proof.
  intros FR. induction l as [|[a|] l IH]; intros l'; cbn [all_some]; [intros [= <-]; constructor| |done].
  destruct (f a) as [b|] eqn:E; [|done]. destruct (all_some f l) as [bs|]; [|done]. intros [= <-]. constructor; [exists a; eauto|by apply IH].
Qed.
Lemma plain_overlay_is o o' : plain_overlay z o = Some o' -> overlay_is z o o'.
Proof.
  unfold plain_overlay. destruct (all_some _ _) as [dq|] eqn:E; [|done]. intros [= <-].
  constructor; cbn [o_queries o_value o_action o_docqueries o_missing o_inject o_index]; try done.
  - by destruct (ro_query o).
  - by destruct (ro_value o).
  - revert E. apply plain_list. intros cs cs'. apply plain_list. intros c c' [= <-]. split; [done|]. cbn [c_value]. by destruct (rc_value c).
Qed.
Lemma plain_stands_for i common y : plain_instructions z i = Some (common, y) -> instructions_stand_for z i common y.
Proof.
  unfold plain_instructions. destruct (all_some (plain_overlay z) _) as [os|] eqn:E1; [|done]. destruct (all_some (plain_entry z) _) as [es|] eqn:E2; [|done].
  intros [= <- <-]. split; [revert E1; apply plain_list, plain_overlay_is|]. revert E2. apply plain_list. clear. intros a b. unfold plain_entry.
  destruct (all_some (plain_overlay z) _) as [os|] eqn:E1; [|done]. destruct (all_some (plain_document z) _) as [ds|] eqn:E2; [|done]. intros [= <-].
  constructor; try done; cbn [e_overlays e_documents].
  - revert E1. apply plain_list, plain_overlay_is.
  - revert E2. apply plain_list. clear. intros d d'. unfold plain_document. destruct (all_some _ _) as [os|] eqn:E; [|done]. intros [= <-].
    split; [done|]. revert E. apply plain_list, plain_overlay_is.
Qed.
Lemma flag_some s t c : parse_flag h0 s t = Some (Some c) -> flag_holds h0 s t c.
Proof.
  unfold parse_flag, content_of. destruct (sr_parse s t) as [[d|]|] eqn:P1; try done. destruct (h0 !! d) as [n|] eqn:H; [|done].
  destruct (n_content n) as [[|x r]|] eqn:C; try done. intros [= <-]. by exists d, n, r.
Qed.
Lemma flag_none s t : parse_flag h0 s t = Some None -> flag_empty h0 s t.
Proof.
  unfold parse_flag, content_of. destruct (sr_parse s t) as [[d|]|] eqn:P1; try done; [|by left]. intros H. right. exists d. split; [done|].
  intros n c rest E C. rewrite E, C in H. done.
Qed.
Lemma flags_read s cl fl adhoc : read_flags compile h0 (parse_flag h0 s) (cl_queries cl) (cl_actions cl) (cl_value cl) = Ok fl ->
  match fl with None => adhoc = None | Some f => adhoc <> None /\ plain_flags z f = adhoc end -> flags_say compile h0 z s cl adhoc.
Proof.
  unfold read_flags. intros H. apply ProofDecode.rbind_Ok in H as (q & Hq & H). apply ProofDecode.rbind_Ok in H as (a & Ha & H).
  assert (Q : forall qs xs q', set_queries compile h0 (parse_flag h0 s) qs = Ok xs -> all_some (fun q => Some q) xs = Some q' ->
    Forall2 (fun t q => exists c, flag_holds h0 s t c /\ means_query h0 compile c q) qs q').
  { clear. induction qs as [|t qs IH]; intros xs q' Hs; cbn [set_queries] in Hs; [injection Hs as <-; cbn; intros [= <-]; constructor|].
    apply ProofDecode.rbind_Ok in Hs as (x & Hx & Hs). apply ProofDecode.rbind_Ok in Hs as (r & Hr & [= <-]). cbn [all_some].
    destruct x as [x|]; [|done]. destruct (all_some _ r) as [bs|] eqn:E; [|done]. intros [= <-]. constructor; [|by eapply IH].
    unfold set_query in Hx. destruct (parse_flag h0 s t) as [[c|]|] eqn:P1; try done. exists c. split; [by apply flag_some|].
    by apply (ProofDecode.d_query_spec h0 compile c) in Hx as [_ ?]. }
  assert (AC : forall acts a0, set_actions h0 (parse_flag h0 s) a0 acts = Ok a ->
    let silent t := flag_empty h0 s t \/ exists c, flag_holds h0 s t c /\ is_null h0 c in
    a = a0 /\ Forall silent acts \/
    exists pre t post c, acts = pre ++ t :: post /\ flag_holds h0 s t c /\ means_action h0 c a /\ Forall silent post).
  { clear -compile. induction acts as [|t acts IH]; intros a0 Hs; cbn [set_actions] in Hs; [injection Hs as <-; by left|].
    cbv zeta in *. destruct (parse_flag h0 s t) as [[c|]|] eqn:P1; [| |done].
    - apply ProofDecode.rbind_Ok in Hs as (x & Hx & Hs). destruct (IH _ Hs) as [[-> F1]|(pre & t' & post & c' & -> & X)].
      + destruct x as [b|].
        * right. exists [], t, acts, c. split; [done|]. split; [by apply flag_some|]. split; [|done]. by apply (ProofDecode.d_action_spec h0 compile c) in Hx as [_ ?].
        * left. split; [done|]. constructor; [|done]. right. exists c. split; [by apply flag_some|]. by apply (ProofDecode.d_action_spec h0 compile c) in Hx.
      + right. by exists (t :: pre), t', post, c'.
    - destruct (IH _ Hs) as [[-> F1]|(pre & t' & post & c' & -> & X)].
      + left. split; [done|]. constructor; [left; by apply flag_none|done].
      + right. by exists (t :: pre), t', post, c'. }
  destruct q as [|q0 q].
  - injection H as <-. intros ->. cbn. destruct (cl_queries cl) as [|t qs]; [done|]. cbn [set_queries] in Hq.
    apply ProofDecode.rbind_Ok in Hq as (x & _ & Hq). apply ProofDecode.rbind_Ok in Hq as (xs & _ & Hq). done.
  - destruct (parse_flag h0 s (cl_value cl)) as [v|] eqn:V; [|done]. injection H as <-. intros [Hn Hp]. unfold plain_flags in Hp. cbn [fo_query fo_value fo_action] in Hp.
    destruct (all_some _ (q0 :: q)) as [q'|] eqn:E; [|by rewrite <- Hp in Hn]. rewrite <- Hp. unfold flags_say.
    cbn [o_queries o_value o_action o_docqueries o_missing o_inject o_index]. split; [intros X; rewrite X in Hq; done|]. split; [by eapply Q|]. split; [by apply AC|].
    split; [|done]. destruct v as [v|]; [left; by apply flag_some|right; split; [by apply flag_none|done]].
Qed.

Lemma instructions_read s cl i : read_instructions_file e builtin sprig sed compile to_int h0 s cl = Ok i -> instructions_are s cl i.
Proof.
  unfold read_instructions_file, instructions_are. destruct (cl_instructions cl) as [|x p]; [by intros [= <-]|].
  intros H. apply ProofDecode.rbind_Ok in H as (text & Ht & H). destruct (sr_parse s text) as [d|] eqn:Hp; [|done].
  destruct d as [d|]; [|done]. pose proof H as H'. unfold decode_instructions in H'. destruct (h0 !! d) as [n|] eqn:Hd; [|done].
  destruct (i_kind (n_info n)) eqn:Hk; try done. destruct (n_content n) as [[|c rest]|] eqn:Hc; try done.
  exists text, d, c. assert (HD : holds_document h0 d c) by (by exists n, rest). split_and!; try done. by apply (decode_means compile to_int h0 d c i HD).
Qed.

(** Before any overlay is applied, memory is [h1]; [prepare] read [h0]. *)
Lemma from_texts_to_files h1 fuel dflt enc dk cfg w0 pfuel grow s cl os R n st :
  prepare e builtin sprig sed compile to_int h0 z pfuel grow s cl = Ok (os, R) ->
  let files := map to_file R in
  let base := match cl_instructions cl with [] => [] | p => path_dir (path_abs (sr_cwd s) p) end in
  walks_files (sr_fs s) base ->
  set_up files os h1 -> Forall (docs_apart h1) files ->
  execution fuel sed dflt enc dk cfg files os h1 w0 n st -> crashed st = false -> main st = MReturn None ->
  exists i common y adhoc,
    instructions_are s cl i /\ instructions_stand_for z i common y /\ flags_say compile h0 z s cl adhoc /\
    (Forall (dash_is_stdin base) y -> (cl_path cl = lit "-" \/ resolve base (cl_path cl) <> lit "-") ->
     exists text, (forall p, In p (map e_path (all_inputs s cl y)) -> exists k f ds ts,
       files !! k = Some f /\ yf_nodes f = ds /\ (forall j, Forall (fun o => In o os) (overlays_for (room_left grow common adhoc) common adhoc (all_inputs s cl y) p j)) /\
       (if seq_eqb p (lit "-") then sr_stdin s else sr_docs s p) = Some ds /\
       Forall2 (fun jd t => let '(h, r) := apply_each fuel sed dflt (overlays_for (room_left grow common adhoc) common adhoc (all_inputs s cl y) p (fst jd)) (snd jd) h1 in
                  r = Ok tt /\ snapshot fuel h (snd jd) = Ok t) (imap pair ds) ts /\
       encode_nodes enc (oc_styles cfg) ts = Ok (text p)) /\
     texts_written (all_inputs s cl y) text (oc_stdout cfg) (oc_dir cfg) w0 (outside st)).
Proof.
  intros HP files base Hwalk SU HA E NC M. unfold prepare in HP.
  apply ProofDecode.rbind_Ok in HP as (fl & Hfl & HP). apply ProofDecode.rbind_Ok in HP as (i & Hi & HP).
  pose proof (instructions_read s cl i Hi) as HI.
  destruct (plain_instructions z i) as [[common y]|] eqn:Hpl; [|done].
  set (ad := match fl with None => Some None | Some f => match plain_flags z f with Some o => Some (Some o) | None => None end end) in HP.
  destruct ad as [adhoc|] eqn:Had; [|done]. apply ProofDecode.rbind_Ok in HP as (R' & HR & [= <- <-]).
  set (nn := length common + length (concat (map entry_overlays y))) in *.
  set (os := common ++ concat (map entry_overlays y) ++ match adhoc with Some o => [o] | None => [] end) in *.
  set (w := mkInputs _ _ _ _ _) in HR. set (op := mkOptions _ _ _) in HR.
  exists i, common, y, adhoc. split; [done|]. split; [by apply plain_stands_for|]. split.
  { eapply flags_read; [exact Hfl|]. subst ad. destruct fl as [f|]; [|by injection Had as <-]. destruct (plain_flags z f) as [o|]; [|done]. by injection Had as <-. }
  intros Hdash Hdashp.
  assert (REL : Forall2 (erel os) (number_entries (length common) y) y) by (by eapply (entries_rel os y common)).
  assert (CR : Forall2 (nrel os) (seq 0 (length common)) common) by (by eapply (nrel_seq os [] common)).
  set (yn := match cl_instructions cl with [] => [] | _ => number_entries (length common) y end).
  set (cn := match cl_instructions cl with [] => [] | _ => seq 0 (length common) end).
  assert (SAY : instructions_say w op = Some (cn, yn)).
  { unfold instructions_say, cn, yn. cbn [op op_instructions w in_decode]. by destruct (cl_instructions cl). }
  assert (RELN : Forall2 (erel os) yn y /\ Forall2 (nrel os) cn common).
  { unfold yn, cn. unfold instructions_are in HI. destruct (cl_instructions cl); [|done]. subst i. injection Hpl as <- <-. by split. }
  destruct RELN as [REL' CR'].
  assert (BASE : base_of w op = base) by (unfold base_of, base; cbn [op op_instructions w in_cwd]; by destruct (cl_instructions cl)).
  assert (NODES : Forall (fun e => e_nodes e = []) yn).
  { assert (Hy : Forall (fun e => e_nodes e = []) y).
    { unfold instructions_are in HI. rewrite Forall_forall. intros x Hx%elem_of_list_In. unfold plain_instructions in Hpl.
      destruct (all_some (plain_overlay z) (fst i)); [|done]. destruct (all_some (plain_entry z) (snd i)) as [y'|] eqn:Hy'; [|done]. injection Hpl as _ <-.
      destruct (all_some_in _ _ _ _ Hy' Hx) as (a & Ha & Hf). unfold plain_entry in Hf.
      destruct (all_some _ (e_overlays a)); [|done]. destruct (all_some _ (e_documents a)); [|done]. injection Hf as <-. cbn [e_nodes].
      destruct (cl_instructions cl); [by rewrite HI in Ha|]. destruct HI as (_ & _ & c & _ & _ & _ & Hm). by eapply file_without_nodes. }
    clear -REL' Hy. induction REL' as [|a b l l' (_ & _ & _ & Hn & _) F' IH]; [constructor|]. apply Forall_cons in Hy as [Hb Hy]. constructor; [congruence|by apply IH]. }
  assert (USE : usable w op).
  { split; [by rewrite BASE|]. intros common' y' Hs. rewrite SAY in Hs. injection Hs as <- <-. rewrite BASE. apply Forall_app. split.
    - clear -REL' Hdash. induction REL' as [|a b l l' (_ & _ & _ & _ & Hpa & _) F' IH]; [constructor|]. apply Forall_cons in Hdash as [Hb Hd].
      constructor; [|by apply IH]. unfold dash_is_stdin in *. by rewrite Hpa.
    - unfold path_option. cbn [op op_path]. destruct (cl_path cl) as [|x q] eqn:Hq; [constructor|]. apply Forall_cons. split; [|constructor]. exact Hdashp. }
  assert (OPT : Forall2 (erel os) (path_option op) (match cl_path cl with [] => [] | p => [mkEntry _ _ _ (lit "StdIn") [] [] [] p (if seq_eqb p (lit "-") then lit "stdin.yaml" else [])] end)).
  { unfold path_option. cbn [op op_path]. destruct (cl_path cl); repeat constructor. }
  assert (INP : Forall2 (erel os) (named_inputs w op yn) (all_inputs s cl y)).
  { unfold named_inputs, all_inputs. rewrite BASE. cbn [w in_fs]. apply Forall2_app; by apply expanded_rel. }
  assert (SPARE : spare_room grow cn op = room_left grow common adhoc).
  { unfold spare_room, room_left. cbn [op op_overlay]. rewrite (Forall2_length _ _ _ CR'). by destruct adhoc. }
  destruct (C60_whole_run fuel sed dflt enc dk cfg os h1 w0 pfuel grow w op R' n st USE HR) as (common' & y' & Hs & text & X & Hwr); try done.
  { intros common' y' Hs. rewrite SAY in Hs. injection Hs as <- <-. done. }
  rewrite SAY in Hs. injection Hs as <- <-.
  exists text. split; [|by eapply written_rel]. intros p Hp.
  rewrite <- (paths_rel os _ _ INP) in Hp. destruct (X p Hp) as (k & f & ds & ts & Hk & _ & Hds & Hyf & _ & Hts & Hout).
  assert (MB : forall j, Forall2 (nrel os) (meant_by os (spare_room grow cn op) cn op (named_inputs w op yn) p j) (overlays_for (room_left grow common adhoc) common adhoc (all_inputs s cl y) p j)).
  { intros j. unfold meant_by, overlays_for. apply Forall2_app.
    - eapply filter_rel'; [|intros a b Hab; by apply wants_rel]. unfold common_overlays. cbn [op op_overlay]. rewrite <- app_assoc.
      apply Forall2_app; [done|]. apply Forall2_app.
      + destruct adhoc as [o|]; [|constructor]. constructor; [|constructor]. unfold nrel, os. rewrite app_assoc, lookup_app_r by (rewrite app_length; unfold nn; lia).
        rewrite app_length. replace (nn - _) with 0 by (unfold nn; lia). done.
      + rewrite SPARE. by apply own_in_force_rel.
    - apply (concat_rel (drel os)); [|by intros a b [_ ?]]. eapply filter_rel'; [|intros a b [-> _]; done].
      apply (concat_rel (erel os)); [by apply entries_for_rel|]. by intros a b (_ & _ & ? & _). }
  exists k, f, ds, ts. split; [exact Hk|]. split; [exact Hyf|]. split.
  { intros j. specialize (MB j). rewrite Forall_forall. intros o O. apply elem_of_list_lookup in O as [m O]. destruct (Forall2_lookup_r _ _ _ _ _ MB O) as (q & _ & Q).
    apply elem_of_list_In. by eapply elem_of_list_lookup_2. }
  split; [exact Hds|]. split; [|done].
  eapply Forall2_impl; [exact Hts|]. intros [j d] t. cbn [fst snd].
  pose proof (run_all_apply_each os fuel sed dflt _ _ d (Z.of_nat j) (MB j) os h1 (fresh_self os dflt)) as RA.
  destruct (run_all _ _ _) as [m r]. rewrite RA. done.
Qed.

(** With --remove-comments, the comments below every document node are removed before any
    overlay is applied; nothing else in memory changes. *)
Lemma ready pfuel grow s cl h1 os R : get_ready e builtin sprig sed compile to_int h0 z pfuel grow s cl = (h1, Ok (os, R)) ->
  prepare e builtin sprig sed compile to_int h0 z pfuel grow s cl = Ok (os, R) /\
  wiped (fun x => cl_uncomment cl = true /\ exists f d, In f (map to_file R) /\ In d (yf_nodes f) /\ below h0 d x) h0 h1.
Proof.
  unfold get_ready. destruct (prepare _ _ _ _ _ _ _ _ _ _ _ _) as [[os' R']| | |]; try discriminate.
  destruct (cl_uncomment cl).
  - unfold bind. destruct (h_uncomment_all pfuel (map e_nodes R') h0) as [h2 [[]| | |]] eqn:E; try discriminate.
    intros [= <- <- <-]. split; [done|]. eapply wiped_iff; [by eapply uncomment_all_wipes|]. intros x. split.
    + intros (ns & d & I & D & B). split; [done|]. apply in_map_iff in I as (en & <- & I). exists (to_file en), d. split; [by apply in_map|]. by split.
    + intros (_ & f & d & I & D & B). apply in_map_iff in I as (en & <- & I). exists (e_nodes en), d. split; [by apply in_map|]. by split.
  - intros [= <- <- <-]. split; [done|]. eapply wiped_iff; [apply wiped_refl|]. intros x. split; [done|]. by intros [? _].
Qed.

(** C67.  If a run succeeds then its instructions and command line overlay are what the
    texts mean; every input named was processed; the documents rendered for it are those
    stored in it (without their comments if --remove-comments is given: [h1] is the
    memory after that, see C40_in_memory), each with the overlays meant for it applied in
    order and nothing else; and what the run has written is the texts of these documents,
    each once, at the place that follows from the instructions (C88). *)
Theorem C67_from_texts_to_files fuel dflt enc dk cfg w0 pfuel grow s cl h1 os R n st :
  get_ready e builtin sprig sed compile to_int h0 z pfuel grow s cl = (h1, Ok (os, R)) ->
  let files := map to_file R in
  let base := match cl_instructions cl with [] => [] | p => path_dir (path_abs (sr_cwd s) p) end in
  walks_files (sr_fs s) base ->
  set_up files os h0 -> Forall (docs_apart h0) files ->
  execution fuel sed dflt enc dk cfg files os h1 w0 n st -> crashed st = false -> main st = MReturn None ->
  (cl_uncomment cl = false -> h1 = h0) /\
  exists i common y adhoc,
    instructions_are s cl i /\ instructions_stand_for z i common y /\ flags_say compile h0 z s cl adhoc /\
    (Forall (dash_is_stdin base) y -> (cl_path cl = lit "-" \/ resolve base (cl_path cl) <> lit "-") ->
     exists text, (forall p, In p (map e_path (all_inputs s cl y)) -> exists ds ts,
       (if seq_eqb p (lit "-") then sr_stdin s else sr_docs s p) = Some ds /\
       Forall2 (fun jd t => let '(h, r) := apply_each fuel sed dflt (overlays_for (room_left grow common adhoc) common adhoc (all_inputs s cl y) p (fst jd)) (snd jd) h1 in
                  r = Ok tt /\ snapshot fuel h (snd jd) = Ok t) (imap pair ds) ts /\
       encode_nodes enc (oc_styles cfg) ts = Ok (text p)) /\
     texts_written (all_inputs s cl y) text (oc_stdout cfg) (oc_dir cfg) w0 (outside st)).
Proof.
  intros HG files base HW SU HA E NC M. destruct (ready _ _ _ _ _ _ _ HG) as [HP W]. pose proof (wiped_shape _ _ _ W) as SH. split.
  { intros C. unfold get_ready in HG. rewrite HP, C in HG. by injection HG. }
  assert (HA1 : Forall (docs_apart h1) files) by (eapply Forall_impl; [exact HA|]; intros f; by apply docs_apart_shape).
  destruct (from_texts_to_files h1 fuel dflt enc dk cfg w0 pfuel grow s cl os R n st HP HW (set_up_shape _ _ _ _ SH SU) HA1 E NC M)
    as (i & common & y & adhoc & H1 & H2 & H3 & H4).
  exists i, common, y, adhoc. split; [done|]. split; [done|]. split; [done|]. intros G2 G3. destruct (H4 G2 G3) as (text & X & Y). exists text. split; [|done]. intros p Hp.
  destruct (X p Hp) as (k & f & ds & ts & K1 & _ & _ & K2 & K3 & K4). by exists ds, ts.
Qed.
End theorem.

(** *** The hypotheses can be met *)
Definition w_instr : tree := doc (mp
  [sc "commonOverlays"; sq [mp [sc "query"; sc "$"; sc "value"; mp [sc "k"; sc "v"]]];
   sc "yamlFiles"; sq
     [mp [sc "path"; sc "a.yaml"; sc "overlays"; sq [mp [sc "query"; sc "$.metadata.name"; sc "value"; sc "x"; sc "action"; sc "replace"]];
          sc "documents"; sq [mp [sc "path"; num "0"; sc "overlays"; sq [mp [sc "query"; sc "$.metadata"; sc "action"; sc "delete"]]]]];
      mp [sc "path"; sc "b.yaml"]]]).
Definition w_put := put_tree w_instr two_heap.
(** The key apiVersion of a.yaml has a comment. *)
Definition w_heap : heap := Eval vm_compute in
  alter (fun n => mkNode (set_comments (lit "# c") [] [] (n_info n)) (n_alias n) (n_content n)) 0 (fst w_put).
Definition w_doc : loc := Eval vm_compute in snd w_put.
Definition w_compile (s : list N) : option (heap -> loc -> list loc) :=
  if seq_eqb s (lit "$") then Some (q_find q_root) else if seq_eqb s (lit "$.metadata") then Some (q_find q_metadata)
  else if seq_eqb s (lit "$.metadata.name") then Some (q_find q_name) else None.
Definition w_to_int (i : info) : option Z := Some 0%Z.
Definition w_s : surroundings := mkSurroundings run_fs (lit "/w") (fun p => if seq_eqb p (lit "i.yaml") then Some (lit "text") else None) (fun _ => None)
  (fun t => if seq_eqb t (lit "text") then Some (Some w_doc) else None)
  (fun p => if seq_eqb p (lit "/w/a.yaml") then Some [ex_doc] else Some [two_doc]) None.
Definition w_cl : command_line := mkCommandLine (lit "i.yaml") [] None [] [] [] true.
Definition w_engine : engine unit unit := mkEngine (fun _ => None) (fun _ => []) (fun _ _ _ => None).
Definition w_prepared := prepare w_engine (fun _ => None) (fun _ => None) no_sed w_compile w_to_int w_heap ex_zero 10 go_grow w_s w_cl.
Definition w_ready := get_ready w_engine (fun _ => None) (fun _ => None) no_sed w_compile w_to_int w_heap ex_zero 10 go_grow w_s w_cl.
Definition w_h1 : heap := fst w_ready.
Definition w_os : list overlay := match w_prepared with Ok (os, _) => os | _ => [] end.
Lemma w_good : Forall good_queries w_os.
Proof.
  assert (X : Forall (fun o => o_inject o = None /\ o_docqueries o = [] /\ exists q, o_queries o = [q] /\
    (q_find q = q_find q_root \/ q_find q = q_find q_metadata \/ q_find q = q_find q_name)) w_os).
  { unfold w_os. destruct w_prepared as [[os R]| | |] eqn:E; [|constructor..]. vm_compute in E. injection E as <- <-.
    repeat constructor; cbn; eexists; (split; [reflexivity|]); cbn; [left|right; right|right; left]; reflexivity. }
  eapply Forall_impl; [exact X|]. intros o (H1 & H2 & q & Hq & Hf).
  assert (G : good_finder q).
  { split.
    - intros h l x. destruct Hf as [->|[->| ->]]; revert h l x; [change (finder_ok q_root)|change (finder_ok q_metadata)|change (finder_ok q_name)]; apply dotted_ok.
    - intros r h1 h2 a b Hs Hr. destruct Hf as [->|[->| ->]]; [apply (dotted_blind (lit "$") [])|apply (dotted_blind (lit "$.metadata") [lit "metadata"])|apply (dotted_blind (lit "$.metadata.name") [lit "metadata"; lit "name"])]; done. }
  constructor.
  - rewrite Hq. by constructor.
  - by rewrite H1.
  - rewrite H2. done.
Qed.
Example C67_applies : exists R n st,
  w_ready = (w_h1, Ok (w_os, R)) /\ w_h1 <> w_heap /\ walks_files (sr_fs w_s) (lit "/w") /\ set_up (map to_file R) w_os w_heap /\ Forall (docs_apart w_heap) (map to_file R) /\
  execution 20 no_sed [] show ex_disk ex_cfg (map to_file R) w_os w_h1 (mkWorld [] []) n st /\
  crashed st = false /\ main st = MReturn None /\
  file_content (outside st) (lit "out/a.yaml") <> None /\ file_content (outside st) (lit "out/b.yaml") <> None /\
  exists i common y, instructions_are w_engine (fun _ => None) (fun _ => None) no_sed w_compile w_to_int w_heap w_s w_cl i /\
    instructions_stand_for ex_zero i common y /\ Forall (dash_is_stdin (lit "/w")) y /\
    map e_path (all_inputs w_s w_cl y) = [lit "/w/a.yaml"; lit "/w/b.yaml"] /\
    map o_action (meant_overlays common None (all_inputs w_s w_cl y) (lit "/w/a.yaml") 0) = [AInvalid; AReplace; ADelete].
Proof.
  assert (exists R, w_prepared = Ok (w_os, R)) as [R HR].
  { unfold w_os. destruct w_prepared as [[os R]| | |] eqn:E; [by exists R|by vm_compute in E..]. }
  assert (HF : map to_file R = [mkFile [ex_doc] [0; 1] [mkDocument 0 [2]] (lit "a.yaml"); mkFile [two_doc] [0] [] (lit "b.yaml")]).
  { vm_compute in HR. injection HR as <-. by vm_compute. }
  destruct (play_all (map to_file R) w_os w_h1 schedule_ab) as [st|] eqn:EP; [|rewrite HF in EP; by vm_compute in EP].
  assert (HY : w_ready = (w_h1, Ok (w_os, R)) /\ w_h1 <> w_heap).
  { assert (HN : map e_nodes R = [[ex_doc]; [two_doc]]) by (apply (f_equal (map yf_nodes)) in HF; rewrite map_map in HF; exact HF).
    assert (HC : cl_uncomment w_cl = true) by done.
    unfold w_h1, w_ready, get_ready. fold w_prepared. rewrite HR, HC, HN. unfold bind.
    destruct (h_uncomment_all 10 [[ex_doc]; [two_doc]] w_heap) as [h2 r2] eqn:E. cbn [fst snd].
    assert (X : r2 = Ok tt /\ h2 !! 0 <> w_heap !! 0) by (vm_compute in E; injection E as <- <-; split; [reflexivity|vm_compute; discriminate]).
    destruct X as [-> X]. split; [reflexivity|]. intros Y. apply X. by rewrite <- Y. }
  destruct (play_all_execution _ _ _ _ _ EP) as [n X1]. exists R, n, st. split; [apply HY|]. split; [apply HY|].
  split; [intros d ps p Hw; discriminate Hw|]. split; [rewrite HF; apply set_upb_sound; [by vm_compute|apply w_good]|].
  split; [rewrite HF; constructor; [by eapply single_apart|]; constructor; [by eapply single_apart|constructor]|].
  split; [exact X1|]. clear X1. rewrite HF in EP.
  assert (RR : crashed st = false /\ main st = MReturn None /\ file_content (outside st) (lit "out/a.yaml") <> None /\ file_content (outside st) (lit "out/b.yaml") <> None).
  { vm_compute in EP. injection EP as <-. vm_compute. split_and!; done. }
  destruct RR as (R1 & R2 & R3 & R4). split; [exact R1|]. split; [exact R2|]. split; [exact R3|]. split; [exact R4|].
  destruct (read_instructions_file w_engine (fun _ => None) (fun _ => None) no_sed w_compile w_to_int w_heap w_s w_cl) as [i| | |] eqn:EI; [|by vm_compute in EI..].
  pose proof (instructions_read _ _ _ _ _ _ _ _ _ _ EI) as HI.
  destruct (plain_instructions ex_zero i) as [[common y]|] eqn:EY; [|vm_compute in EI; injection EI as <-; by vm_compute in EY].
  exists i, common, y. split; [done|]. split; [by apply plain_stands_for|]. vm_compute in EI. injection EI as <-. vm_compute in EY. injection EY as <- <-.
  split; [repeat (apply Forall_cons; split); try (right; by vm_compute); apply Forall_nil; exact I|]. split; by vm_compute.
Qed.

(** A command line overlay:  -q '$.a' -a '' -a delete -a null -x 3 *)
Definition fl_put := put_all [doc (sc "$.a"); doc (sc "delete"); doc nul; doc (num "3")].
Definition fl_s : surroundings := mkSurroundings run_fs (lit "/w") (fun _ => None) (fun _ => None)
  (fun t => Some (if seq_eqb t (lit "$.a") then nth_error (snd fl_put) 0 else if seq_eqb t (lit "delete") then nth_error (snd fl_put) 1
     else if seq_eqb t (lit "null") then nth_error (snd fl_put) 2 else if seq_eqb t (lit "3") then nth_error (snd fl_put) 3 else None)) (fun _ => None) None.
Definition fl_cl : command_line := mkCommandLine [] [] None [lit "$.a"] [[]; lit "delete"; lit "null"] (lit "3") false.
Example C67_applies_flags : exists o, flags_say ex_compile (fst fl_put) 0 fl_s fl_cl (Some o) /\
  map q_text (o_queries o) = [lit "$.a"] /\ o_action o = ADelete /\ option_map (fun n => i_value (n_info n)) (fst fl_put !! o_value o) = Some (lit "3").
Proof.
  destruct (read_flags ex_compile (fst fl_put) (parse_flag (fst fl_put) fl_s) (cl_queries fl_cl) (cl_actions fl_cl) (cl_value fl_cl)) as [[f|]| | |] eqn:E; try (by vm_compute in E).
  destruct (plain_flags 0 f) as [o|] eqn:EP; [|vm_compute in E; injection E as <-; by vm_compute in EP]. exists o. split.
  - eapply flags_read; [exact E|]. by split.
  - vm_compute in E. injection E as <-. vm_compute in EP. injection EP as <-. by vm_compute.
Qed.

Print Assumptions C67_from_texts_to_files.
