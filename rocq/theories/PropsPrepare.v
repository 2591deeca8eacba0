(** C56-C58: from the command line and the instructions file to the list of files. *)
From stdpp Require Import list_numbers.
From Verif Require Import Prelude GoStrings Paths SpecPaths ProofPaths Files SpecFiles ProofFiles Slices SpecSlices Prepare SpecPrepare ProofPrepare Walk SpecWalk ProofWalk PropsFiles PropsWalk SliceFiles ProofSliceFiles.

Section theorems.
Context {Ov Dc Nd : Type}.
Notation entry := (entry Ov Dc Nd).
Notation inputs := (inputs Ov Dc Nd).
Notation options := (options Ov).
Implicit Types (w : inputs) (op : options) (R : list entry).

(** What the result is, as three lists. *)
Lemma prepared_fields fuel grow w op R : usable w op -> get_instructions fuel grow w op = Ok R ->
  exists common y, instructions_say w op = Some (common, y) /\
   let all := named_inputs w op y in
   map e_path R = dedup [] (map e_path all) /\
   (forall e, In e R -> exists first rest ds, entries_for (e_path e) all = first :: rest /\
      documents_in w (e_path e) = Some ds /\ e_name e = e_name first /\ e_nodes e = e_nodes first ++ ds /\
      e_documents e = concat (map e_documents (first :: rest))) /\
   map e_output R = set_output_paths (map (fun p => (p, last_nonempty (map e_output (entries_for p all)))) (map e_path R)) /\
   map e_overlays R = map (fun own => common_overlays common op ++ own)
      (after_sharing (spare_room grow common op) (map (own_overlays all) (map e_path R))).
Proof.
  intros Hu Hg. destruct (get_instructions_Ok fuel grow w op R Hu Hg) as (common & y & files & Hsay & _ & _ & Hp & Hc & ->).
  exists common, y. split; [done|]. cbv zeta. set (all := named_inputs w op y) in *.
  set (lists := map _ (after_sharing _ _)). set (outs := set_output_paths _).
  assert (Hll : length lists = length files) by (unfold lists; by rewrite map_length, after_sharing_length, map_length).
  assert (Hol : length outs = length files) by (unfold outs; by rewrite set_output_paths_length, map_length).
  set (R := zip_with _ _ _).
  assert (HR : forall i, R !! i = match files !! i, lists !! i, outs !! i with Some e, Some l, Some o => Some (set_final l o e) | _, _, _ => None end).
  { intros i. by apply zip_final_lookup. }
  assert (Hlk : forall i e, files !! i = Some e -> exists l o, lists !! i = Some l /\ outs !! i = Some o).
  { intros i e He%lookup_lt_Some. destruct (lookup_lt_is_Some_2 lists i ltac:(lia)) as [l Hl].
    destruct (lookup_lt_is_Some_2 outs i ltac:(lia)) as [o Ho]. eauto. }
  assert (Hmap : forall (T : Type) (g : entry -> T), (forall l o e, g (set_final l o e) = g e) -> map g R = map g files).
  { intros T g Hgg. apply list_eq. intros i. rewrite !list_lookup_fmap, HR. destruct (files !! i) as [e|] eqn:He; [|done].
    destruct (Hlk i e He) as (l & o & -> & ->). simpl. by rewrite Hgg. }
  assert (HpR : map e_path R = map e_path files) by (by apply Hmap).
  assert (Hlen : length R = length files).
  { rewrite <- (map_length e_path R), HpR. apply map_length. }
  split_and!.
  - by rewrite HpR.
  - intros e He. apply elem_of_list_In, elem_of_list_lookup in He as [i He]. rewrite HR in He.
    destruct (files !! i) as [e0|] eqn:He0; [|done]. destruct (Hlk i e0 He0) as (l & o & Hl & Ho). rewrite Hl, Ho in He.
    injection He as <-. cbn [set_final e_path e_name e_nodes e_documents].
    destruct (Hc e0) as (_ & Hd & _ & first & rest & ds & Hgr & Hds & Hn & Hno).
    { apply elem_of_list_In. by eapply elem_of_list_lookup_2. }
    exists first, rest, ds. split_and!; try done. by rewrite Hd, Hgr.
  - assert (map e_output R = outs) as ->.
    { apply list_eq. intros i. rewrite list_lookup_fmap, HR. destruct (files !! i) as [e|] eqn:He.
      - destruct (Hlk i e He) as (l & o & -> & ->). done.
      - symmetry. apply lookup_ge_None. apply lookup_ge_None in He. lia. }
    unfold outs. rewrite HpR. f_equal. rewrite map_map. apply map_ext_in. intros e He. f_equal.
    by destruct (Hc e He) as (_ & _ & Ho & _).
  - assert (map e_overlays R = lists) as ->.
    { apply list_eq. intros i. rewrite list_lookup_fmap, HR. destruct (files !! i) as [e|] eqn:He.
      - destruct (Hlk i e He) as (l & o & -> & ->). done.
      - symmetry. apply lookup_ge_None. apply lookup_ge_None in He. lia. }
    unfold lists. rewrite HpR. f_equal. f_equal. rewrite map_map. apply map_ext_in. intros e He.
    by destruct (Hc e He) as (Ho & _).
Qed.

(** C56.  Every input that the instructions file or -p names (directories standing
    for their YAML files) is loaded exactly once, in the order of first mention.
    Its documents are those in the file; documents entries of all mentions are
    kept. (Nodes written in the instructions file under the key "nodes" come
    first.) *)
Theorem C56_inputs_loaded_once fuel grow w op R : usable w op -> get_instructions fuel grow w op = Ok R ->
  exists common y, instructions_say w op = Some (common, y) /\
   let all := named_inputs w op y in
   map e_path R = dedup [] (map e_path all) /\
   (forall p, In p (map e_path R) <-> In p (map e_path all)) /\ NoDup (map e_path R) /\
   (forall e, In e R -> exists first rest ds, entries_for (e_path e) all = first :: rest /\
      documents_in w (e_path e) = Some ds /\ e_nodes e = e_nodes first ++ ds /\
      e_documents e = concat (map e_documents (first :: rest))).
Proof.
  intros Hu Hg. destruct (prepared_fields _ _ _ _ _ Hu Hg) as (common & y & Hsay & Hp & Hc & _).
  exists common, y. split; [done|]. cbv zeta. split; [done|]. split_and!.
  - intros p. rewrite Hp. apply dedup_In.
  - rewrite Hp. apply dedup_NoDup.
  - intros e He. destruct (Hc e He) as (f & r & ds & ? & ? & _ & ? & ?). by exists f, r, ds.
Qed.

(** The output path of a file is derived (C35-C37) from the last output path written
    for it. *)
Theorem C56_output_paths fuel grow w op R : usable w op -> get_instructions fuel grow w op = Ok R ->
  exists common y, instructions_say w op = Some (common, y) /\
   map e_output R = set_output_paths
     (map (fun p => (p, last_nonempty (map e_output (entries_for p (named_inputs w op y))))) (map e_path R)).
Proof.
  intros Hu Hg. destruct (prepared_fields _ _ _ _ _ Hu Hg) as (common & y & Hsay & _ & _ & Ho & _). by exists common, y.
Qed.

(** A relative path (of an entry or given with -p) is looked up in the directory of the
    instructions file; without an instructions file it stays as it is. *)
Theorem C56_relative_paths w op es : es <> [] -> Forall name_ok es ->
  let p := join_with [slash] es in
  (op_instructions op = [] -> resolve (base_of w op) p = p) /\
  (forall dir n, op_instructions op = abs_path (dir ++ [n]) -> Forall name_ok (dir ++ [n]) ->
     resolve (base_of w op) p = abs_path (dir ++ es)).
Proof.
  intros Hne Hes p. unfold resolve. destruct (elems_plain es Hne Hes) as [Ha _]. fold p in Ha. rewrite Ha. split.
  - intros Hop. unfold base_of. rewrite Hop. unfold p. rewrite (join_outdir [] es Hne Hes).
    unfold descend. destruct es; [done|]. done.
  - intros dir n Hop Hdn. unfold base_of. rewrite Hop.
    assert (Hap : forall l, l <> [] -> abs_path l = slash :: join_with [slash] l).
    { clear. induction l as [|e l IH]; [done|]. intros _. destruct l as [|e' l].
      - unfold abs_path. simpl. by rewrite app_nil_r.
      - change (abs_path (e :: e' :: l)) with (slash :: e ++ abs_path (e' :: l)). rewrite IH by done. done. }
    assert (dir ++ [n] <> []) as Hdn0 by (by destruct dir).
    assert (Habs : abs_path (dir ++ [n]) = slash :: join_with [slash] (dir ++ [n])) by (by apply Hap).
    destruct (abs_path (dir ++ [n])) as [|c0 r0] eqn:Hcr; [done|]. rewrite <- Hcr in *. clear Hcr c0 r0.
    assert (path_abs (in_cwd w) (abs_path (dir ++ [n])) = abs_path (dir ++ [n])) as ->.
    { unfold path_abs. rewrite Habs. cbn [is_abs]. unfold ceq. rewrite N.eqb_refl. rewrite <- Habs. by apply abs_file_path; exists (dir ++ [n]). }
    assert (Hdir : path_dir (abs_path (dir ++ [n])) = clean (match dir with [] => [slash] | _ => abs_path dir end)).
    { unfold path_dir, split_dir. apply Forall_app in Hdn as [Hd Hn]. apply Forall_cons in Hn as [(_&_&_&Hn) _].
      assert (abs_path (dir ++ [n]) = abs_path dir ++ slash :: n) as ->.
      { unfold abs_path. rewrite map_app, concat_app. simpl. by rewrite app_nil_r. }
      rewrite up_to_last_app by done. destruct dir as [|d0 dir]; [done|].
      set (D := d0 :: dir) in *. assert (D <> []) as HD by done. clearbody D.
      rewrite !clean_render, is_abs_app by (rewrite Hap by done; done). f_equal.
      pose proof (elems_descend (abs_path D) [] ltac:(rewrite Hap by done; done) ltac:(constructor)) as He.
      rewrite app_nil_r in He. exact He. }
    rewrite Hdir. unfold p. rewrite (join_outdir _ es Hne Hes). rewrite clean_idem.
    apply Forall_app in Hdn as [Hd _]. destruct dir as [|d0 dir].
    + simpl. rewrite Hap by done. destruct es; [done|]. done.
    + rewrite (proj1 (abs_file_path (abs_path (d0 :: dir)) ltac:(by exists (d0 :: dir)))).
      rewrite (Hap ((d0 :: dir) ++ es)) by done. rewrite (Hap (d0 :: dir)) by done.
      unfold descend. destruct es as [|e es]; [done|].
      destruct (seq_eqb_spec (slash :: join_with [slash] (d0 :: dir)) dot) as [Heq|_]; [done|].
      destruct (seq_eqb_spec (slash :: join_with [slash] (d0 :: dir)) [slash]) as [Heq|_].
      * apply (f_equal (drop 1)) in Heq. change (join_with [slash] (d0 :: dir) = []) in Heq. apply join_nil_inv in Heq; [done|]. eapply Forall_impl; [exact Hd|]. by intros ? (?&?&?&?).
      * rewrite join_app by done. done.
Qed.

(** C57.  Every file gets the common overlays, then the one of the command line,
    then its own (those of all its mentions, in order), provided that no room is
    left behind the common list.  There is never room without -q. *)
Theorem C57_overlays_in_order fuel grow w op R : usable w op -> get_instructions fuel grow w op = Ok R ->
  exists common y, instructions_say w op = Some (common, y) /\
   (spare_room grow common op = 0%nat -> forall e, In e R ->
     e_overlays e = common_overlays common op ++ own_overlays (named_inputs w op y) (e_path e)) /\
   (op_overlay op = None -> spare_room grow common op = 0%nat).
Proof.
  intros Hu Hg. destruct (prepared_fields _ _ _ _ _ Hu Hg) as (common & y & Hsay & _ & _ & _ & Ho). exists common, y.
  split; [done|]. split; [|by unfold spare_room; intros ->]. intros Hroom e He. rewrite Hroom, after_sharing_none, !map_map in Ho.
  apply elem_of_list_In, elem_of_list_lookup in He as [i He].
  assert (map e_overlays R !! i = Some (e_overlays e)) as H1 by (by rewrite list_lookup_fmap, He).
  rewrite Ho, list_lookup_fmap, He in H1. by injection H1 as <-.
Qed.
(** In general (C31): lists of its own that fit into the room left are overwritten
    by those of later files. *)
Theorem C57_exact_overlays fuel grow w op R : usable w op -> get_instructions fuel grow w op = Ok R ->
  exists common y, instructions_say w op = Some (common, y) /\
   map e_overlays R = map (fun own => common_overlays common op ++ own)
      (after_sharing (spare_room grow common op) (map (own_overlays (named_inputs w op y)) (map e_path R))).
Proof.
  intros Hu Hg. destruct (prepared_fields _ _ _ _ _ Hu Hg) as (common & y & Hsay & _ & _ & _ & Ho). by exists common, y.
Qed.

(** C58.  Preparation ends with a list of files exactly if every input can be found and
    read and the overlay of the command line is YAML; otherwise it ends with an
    error (before anything has been written).  It never crashes. *)
Theorem C58_all_or_error w op : usable w op ->
  exists F, forall fuel grow, (F <= fuel)%nat ->
    (exists R, get_instructions fuel grow w op = Ok R) /\ all_inputs_good w op \/
    (exists er, get_instructions fuel grow w op = Err er) /\ ~ all_inputs_good w op.
Proof.
  intros Hu.
  assert (Hdec : exists F, forall fuel grow, (F <= fuel)%nat -> (exists R, get_instructions fuel grow w op = Ok R) \/ (exists er, get_instructions fuel grow w op = Err er)).
  { destruct Hu as [Hw Hdash].
    assert (Hexp : forall y : list entry, Forall (dash_is_stdin (base_of w op)) y -> exists F, 
       (forall fuel, (F <= fuel)%nat -> expand_directories fuel (in_fs w) (base_of w op) y = Ok (expanded (in_fs w) (base_of w op) y)) \/
       (exists er, forall fuel, (F <= fuel)%nat -> expand_directories fuel (in_fs w) (base_of w op) y = Err er)).
    { intros y Hy. destruct (all_expandable_dec (in_fs w) (map (located (base_of w op)) y)) as [Hex|Hex].
      - destruct (expand_good _ _ y Hw Hy Hex) as [F HF]. exists F. by left.
      - destruct (expand_err (in_fs w) (base_of w op) y [] [] Hex Hy) as (F & er & _ & HF). exists F. right. exists er. intros fuel Hf.
        specialize (HF fuel Hf). simpl in HF. by rewrite app_nil_r in HF. }
    unfold get_instructions, read_instructions, instructions_say in *.
    assert (Hrest : forall common files used, (exists c y, instructions_say w op = Some (c, y)) -> exists F, forall fuel grow, (F <= fuel)%nat ->
      let r := (let! files0 := read_adhoc_path fuel w op files used in
       let! adhoc := match op_overlay op with Some (Some o) => Ok (Some o) | Some None => Err EDecode | None => Ok None end in
       Ok (zip_with (fun e x => set_final (fst x) (snd x) e) files0 (zip (final_overlays grow common adhoc (map e_overlays files0))
          (set_output_paths (map (fun e => (e_path e, e_output e)) files0))))) in
      (exists R, r = Ok R) \/ (exists er, r = Err er)).
    { intros common files used (c & y & Hsay). unfold read_adhoc_path.
      assert (Hfin : forall files0 grow, let r := (let! adhoc := match op_overlay op with Some (Some o) => Ok (Some o) | Some None => Err EDecode | None => Ok None end in
         Ok (zip_with (fun e x => set_final (fst x) (snd x) e) files0 (zip (final_overlays grow common adhoc (map e_overlays files0))
          (set_output_paths (map (fun e => (e_path e, e_output e)) files0))))) in (exists R : list entry, r = Ok R) \/ (exists er, r = Err er)).
      { intros files0 grow. destruct (op_overlay op) as [[o|]|]; cbn [rbind]; eauto. }
      pose proof (dash_once_path w op (conj Hw Hdash) ltac:(eauto)) as Hdo.
      specialize (Hdash c y Hsay). apply Forall_app in Hdash as [_ Hdash]. unfold path_option in *.
      destruct (op_path op) as [|c0 p0] eqn:Hop; [exists 0%nat; intros; apply Hfin|].
      destruct (Hexp _ Hdash) as [F [HF|[er HF]]].
      - exists F. intros fuel grow Hf. rewrite base_eq. unfold adhoc_entry. rewrite (HF fuel Hf). cbn [rbind].
        pose proof (read_all_spec w _ used Hdo) as Hs. destruct (read_all w used _) as [[B' u']|er| |]; [|right; by exists er|done|done].
        cbn [rbind fst]. rewrite merge_duplicates_eq. apply Hfin.
      - exists F. intros fuel grow Hf. rewrite base_eq. unfold adhoc_entry. rewrite (HF fuel Hf). right. by exists er. }
    unfold instructions_say in Hrest. destruct (op_instructions op) as [|c0 p0] eqn:Hop.
    - destruct (Hrest [] [] false ltac:(eauto)) as [F HF]. exists F. intros fuel grow Hf. exact (HF fuel grow Hf).
    - destruct (in_decode w (c0 :: p0)) as [[common y]|] eqn:Hd; [|exists 0%nat; intros; right; by exists EDecode].
      pose proof (Hdash common y eq_refl) as Hy. apply Forall_app in Hy as [Hy _].
      destruct (Hexp y Hy) as [F [HF|[er HF]]].
      + pose proof (read_all_spec w (fold_left step (expanded (in_fs w) (base_of w op) y) []) false (dash_once_nodup _ (fold_nodup _))) as Hs.
        destruct (read_all w false _) as [[files used]|er| |] eqn:Hra; [| |done|done].
        * destruct (Hrest common files used ltac:(eauto)) as [F2 HF2]. exists (Nat.max F F2). intros fuel grow Hf.
          unfold load_files. rewrite base_eq, (HF fuel) by lia. cbn [rbind]. rewrite merge_duplicates_eq. cbn [rbind]. rewrite Hra.
          cbn [rbind fst snd]. apply HF2. lia.
        * exists F. intros fuel grow Hf. unfold load_files. rewrite base_eq, (HF fuel) by lia. cbn [rbind]. rewrite merge_duplicates_eq.
          cbn [rbind]. rewrite Hra. right. by exists er.
      + exists F. intros fuel grow Hf. unfold load_files. rewrite base_eq, (HF fuel) by lia. right. by exists er. }
  assert (Hgood : forall fuel grow R, get_instructions fuel grow w op = Ok R -> all_inputs_good w op).
  { intros fuel grow R Hg. destruct (get_instructions_Ok _ _ _ _ _ Hu Hg) as (common & y & files & Hsay & Hex & Hov & Hp & Hc & _).
    exists common, y. split_and!; [done|done| |done]. intros p Hin. rewrite <- dedup_In, <- Hp in Hin.
    apply in_map_iff in Hin as (e & <- & He). destruct (Hc e He) as (_ & _ & _ & f & r & ds & _ & -> & _). done. }
  assert (Hok : all_inputs_good w op -> exists F, forall fuel grow, (F <= fuel)%nat -> exists R, get_instructions fuel grow w op = Ok R).
  { intros (common & y & Hsay & Hex & Hdocs & Hov).
    destruct Hu as [Hw Hdash]. pose proof (dash_once_path w op (conj Hw Hdash) ltac:(eauto)) as Hdo.
    specialize (Hdash common y Hsay). apply Forall_app in Hdash as [Hd1 Hd2].
    rewrite map_app in Hex. apply Forall_app in Hex as [Hex1 Hex2].
    destruct (expand_good _ _ y Hw Hd1 Hex1) as [F1 HF1]. destruct (expand_good _ _ _ Hw Hd2 Hex2) as [F2 HF2].
    set (A := expanded (in_fs w) (base_of w op) y) in *. set (B := expanded (in_fs w) (base_of w op) (path_option op)) in *.
    assert (HdA : forall e, In e (fold_left step A []) -> docs_for w false (e_path e) <> None).
    { intros e He. change (documents_in w (e_path e) <> None). apply Hdocs. unfold named_inputs. rewrite map_app, in_app_iff. left.
      fold A. apply dedup_In. rewrite <- (proj1 (fold_paths A)). by apply in_map. }
    assert (HdB : forall used e, In e B -> docs_for w used (e_path e) <> None).
    { intros used e He. assert (documents_in w (e_path e) <> None) as Hn.
      { apply Hdocs. unfold named_inputs. rewrite map_app, in_app_iff. right. by apply in_map. }
      unfold documents_in, docs_for in *. fold (is_dash (e_path e)) in Hn. destruct (is_dash (e_path e)); [by destruct used|done]. }
    assert (Hread : exists files used, read_all w false (fold_left step A []) = Ok (files, used)).
    { pose proof (read_all_spec w _ false (dash_once_nodup _ (fold_nodup A))) as Hs.
      destruct (read_all w false (fold_left step A [])) as [[files used]|er| |]; [eauto| |done|done].
      destruct Hs as (e & He & Hn). by destruct (HdA e He). }
    assert (Hready : forall used, exists r, read_all w used B = Ok r).
    { intros used. pose proof (read_all_spec w B used Hdo) as Hs. destruct (read_all w used B) as [r|er| |]; [eauto| |done|done].
      destruct Hs as (e & He & Hn). by destruct (HdB used e He). }
    destruct Hread as (files & used & Hread).
    exists (Nat.max F1 F2). intros fuel grow Hf. unfold get_instructions.
    assert (exists c fs us, read_instructions fuel w op = Ok (c, fs, us)) as (c & fs & us & ->).
    { unfold read_instructions, instructions_say in *. destruct (op_instructions op) as [|c0 p0] eqn:Hop; [by eauto|].
      rewrite Hsay. unfold load_files. rewrite base_eq, HF1 by lia. cbn [rbind]. rewrite merge_duplicates_eq. cbn [rbind].
      fold A. rewrite Hread. cbn [rbind fst snd]. eauto. }
    cbn [rbind].
    assert (exists fs', read_adhoc_path fuel w op fs us = Ok fs') as (fs' & ->).
    { unfold read_adhoc_path. unfold B, path_option in *. destruct (op_path op) as [|c0 p0] eqn:Hop; [by eauto|].
      unfold adhoc_entry. rewrite base_eq, HF2 by lia. cbn [rbind]. destruct (Hready us) as [r ->]. cbn [rbind].
      rewrite merge_duplicates_eq. eauto. }
    cbn [rbind]. destruct (op_overlay op) as [[o|]|]; cbn [rbind]; eauto. done. }
  destruct Hdec as [F HF]. exists F. intros fuel grow Hf.
  destruct (HF fuel grow Hf) as [[R HR]|[er Her]].
  - left. split; [eauto|]. by eapply Hgood.
  - right. split; [eauto|]. intros Hg. destruct (Hok Hg) as [F2 HF2].
    (* more fuel would not change the error *)
    destruct (HF2 (Nat.max fuel F2) grow ltac:(lia)) as [R HR].
    clear - Her HR.
    assert (Hm : forall fuel fuel' (y : list entry) r, (fuel <= fuel')%nat -> expand_directories fuel (in_fs w) (base_of w op) y = r -> r <> Fuel ->
       expand_directories fuel' (in_fs w) (base_of w op) y = r).
    { intros a b y r Hab H1 H2. unfold expand_directories in *. by eapply expand_mono. }
    set (fuel' := Nat.max fuel F2) in *. assert (fuel <= fuel')%nat as Hle by lia. clearbody fuel'.
    unfold get_instructions in *. 
    destruct (read_instructions fuel w op) as [[[c fs] us]|e1| |] eqn:Hr; cbn [rbind] in Her; [| |done|done].
    + assert (read_instructions fuel' w op = Ok (c, fs, us)) as Hr'.
      { unfold read_instructions in *. destruct (op_instructions op); [done|]. destruct (in_decode w _) as [[cm y]|]; [|done].
        unfold load_files in *. rewrite base_eq in *. destruct (expand_directories fuel _ _ y) as [y1| | |] eqn:He; [|done..].
        by rewrite (Hm _ _ _ _ Hle He). }
      rewrite Hr' in HR. cbn [rbind] in HR.
      destruct (read_adhoc_path fuel w op fs us) as [fs'|e2| |] eqn:Hp; cbn [rbind] in Her; [| |done|done].
      * assert (read_adhoc_path fuel' w op fs us = Ok fs') as Hp'.
        { unfold read_adhoc_path in *. destruct (op_path op); [done|]. rewrite base_eq in *.
          destruct (expand_directories fuel _ _ _) as [y1| | |] eqn:He; [|done..]. by rewrite (Hm _ _ _ _ Hle He). }
        rewrite Hp' in HR. cbn [rbind] in HR. destruct (op_overlay op) as [[o|]|]; cbn [rbind] in *; done.
      * assert (read_adhoc_path fuel' w op fs us = Err e2) as Hp'.
        { unfold read_adhoc_path in *. destruct (op_path op); [done|]. rewrite base_eq in *.
          destruct (expand_directories fuel _ _ _) as [y1|e3| |] eqn:He; cbn [rbind] in Hp; [| |done|done].
          - by rewrite (Hm _ _ _ _ Hle He).
          - by rewrite (Hm _ _ _ _ Hle He). }
        rewrite Hp' in HR. done.
    + assert (read_instructions fuel' w op = Err e1) as Hr'.
      { unfold read_instructions in *. destruct (op_instructions op); [done|]. destruct (in_decode w _) as [[cm y]|]; [|done].
        unfold load_files in *. rewrite base_eq in *. destruct (expand_directories fuel _ _ y) as [y1|e3| |] eqn:He; cbn [rbind] in Hr; [| |done|done].
        - by rewrite (Hm _ _ _ _ Hle He).
        - by rewrite (Hm _ _ _ _ Hle He). }
      rewrite Hr' in HR. done.
Qed.
End theorems.

(** C58 with the file system as the os calls see it: if no YAML file is a link to a
    directory, directory trees are at most [depth] deep, and only "-" means standard
    input, then C56-C58 apply. *)
Lemma clean_abs x : is_abs x = true -> is_abs (clean x) = true.
Proof. intros H. rewrite clean_render. destruct x as [|c x]; [done|]. rewrite H. by destruct (elems _). Qed.
Lemma path_dir_abs x : is_abs x = true -> is_abs (path_dir x) = true.
Proof.
  intros H. unfold path_dir. apply clean_abs. destruct x as [|c x]; [done|]. simpl in H. unfold split_dir. simpl.
  destruct (up_to_last slash x); [done|]. by rewrite H; simpl.
Qed.
Lemma base_of_dir {Ov Dc Nd} (w : inputs Ov Dc Nd) (op : options Ov) : is_abs (in_cwd w) = true -> base_dir (base_of w op).
Proof.
  intros Hc. unfold base_of, base_dir. destruct (op_instructions op) as [|c p]; [by left|]. right. apply path_dir_abs.
  unfold path_abs. destruct (is_abs (c :: p)) eqn:Ha; [by apply clean_abs|].
  unfold path_join. destruct (in_cwd w) as [|c0 cwd] eqn:Hw; [done|]. cbn [List.filter seq_eqb negb]. apply clean_abs. done.
Qed.
Theorem C58_on_a_file_system {Ov Dc Nd} depth o cwd rd sin dec (op : options Ov) :
  sane o -> (forall d, depth_below o d depth) -> yaml_links_ok o -> is_abs cwd = true ->
  let w : inputs Ov Dc Nd := mkInputs (fs_of (S depth) o) cwd rd sin dec in
  (forall common y, instructions_say w op = Some (common, y) -> Forall (dash_is_stdin (base_of w op)) (y ++ path_option op)) ->
  usable w op.
Proof. intros Hs Hn Hl Hc w Hd. split; [|done]. apply C55_walks_files; try done. by apply base_of_dir. Qed.

(** /w/i.yaml names the directory d and, twice, the file a.yaml; -p names a.yaml
    again and -q adds the overlay 9. *)
Definition ex_w : inputs nat nat nat := mkInputs ex_fs (lit "/w")
  (fun p => if seq_eqb p (lit "/w/a.yaml") then Some [10;11] else Some [20])%nat None
  (fun _ => Some ([1; 2], [ex_e "d" "" [3]; ex_e "a.yaml" "" [4]; ex_e "./a.yaml" "" [5]])%nat).
Definition ex_op : options nat := mkOptions (lit "i.yaml") (lit "a.yaml") None.
Definition paths_and_overlays (r : res (list (entry nat nat nat))) :=
  match r with Ok R => map (fun e => (e_path e, e_overlays e, e_nodes e)) R | _ => [] end.
Lemma ex_w_usable oi op oo : oi = lit "i.yaml" -> op = lit "a.yaml" -> usable ex_w (mkOptions oi op oo).
Proof.
  intros -> ->. split.
  - intros d ps p. change (base_of ex_w _) with (lit "/w"). cbn [ex_w in_fs]. unfold ex_fs, fs_walk.
    destruct (seq_eqb (resolve _ d) (lit "/w/d")); [|done]. intros [= <-] [<-|[<-|[]]]; split_and!; by vm_compute.
  - intros common y [= <- <-]. repeat (apply Forall_cons; split); try done; right; by vm_compute.
Qed.
Example C56_example : usable ex_w ex_op /\ all_inputs_good ex_w ex_op /\
  paths_and_overlays (get_instructions 10 go_grow ex_w ex_op) =
  [(lit "/w/a.yaml", [1;2;4;5], [10;11]); (lit "/w/d/x.yaml", [1;2;3], [20]); (lit "/w/d/y.yml", [1;2;3], [20])]%nat.
Proof.
  split; [by apply ex_w_usable|]. split; [|by vm_compute]. do 2 eexists. split; [by vm_compute|]. split_and!; [| |done].
  - repeat (apply Forall_cons; split); try done; first [right; left; by vm_compute|right; right; split_and!; [by vm_compute..|eexists; by vm_compute]].
  - intros p Hp. vm_compute in Hp. intuition subst; by vm_compute.
Qed.
(** C57 does not hold without its hypothesis: with two common overlays and -q, the files
    share the room behind the common list, and a.yaml's own overlay 4 is replaced by
    that of a later file.  (One mention of a.yaml, so that its list fits.) *)
Example C57_refuted_without_room :
  let w : inputs nat nat nat := mkInputs ex_fs (lit "/w") (fun _ => Some [7]%nat) None
    (fun _ => Some ([1; 2], [ex_e "a.yaml" "" [4]; ex_e "d" "" [3]])%nat) in
  let op := mkOptions (lit "i.yaml") [] (Some (Some 9%nat)) in
  spare_room go_grow [1;2]%nat op = 1%nat /\
  paths_and_overlays (get_instructions 10 go_grow w op) =
  [(lit "/w/a.yaml", [1;2;9;3], [7]); (lit "/w/d/x.yaml", [1;2;9;3], [7]); (lit "/w/d/y.yml", [1;2;9;3], [7])]%nat.
Proof. split; by vm_compute. Qed.
(** An input that cannot be read: an error, whatever else is named. *)
Example C58_example :
  let w : inputs nat nat nat := mkInputs ex_fs (lit "/w") (fun p => if seq_eqb p (lit "/w/a.yaml") then None else Some [20])%nat None (fun _ => None) in
  let op := mkOptions [] (lit "/w/a.yaml") None in
  usable w op /\ ~ all_inputs_good w op /\ get_instructions 10 go_grow w op = Err EDecode.
Proof.
  cbv zeta. split_and!; [| |by vm_compute].
  - split.
    + intros d ps p. cbn [in_fs]. unfold ex_fs, fs_walk.
      destruct (seq_eqb (resolve _ d) (lit "/w/d")); [|done]. intros [= <-] [<-|[<-|[]]]; split_and!; by vm_compute.
    + intros common y [= <- <-]. repeat (apply Forall_cons; split); try done; right; by vm_compute.
  - intros (c & y & [= <- <-] & _ & Hd & _). apply (Hd (lit "/w/a.yaml")); by vm_compute; auto.
Qed.

(** The lists of overlays are Go slices.  If the decoder's slices fill their arrays (files
    of one directory share one), and the common list has an array of its own, then
    merging duplicates, adding -p, -q and the common overlays on slices gives the lists
    computed above: sharing does no harm before the common list is put in front. *)
Theorem C57_slices_faithful {Ov Dc Nd} grow (m : arrays Ov) c (y extra : list (entry Ov Dc Nd)) ys common adhoc y1 y2 m' out :
  Forall2 (fun e x => fst x = e_path e /\ contents m (snd x) = map Some (e_overlays e)) y ys ->
  Forall (fun e => e_overlays e = []) extra ->
  Forall (fun s => (sl_arr s < length m)%nat /\ sl_len s = cap m s) (c :: map snd ys) ->
  Forall (fun s => sl_arr s <> sl_arr c) (map snd ys) ->
  contents m c = map Some common ->
  merge_duplicates y = Ok y1 -> merge_duplicates (y1 ++ extra) = Ok y2 ->
  slice_overlays grow m c ys (map e_path extra) adhoc = (m', out) ->
  map (contents m') out = map (map Some) (final_overlays grow common adhoc (map e_overlays y2)).
Proof.
  intros Hy Hx Hv Hne Hcc H1 H2 Hrun. rewrite merge_duplicates_eq in H1, H2. injection H1 as <-. injection H2 as <-.
  eapply (slice_overlays_spec grow m c y extra ys common adhoc (mkOptions [] [] (match adhoc with Some o => Some (Some o) | None => None end))); try done.
  - eapply Forall_impl; [exact Hv|]. simpl. intros s [Hl Hf]. destruct (lookup_lt_is_Some_2 m _ Hl) as [a Ha]. exists a. split; [done|].
    rewrite Hf. unfold cap. by rewrite Ha.
  - eapply Forall_impl; [exact Hv|]. by intros s [_ Hf].
Qed.
(** Two files of one directory share array 1; the first is named again. *)
Example C57_slices_example :
  let m : arrays nat := [[Some 1]; [Some 3; Some 4]; [Some 5]]%nat in
  let (m', out) := slice_overlays go_grow m (mkSlice 0 1)
    [(lit "/a", mkSlice 1 2); (lit "/b", mkSlice 1 2); (lit "/a", mkSlice 2 1)] [lit "/b"] None in
  map (contents m') out = [[Some 1; Some 3; Some 4; Some 5]; [Some 1; Some 3; Some 4]]%nat.
Proof. by vm_compute. Qed.

Print Assumptions C56_inputs_loaded_once.
Print Assumptions C56_output_paths.
Print Assumptions C56_relative_paths.
Print Assumptions C57_overlays_in_order.
Print Assumptions C57_exact_overlays.
Print Assumptions C58_all_or_error.
Print Assumptions C58_on_a_file_system.
Print Assumptions C57_slices_faithful.
